(** Lemmas about ranges of decimal64. *)
From Coq Require Import QArith Qabs Lia Qpower Lqa ZifyBool ZifyN ZifyNat.
From Verif Require Import PyStr PyStr_facts PyVal Restricted Spec_Types Spec_Defaults Spec_Native Spec_DecRange Range_proofs Restricted_proofs.
From Verif Require Native_proofs Lexical_proofs Scalars_proofs.
Local Open Scope Z_scope.

(* ------------------------------------------------------------------ texts *)
Fixpoint apart (s : str) : bool :=
  match s with
  | c1 :: s' => negb (N.eqb c1 46 && match s' with c2 :: _ => N.eqb c2 46 | [] => false end) && apart s'
  | [] => true
  end.
Lemma apart_skip s : apart s = true -> apart (skip_sp s) = true.
Proof. induction s as [|c s IH]; intros H; [exact H|]. cbn [skip_sp]. destruct (N.eqb c 32); [|exact H]. apply IH. cbn [apart] in H. apply andb_prop in H. apply H. Qed.
Lemma apart_tail s : apart s = true -> match_tail s = None.
Proof.
  intros H. unfold match_tail. apply apart_skip in H. destruct (skip_sp s) as [|c1 [|c2 s']]; try reflexivity. cbn [apart] in H. apply andb_prop in H as [H _]. destruct (N.eqb c1 46 && N.eqb c2 46)%bool; [discriminate|reflexivity].
Qed.
Lemma apart_skipn n s : apart s = true -> apart (skipn n s) = true.
Proof. revert s. induction n as [|n IH]; intros s H; [exact H|]. destruct s as [|c s]; [reflexivity|]. cbn [skipn]. apply IH. cbn [apart] in H. apply andb_prop in H. apply H. Qed.
Lemma apart_app a b : ~ In 46%N a -> apart b = true -> apart (a ++ b) = true.
Proof.
  induction a as [|c a IH]; intros H Hb; [exact Hb|]. cbn [app apart]. rewrite IH by (try exact Hb; intros C; apply H; right; exact C).
  destruct (N.eqb_spec c 46) as [->|Hc]; [exfalso; apply H; left; reflexivity|reflexivity].
Qed.
Lemma digits_digitN ds : all_below 10 ds -> Forall digitN (digits ds).
Proof. intros H. induction H as [|d ds Hd H IH]; cbn [digits map]; constructor; [unfold digitN; lia|exact IH]. Qed.
Lemma digitN_nodot D : Forall digitN D -> ~ In 46%N D.
Proof. intros H C. rewrite Forall_forall in H. specialize (H _ C). unfold digitN in H. lia. Qed.

(** What is behind the sign. *)
Definition body (b : bound) : str := digits (b_whole b) ++ match b_fraction b with [] => [] | fs => lit "." ++ digits fs end.
Definition sg (b : bound) : str := if b_minus b then lit "-" else [].
Lemma body_facts b : bound_wf b -> exists c s, body b = c :: s /\ digitN c /\ Forall (fun c => is_rchar c = true) (body b) /\ apart (body b) = true.
Proof.
  intros (N & W & F). unfold body. destruct (b_whole b) as [|d ds]; [contradiction|]. apply digits_digitN in W. apply digits_digitN in F. set (D := digits (d :: ds)) in *.
  exists (Z.to_N (d + 48)), (digits ds ++ match b_fraction b with [] => [] | fs => lit "." ++ digits fs end). split; [reflexivity|]. split; [inversion W; assumption|]. split.
  - apply Forall_app. split; [eapply Forall_impl; [|exact W]; apply digit_rchar|]. destruct (b_fraction b) as [|f fs]; [constructor|]. constructor; [reflexivity|]. eapply Forall_impl; [|exact F]. apply digit_rchar.
  - apply apart_app; [apply digitN_nodot, W|]. destruct (b_fraction b) as [|f fs]; [reflexivity|]. pose proof (apart_app (digits (f :: fs)) [] (digitN_nodot _ F) eq_refl) as A. rewrite app_nil_r in A.
    change (lit "." ++ digits (f :: fs)) with (46%N :: digits (f :: fs)). cbn [apart]. rewrite A. inversion F as [|x y Hx _]; subst. cbn [digits map]. unfold digitN in Hx. destruct (N.eqb_spec (Z.to_N (f + 48)) 46); [lia|reflexivity].
Qed.
Lemma rrun_all D s : Forall (fun c => is_rchar c = true) D -> fst (rrun (D ++ s)) = D ++ fst (rrun s) /\ snd (rrun (D ++ s)) = snd (rrun s).
Proof.
  induction D as [|c D IH]; intros H; [split; reflexivity|]. inversion H as [|? ? Hc HD]; subst. cbn [app rrun]. rewrite Hc. destruct (IH HD) as [H1 H2]. destruct (rrun (D ++ s)) as [a b]. cbn in *. rewrite H1, H2. split; reflexivity.
Qed.
Lemma opt_minus_body b s : bound_wf b -> opt_minus (bound_text b ++ s) = (sg b, body b ++ s).
Proof.
  intros H. destruct (body_facts b H) as (c & s' & E & Hc & _ & _). unfold bound_text. fold (body b). fold (sg b). rewrite <- app_assoc. unfold sg. destruct (b_minus b); [reflexivity|]. cbn [app]. rewrite E. cbn [app opt_minus].
  destruct (N.eqb_spec c 45); [unfold digitN in Hc; lia|reflexivity].
Qed.
Definition high_text (h : option bound) : str := match h with Some h => bound_text h | None => lit "max" end.
Definition opt_wf (h : option bound) : Prop := match h with Some b => bound_wf b | None => True end.
Lemma match_high_text h : opt_wf h -> match_high (high_text h) = Some (high_text h, []).
Proof.
  destruct h as [b|]; intros H; [|reflexivity]. cbn [high_text opt_wf] in *. unfold match_high. rewrite <- (app_nil_r (bound_text b)) at 1. rewrite opt_minus_body by exact H.
  destruct (body_facts b H) as (c & s & E & _ & R & _). destruct (rrun_all (body b) [] R) as [H1 H2]. rewrite (surjective_pairing (rrun (body b ++ []))), H1, H2. cbn [rrun fst snd]. rewrite app_nil_r, E. rewrite <- E. reflexivity.
Qed.
Lemma high_text_space h : opt_wf h -> skip_sp (high_text h) = high_text h.
Proof.
  destruct h as [b|]; intros H; [|reflexivity]. destruct (body_facts b H) as (c & s & E & Hc & _). cbn [high_text]. unfold bound_text. fold (body b). destruct (b_minus b); [reflexivity|]. cbn [app]. rewrite E. cbn [skip_sp]. destruct (N.eqb_spec c 32); [unfold digitN in Hc; lia|reflexivity].
Qed.
Lemma high_text_apart h : opt_wf h -> apart (high_text h) = true /\ exists c s, high_text h = c :: s /\ c <> 46%N.
Proof.
  destruct h as [b|]; intros H; [|split; [reflexivity|eexists _, _; split; [reflexivity|discriminate]]]. destruct (body_facts b H) as (c & s & E & Hc & _ & A). cbn [high_text]. unfold bound_text. fold (body b). destruct (b_minus b).
  - split; [cbn [apart]; exact A|eexists _, _; split; [reflexivity|discriminate]].
  - cbn [app]. split; [exact A|]. exists c, s. split; [exact E|]. unfold digitN in Hc. lia.
Qed.
Lemma match_tail_text a b h : opt_wf h -> match_tail (spaces a ++ lit ".." ++ spaces b ++ high_text h) = Some (high_text h, []).
Proof.
  intros H. unfold match_tail. rewrite skip_sp_spaces. change (match_high (skip_sp (spaces b ++ high_text h)) = Some (high_text h, [])). rewrite skip_sp_spaces, high_text_space by exact H. apply match_high_text, H.
Qed.
Lemma spaces_nodot n : ~ In 46%N (spaces n).
Proof. intros C. apply in_spaces in C. discriminate. Qed.
Lemma tail_later b h j : opt_wf h -> (1 <= j)%nat -> match_tail (skipn j (lit ".." ++ spaces b ++ high_text h)) = None.
Proof.
  intros H Hj. destruct (high_text_apart h H) as (A & c & s & E & Hc). assert (A' : apart (spaces b ++ high_text h) = true) by (apply apart_app; [apply spaces_nodot|exact A]).
  apply apart_tail. destruct j as [|[|j]]; [lia| |].
  - change (skipn 1 (lit ".." ++ spaces b ++ high_text h)) with (46%N :: spaces b ++ high_text h). cbn [apart]. rewrite A'. destruct b as [|b]; [|reflexivity]. cbn [spaces repeat app]. rewrite E. destruct (N.eqb_spec c 46); [contradiction|reflexivity].
  - change (skipn (S (S j)) (lit ".." ++ spaces b ++ high_text h)) with (skipn j (spaces b ++ high_text h)). apply apart_skipn, A'.
Qed.
Definition low_text (h : option bound) : str := match h with Some h => bound_text h | None => lit "min" end.
Lemma match_range_text lo hi a b : opt_wf lo -> opt_wf hi -> match_range (dpart_text (DBetween lo hi a b)) = Some (low_text lo, high_text hi, []).
Proof.
  intros Hl Hh. set (T := spaces a ++ lit ".." ++ spaces b ++ high_text hi). change (dpart_text (DBetween lo hi a b)) with (low_text lo ++ T).
  assert (HT : match_tail T = Some (high_text hi, [])) by (apply match_tail_text, Hh).
  destruct lo as [l|]; cbn [low_text opt_wf] in *.
  - destruct (body_facts l Hl) as (c & s & E & Hc & R & A). unfold match_range. rewrite opt_minus_body by exact Hl. destruct (rrun_all (body l) T R) as [Hr _]. rewrite Hr, app_length.
    rewrite (try_low_search (length (body l))) with (h := high_text hi) (rest := []).
    + rewrite firstn_app, Nat.sub_diag, firstn_all. cbn [firstn]. rewrite app_nil_r. reflexivity.
    + rewrite E. cbn [length]. lia.
    + intros j Hj. rewrite skipn_app, (skipn_all2 (body l)) by lia. cbn [app]. destruct a as [|a].
      * apply tail_later; [exact Hh|lia].
      * exfalso. assert (Hz : length (fst (rrun T)) = O) by reflexivity. lia.
    + rewrite skipn_app, Nat.sub_diag, skipn_all. exact HT.
  - unfold match_range. change (opt_minus (lit "min" ++ T)) with (@nil N, lit "min" ++ T). cbn [fst]. change (rrun (lit "min" ++ T)) with (@nil N, lit "min" ++ T). cbn [fst length try_low].
    rewrite startswith_app. change (skipn 3 (lit "min" ++ T)) with T. rewrite HT. reflexivity.
Qed.
Lemma bound_no_comma b : bound_wf b -> ~ In 44%N (bound_text b).
Proof.
  intros H C. destruct (body_facts b H) as (_ & _ & _ & _ & R & _). unfold bound_text in C. fold (body b) in C. apply in_app_or in C as [C|C]; [destruct (b_minus b); [destruct C as [C|[]]; discriminate|destruct C]|].
  rewrite Forall_forall in R. specialize (R _ C). discriminate.
Qed.
Lemma low_no_comma h : opt_wf h -> ~ In 44%N (low_text h).
Proof. destruct h; [apply bound_no_comma|intros _; apply ch_in_false; reflexivity]. Qed.
Lemma high_no_comma h : opt_wf h -> ~ In 44%N (high_text h).
Proof. destruct h; [apply bound_no_comma|intros _; apply ch_in_false; reflexivity]. Qed.
Lemma sub_text lo hi a b : opt_wf lo -> opt_wf hi ->
  split_on 44 (sub_all (length (dpart_text (DBetween lo hi a b))) (dpart_text (DBetween lo hi a b))) = [low_text lo; high_text hi].
Proof.
  intros Hl Hh. pose proof (match_range_text lo hi a b Hl Hh) as Hm. destruct (dpart_text (DBetween lo hi a b)) as [|c s] eqn:E.
  - cbn [dpart_text] in E. apply app_eq_nil in E as [_ E]. apply app_eq_nil in E as [_ E]. discriminate.
  - cbn [length sub_all]. rewrite Hm, sub_all_nil. cbn [app]. rewrite app_nil_r, split_on_app by (apply low_no_comma, Hl). rewrite split_on_no by (apply high_no_comma, Hh). reflexivity.
Qed.
Lemma match_range_bound b : bound_wf b -> match_range (bound_text b) = None /\ match_single (bound_text b) = true.
Proof.
  intros H. destruct (body_facts b H) as (c & s & E & Hc & R & A). assert (Q : opt_minus (bound_text b) = (sg b, body b)) by (rewrite <- (app_nil_r (bound_text b)), opt_minus_body, app_nil_r by exact H; reflexivity).
  destruct (rrun_all (body b) [] R) as [H1 H2]. rewrite app_nil_r in H1, H2. split.
  - unfold match_range. rewrite Q, try_low_none; [|intros j _; apply apart_tail, apart_skipn, A]. unfold bound_text. fold (body b). destruct (b_minus b); [reflexivity|]. cbn [app]. rewrite E. cbn.
    unfold digitN in Hc. destruct c as [|p]; [reflexivity|]. destruct (Pos.eqb_spec 109 p); [lia|reflexivity].
  - unfold match_single. rewrite Q, (surjective_pairing (rrun (body b))), H1. cbn [rrun fst]. rewrite E. reflexivity.
Qed.
Lemma bound_not b w : bound_wf b -> hd_error w = Some 109%N -> str_eqb (bound_text b) w = false.
Proof.
  intros H W. apply str_eqb_neq. intros C. destruct (body_facts b H) as (c & s & E & Hc & _). unfold bound_text in C. fold (body b) in C. destruct (b_minus b); [rewrite <- C in W; discriminate|]. cbn [app] in C. rewrite E in C. rewrite <- C in W. cbn in W. injection W as ->. unfold digitN in Hc. lia.
Qed.

(* ------------------------------------------------------------------ values *)
Definition dec_value (v : pyval) (q : Q) : Prop := exists c e, v = VDec c e /\ (scaled 10 c e == q)%Q.
Definition end_value (o : option bound) (v : option pyval) : Prop :=
  match o, v with Some b, Some v => dec_value v (bound_value b) | None, None => True | _, _ => False end.
Definition denotes (p : dpart) (t : rtuple) : Prop :=
  match p, t with
  | DBetween lo hi _ _, RTwo l h => end_value lo l /\ end_value hi h
  | DExactly b, ROne v => dec_value v (bound_value b)
  | _, _ => False
  end.
Lemma scaled_power b m e : 0 < b -> (scaled b m e == inject_Z m * inject_Z b ^ e)%Q.
Proof.
  intros Hb. unfold scaled. destruct (Z.leb_spec 0 e) as [He|He].
  - rewrite Native_proofs.power_pos, <- inject_Z_mult by assumption. reflexivity.
  - rewrite Native_proofs.power_neg by assumption. assert (H : 0 < b ^ (- e)) by (apply Z.pow_pos_nonneg; lia). destruct (b ^ (- e)) as [|p|p]; [lia| |lia].
    unfold Qeq, Qmult, Qinv, inject_Z. cbn [Qnum Qden Z.to_pos]. lia.
Qed.
Lemma tuple_of (conv : str -> res pyval) p :
  Forall (fun b => bound_wf b /\ exists v, conv (bound_text b) = Ok v /\ dec_value v (bound_value b)) (dpart_bounds p) -> exists t, range_tuple conv (dpart_text p) = Ok t /\ denotes p t.
Proof.
  intros H. unfold range_tuple. destruct p as [lo hi a b|b].
  - cbn [dpart_bounds] in H. apply Forall_app in H as [Hl Hh].
    assert (Wl : opt_wf lo) by (destruct lo; [inversion Hl as [|? ? [W _] _]; exact W|exact I]). assert (Wh : opt_wf hi) by (destruct hi; [inversion Hh as [|? ? [W _] _]; exact W|exact I]).
    rewrite match_range_text, sub_text by assumption.
    assert (Eh : exists h, (if str_eqb (high_text hi) (lit "max") then Ok None else v <- conv (high_text hi) ;; Ok (Some v)) = Ok h /\ end_value hi h).
    { destruct hi as [x|]; cbn [high_text]; [|exists None; split; [reflexivity|exact I]]. rewrite bound_not by (try exact Wh; reflexivity). inversion Hh as [|? ? [_ (v & Ev & Dv)] _]; subst. rewrite Ev. exists (Some v). split; [reflexivity|exact Dv]. }
    assert (El : exists h, (if str_eqb (low_text lo) (lit "min") then Ok None else v <- conv (low_text lo) ;; Ok (Some v)) = Ok h /\ end_value lo h).
    { destruct lo as [x|]; cbn [low_text]; [|exists None; split; [reflexivity|exact I]]. rewrite bound_not by (try exact Wl; reflexivity). inversion Hl as [|? ? [_ (v & Ev & Dv)] _]; subst. rewrite Ev. exists (Some v). split; [reflexivity|exact Dv]. }
    destruct Eh as (h & -> & Dh). destruct El as (l & -> & Dl). cbn [bind]. exists (RTwo l h). split; [reflexivity|split; assumption].
  - inversion H as [|? ? [W (v & Ev & Dv)] _]; subst. cbn [dpart_text]. destruct (match_range_bound b W) as [-> ->]. rewrite Ev. exists (ROne v). split; [reflexivity|exact Dv].
Qed.
Lemma tuples_of (conv : str -> res pyval) ps :
  Forall (fun p => Forall (fun b => bound_wf b /\ exists v, conv (bound_text b) = Ok v /\ dec_value v (bound_value b)) (dpart_bounds p)) ps ->
  exists ts, range_tuples conv (map dpart_text ps) = Ok ts /\ Forall2 denotes ps ts.
Proof.
  induction ps as [|p ps IH]; intros H; [exists []; split; [reflexivity|constructor]|]. inversion H as [|? ? Hp Hps]; subst. destruct (tuple_of conv p Hp) as (t & Et & Dt). destruct (IH Hps) as (ts & Ets & Dts).
  cbn [map range_tuples]. rewrite Et, Ets. exists (t :: ts). split; [reflexivity|constructor; assumption].
Qed.

(* ------------------------------------------------------------------ doubles *)
Lemma round_exact n d m e : 0 < n -> 0 < d -> 0 < m < 2 ^ 53 -> (inject_Z n * / inject_Z d == inject_Z m * 2 ^ e)%Q ->
  (scaled 2 (fst (round53_pos n d)) (snd (round53_pos n d)) == inject_Z n * / inject_Z d)%Q.
Proof.
  intros Hn Hd Hm E. unfold round53_pos. set (k := Z.log2 n - Z.log2 d - 52).
  pose proof (log2_bounds n Hn) as [Nl Nu]. pose proof (log2_bounds d Hd) as [Dl Du].
  pose proof (Z.log2_nonneg n) as Ln. pose proof (Z.log2_nonneg d) as Ld.
  set (num j := if 0 <=? j then n else n * 2 ^ (- j)). set (den j := if 0 <=? j then d * 2 ^ j else d).
  assert (P2 : forall j, 0 <= j -> 0 < 2 ^ j) by (intros j Hj; apply Z.pow_pos_nonneg; lia).
  assert (Pn : forall j, 0 < num j) by (intros j; unfold num; destruct (Z.leb_spec 0 j); [lia|specialize (P2 (- j) ltac:(lia)); nia]).
  assert (Pd : forall j, 0 < den j) by (intros j; unfold den; destruct (Z.leb_spec 0 j); [specialize (P2 j ltac:(lia)); nia|lia]).
  assert (C : forall j, (inject_Z (num j) * 2 ^ j == inject_Z n * / inject_Z d * inject_Z (den j))%Q).
  { intros j. assert (D0 : ~ (inject_Z d == 0)%Q) by (intros C; change 0%Q with (inject_Z 0) in C; apply (proj1 (inject_Z_injective _ _)) in C; lia).
    unfold num, den. destruct (Z.leb_spec 0 j) as [Hj|Hj]; change (2 ^ j)%Q with (inject_Z 2 ^ j)%Q.
    - rewrite Native_proofs.power_pos, inject_Z_mult by lia. field. exact D0.
    - rewrite Native_proofs.power_neg, inject_Z_mult by lia. assert (D2 : ~ (inject_Z (2 ^ (- j)) == 0)%Q) by (intros X; change 0%Q with (inject_Z 0) in X; apply (proj1 (inject_Z_injective _ _)) in X; specialize (P2 (- j) ltac:(lia)); lia). field. split; assumption. }
  assert (K1 : 2 ^ 52 * den (k - 1) <= num (k - 1)).
  { unfold num, den. destruct (Z.leb_spec 0 (k - 1)) as [Hj|Hj].
    - assert (2 ^ Z.log2 n = 2 ^ (Z.log2 d + 1) * (2 ^ 52 * 2 ^ (k - 1))) by (rewrite <- !Z.pow_add_r by lia; f_equal; lia). specialize (P2 (k - 1) Hj). nia.
    - assert (2 ^ Z.log2 n * 2 ^ (- (k - 1)) = 2 ^ (Z.log2 d + 1) * 2 ^ 52) by (rewrite <- !Z.pow_add_r by lia; f_equal; lia). specialize (P2 (- (k - 1)) ltac:(lia)). nia. }
  assert (T : (if 0 <=? k then 2 ^ 52 * (d * 2 ^ k) <=? n else 2 ^ 52 * d <=? n * 2 ^ (- k)) = (2 ^ 52 * den k <=? num k)) by (unfold num, den; destruct (0 <=? k); reflexivity).
  rewrite T. clear T. set (k' := if 2 ^ 52 * den k <=? num k then k else k - 1).
  assert (K : 2 ^ 52 * den k' <= num k') by (unfold k'; destruct (Z.leb_spec (2 ^ 52 * den k) (num k)) as [H|H]; [exact H|exact K1]).
  assert (F : (if 0 <=? k' then div_half_even n (d * 2 ^ k') else div_half_even (n * 2 ^ (- k')) d) = div_half_even (num k') (den k')) by (unfold num, den; destruct (0 <=? k'); reflexivity).
  rewrite F. clear F. cbn [fst snd].
  (* the quotient is m * 2^(e-k'), a whole number *)
  assert (G : (inject_Z (num k') == inject_Z m * 2 ^ (e - k') * inject_Z (den k'))%Q).
  { specialize (C k'). rewrite E in C. assert (Z2 : ~ (2 ^ k' == 0)%Q) by (apply Qpower_not_0; discriminate). apply (Qmult_inj_r _ _ (2 ^ k') Z2). rewrite C.
    transitivity (inject_Z m * (2 ^ (e - k') * 2 ^ k') * inject_Z (den k'))%Q; [|ring]. rewrite <- Qpower_plus by discriminate. replace (e - k' + k') with e by lia. ring. }
  assert (H : 0 <= e - k').
  { destruct (Z.le_gt_cases 0 (e - k')) as [H|H]; [exact H|exfalso]. change 2%Q with (inject_Z 2) in G. rewrite Native_proofs.power_neg in G by lia.
    assert (D2 : ~ (inject_Z (2 ^ (- (e - k'))) == 0)%Q) by (intros X; change 0%Q with (inject_Z 0) in X; apply (proj1 (inject_Z_injective _ _)) in X; specialize (P2 (- (e - k')) ltac:(lia)); lia).
    assert (G' : num k' * 2 ^ (- (e - k')) = m * den k').
    { apply (proj1 (inject_Z_injective _ _)). rewrite !inject_Z_mult, G. field. exact D2. }
    assert (B : 2 <= 2 ^ (- (e - k'))) by (change 2 with (2 ^ 1) at 1; apply Z.pow_le_mono_r; lia). specialize (Pd k'). specialize (Pn k'). assert (num k' * 2 <= num k' * 2 ^ (- (e - k'))) by nia. assert (m * den k' < 2 ^ 53 * den k') by nia. lia. }
  change 2%Q with (inject_Z 2) in G. rewrite Native_proofs.power_pos, <- !inject_Z_mult in G by lia. apply (proj1 (inject_Z_injective _ _)) in G.
  rewrite (div_half_even_mult _ _ (m * 2 ^ (e - k'))) by (try apply Pd; lia). rewrite scaled_power, E, inject_Z_mult, <- Native_proofs.power_pos by lia. rewrite <- Qmult_assoc, <- Qpower_plus by discriminate. replace (e - k' + k') with e by lia. reflexivity.
Qed.
Lemma round_double n d : 0 < d -> double (inject_Z n * / inject_Z d) -> (scaled 2 (fst (round53 n d)) (snd (round53 n d)) == inject_Z n * / inject_Z d)%Q.
Proof.
  intros Hd (m & e & Hm & E). unfold round53. destruct (Z.eqb_spec n 0) as [->|H0]; [cbn [fst snd]; unfold scaled; cbn; rewrite Qmult_0_l; reflexivity|].
  assert (D0 : ~ (inject_Z d == 0)%Q) by (intros X; change 0%Q with (inject_Z 0) in X; apply (proj1 (inject_Z_injective _ _)) in X; lia).
  assert (P : forall n m, 0 < n -> Z.abs m < 2 ^ 53 -> (inject_Z n * / inject_Z d == inject_Z m * 2 ^ e)%Q -> (scaled 2 (fst (round53_pos n d)) (snd (round53_pos n d)) == inject_Z n * / inject_Z d)%Q).
  { clear -Hd. intros n m Hn Hm E. apply (round_exact n d m e); [exact Hn|exact Hd| |exact E]. split; [|lia].
    destruct (Z.le_gt_cases m 0) as [H|H]; [exfalso|exact H]. assert (A : (0 < inject_Z n * / inject_Z d)%Q) by (apply Qmult_lt_0_compat; [|apply Qinv_lt_0_compat]; change 0%Q with (inject_Z 0); rewrite <- Zlt_Qlt; assumption).
    rewrite E in A. assert (B : (inject_Z m * 2 ^ e <= 0)%Q). { setoid_replace 0%Q with (0 * 2 ^ e)%Q by ring. apply Qmult_le_compat_r; [change 0%Q with (inject_Z 0); rewrite <- Zle_Qle; exact H|apply Qpower_pos; discriminate]. }
    apply (Qlt_not_le _ _ A), B. }
  destruct (Z.ltb_spec 0 n) as [Hp|Hp]; [apply (P n m); assumption|].
  assert (Q : (scaled 2 (fst (round53_pos (- n) d)) (snd (round53_pos (- n) d)) == inject_Z (- n) * / inject_Z d)%Q). { apply (P (- n) (- m)); [lia|lia|]. rewrite !inject_Z_opp. setoid_replace (- inject_Z n * / inject_Z d)%Q with (- (inject_Z n * / inject_Z d))%Q by ring. rewrite E. ring. }
  destruct (round53_pos (- n) d) as [a b]. cbn [fst snd] in *. rewrite scaled_power in * by lia. rewrite !inject_Z_opp in *. setoid_replace (- inject_Z a * inject_Z 2 ^ b)%Q with (- (inject_Z a * inject_Z 2 ^ b))%Q by ring. rewrite Q. ring.
Qed.
Lemma float_of_double v q : dec_value v q -> double q -> exists m e, py_float v = Ok (m, e) /\ (scaled 2 m e == q)%Q.
Proof.
  intros (c & e & -> & Hq) D. cbn [py_float]. assert (D' : forall a, (a == q)%Q -> double a) by (intros a Ha; destruct D as (m & x & Hm & Hx); exists m, x; split; [exact Hm|rewrite Ha; exact Hx]).
  unfold scaled in Hq. destruct (Z.leb_spec 0 e) as [He|He].
  - assert (E : (inject_Z (c * 10 ^ e) * / inject_Z 1 == q)%Q) by (rewrite <- Hq; unfold Qeq, Qmult, Qinv, inject_Z; cbn [Qnum Qden]; lia). pose proof (round_double (c * 10 ^ e) 1 ltac:(lia) (D' _ E)) as R.
    destruct (round53 (c * 10 ^ e) 1) as [m x]. exists m, x. split; [reflexivity|]. rewrite <- E. exact R.
  - assert (Hp : 0 < 10 ^ (- e)) by (apply Z.pow_pos_nonneg; lia). assert (E : (inject_Z c * / inject_Z (10 ^ (- e)) == q)%Q).
    { rewrite <- Hq. destruct (10 ^ (- e)) as [|p|p]; [lia| |lia]. unfold Qeq, Qmult, Qinv, inject_Z. cbn [Qnum Qden Z.to_pos]. lia. }
    pose proof (round_double c (10 ^ (- e)) Hp (D' _ E)) as R. destruct (round53 c (10 ^ (- e))) as [m x]. exists m, x. split; [reflexivity|]. rewrite <- E. exact R.
Qed.

(* ------------------------------------------------------------------ tests *)
Definition single_ok (p : dpart) : Prop := match p with DExactly b => double (bound_value b) | _ => True end.
Definition in_dpartb (q : Q) (p : dpart) : bool :=
  match p with
  | DBetween lo hi _ _ => match lo with Some l => Qle_bool (bound_value l) q | None => true end && match hi with Some h => Qle_bool q (bound_value h) | None => true end
  | DExactly b => Qeq_bool q (bound_value b)
  end.
Definition in_dpartsb (q : Q) (ps : list dpart) : bool := existsb (in_dpartb q) ps.
Definition in_dlevelsb (q : Q) (ls : list (list dpart)) : bool := forallb (in_dpartsb q) ls.
Lemma in_dpartb_iff q p : in_dpartb q p = true <-> in_dpart q p.
Proof. destruct p as [[l|] [h|] a b|b]; cbn [in_dpartb in_dpart]; rewrite ?andb_true_iff, ?Qle_bool_iff, ?Qeq_bool_iff; intuition. Qed.
Lemma in_dpartsb_iff q ps : in_dpartsb q ps = true <-> Exists (in_dpart q) ps.
Proof. unfold in_dpartsb. rewrite existsb_exists, Exists_exists. split; intros (p & Hp & H); exists p; (split; [exact Hp|]); apply in_dpartb_iff, H. Qed.
Lemma in_dlevelsb_iff q ls : in_dlevelsb q ls = true <-> in_dlevels q ls.
Proof. unfold in_dlevelsb, in_dlevels. rewrite forallb_forall, Forall_forall. split; intros H p Hp; apply in_dpartsb_iff, H, Hp. Qed.
Lemma Qle_bool_eq a b c d : (a == b)%Q -> (c == d)%Q -> Qle_bool a c = Qle_bool b d.
Proof. intros H K. destruct (Qle_bool a c) eqn:E, (Qle_bool b d) eqn:F; try reflexivity; exfalso; [apply Qle_bool_iff in E; rewrite H, K in E; apply Qle_bool_iff in E; congruence|apply Qle_bool_iff in F; rewrite <- H, <- K in F; apply Qle_bool_iff in F; congruence]. Qed.
Lemma Qeq_bool_eq a b c d : (a == b)%Q -> (c == d)%Q -> Qeq_bool a c = Qeq_bool b d.
Proof. intros H K. destruct (Qeq_bool a c) eqn:E, (Qeq_bool b d) eqn:F; try reflexivity; exfalso; [apply Qeq_bool_iff in E; rewrite H, K in E; apply Qeq_bool_iff in E; congruence|apply Qeq_bool_iff in F; rewrite <- H, <- K in F; apply Qeq_bool_iff in F; congruence]. Qed.
Lemma in_dpartsb_eq a b ps : (a == b)%Q -> in_dpartsb a ps = in_dpartsb b ps.
Proof.
  intros H. unfold in_dpartsb. induction ps as [|p ps IH]; [reflexivity|]. cbn [existsb]. rewrite IH. f_equal. destruct p as [[l|] [h|] x y|x]; cbn [in_dpartb];
    rewrite ?(Qle_bool_eq a b _ _ H (Qeq_refl _)), ?(fun l => Qle_bool_eq _ _ a b (Qeq_refl l) H), ?(Qeq_bool_eq a b _ _ H (Qeq_refl _)); reflexivity.
Qed.
Lemma in_dlevelsb_eq a b ls : (a == b)%Q -> in_dlevelsb a ls = in_dlevelsb b ls.
Proof. intros H. unfold in_dlevelsb. induction ls as [|l ls IH]; [reflexivity|]. cbn [forallb]. rewrite IH, (in_dpartsb_eq a b l H). reflexivity. Qed.
Lemma check_one v q p t : num_of v = Some q -> single_ok p -> denotes p t -> check_tuple v t = Ok (in_dpartb q p).
Proof.
  intros Hv Hs Hd. destruct p as [lo hi a b|b], t as [l h|x]; try contradiction.
  - destruct Hd as [Dl Dh]. cbn [check_tuple in_dpartb].
    assert (L : (match l with None => Ok true | Some l => b <- py_lt v l ;; Ok (negb b) end) = Ok (match lo with Some l => Qle_bool (bound_value l) q | None => true end)).
    { destruct lo as [lo|], l as [l|]; try contradiction; [|reflexivity]. destruct Dl as (c & e & -> & E). unfold py_lt. rewrite Hv. cbn [num_of bind]. rewrite negb_involutive. f_equal. apply Qle_bool_eq; [exact E|reflexivity]. }
    assert (H : (match h with None => Ok true | Some h => b <- py_lt h v ;; Ok (negb b) end) = Ok (match hi with Some h => Qle_bool q (bound_value h) | None => true end)).
    { destruct hi as [hi|], h as [h|]; try contradiction; [|reflexivity]. destruct Dh as (c & e & -> & E). unfold py_lt. rewrite Hv. cbn [num_of bind]. rewrite negb_involutive. f_equal. apply Qle_bool_eq; [reflexivity|exact E]. }
    rewrite L, H. reflexivity.
  - cbn [check_tuple in_dpartb single_ok denotes] in *. destruct (float_of_double x _ Hd Hs) as (m & e & F & E). unfold neq_float. rewrite F. cbn [bind fst snd]. rewrite negb_involutive. f_equal.
    assert (P : py_eq v (VFloat m e) = Qeq_bool q (scaled 2 m e)) by (destruct v; cbn [num_of] in Hv; try discriminate; injection Hv as <-; reflexivity). rewrite P. apply Qeq_bool_eq; [reflexivity|exact E].
Qed.
Lemma check_all v q ps ts : num_of v = Some q -> Forall single_ok ps -> Forall2 denotes ps ts -> check_tuples v ts = Ok (in_dpartsb q ps).
Proof.
  intros Hv Hs Hd. induction Hd as [|p t ps ts Hp Hd IH]; [reflexivity|]. inversion Hs as [|? ? S1 S2]; subst. cbn [check_tuples in_dpartsb existsb]. rewrite (check_one v q p t Hv S1 Hp). cbn [bind]. rewrite (IH S2). reflexivity.
Qed.

(* ------------------------------------------------------------------ chains *)
Section Chain.
Context (O : oracle) (d : option nat).
Notation chain := (dec_type d).

Definition level_ok (callb : pyval -> res pyval) (l : list dpart) : Prop :=
  Forall single_ok l /\ Forall (fun p => Forall (fun b => bound_wf b /\ exists v, callb (VStr (bound_text b)) = Ok v /\ dec_value v (bound_value b)) (dpart_bounds p)) l.
Lemma level_build callb l : level_ok callb l -> exists t : test,
  (forall val, build O callb [RRange (map dpart_text l)] val = (val' <- (if truthy val then match callb val with Ok v => Ok v | Raise _ => Raise TypeError end else Ok val) ;; Ok ([t], val'))) /\
  (forall v q, num_of v = Some q -> t v = Ok (in_dpartsb q l)).
Proof.
  intros [Hs Hb]. destruct (tuples_of (fun s => callb (VStr s)) l Hb) as (ts & E & D). exists (range_test ts). split.
  - intros val. cbn [build]. rewrite E. cbn [bind]. destruct (truthy val); [|reflexivity]. destruct (callb val); reflexivity.
  - intros v q Hv. unfold range_test. apply (check_all v q l ts Hv Hs D).
Qed.

(** What the base type makes of a value. *)
Definition given (v : pyval) (c e : Z) : Prop :=
  ty_new O (dec_base d) (Some v) = Ok (VDec c e) /\ v <> VBool false /\ (truthy v = false -> exists q, num_of v = Some q /\ (q == scaled 10 c e)%Q).
Lemma base_init o v : ty_init O (dec_base d) o v = Ok o.
Proof. destruct d; reflexivity. Qed.
Lemma base_plain : is_restr (dec_base d) = false.
Proof. destruct d; reflexivity. Qed.
Definition taken (ls : list (list dpart)) : Prop := forall v c e, given v c e -> in_dlevels (scaled 10 c e) ls ->
  ty_new O (chain ls) (Some v) = Ok (VDec c e) /\ (forall o, ty_init O (chain ls) o v = Ok o).
Definition last_test (ls : list (list dpart)) : Prop := forall l ls', ls = l :: ls' -> exists t,
  ty_tests O (chain ls) = Ok [t] /\ forall v q, num_of v = Some q -> t v = Ok (in_dpartsb q (last ls [])).

Lemma bound_given b : bound_wf b -> bound_fits d b -> exists c e, given (VStr (bound_text b)) c e /\ (scaled 10 c e == bound_value b)%Q.
Proof.
  intros W F. set (n := length (b_fraction b)).
  assert (T : dec_text (bound_text b) (bound_units b) n).
  { destruct W as (N & Hw & Hf). unfold bound_text, bound_units, n. pose proof (DtInt (if b_minus b then Minus else NoSign) (b_whole b) N Hw) as A. destruct (b_fraction b) as [|f fs].
    - rewrite !app_nil_r. destruct (b_minus b); cbn [sign_text signed] in A; [replace (-1 * magnitude 10 (b_whole b)) with (- magnitude 10 (b_whole b)) by lia|rewrite Z.mul_1_l]; exact A.
    - pose proof (DtPoint (if b_minus b then Minus else NoSign) (b_whole b) (f :: fs) N ltac:(discriminate) Hw Hf) as B.
      destruct (b_minus b); cbn [sign_text signed] in B; [replace (-1 * magnitude 10 (b_whole b ++ f :: fs)) with (- magnitude 10 (b_whole b ++ f :: fs)) by lia|rewrite Z.mul_1_l]; exact B. }
  assert (P : parse_dec (bound_text b) = Some (bound_units b, - Z.of_nat n)) by (apply Lexical_proofs.dec_given; [apply (Lexical_proofs.yang_ordinary _ _ _ T)|apply Lexical_proofs.yang_dec_python, T]).
  assert (Y : truthy (VStr (bound_text b)) = true). { destruct (body_facts b W) as (c & s & E & _). unfold bound_text. fold (body b). rewrite E. destruct (b_minus b); reflexivity. }
  destruct d as [k|] eqn:Ed; cbn [bound_fits] in F.
  - destruct F as [F1 F2]. fold n in F1, F2. exists (bound_units b * 10 ^ (Z.of_nat k - Z.of_nat n)), (- Z.of_nat k). split.
    + unfold given. rewrite Ed. cbn [dec_base ty_new]. split; [|split; [discriminate|rewrite Y; discriminate]]. pose proof (Lexical_proofs.yang_decimal_leaf O (Z.of_nat k) _ _ _ T ltac:(lia) F2) as L.
      unfold leaf_assign, dyn_ltype, dyn_leaf in L. cbn [ty_new ty_init] in L. unfold yang_decprec in *. cbn [py_decimal] in *. rewrite P in *. cbn [bind fst snd] in *.
      destruct (Scalars_proofs.quantize_defined (bound_units b) (- Z.of_nat n) (Z.of_nat k)) as [[m Hm]|Hm]; rewrite Hm in *; cbn [bind fst snd] in *; [cbn [d_out] in L; injection L as <-; reflexivity|discriminate].
    + rewrite scaled_power by lia. unfold bound_value. fold n. rewrite inject_Z_mult, <- Native_proofs.power_pos by lia. change (inject_Z 10) with 10%Q. rewrite <- Qmult_assoc, <- Qpower_plus by discriminate. replace (Z.of_nat k - Z.of_nat n + - Z.of_nat k) with (- Z.of_nat n) by lia. reflexivity.
  - exists (bound_units b), (- Z.of_nat n). split.
    + unfold given. rewrite Ed. cbn [dec_base ty_new py_decimal]. rewrite P. split; [reflexivity|split; [discriminate|rewrite Y; discriminate]].
    + rewrite scaled_power by lia. reflexivity.
Qed.
Lemma level_of l ls : taken ls -> dlevels_wf d (l :: ls) -> level_ok (ty_call O (chain ls)) l.
Proof.
  intros Hok (Hs & Hb & _). split; [exact Hs|]. eapply Forall_impl; [|exact Hb]. intros p Hp. eapply Forall_impl; [|exact Hp]. intros b (W & F & In). split; [exact W|].
  destruct (bound_given b W F) as (c & e & G & E). exists (VDec c e). split; [|exists c, e; split; [reflexivity|exact E]].
  assert (In' : in_dlevels (scaled 10 c e) ls) by (apply in_dlevelsb_iff; rewrite (in_dlevelsb_eq _ _ ls E); apply in_dlevelsb_iff, In). destruct (Hok _ c e G In') as [H1 H2]. unfold ty_call. rewrite H1, H2. reflexivity.
Qed.
Lemma not_False v c e : given v c e -> is_False v = false.
Proof. intros (_ & H & _). destruct v as [|[]| | | | | | | |]; try reflexivity. contradiction. Qed.
Lemma last_level q l ls : in_dlevels q (l :: ls) -> Exists (in_dpart q) (last (l :: ls) []).
Proof. revert l. induction ls as [|l' ls IH]; intros l H; inversion H as [|? ? H1 H2]; subst; [exact H1|]. exact (IH l' H2). Qed.

Lemma dec_chain levels : dlevels_wf d levels -> taken levels /\ last_test levels.
Proof.
  induction levels as [|l ls IH]; intros Hwf.
  - split; [|intros l ls E; discriminate]. intros v c e (H & _) _. split; [exact H|intros o; apply base_init].
  - pose proof Hwf as (_ & _ & Hwf'). destruct (IH Hwf') as [Hok Ht]. pose proof (level_of l ls Hok Hwf) as L. destruct (level_build _ l L) as (t & Hb & Hte).
    assert (Htests : last_test (l :: ls)).
    { intros l0 ls0 _. cbn [dec_type]. rewrite ty_tests_restr. destruct ls as [|l' ls'].
      - cbn [dec_type]. rewrite base_plain. change (dec_base d) with (chain []). rewrite Hb. cbn [truthy bind fst]. exists t. split; [reflexivity|exact Hte].
      - cbn [is_restr dec_type]. change (TRestr (dec_type d ls') [RRange (map dpart_text l')]) with (chain (l' :: ls')). destruct (Ht l' ls' eq_refl) as (t' & E & H). exists t'. split; [exact E|exact H]. }
    split; [|exact Htests]. intros v c e G Hin. pose proof Hin as Hin0. inversion Hin as [|? ? Hl Hls]; subst. destruct (Hok v c e G Hls) as [Hn Hi].
    assert (Hcall : ty_call O (chain ls) v = Ok (VDec c e)) by (unfold ty_call; rewrite Hn, Hi; reflexivity). split.
    + cbn [dec_type]. rewrite ty_new_restr, Hb. apply in_dpartsb_iff in Hl. destruct (truthy v) eqn:Ev.
      * rewrite Hcall. cbn [bind fst snd is_False any_pass]. rewrite (Hte (VDec c e) (scaled 10 c e) eq_refl), Hl. cbn [bind]. rewrite Hn. reflexivity.
      * cbn [bind fst snd]. rewrite (not_False v c e G). cbn [any_pass]. destruct (proj2 (proj2 G) Ev) as (q & Hq & Eq). rewrite (Hte v q Hq), (in_dpartsb_eq _ _ l Eq), Hl. cbn [bind]. rewrite Hn. reflexivity.
    + intros o. destruct (Htests l ls eq_refl) as (t' & E & H). cbn [dec_type]. rewrite ty_init_restr, Hcall. cbn [bind]. change (TRestr (dec_type d ls) [RRange (map dpart_text l)]) with (chain (l :: ls)). rewrite E. cbn [bind all_pass].
      rewrite (H (VDec c e) (scaled 10 c e) eq_refl). apply last_level, in_dpartsb_iff in Hin0. rewrite Hin0. reflexivity.
Qed.
Lemma chain_empty levels : dlevels_wf d levels -> ty_new O (chain levels) None = Ok (VDec 0 0).
Proof.
  induction levels as [|l ls IH]; intros Hwf; [destruct d; reflexivity|]. pose proof Hwf as (_ & _ & Hwf'). destruct (dec_chain ls Hwf') as [Hok _]. destruct (level_build _ l (level_of l ls Hok Hwf)) as (t & Hb & _).
  cbn [dec_type]. rewrite ty_new_restr, Hb. cbn [truthy bind fst snd is_False]. rewrite (IH Hwf'). reflexivity.
Qed.
Theorem taken_leaf levels v c e : dlevels_wf d levels -> given v c e -> in_dlevels (scaled 10 c e) levels -> leaf_assign O (LOne (chain levels)) v = {| d_notified := true; d_out := Ok (VDec c e) |}.
Proof. intros W G H. destruct (dec_chain levels W) as [K _]. destruct (K v c e G H) as [H1 H2]. unfold leaf_assign, dyn_ltype, dyn_leaf. rewrite H1, H2. reflexivity. Qed.
(** A value outside the first range, but in the others. *)
Lemma new_outside l ls v c e : dlevels_wf d (l :: ls) -> given v c e -> in_dlevels (scaled 10 c e) ls -> in_dpartsb (scaled 10 c e) l = false -> ty_new O (chain (l :: ls)) (Some v) = Raise ValueError.
Proof.
  intros Hwf G Hin Hl. pose proof Hwf as (_ & _ & Hwf'). destruct (dec_chain ls Hwf') as [Hok _]. destruct (level_build _ l (level_of l ls Hok Hwf)) as (t & Hb & Hte). destruct (Hok v c e G Hin) as [Hn Hi].
  assert (Hcall : ty_call O (chain ls) v = Ok (VDec c e)) by (unfold ty_call; rewrite Hn, Hi; reflexivity). cbn [dec_type]. rewrite ty_new_restr, Hb. destruct (truthy v) eqn:Ev.
  - rewrite Hcall. cbn [bind fst snd is_False any_pass]. rewrite (Hte (VDec c e) (scaled 10 c e) eq_refl), Hl. reflexivity.
  - cbn [bind fst snd]. rewrite (not_False v c e G). cbn [any_pass]. destruct (proj2 (proj2 G) Ev) as (q & Hq & Eq). rewrite (Hte v q Hq), (in_dpartsb_eq _ _ l Eq), Hl. reflexivity.
Qed.
Theorem refused_leaf levels v c e : (length levels <= 2)%nat -> dlevels_wf d levels -> given v c e -> ~ in_dlevels (scaled 10 c e) levels -> d_out (leaf_assign O (LOne (chain levels)) v) = Raise ValueError.
Proof.
  intros Len Hwf G Hout. unfold leaf_assign, dyn_ltype, dyn_leaf. cbn [d_out]. destruct levels as [|l ls]; [exfalso; apply Hout; constructor|].
  destruct (in_dlevelsb (scaled 10 c e) ls) eqn:E.
  - apply in_dlevelsb_iff in E. rewrite (new_outside l ls v c e Hwf G E); [reflexivity|]. destruct (in_dpartsb (scaled 10 c e) l) eqn:F; [|reflexivity]. exfalso. apply Hout. constructor; [apply in_dpartsb_iff, F|exact E].
  - destruct ls as [|l' ls]; [discriminate|]. destruct ls as [|x y]; [|cbn [length] in Len; lia]. pose proof Hwf as (_ & _ & Hwf').
    assert (F : in_dpartsb (scaled 10 c e) l' = false) by (cbn [in_dlevelsb forallb] in E; rewrite andb_true_r in E; exact E).
    pose proof (new_outside l' [] v c e Hwf' G (Forall_nil _) F) as N. assert (Hcall : ty_call O (chain [l']) v = Raise ValueError) by (unfold ty_call; rewrite N; reflexivity).
    destruct (dec_chain [l'] Hwf') as [Hok _]. destruct (level_build _ l (level_of l [l'] Hok Hwf)) as (t & Hb & Hte).
    assert (I : forall o, ty_init O (chain [l; l']) o v = Raise ValueError) by (intros o; change (chain [l; l']) with (TRestr (chain [l']) [RRange (map dpart_text l)]); rewrite ty_init_restr, Hcall; reflexivity).
    pose proof (chain_empty [l; l'] Hwf) as Z.
    assert (T : ty_new O (chain [l; l']) (Some v) = Raise ValueError \/ ty_new O (chain [l; l']) (Some v) = Raise TypeError).
    { change (chain [l; l']) with (TRestr (chain [l']) [RRange (map dpart_text l)]). rewrite ty_new_restr, Hb. destruct (truthy v) eqn:Ev; [rewrite Hcall; right; reflexivity|]. cbn [bind fst snd]. rewrite (not_False v c e G). cbn [any_pass].
      destruct (proj2 (proj2 G) Ev) as (q & Hq & Eq). rewrite (Hte v q Hq). cbn [bind]. destruct (in_dpartsb q l); cbn [bind]; [rewrite N|]; left; reflexivity. }
    destruct T as [-> | ->]; [reflexivity|]. rewrite Z, I. reflexivity.
Qed.
End Chain.

Lemma means_decimal v q : means v q -> exists c e, py_decimal v = Ok (c, e) /\ (q == inject_Z c * 10 ^ e)%Q.
Proof.
  intros [[H _]|(t & z & n & -> & T & E)]; [apply Native_proofs.number_decimal, H|]. exists z, (- Z.of_nat n). split; [|exact E]. cbn [py_decimal].
  rewrite (Lexical_proofs.dec_given _ _ _ (Lexical_proofs.yang_ordinary _ _ _ T) (Lexical_proofs.yang_dec_python _ _ _ T)). reflexivity.
Qed.
Lemma falsy_zero v q : means v q -> truthy v = false -> (q == 0)%Q /\ num_of v = Some q \/ exists q', num_of v = Some q' /\ (q' == 0)%Q /\ (q == 0)%Q.
Proof.
  intros [[H N]|(t & z & n & -> & T & E)] F.
  - right. destruct H as [b|z|m e|c e]; cbn [truthy num_of] in *.
    + subst b. exists 0%Q. repeat split; reflexivity.
    + exists (z # 1). assert (z = 0) by lia. subst z. repeat split; reflexivity.
    + exists (scaled 2 m e). assert (m = 0) by lia. subst m. split; [reflexivity|]. split; [rewrite scaled_power by lia|]; ring.
    + exists (scaled 10 c e). assert (c = 0) by lia. subst c. split; [reflexivity|]. split; [rewrite scaled_power by lia|]; ring.
  - exfalso. destruct T as [sg ds N _|sg ds fs N _ _ _]; cbn [truthy] in F; destruct ds as [|x ds]; try contradiction; destruct sg; discriminate.
Qed.
Lemma stored_given O d v q w : means v q -> d_out (leaf_assign O (LOne (dec_base d)) v) = Ok w -> exists c e, w = VDec c e /\ given O d v c e /\ match d with None => (scaled 10 c e == q)%Q | Some n => e = - Z.of_nat n end.
Proof.
  intros M H. destruct (means_decimal v q M) as (c & x & P & E). assert (NB : v <> VBool false) by (destruct M as [[_ N]|(t & z & n & -> & _)]; [exact N|discriminate]).
  unfold leaf_assign, dyn_ltype, dyn_leaf in H. cbn [d_out] in H. destruct d as [n|]; cbn [dec_base ty_new ty_init] in H.
  - unfold yang_decprec in H. rewrite P in H. cbn [bind fst snd] in H. destruct (Scalars_proofs.quantize_defined c x (Z.of_nat n)) as [[m Hm]|Hm]; rewrite Hm in H; cbn [bind fst snd d_out] in H; [|discriminate]. injection H as <-.
    exists m, (- Z.of_nat n). split; [reflexivity|]. split; [|reflexivity]. unfold given. cbn [dec_base ty_new]. unfold yang_decprec. rewrite P. cbn [bind fst snd]. rewrite Hm. split; [reflexivity|]. split; [exact NB|].
    intros F. assert (Q0 : (q == 0)%Q /\ exists q', num_of v = Some q' /\ (q' == 0)%Q) by (destruct (falsy_zero v q M F) as [(A & B)|(q' & A & B & C)]; split; eauto). destruct Q0 as (Q0 & q' & N' & Q').
    exists q'. split; [exact N'|]. assert (C0 : c = 0). { rewrite E in Q0. apply Qmult_integral in Q0 as [Q0|Q0]; [change 0%Q with (inject_Z 0) in Q0; apply (proj1 (inject_Z_injective _ _)) in Q0; exact Q0|exfalso; revert Q0; apply Qpower_not_0; discriminate]. }
    subst c. assert (M0 : m = 0). { set (k := Z.max 0 (- (x + Z.of_nat n))). apply (Scalars_proofs.quantize_exact 0 x (Z.of_nat n) m _ 0 k Hm); unfold k; lia. } subst m. rewrite Q', scaled_power by lia. ring.
  - rewrite P in H. cbn [bind fst snd d_out] in H. injection H as <-. exists c, x. assert (V : (scaled 10 c x == q)%Q) by (rewrite scaled_power, E by lia; reflexivity). split; [reflexivity|]. split; [|exact V]. unfold given. cbn [dec_base ty_new]. rewrite P. split; [reflexivity|]. split; [exact NB|].
    intros F. destruct (falsy_zero v q M F) as [(A & B)|(q' & A & B & C)]; [exists q; split; [exact B|symmetry; exact V]|]. exists q'. split; [exact A|]. rewrite V, B, C. reflexivity.
Qed.
(** What the unrestricted type makes of a value decides. *)
Theorem range_decimal O d levels v q w : dlevels_wf d levels -> means v q -> d_out (leaf_assign O (LOne (dec_base d)) v) = Ok w ->
  exists r, number w r /\ (d = None -> (r == q)%Q) /\
  (in_dlevels r levels -> leaf_assign O (LOne (dec_type d levels)) v = {| d_notified := true; d_out := Ok w |}) /\
  (~ in_dlevels r levels -> (length levels <= 2)%nat -> d_out (leaf_assign O (LOne (dec_type d levels)) v) = Raise ValueError).
Proof.
  intros W M H. destruct (stored_given O d v q w M H) as (c & e & -> & G & D). exists (inject_Z c * 10 ^ e)%Q. assert (S : (scaled 10 c e == inject_Z c * 10 ^ e)%Q) by (apply scaled_power; lia). split; [constructor|]. split; [intros ->; rewrite <- S; exact D|].
  rewrite <- !in_dlevelsb_iff, <- (in_dlevelsb_eq _ _ levels S), in_dlevelsb_iff. split; [intros K; apply taken_leaf; assumption|intros K L; apply (refused_leaf O d levels v c e); assumption].
Qed.
(** Nothing is refused without a range, except what has no decimal64. *)
Theorem base_decimal O d v q : means v q -> match d with None => True | Some n => (Qabs q <= inject_Z (2 ^ 63) * 10 ^ (- Z.of_nat n))%Q end -> exists w, d_out (leaf_assign O (LOne (dec_base d)) v) = Ok w.
Proof.
  intros M H. destruct (means_decimal v q M) as (c & x & P & E). destruct d as [n|].
  - cbn [dec_base]. assert (A : d_out (leaf_assign O (LOne (TDecPrec (Z.of_nat n))) v) = d_out (leaf_assign O (LOne (TDecPrec (Z.of_nat n))) (VDec c x))) by (unfold leaf_assign, dyn_ltype, dyn_leaf; cbn [ty_new ty_init]; unfold yang_decprec; rewrite P; reflexivity).
    rewrite A. apply (Native_proofs.native_decimal O (Z.of_nat n) (VDec c x) (inject_Z c * 10 ^ x)%Q); [constructor|]. rewrite <- E. exact H.
  - exists (VDec c x). unfold leaf_assign, dyn_ltype, dyn_leaf. cbn [dec_base ty_new ty_init]. rewrite P. reflexivity.
Qed.
Lemma kept_number O d v q w : means v q -> d_out (leaf_assign O (LOne (dec_base d)) v) = Ok w -> forall r, number w r -> (d = None -> (r == q)%Q) -> kept d q r.
Proof.
  intros M H r N R. destruct d as [n|]; [|apply R; reflexivity]. destruct (means_decimal v q M) as (c & x & P & E). cbn [dec_base] in H.
  assert (A : d_out (leaf_assign O (LOne (TDecPrec (Z.of_nat n))) v) = d_out (leaf_assign O (LOne (TDecPrec (Z.of_nat n))) (VDec c x))) by (unfold leaf_assign, dyn_ltype, dyn_leaf; cbn [ty_new ty_init]; unfold yang_decprec; rewrite P; reflexivity).
  rewrite A in H. destruct (Native_proofs.native_decimal O (Z.of_nat n) (VDec c x) (inject_Z c * 10 ^ x)%Q (NDec c x)) as [K _]. destruct (K w H) as (m & -> & B). inversion N; subst. split; [exists m; reflexivity|]. rewrite E. exact B.
Qed.
Theorem decimal_ranges O d levels v q : dlevels_wf d levels -> means v q -> in_reach d q -> exists w r, number w r /\ kept d q r /\
  (in_dlevels r levels -> leaf_assign O (LOne (dec_type d levels)) v = {| d_notified := true; d_out := Ok w |}) /\
  (~ in_dlevels r levels -> (length levels <= 2)%nat -> d_out (leaf_assign O (LOne (dec_type d levels)) v) = Raise ValueError).
Proof.
  intros W M R. destruct (base_decimal O d v q M R) as (w & H). destruct (range_decimal O d levels v q w W M H) as (r & N & E & K). exists w, r. split; [exact N|]. split; [apply (kept_number O d v q w M H r N E)|exact K].
Qed.
