(** The texts of paths. *)
From Coq Require Import Lia.
From Verif Require Import PyStr PyStr_facts PyVal PathHelper Spec_Path.

(* ------------------------------------------------------------------ parts *)
Lemma join_buf l : forall q b buf, join [47%N] (parts_loop q b buf l) = buf ++ l.
Proof.
  assert (NE : forall l q b buf, parts_loop q b buf l <> []).
  { induction l0 as [|c l0 IH]; intros q b buf; cbn [parts_loop]; [discriminate|].
    repeat match goal with |- (if ?x then _ else _) <> [] => destruct x end; auto; discriminate. }
  induction l as [|c l IH]; intros q b buf; cbn [parts_loop]; [symmetry; apply app_nil_r|].
  destruct (N.eqb c 47 && negb q && negb b) eqn:E.
  - apply andb_prop in E as [E _]. apply andb_prop in E as [E _]. apply N.eqb_eq in E. subst c.
    specialize (IH q b []). specialize (NE l q b []). destruct (parts_loop q b [] l) as [|w ws]; [congruence|].
    change (join [47%N] (buf :: w :: ws)) with (buf ++ [47%N] ++ join [47%N] (w :: ws)). now rewrite IH.
  - repeat match goal with |- context [if ?x then _ else _] => destruct x end; rewrite IH, <- app_assoc; reflexivity.
Qed.
Theorem parts_join p : join (lit "/") (path_parts p) = p.
Proof. exact (join_buf p false false []). Qed.

(** The state after some text. *)
Definition state_after (qb : bool * bool) (s : str) : bool * bool :=
  fold_left (fun qb c => if N.eqb c 34 then (negb (fst qb), snd qb) else if N.eqb c 91 then (fst qb, true) else if N.eqb c 93 then (fst qb, false) else qb) s qb.
Lemma loop_app q b buf u c v : (N.eqb c 47 && negb (fst (state_after (q, b) u)) && negb (snd (state_after (q, b) u))) = true ->
  parts_loop q b buf (u ++ c :: v) = parts_loop q b buf u ++ parts_loop false false [] v.
Proof.
  revert q b buf. induction u as [|x u IH]; intros q b buf H.
  - cbn [app parts_loop state_after fold_left fst snd] in *. rewrite H. apply andb_prop in H as [H Hb]. apply andb_prop in H as [_ Hq].
    destruct q, b; try discriminate. reflexivity.
  - cbn [app parts_loop]. change (state_after (q, b) (x :: u)) with (state_after (if N.eqb x 34 then (negb q, b) else if N.eqb x 91 then (q, true) else if N.eqb x 93 then (q, false) else (q, b)) u) in H.
    destruct (N.eqb x 47) eqn:E1; cbn [andb].
    + apply N.eqb_eq in E1. subst x. cbn [N.eqb Pos.eqb andb] in H |- *. destruct (negb q && negb b); [cbn [app]; f_equal|]; now apply IH.
    + destruct (N.eqb x 34) eqn:E2; cbn [andb]; [destruct q; now apply IH|]. destruct (N.eqb x 91); [now apply IH|]. destruct (N.eqb x 93); now apply IH.
Qed.
Lemma loop_length u : forall q b buf buf' c d v, (fst (state_after (q, b) u) || snd (state_after (q, b) u)) = true -> N.eqb c 47 = true -> ~ In d [47; 34; 91; 93]%N ->
  length (parts_loop q b buf (u ++ c :: v)) = length (parts_loop q b buf' (u ++ d :: v)).
Proof.
  assert (L : forall v q b buf buf', length (parts_loop q b buf v) = length (parts_loop q b buf' v)).
  { induction v as [|x v IH]; intros q b buf buf'; cbn [parts_loop]; [reflexivity|].
    repeat match goal with |- context [if ?x then _ else _] => destruct x end; cbn [length]; auto. }
  induction u as [|x u IH]; intros q b buf buf' c d v H Hc Hd.
  - cbn [app parts_loop state_after fold_left fst snd] in *. rewrite Hc. apply N.eqb_eq in Hc. subst c.
    assert (E : (true && negb q && negb b) = false) by (destruct q, b; try discriminate; reflexivity). rewrite E. cbn [N.eqb Pos.eqb andb].
    assert (Hx : forall y, In y [47; 34; 91; 93]%N -> N.eqb d y = false) by (intros y Hy; apply N.eqb_neq; intros ->; contradiction).
    rewrite !Hx by (cbn; tauto). cbn [andb]. apply L.
  - cbn [app parts_loop]. change (state_after (q, b) (x :: u)) with (state_after (if N.eqb x 34 then (negb q, b) else if N.eqb x 91 then (q, true) else if N.eqb x 93 then (q, false) else (q, b)) u) in H.
    destruct (N.eqb x 47) eqn:E1; cbn [andb].
    + apply N.eqb_eq in E1. subst x. cbn [N.eqb Pos.eqb andb] in H |- *. destruct (negb q && negb b); [cbn [length]; f_equal|]; now apply IH.
    + destruct (N.eqb x 34) eqn:E2; cbn [andb]; [destruct q; now apply IH|]. destruct (N.eqb x 91); [now apply IH|]. destruct (N.eqb x 93); now apply IH.
Qed.
Lemma state_cons q b c s : state_after (q, b) (c :: s) =
  state_after (if N.eqb c 34 then (negb q, b) else if N.eqb c 91 then (q, true) else if N.eqb c 93 then (q, false) else (q, b)) s.
Proof. reflexivity. Qed.
Lemma state_spec s : forall q b, state_after (q, b) s =
  (xorb q (Nat.odd (count_quotes s)), match last_bracket s with Some c => N.eqb c 91 | None => b end).
Proof.
  induction s as [|c s IH]; intros q b.
  - cbn. now rewrite xorb_false_r.
  - rewrite state_cons. unfold count_quotes. cbn [filter last_bracket]. rewrite (N.eqb_sym 34 c). destruct (N.eqb c 34) eqn:E.
    + apply N.eqb_eq in E. subst c. rewrite IH. cbn [length N.eqb Pos.eqb orb]. rewrite Nat.odd_succ, <- Nat.negb_odd. fold (count_quotes s).
      f_equal; [|destruct (last_bracket s); reflexivity]. now destruct q, (Nat.odd (count_quotes s)).
    + fold (count_quotes s). destruct (N.eqb c 91) eqn:E1; [apply N.eqb_eq in E1; subst c|destruct (N.eqb c 93) eqn:E2; [apply N.eqb_eq in E2; subst c|]]; cbn [orb]; rewrite IH; f_equal;
        destruct (last_bracket s); reflexivity.
Qed.
Lemma outside_iff s : outside s <-> state_after (false, false) s = (false, false).
Proof.
  rewrite state_spec. unfold outside. rewrite <- Nat.negb_odd, Bool.negb_true_iff. cbn [xorb]. split.
  - intros [H1 H2]. rewrite H1. f_equal. destruct (last_bracket s) as [c|]; [|reflexivity]. apply N.eqb_neq. congruence.
  - intros H. injection H as H1 H2. split; [destruct (Nat.odd (count_quotes s)); [discriminate|reflexivity]|]. intros E. rewrite E in H2. discriminate.
Qed.
Theorem parts_position u v : (outside u -> path_parts (u ++ lit "/" ++ v) = path_parts u ++ path_parts v) /\
  (~ outside u -> forall c, ~ In c [47; 34; 91; 93]%N -> length (path_parts (u ++ lit "/" ++ v)) = length (path_parts (u ++ [c] ++ v))).
Proof.
  rewrite outside_iff. split.
  - intros H. unfold path_parts. change (u ++ lit "/" ++ v) with (u ++ 47%N :: v). rewrite loop_app; [reflexivity|]. now rewrite H.
  - intros H c Hc. unfold path_parts. change (u ++ lit "/" ++ v) with (u ++ 47%N :: v). change (u ++ [c] ++ v) with (u ++ c :: v).
    apply loop_length; auto. destruct (state_after (false, false) u) as [[] []]; try reflexivity. congruence.
Qed.

(** Parts made of chunks. *)
(** Some text after which the state is (false, false) and in which nothing is split. *)
Definition solid (s : str) : Prop := forall buf rest, parts_loop false false buf (s ++ rest) = parts_loop false false (buf ++ s) rest.
Lemma solid_app s t : solid s -> solid t -> solid (s ++ t).
Proof. intros Hs Ht buf rest. rewrite <- app_assoc, Hs, Ht. now rewrite <- app_assoc. Qed.
Lemma solid_nil : solid [].
Proof. intros buf rest. cbn. now rewrite app_nil_r. Qed.
Lemma through q b s : forall buf rest, Forall (fun c => ~ In c [34; 91; 93]%N) s -> q = true \/ b = true ->
  parts_loop q b buf (s ++ rest) = parts_loop q b (buf ++ s) rest.
Proof.
  induction s as [|c s IH]; intros buf rest H Hqb; cbn [app]; [now rewrite app_nil_r|]. inversion H as [|? ? Hc Hs]; subst. cbn [parts_loop].
  assert (Hx : forall y, In y [34; 91; 93]%N -> N.eqb c y = false) by (intros y Hy; apply N.eqb_neq; intros ->; contradiction).
  rewrite (Hx 34%N), (Hx 91%N), (Hx 93%N) by (cbn; tauto). cbn [andb]. assert (E : (N.eqb c 47 && negb q && negb b) = false) by (destruct Hqb as [-> | ->]; cbn; rewrite ?andb_false_r; reflexivity).
  rewrite E, IH by assumption. now rewrite <- app_assoc.
Qed.
(** In brackets: quotes come and go. *)
Lemma through_bracket s : forall q buf rest, ~ In 91%N s -> ~ In 93%N s ->
  parts_loop q true buf (s ++ rest) = parts_loop (xorb q (Nat.odd (count_quotes s))) true (buf ++ s) rest.
Proof.
  induction s as [|c s IH]; intros q buf rest H1 H2; cbn [app]; [cbn; now rewrite app_nil_r, xorb_false_r|]. cbn [parts_loop].
  assert (E1 : N.eqb c 91 = false) by (apply N.eqb_neq; intros ->; apply H1; now left).
  assert (E2 : N.eqb c 93 = false) by (apply N.eqb_neq; intros ->; apply H2; now left).
  assert (H1' : ~ In 91%N s) by (intros H; apply H1; now right). assert (H2' : ~ In 93%N s) by (intros H; apply H2; now right).
  cbn [negb andb]. rewrite !andb_false_r, E1, E2. unfold count_quotes. cbn [filter]. rewrite (N.eqb_sym 34 c).
  destruct (N.eqb c 34) eqn:E; cbn [andb].
  - destruct q; rewrite IH by assumption; rewrite <- app_assoc; cbn [length]; rewrite Nat.odd_succ, <- Nat.negb_odd; fold (count_quotes s); now destruct (Nat.odd (count_quotes s)).
  - rewrite IH by assumption. now rewrite <- app_assoc.
Qed.
Lemma chunk_solid c : chunk_ok c -> solid (chunk_text c).
Proof.
  destruct c as [c|s|s]; intros H buf rest.
  - cbn [chunk_ok] in H. cbn [chunk_text app parts_loop].
    assert (Hx : forall y, In y [47; 34; 91; 93]%N -> N.eqb c y = false) by (intros y Hy; apply N.eqb_neq; intros ->; contradiction).
    rewrite !Hx by (cbn; tauto). reflexivity.
  - destruct H as (H1 & H2 & H3). cbn [chunk_text]. rewrite <- !app_assoc. change (lit """") with [34%N]. cbn [app parts_loop N.eqb Pos.eqb negb andb].
    rewrite through; [|apply Forall_forall; intros x Hx [<-|[<-|[<-|[]]]]; contradiction|now left]. cbn [app parts_loop N.eqb Pos.eqb negb andb].
    now rewrite <- !app_assoc.
  - destruct H as (H1 & H2 & H3). cbn [chunk_text]. rewrite <- !app_assoc. change (lit "[") with [91%N]. change (lit "]") with [93%N]. cbn [app parts_loop N.eqb Pos.eqb negb andb].
    rewrite through_bracket by assumption. rewrite <- Nat.negb_odd in H1. apply Bool.negb_true_iff in H1. rewrite H1. cbn [xorb app parts_loop N.eqb Pos.eqb negb andb].
    now rewrite <- !app_assoc.
Qed.
Theorem parts_split pss : pss <> [] -> Forall (Forall chunk_ok) pss -> path_parts (join (lit "/") (map part_of pss)) = map part_of pss.
Proof.
  intros Hne H. unfold path_parts.
  assert (S : forall ps, Forall chunk_ok ps -> solid (part_of ps)).
  { induction 1 as [|c ps Hc Hps IH]; [apply solid_nil|]. apply (solid_app (chunk_text c)); [now apply chunk_solid|assumption]. }
  induction H as [|ps pss Hp H IH]; [congruence|]. destruct pss as [|ps2 pss].
  - cbn [map join]. rewrite <- (app_nil_r (part_of ps)) at 1. rewrite (S ps Hp). reflexivity.
  - specialize (IH ltac:(discriminate)). change (join (lit "/") (map part_of (ps :: ps2 :: pss))) with (part_of ps ++ 47%N :: join (lit "/") (map part_of (ps2 :: pss))).
    rewrite (S ps Hp). cbn [app parts_loop N.eqb Pos.eqb negb andb]. rewrite IH. reflexivity.
Qed.

(* ------------------------------------------------------------------ predicates *)
Lemma span_all f s rest : forallb f s = true -> match rest with [] => true | c :: _ => negb (f c) end = true -> span f (s ++ rest) = (s, rest).
Proof.
  induction s as [|c s IH]; cbn [app forallb span]; intros H Hr.
  - destruct rest as [|c rest]; [reflexivity|]. cbn [span]. apply Bool.negb_true_iff in Hr. now rewrite Hr.
  - apply andb_prop in H as [Hc Hs]. rewrite Hc, IH by assumption. reflexivity.
Qed.
Lemma bars_skip s : forall buf rest, no_bars s -> split_bars buf (s ++ lit "||" ++ rest) = (buf ++ s) :: split_bars [] rest.
Proof.
  change (lit "||") with [124%N; 124%N]. induction s as [|c s IH]; intros buf rest [H1 H2].
  - cbn. now rewrite app_nil_r.
  - cbn [app split_bars]. assert (Hs : no_bars s).
    { split; [intros a b E; apply (H1 (c :: a) b); now rewrite E|intros a E; apply (H2 (c :: a)); now rewrite E]. }
    destruct (s ++ [124%N; 124%N] ++ rest) as [|d r] eqn:E; [destruct s; discriminate|].
    assert (Ed : N.eqb c 124 && N.eqb d 124 = false).
    { destruct (N.eqb c 124) eqn:Ec; [|reflexivity]. apply N.eqb_eq in Ec. subst c. cbn [andb]. apply N.eqb_neq. intros ->.
      destruct s as [|x s]; [now apply (H2 [])|]. cbn in E. injection E as -> _. now apply (H1 [] s). }
    change (s ++ 124%N :: 124%N :: rest) with (s ++ [124%N; 124%N] ++ rest). rewrite E, Ed, <- E, IH by assumption. now rewrite <- app_assoc.
Qed.
Lemma bars_end s : forall buf, (forall a b, s <> a ++ lit "||" ++ b) -> split_bars buf s = [buf ++ s].
Proof.
  induction s as [|c s IH]; intros buf H; cbn [split_bars]; [now rewrite app_nil_r|]. destruct s as [|d s]; [reflexivity|].
  assert (Ed : N.eqb c 124 && N.eqb d 124 = false).
  { destruct (N.eqb c 124) eqn:Ec; [|reflexivity]. destruct (N.eqb d 124) eqn:Ed; [|reflexivity]. apply N.eqb_eq in Ec, Ed. subst. exfalso. now apply (H [] s). }
  rewrite Ed, IH; [now rewrite <- app_assoc|]. intros a b E. apply (H (c :: a) b). now rewrite E.
Qed.

Definition free (s : str) : Prop := forall a b, s <> a ++ lit "||" ++ b.
(** "||" does not arise where two texts meet. *)
Lemma free_app s t : free s -> free t -> (forall a, s <> a ++ lit "|") \/ (forall b, t <> lit "|" ++ b) -> free (s ++ t).
Proof.
  change (lit "|") with [124%N]. intros Hs Ht Hm a b E. change (lit "||") with [124%N; 124%N] in E.
  assert (L : forall u v w x : str, u ++ v = w ++ x -> exists m, (u = w ++ m /\ x = m ++ v) \/ (w = u ++ m /\ v = m ++ x)).
  { induction u as [|y u IH]; intros v w x Eq; [exists w; right; now split|]. destruct w as [|z w]; [exists (y :: u); left; now split|].
    cbn in Eq. injection Eq as -> Eq. destruct (IH _ _ _ Eq) as (m & [[-> ->]|[-> ->]]); exists m; [left|right]; now split. }
  destruct (L _ _ _ _ E) as (m & [[-> E2]|[-> ->]]).
  - destruct m as [|c [|d m]]; cbn in E2.
    + now apply (Ht [] b).
    + injection E2 as <- <-. destruct Hm as [Hm|Hm]; [now apply (Hm a)|now apply (Hm b)].
    + injection E2 as <- <- ->. now apply (Hs a m).
  - now apply (Ht m b).
Qed.
Lemma free_no s : ~ In 124%N s -> free s.
Proof. intros H a b ->. apply H. apply in_or_app. right. now left. Qed.
Lemma no_end s : ~ In 124%N s -> forall a, s <> a ++ lit "|".
Proof. intros H a ->. apply H. apply in_or_app. right. now left. Qed.

Lemma key_cmd k : Forall key_char k -> forallb is_cmd k = true.
Proof.
  intros H. apply forallb_forall. rewrite Forall_forall in H. intros c Hc. unfold is_cmd. specialize (H c Hc). unfold key_char in H.
  rewrite !orb_true_iff, !andb_true_iff, !N.leb_le, !N.eqb_eq. lia.
Qed.
Lemma key_free k : Forall key_char k -> ~ In 124%N k /\ ~ In 58%N k /\ ~ In 32%N k /\ ~ In 93%N k /\ ~ In 91%N k /\ ~ In 64%N k.
Proof. intros H. rewrite Forall_forall in H. repeat split; intros Hi; specialize (H _ Hi); unfold key_char in H; lia. Qed.
Lemma val_arg p : pred_ok p -> forallb is_arg (p_val p) = true.
Proof.
  intros (_ & _ & _ & H & _). apply forallb_forall. intros c Hc. specialize (H c Hc). unfold is_arg. apply Bool.negb_true_iff.
  rewrite !orb_false_iff, !N.eqb_neq. repeat split; intros ->; apply H; cbn; tauto.
Qed.
Lemma quote_cases p : pred_ok p -> p_quote p = [] \/ p_quote p = [39%N] \/ p_quote p = [34%N].
Proof. intros (_ & _ & _ & _ & _ & H & _). destruct H as [<-|[<-|[<-|[]]]]; auto. Qed.

Lemma drop_spaces_no s : match s with 32%N :: _ => False | _ => True end -> drop_spaces s = s.
Proof. unfold drop_spaces. destruct s as [|c s]; [reflexivity|]. cbn [span]. destruct (N.eqb 32 c) eqn:E; [apply N.eqb_eq in E; subst; contradiction|reflexivity]. Qed.
(** What follows a predicate. *)
Definition follows (rest : str) : Prop := rest = [] \/ exists r, rest = 32%N :: r /\ match r with 32%N :: _ => False | _ => True end.
Definition after (rest : str) : str := match rest with [] => [] | _ :: r => r end.
Lemma arg_tail_pred p rest : pred_ok p -> follows rest -> arg_tail (pred_text p ++ rest) = Some (p_key p, p_val p, after rest).
Proof.
  intros Hp Hf. pose proof Hp as (Hk & Hkc & Hv & Hva & _ & _ & Hq). pose proof (key_cmd _ Hkc) as Hcmd. pose proof (val_arg p Hp) as Harg.
  unfold arg_tail, pred_text. rewrite <- !app_assoc.
  assert (Ed : drop_at_sign ((if p_sign p then lit "@" else []) ++ p_key p ++ lit "=" ++ p_quote p ++ p_val p ++ p_quote p ++ rest) =
               p_key p ++ lit "=" ++ p_quote p ++ p_val p ++ p_quote p ++ rest).
  { destruct (p_sign p); [reflexivity|]. cbn [app]. destruct (p_key p) as [|c k]; [congruence|]. cbn [app drop_at_sign].
    destruct (key_free _ Hkc) as (_ & _ & _ & _ & _ & H64). destruct (N.eq_dec c 64) as [->|Hne]; [exfalso; apply H64; now left|].
    destruct c as [|pc]; [reflexivity|]. do 7 (destruct pc as [pc|pc|]; try reflexivity). congruence. }
  rewrite Ed, (span_all is_cmd (p_key p)) by (exact Hcmd || reflexivity).
  destruct (p_key p) as [|kc k] eqn:Ek; [congruence|]. rewrite drop_spaces_no by exact I. change (lit "=") with [61%N]. cbn [app].
  assert (Es : drop_quote (drop_spaces (p_quote p ++ p_val p ++ p_quote p ++ rest)) = p_val p ++ p_quote p ++ rest).
  { destruct (p_val p) as [|vc v] eqn:Ev; [congruence|]. cbn [forallb] in Harg. apply andb_prop in Harg as [Hvc _].
    unfold is_arg in Hvc. apply Bool.negb_true_iff in Hvc. rewrite !orb_false_iff in Hvc. destruct Hvc as (((E1 & E2) & E3) & E4).
    destruct (quote_cases p Hp) as [-> | [-> | ->]]; cbn [app].
    - rewrite drop_spaces_no; [cbn [drop_quote]; now rewrite E3, E4|]. destruct vc as [|pv]; [exact I|]. apply N.eqb_neq in E1. do 6 (destruct pv as [pv|pv|]; try exact I). congruence.
    - reflexivity.
    - reflexivity. }
  rewrite Es. destruct (quote_cases p Hp) as [Eq|[Eq|Eq]]; rewrite Eq; cbn [app].
  - rewrite (span_all is_arg (p_val p) rest Harg) by (destruct Hf as [->|(r & -> & _)]; reflexivity).
    destruct (p_val p) as [|vc v]; [congruence|]. destruct Hf as [->|(r & -> & Hr)]; [reflexivity|]. cbn [drop_quote N.eqb Pos.eqb orb after].
    unfold drop_spaces. cbn [span N.eqb Pos.eqb]. pose proof (drop_spaces_no r Hr) as Er. unfold drop_spaces in Er. destruct (span (N.eqb 32) r). cbn [snd] in *. now subst.
  - rewrite (span_all is_arg (p_val p) (39%N :: rest) Harg) by reflexivity.
    destruct (p_val p) as [|vc v]; [congruence|]. destruct Hf as [->|(r & -> & Hr)]; [reflexivity|]. cbn [drop_quote N.eqb Pos.eqb orb after].
    unfold drop_spaces. cbn [span N.eqb Pos.eqb]. pose proof (drop_spaces_no r Hr) as Er. unfold drop_spaces in Er. destruct (span (N.eqb 32) r). cbn [snd] in *. now subst.
  - rewrite (span_all is_arg (p_val p) (34%N :: rest) Harg) by reflexivity.
    destruct (p_val p) as [|vc v]; [congruence|]. destruct Hf as [->|(r & -> & Hr)]; [reflexivity|]. cbn [drop_quote N.eqb Pos.eqb orb after].
    unfold drop_spaces. cbn [span N.eqb Pos.eqb]. pose proof (drop_spaces_no r Hr) as Er. unfold drop_spaces in Er. destruct (span (N.eqb 32) r). cbn [snd] in *. now subst.
Qed.
(** A key is never read as "and " or "or ". *)
Lemma pred_no_and p rest : pred_ok p -> startswith (lit "and ") (pred_text p ++ rest) = false /\ startswith (lit "or ") (pred_text p ++ rest) = false.
Proof.
  intros (Hk & Hkc & _). unfold pred_text. destruct (p_sign p); [split; reflexivity|]. cbn [app]. destruct (key_free _ Hkc) as (_ & _ & H32 & _).
  change (lit "and ") with [97; 110; 100; 32]%N. change (lit "or ") with [111; 114; 32]%N. change (lit "=") with [61%N].
  destruct (p_key p) as [|a [|b [|c [|d k]]]]; [congruence| | | |]; cbn [app startswith]; split;
    repeat match goal with |- (N.eqb ?x ?y && _) = false => destruct (N.eqb x y) eqn:?; cbn [andb]; [|reflexivity] end; try reflexivity;
    repeat match goal with H : N.eqb _ _ = true |- _ => apply N.eqb_eq in H; try discriminate H; subst end; try discriminate;
    exfalso; apply H32; cbn; tauto.
Qed.
Lemma arg_match_pred a p rest : pred_ok p -> follows rest ->
  arg_match ((if a : bool then lit "and " else []) ++ pred_text p ++ rest) = Some (p_key p, p_val p, after rest).
Proof.
  intros Hp Hf. unfold arg_match. destruct a.
  - rewrite startswith_app. change (skipn 4 (lit "and " ++ pred_text p ++ rest)) with (pred_text p ++ rest). now rewrite arg_tail_pred.
  - cbn [app]. destruct (pred_no_and p rest Hp) as [-> ->]. now apply arg_tail_pred.
Qed.

Lemma pred_nonempty p rest : pred_ok p -> exists c r, pred_text p ++ rest = c :: r /\ c <> 32%N /\ c <> 124%N /\ c <> 91%N.
Proof.
  intros (Hk & Hkc & _). unfold pred_text. destruct (p_sign p); [eexists; eexists; split; [reflexivity|]; repeat split; discriminate|]. cbn [app].
  destruct (key_free _ Hkc) as (H1 & _ & H3 & _ & H4 & _). destruct (p_key p) as [|c k]; [congruence|]. exists c. eexists. split; [reflexivity|]. repeat split; intros ->; [apply H3|apply H1|apply H4]; now left.
Qed.
Lemma pred_free p : pred_ok p -> free (pred_text p) /\ (forall a, pred_text p <> a ++ lit "|").
Proof.
  intros Hp. pose proof Hp as (Hk & Hkc & Hv & _ & [B1 B2] & _). destruct (key_free _ Hkc) as (H1 & _). unfold pred_text.
  assert (F1 : ~ In 124%N ((if p_sign p then lit "@" else []) ++ p_key p ++ lit "=")).
  { intros H. apply in_app_or in H as [H|H]; [destruct (p_sign p); cbn in H; intuition discriminate|]. apply in_app_or in H as [H|H]; [contradiction|cbn in H; intuition discriminate]. }
  assert (F2 : ~ In 124%N (p_quote p)) by (destruct (quote_cases p Hp) as [-> | [-> | ->]]; cbn; intuition discriminate).
  assert (V : free (p_val p ++ p_quote p) /\ forall a, p_val p ++ p_quote p <> a ++ lit "|").
  { destruct (quote_cases p Hp) as [Eq|Eq]; [rewrite Eq, app_nil_r; now split|]. split.
    - apply free_app; [exact B1|now apply free_no|left; exact B2].
    - intros a E. destruct Eq as [Eq|Eq]; rewrite Eq in E; change (lit "|") with [124%N] in E; apply app_inj_tail in E as [_ E]; discriminate. }
  destruct V as [V1 V2].
  assert (F3 : ~ In 124%N (((if p_sign p then lit "@" else []) ++ p_key p ++ lit "=") ++ p_quote p)) by (intros H; apply in_app_or in H as [H|H]; contradiction).
  replace ((if p_sign p then lit "@" else []) ++ p_key p ++ lit "=" ++ p_quote p ++ p_val p ++ p_quote p) with
    ((((if p_sign p then lit "@" else []) ++ p_key p ++ lit "=") ++ p_quote p) ++ p_val p ++ p_quote p) by (now rewrite <- !app_assoc).
  split.
  - apply free_app; [now apply free_no|exact V1|left; now apply no_end].
  - intros a E. destruct (exists_last (l := p_val p ++ p_quote p)) as (l & x & El); [intros E0; now apply app_eq_nil in E0|]. rewrite El in E.
    rewrite app_assoc in E. change (lit "|") with [124%N] in E. apply app_inj_tail in E as [_ ->]. now apply (V2 l).
Qed.
Lemma more_free l : Forall pred_ok (map snd l) -> free (concat (map more_text l)) /\ (forall a, concat (map more_text l) <> a ++ lit "|") /\ (forall b, concat (map more_text l) <> lit "|" ++ b).
Proof.
  induction l as [|[a p] l IH]; intros H.
  - split; [now apply free_no|]. split; [now apply no_end|]. intros b. discriminate.
  - inversion H as [|? ? Hp Hl]; subst. cbn [snd] in Hp. destruct (IH Hl) as (I1 & I2 & I3). destruct (pred_free p Hp) as [P1 P2]. cbn [map concat]. unfold more_text at 1 3 5. cbn [fst snd].
    assert (S : ~ In 124%N (if a then lit " and " else lit " ")) by (destruct a; cbn; intuition discriminate).
    assert (M : free ((if a then lit " and " else lit " ") ++ pred_text p)) by (apply free_app; [now apply free_no|exact P1|left; now apply no_end]).
    assert (E : forall u, (if a then lit " and " else lit " ") ++ pred_text p <> u ++ lit "|").
    { intros u E. destruct (pred_nonempty p [] Hp) as (c & r & Ec & _). rewrite app_nil_r in Ec. destruct (exists_last (l := pred_text p)) as (l' & x & El); [rewrite Ec; discriminate|].
      rewrite El, app_assoc in E. change (lit "|") with [124%N] in E. apply app_inj_tail in E as [_ ->]. now apply (P2 l'). }
    split; [|split].
    + apply free_app; [exact M|exact I1|left; exact E].
    + intros u Eu. destruct l as [|bp l]; [cbn [map concat] in Eu; rewrite app_nil_r in Eu; now apply (E u)|].
      destruct (exists_last (l := concat (map more_text (bp :: l)))) as (l' & x & El).
      { cbn [map concat]. unfold more_text at 1. destruct bp as [[] ?]; discriminate. }
      rewrite El, app_assoc in Eu. change (lit "|") with [124%N] in Eu. apply app_inj_tail in Eu as [_ ->]. now apply (I2 l').
    + intros b Eb. destruct a; discriminate.
Qed.

(** The dictionary of predicates with different keys. *)
Lemma look_none_in {A} k (d : list (str * A)) : ~ In k (map fst d) -> forall v, dict_set k v d = d ++ [(k, v)].
Proof.
  induction d as [|[m a] d IH]; intros H v; [reflexivity|]. cbn [dict_set app]. destruct (str_eqb k m) eqn:E.
  - apply str_eqb_eq in E. subst m. exfalso. apply H. now left.
  - rewrite IH; [reflexivity|]. intros Hi. apply H. now right.
Qed.
Lemma local_key k : Forall key_char k -> local_name k = k.
Proof. intros H. unfold local_name. destruct (key_free _ H) as (_ & H58 & _). apply ch_in_false in H58. now rewrite H58. Qed.
Definition pairs_of (ps : list pred) : list (str * str) := map (fun p => (p_key p, p_val p)) ps.
Lemma follows_more l : Forall pred_ok (map snd l) -> follows (concat (map more_text l)).
Proof.
  intros H. destruct l as [|[a p] l]; [now left|]. inversion H as [|? ? Hp Hl]; subst. cbn [snd] in Hp. right. cbn [map concat]. unfold more_text at 1. cbn [fst snd].
  destruct a; [eexists; split; [reflexivity|exact I]|]. destruct (pred_nonempty p (concat (map more_text l)) Hp) as (c & r & Ec & Hc & _).
  exists (c :: r). split; [rewrite <- Ec; reflexivity|]. destruct c as [|pc]; [exact I|]. do 6 (destruct pc as [pc|pc|]; try exact I). congruence.
Qed.
Lemma after_more l : after (concat (map more_text l)) = match l with [] => [] | (a, p) :: l' => (if a : bool then lit "and " else []) ++ pred_text p ++ concat (map more_text l') end.
Proof. destruct l as [|[a p] l]; [reflexivity|]. cbn [map concat]. unfold more_text at 1. cbn [fst snd]. now destruct a. Qed.
Lemma arg_loop_preds l : forall a p d fuel, Forall pred_ok (p :: map snd l) ->
  NoDup (map fst d ++ map p_key (p :: map snd l)) -> (length ((if a : bool then lit "and " else []) ++ pred_text p ++ concat (map more_text l)) <= fuel)%nat ->
  arg_loop fuel ((if a then lit "and " else []) ++ pred_text p ++ concat (map more_text l)) d = Ok (d ++ pairs_of (p :: map snd l)).
Proof.
  induction l as [|[a' p'] l IH]; intros a p d fuel H Hd Hf; inversion H as [|? ? Hp Hl]; subst.
  - set (s := (if a then lit "and " else []) ++ pred_text p ++ concat (map more_text [])) in *.
    assert (Es : exists c r, s = c :: r). { unfold s. destruct (pred_nonempty p [] Hp) as (c & r & Ec & _). destruct a; [now eexists; eexists|]. cbn [app]. cbn [map concat]. rewrite Ec. now eexists; eexists. }
    destruct Es as (c & r & Es). rewrite Es in Hf |- *. destruct fuel as [|fuel]; [cbn in Hf; lia|]. cbn [arg_loop]. rewrite <- Es. unfold s. rewrite arg_match_pred by (auto; now left).
    cbn [map concat after]. pose proof Hp as (_ & Hkc & _ & _ & Hb & _). destruct (key_free _ Hkc) as (H1 & _).
    rewrite bars_skip by (split; [now apply free_no|now apply no_end]). rewrite bars_skip by exact Hb. cbn [split_bars app].
    rewrite local_key by assumption. destruct fuel; cbn [arg_loop]; rewrite look_none_in; try reflexivity; intros Hi; cbn [map] in Hd; apply NoDup_remove_2 in Hd; apply Hd; now rewrite app_nil_r.
  - set (s := (if a then lit "and " else []) ++ pred_text p ++ concat (map more_text ((a', p') :: l))) in *.
    assert (Es : exists c r, s = c :: r). { unfold s. destruct (pred_nonempty p (concat (map more_text ((a', p') :: l))) Hp) as (c & r & Ec & _). destruct a; [now eexists; eexists|]. cbn [app]. rewrite Ec. now eexists; eexists. }
    assert (Hlen : (length ((if a' : bool then lit "and " else []) ++ pred_text p' ++ concat (map more_text l)) < length s)%nat).
    { rewrite <- (after_more ((a', p') :: l)). unfold s. rewrite !app_length. destruct (pred_nonempty p [] Hp) as (c & r & Ec & _). rewrite app_nil_r in Ec. rewrite Ec. cbn [length].
      destruct (concat (map more_text ((a', p') :: l))); cbn [after length]; lia. }
    destruct Es as (c & r & Es). rewrite Es in Hf |- *. destruct fuel as [|fuel]; [cbn in Hf; lia|]. cbn [arg_loop]. rewrite <- Es. unfold s. rewrite arg_match_pred by (auto using follows_more).
    rewrite after_more. pose proof Hp as (_ & Hkc & _ & _ & Hb & _). destruct (key_free _ Hkc) as (H1 & _).
    rewrite bars_skip by (split; [now apply free_no|now apply no_end]). rewrite bars_skip by exact Hb.
    assert (Fr : free ((if a' then lit "and " else []) ++ pred_text p' ++ concat (map more_text l))).
    { destruct (more_free ((a', p') :: l) Hl) as (M & _). intros u v E. rewrite <- (after_more ((a', p') :: l)) in E. destruct (concat (map more_text ((a', p') :: l))) as [|x y] eqn:Ec; cbn [after] in E.
      - destruct u; discriminate.
      - subst y. now apply (M (x :: u) v). }
    rewrite bars_end by exact Fr. cbn [app]. rewrite local_key by assumption. cbn [map] in Hd. rewrite look_none_in.
    2: { apply NoDup_remove_2 in Hd. intros Hi. apply Hd. apply in_or_app. now left. }
    rewrite IH.
    + rewrite <- app_assoc. reflexivity.
    + exact Hl.
    + rewrite map_app, <- app_assoc. exact Hd.
    + rewrite Es in Hlen. lia.
Qed.

(** Brackets. *)
Lemma in_group_text g rest : (forall c, In c g -> c <> 93%N) -> g <> [] ->
  in_group false (g ++ 93%N :: rest) = match rest with [] => true | 91%N :: r => in_group false r | c :: r => N.eqb c 10 && match r with [] => true | _ => false end end.
Proof.
  intros Hg Hne. assert (G : forall g, (forall c, In c g -> c <> 93%N) -> forall b, (b = true \/ g <> []) -> in_group b (g ++ 93%N :: rest) = match rest with [] => true | 91%N :: r => in_group false r | c :: r => N.eqb c 10 && match r with [] => true | _ => false end end).
  { clear. induction g as [|c g IH]; intros Hg b Hb.
    - destruct Hb as [->|Hb]; [|congruence]. cbn [app in_group N.eqb Pos.eqb andb]. destruct rest as [|d s2]; [reflexivity|].
      destruct (N.eqb d 91) eqn:E; [apply N.eqb_eq in E; now subst d|]. apply N.eqb_neq in E. destruct d as [|pd]; [reflexivity|]. do 7 (destruct pd as [pd|pd|]; try reflexivity). congruence.
    - cbn [app in_group]. assert (E : N.eqb c 93 = false) by (apply N.eqb_neq; apply Hg; now left). rewrite E. apply IH; [|now left]. intros x Hx. apply Hg. now right. }
  apply G; auto.
Qed.
Lemma pred_no_close p : pred_ok p -> ~ In 93%N (pred_text p).
Proof.
  intros Hp. pose proof Hp as (_ & Hkc & _ & Hva & _). destruct (key_free _ Hkc) as (_ & _ & _ & H93 & _). unfold pred_text. intros H.
  repeat (apply in_app_or in H as [H|H]).
  - destruct (p_sign p); cbn in H; intuition discriminate.
  - contradiction.
  - cbn in H. intuition discriminate.
  - destruct (quote_cases p Hp) as [E|[E|E]]; rewrite E in H; cbn in H; intuition discriminate.
  - apply (Hva _ H). cbn. tauto.
  - destruct (quote_cases p Hp) as [E|[E|E]]; rewrite E in H; cbn in H; intuition discriminate.
Qed.
Definition content (g : pgroup) : str := pred_text (fst g) ++ concat (map more_text (snd g)).
Lemma more_no_close l : Forall pred_ok (map snd l) -> ~ In 93%N (concat (map more_text l)).
Proof.
  induction l as [|[a p] l IH]; intros H Hi; [contradiction|]. inversion H as [|? ? Hp Hl]; subst. cbn [map concat] in Hi. apply in_app_or in Hi as [Hi|Hi]; [|now apply IH].
  unfold more_text in Hi. cbn [fst snd] in *. apply in_app_or in Hi as [Hi|Hi]; [destruct a; cbn in Hi; intuition discriminate|]. now apply (pred_no_close p Hp).
Qed.
Lemma content_no_close g : Forall pred_ok (group_preds g) -> ~ In 93%N (content g).
Proof.
  intros H Hi. inversion H as [|? ? Hp Hl]; subst. unfold content in Hi. apply in_app_or in Hi as [Hi|Hi]; [now apply (pred_no_close _ Hp)|now apply (more_no_close _ Hl)].
Qed.
Lemma pred_end p : pred_ok p -> exists l c, pred_text p = l ++ [c] /\ c <> 91%N.
Proof.
  intros Hp. pose proof Hp as (_ & _ & Hv & _ & _ & _ & H91). unfold pred_text.
  destruct (quote_cases p Hp) as [E|[E|E]]; rewrite E.
  - destruct (exists_last Hv) as (l & c & El). exists ((if p_sign p then lit "@" else []) ++ p_key p ++ lit "=" ++ l), c. rewrite El. split; [cbn [app]; rewrite app_nil_r, <- !app_assoc; reflexivity|].
    intros ->. apply (H91 E). rewrite El. apply in_or_app. right. now left.
  - exists ((if p_sign p then lit "@" else []) ++ p_key p ++ lit "=" ++ [39%N] ++ p_val p), 39%N. split; [now rewrite <- !app_assoc|discriminate].
  - exists ((if p_sign p then lit "@" else []) ++ p_key p ++ lit "=" ++ [34%N] ++ p_val p), 34%N. split; [now rewrite <- !app_assoc|discriminate].
Qed.
Lemma content_end g : Forall pred_ok (group_preds g) -> exists l c, content g = l ++ [c] /\ c <> 91%N.
Proof.
  destruct g as [p l]. unfold content, group_preds. cbn [fst snd]. revert p. induction l as [|[a p'] l IH]; intros p H; inversion H as [|? ? Hp Hl]; subst.
  - cbn [map concat]. rewrite app_nil_r. now apply pred_end.
  - destruct (IH p' Hl) as (l' & c & E & Hc). cbn [map concat]. unfold more_text at 1. cbn [fst snd]. rewrite <- app_assoc, E.
    exists (pred_text p ++ (if a then lit " and " else lit " ") ++ l'), c. split; [now rewrite <- !app_assoc|assumption].
Qed.
Lemma strip_content g : Forall pred_ok (group_preds g) -> strip_open (lit "[" ++ content g) = content g.
Proof.
  intros H. unfold strip_open. inversion H as [|? ? Hp Hl]; subst. destruct (pred_nonempty (fst g) (concat (map more_text (snd g))) Hp) as (c & r & Ec & _ & _ & Hc).
  assert (E1 : snd (span (N.eqb 91) (lit "[" ++ content g)) = content g).
  { unfold content. rewrite Ec. change (lit "[") with [91%N]. cbn [app span]. change (N.eqb 91 91) with true. assert (E : N.eqb 91 c = false) by (apply N.eqb_neq; congruence). now rewrite E. }
  rewrite E1. destruct (content_end g H) as (l & d & Ed & Hd). rewrite Ed, rev_app_distr. cbn [rev app span].
  assert (E : N.eqb 91 d = false) by (apply N.eqb_neq; congruence). rewrite E. cbn [snd rev]. rewrite rev_involutive. reflexivity.
Qed.
Lemma group_split gs : Forall (fun g => Forall pred_ok (group_preds g)) gs -> split_on 93 (concat (map group_text gs)) = map (fun g => lit "[" ++ content g) gs ++ [[]].
Proof.
  induction 1 as [|g gs Hg H IH]; [reflexivity|]. cbn [map concat]. unfold group_text at 1.
  replace ((lit "[" ++ pred_text (fst g) ++ concat (map more_text (snd g)) ++ lit "]") ++ concat (map group_text gs)) with ((lit "[" ++ content g) ++ 93%N :: concat (map group_text gs))
    by (unfold content; rewrite <- !app_assoc; reflexivity).
  rewrite split_on_app; [now rewrite IH|]. intros Hi. apply in_app_or in Hi as [Hi|Hi]; [cbn in Hi; intuition discriminate|]. now apply (content_no_close g Hg).
Qed.
Lemma groups_match gs : gs <> [] -> Forall (fun g => Forall pred_ok (group_preds g)) gs -> exists r, concat (map group_text gs) = 91%N :: r /\ in_group false r = true.
Proof.
  intros Hne H. induction H as [|g gs Hg H IH]; [congruence|]. exists (content g ++ 93%N :: concat (map group_text gs)). split.
  - cbn [map concat]. unfold group_text at 1, content. change (lit "[") with [91%N]. cbn [app]. now rewrite <- !app_assoc.
  - rewrite in_group_text.
    + destruct gs as [|g2 gs]; [reflexivity|]. destruct IH as (r & -> & Hr); [discriminate|]. exact Hr.
    + intros c Hc ->. now apply (content_no_close g Hg).
    + destruct (content_end g Hg) as (l & c & -> & _). intros E. now apply app_eq_nil in E as [_ E].
Qed.
Lemma content_free g : Forall pred_ok (group_preds g) -> free (content g).
Proof.
  intros H. inversion H as [|? ? Hp Hl]; subst. destruct (pred_free _ Hp) as [P1 P2]. destruct (more_free _ Hl) as (M1 & _). unfold content. apply free_app; auto.
Qed.
Lemma groups_free gs : Forall (fun g => Forall pred_ok (group_preds g)) gs -> free (concat (map group_text gs)).
Proof.
  induction 1 as [|g gs Hg H IH]; [now apply free_no|]. cbn [map concat]. unfold group_text at 1.
  replace ((lit "[" ++ pred_text (fst g) ++ concat (map more_text (snd g)) ++ lit "]") ++ concat (map group_text gs)) with (lit "[" ++ content g ++ (lit "]" ++ concat (map group_text gs)))
    by (unfold content; rewrite <- !app_assoc; reflexivity).
  apply free_app; [apply free_no; cbn; intuition discriminate| |left; apply no_end; cbn; intuition discriminate].
  apply free_app; [now apply content_free| |right; discriminate].
  apply free_app; [apply free_no; cbn; intuition discriminate|exact IH|left; apply no_end; cbn; intuition discriminate].
Qed.
Lemma NoDup_front {A} (l m : list A) : NoDup (l ++ m) -> NoDup l.
Proof.
  induction l as [|x l IH]; intros H; [constructor|]. inversion H as [|? ? H1 H2]; subst. constructor; [|now apply IH].
  intros Hi. apply H1. apply in_or_app. now left.
Qed.
Lemma args_loop_groups gs : forall d, Forall (fun g => Forall pred_ok (group_preds g)) gs -> NoDup (map fst d ++ map p_key (flat_map group_preds gs)) ->
  args_loop (map content gs) d = Ok (d ++ pairs gs).
Proof.
  induction gs as [|g gs IH]; intros d H Hd; [cbn; now rewrite app_nil_r|]. inversion H as [|? ? Hg Hgs]; subst. cbn [map args_loop flat_map] in *. rewrite map_app in Hd.
  destruct g as [p l]. unfold content at 1 2. unfold group_preds in Hg, Hd at 1. cbn [fst snd] in *.
  rewrite (arg_loop_preds l false p d _ Hg); [|rewrite app_assoc in Hd; now apply NoDup_front in Hd|cbn [app]; lia].
  cbn [bind]. rewrite IH; [|assumption|].
  - unfold pairs. cbn [flat_map]. rewrite map_app, <- app_assoc. reflexivity.
  - rewrite map_app. unfold pairs_of. rewrite map_map. cbn [fst]. rewrite <- app_assoc. exact Hd.
Qed.
Theorem tag_attrs_exact tag gs : tag_ok tag -> gs <> [] -> Forall (fun g => Forall pred_ok (group_preds g)) gs -> NoDup (map p_key (flat_map group_preds gs)) ->
  tag_attrs (element_text tag gs) = Ok (tag, Some (pairs gs)).
Proof.
  intros (Ht & H91 & Hb) Hne H Hd. destruct (groups_match gs Hne H) as (r & Er & Hr). unfold tag_attrs, attr_match, element_text.
  rewrite (span_all _ tag (concat (map group_text gs))).
  - rewrite Er. destruct tag as [|c tag]; [congruence|]. rewrite Hr, <- Er. rewrite bars_skip by exact Hb. rewrite bars_end by now apply groups_free. cbn [app].
    rewrite group_split by assumption. rewrite map_app, map_map.
    assert (Ec : map (fun g => strip_open (lit "[" ++ content g)) gs = map content gs) by (apply map_ext_in; intros g Hg; apply strip_content; rewrite Forall_forall in H; now apply H).
    rewrite Ec. change (map strip_open [[]]) with [@nil N].
    assert (Ea : forall l d x, args_loop l d = Ok x -> args_loop (l ++ [[]]) d = Ok x).
    { induction l as [|a l IH]; intros d x E; [exact E|]. cbn [app args_loop] in *. destruct (arg_loop _ a d); [|discriminate]. cbn [bind] in *. now apply IH. }
    rewrite (Ea _ _ _ (args_loop_groups gs [] H Hd)). reflexivity.
  - apply forallb_forall. intros c Hc. apply Bool.negb_true_iff, N.eqb_neq. intros ->. contradiction.
  - rewrite Er. reflexivity.
Qed.
Theorem tag_attrs_plain tag : ~ In 91%N tag -> tag_attrs tag = Ok (tag, None).
Proof.
  intros H. unfold tag_attrs, attr_match. rewrite <- (app_nil_r tag) at 1. rewrite span_all; [now destruct tag| |reflexivity].
  apply forallb_forall. intros c Hc. apply Bool.negb_true_iff, N.eqb_neq. intros ->. contradiction.
Qed.
