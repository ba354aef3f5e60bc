(** Lemmas about [PyStr]. *)
From Verif Require Import PyStr.
From Coq Require Import Lia ZifyBool ZifyN ZifyNat.

Lemma str_eqb_refl a : str_eqb a a = true.
Proof. induction a as [|x a IH]; cbn [str_eqb]; [reflexivity|]. now rewrite N.eqb_refl, IH. Qed.

Lemma str_eqb_eq a b : str_eqb a b = true <-> a = b.
Proof.
  split.
  - revert b; induction a as [|x a IH]; intros [|y b]; cbn [str_eqb]; intros H; try congruence.
    apply andb_true_iff in H; destruct H as [H1 H2].
    apply N.eqb_eq in H1; apply IH in H2; congruence.
  - intros ->; apply str_eqb_refl.
Qed.

Lemma str_eqb_neq a b : str_eqb a b = false <-> a <> b.
Proof. rewrite <- (str_eqb_eq a b); destruct (str_eqb a b); split; congruence. Qed.

Lemma str_eqb_sym a b : str_eqb a b = str_eqb b a.
Proof.
  destruct (str_eqb a b) eqn:E1; destruct (str_eqb b a) eqn:E2; try reflexivity.
  - apply str_eqb_eq in E1; apply str_eqb_neq in E2; congruence.
  - apply str_eqb_eq in E2; apply str_eqb_neq in E1; congruence.
Qed.

Lemma str_eqb_spec a b : reflect (a = b) (str_eqb a b).
Proof. apply iff_reflect. symmetry; apply str_eqb_eq. Qed.

Lemma str_eq_dec (a b : str) : {a = b} + {a <> b}.
Proof. destruct (str_eqb_spec a b); [left|right]; assumption. Defined.

Lemma str_in_In x l : str_in x l = true <-> In x l.
Proof.
  unfold str_in; rewrite existsb_exists; split.
  - intros (y & Hy & E). apply str_eqb_eq in E; subst; assumption.
  - intros H; exists x; split; [assumption|apply str_eqb_refl].
Qed.

Lemma str_in_false x l : str_in x l = false <-> ~ In x l.
Proof. rewrite <- str_in_In; destruct (str_in x l); split; congruence. Qed.

Lemma ch_in_In c s : ch_in c s = true <-> In c s.
Proof.
  unfold ch_in; rewrite existsb_exists; split.
  - intros (y & Hy & E). apply N.eqb_eq in E; subst; assumption.
  - intros H; exists c; split; [assumption|apply N.eqb_refl].
Qed.

Lemma ch_in_false c s : ch_in c s = false <-> ~ In c s.
Proof. rewrite <- ch_in_In; destruct (ch_in c s); split; congruence. Qed.

(* ------------------------------------------------------------------ split / join *)
Lemma split_on_nonnil c s : split_on c s <> [].
Proof.
  destruct s as [|x s]; cbn [split_on]; [discriminate|].
  destruct (N.eqb x c); [discriminate|]. destruct (split_on c s); discriminate.
Qed.

Lemma join_cons2 sep w w' ws : join sep (w :: w' :: ws) = w ++ sep ++ join sep (w' :: ws).
Proof. reflexivity. Qed.

Lemma join_split c s : join [c] (split_on c s) = s.
Proof.
  induction s as [|x s IH]; cbn [split_on]; [reflexivity|].
  destruct (N.eqb_spec x c) as [->|Hne].
  - destruct (split_on c s) as [|w ws] eqn:E; [now apply split_on_nonnil in E|].
    rewrite join_cons2, IH; reflexivity.
  - destruct (split_on c s) as [|w ws] eqn:E; [now apply split_on_nonnil in E|].
    destruct ws as [|w' ws].
    + cbn [join] in IH |- *. congruence.
    + rewrite join_cons2 in IH |- *. rewrite <- IH; reflexivity.
Qed.

Lemma split_on_no c s : ~ In c s -> split_on c s = [s].
Proof.
  induction s as [|x s IH]; cbn [split_on]; intros H; [reflexivity|].
  destruct (N.eqb_spec x c) as [->|Hne]; [exfalso; apply H; now left|].
  rewrite IH; [reflexivity|]. intros Hin; apply H; now right.
Qed.

Lemma split_on_app c s t : ~ In c s -> split_on c (s ++ c :: t) = s :: split_on c t.
Proof.
  induction s as [|x s IH]; cbn [split_on app]; intros H.
  - now rewrite N.eqb_refl.
  - destruct (N.eqb_spec x c) as [->|Hne]; [exfalso; apply H; now left|].
    rewrite IH; [reflexivity|]. intros Hin; apply H; now right.
Qed.

Lemma split_join c l : l <> [] -> Forall (fun w => ~ In c w) l -> split_on c (join [c] l) = l.
Proof.
  induction l as [|w l IH]; intros Hnil Hall; [congruence|].
  inversion Hall as [|w' l' Hw Hl]; subst.
  destruct l as [|w' l].
  - cbn [join]. now apply split_on_no.
  - rewrite join_cons2. cbn [app].
    change (w ++ c :: join [c] (w' :: l)) with (w ++ c :: (join [c] (w' :: l))).
    rewrite split_on_app by assumption. f_equal.
    apply IH; [discriminate|assumption].
Qed.

Lemma split_on_Forall c s : Forall (fun w => ~ In c w) (split_on c s).
Proof.
  induction s as [|x s IH]; cbn [split_on].
  - constructor; [intros []|constructor].
  - destruct (N.eqb_spec x c) as [->|Hne].
    + constructor; [intros []|assumption].
    + destruct (split_on c s) as [|w ws] eqn:E; [now apply split_on_nonnil in E|].
      inversion IH as [|? ? Hw Hws]; subst. constructor; [|assumption].
      intros [->|Hin]; [congruence|now apply Hw].
Qed.

(* ------------------------------------------------------------------ prefixes *)
Lemma startswith_app p s : startswith p (p ++ s) = true.
Proof. induction p as [|x p IH]; cbn; [reflexivity|]. now rewrite N.eqb_refl, IH. Qed.

Lemma startswith_iff p s : startswith p s = true <-> exists t, s = p ++ t.
Proof.
  split.
  - revert s; induction p as [|x p IH]; intros s H; [exists s; reflexivity|].
    destruct s as [|y s]; cbn in H; [discriminate|].
    apply andb_true_iff in H; destruct H as [H1 H2]. apply N.eqb_eq in H1; subst.
    destruct (IH s H2) as (t & ->). exists t; reflexivity.
  - intros (t & ->); apply startswith_app.
Qed.

(* ------------------------------------------------------------------ decimal printing *)
Definition digitN (c : N) : Prop := (48 <= c <= 57)%N.

Lemma is_digit_iff c : is_digit c = true <-> digitN c.
Proof. unfold is_digit, digitN; lia. Qed.

(** Value of a digit string. *)
Fixpoint dval (s : str) (acc : Z) : Z :=
  match s with
  | [] => acc
  | x :: s' => dval s' (acc * 10 + digit_val x)%Z
  end.

Lemma dval_app s t acc : dval (s ++ t) acc = dval t (dval s acc).
Proof. revert acc; induction s as [|x s IH]; intros acc; cbn [app dval]; [reflexivity|apply IH]. Qed.

Lemma dval_acc s acc : dval s acc = (acc * 10 ^ Z.of_nat (length s) + dval s 0)%Z.
Proof.
  revert acc; induction s as [|x s IH]; intros acc; cbn [dval length].
  - rewrite Z.pow_0_r; lia.
  - rewrite IH. rewrite (IH (0 * 10 + digit_val x)%Z).
    rewrite Nat2Z.inj_succ, Z.pow_succ_r by lia. ring.
Qed.

Lemma print_digits_spec fuel n acc :
  (n < 2 ^ N.of_nat fuel)%N ->
  (0 < fuel)%nat ->
  exists s, print_digits fuel n acc = s ++ acc /\ s <> [] /\
            Forall digitN s /\ dval s 0 = Z.of_N n /\
            (n <> 0%N -> exists c s', s = c :: s' /\ c <> 48%N).
Proof.
  revert n acc; induction fuel as [|fuel IH]; intros n acc Hn Hf; [lia|].
  cbn [print_digits].
  set (d := N.modulo n 10). set (q := N.div n 10).
  assert (Hdq : n = (10 * q + d)%N) by (apply N.div_mod; lia).
  assert (Hd : (d < 10)%N) by (apply N.mod_lt; lia).
  destruct (N.eqb_spec q 0) as [Hq|Hq].
  - exists [(48 + d)%N]. repeat split.
    + discriminate.
    + constructor; [unfold digitN; lia|constructor].
    + cbn [dval]; unfold digit_val. lia.
    + intros Hn0. exists (48 + d)%N, []. split; [reflexivity|]. lia.
  - assert (Hq2 : (q < 2 ^ N.of_nat fuel)%N).
    { rewrite Nat2N.inj_succ, N.pow_succ_r' in Hn.
      unfold q. apply N.div_lt_upper_bound; [lia|].
      pose proof (N.pow_nonzero 2 (N.of_nat fuel)). lia. }
    assert (Hf2 : (0 < fuel)%nat).
    { destruct fuel; [|lia]. cbn in Hq2. lia. }
    destruct (IH q ((48 + d)%N :: acc) Hq2 Hf2) as (s & Hs & Hne & Hdig & Hv & Hlead).
    exists (s ++ [(48 + d)%N]). repeat split.
    + rewrite Hs, <- app_assoc; reflexivity.
    + intros E; apply app_eq_nil in E; destruct E; discriminate.
    + apply Forall_app; split; [assumption|]. constructor; [unfold digitN; lia|constructor].
    + rewrite dval_app. cbn [dval]. rewrite Hv. unfold digit_val. lia.
    + intros _. destruct (Hlead Hq) as (c & s' & -> & Hc).
      exists c, (s' ++ [(48 + d)%N]). split; [reflexivity|assumption].
Qed.

Lemma print_N_spec n :
  print_N n <> [] /\ Forall digitN (print_N n) /\ dval (print_N n) 0 = Z.of_N n /\
  (n <> 0%N -> exists c s', print_N n = c :: s' /\ c <> 48%N).
Proof.
  unfold print_N.
  destruct (print_digits_spec (S (N.to_nat (N.log2 n))) n []) as (s & Hs & H1 & H2 & H3 & H4); [|lia|].
  - rewrite Nat2N.inj_succ, N2Nat.id.
    destruct n as [|p]; [cbn; lia|]. apply N.log2_spec; lia.
  - rewrite app_nil_r in Hs. rewrite Hs. auto.
Qed.

Lemma parse_digits_digits s prev acc :
  Forall digitN s -> (s <> [] \/ prev = true) -> parse_digits s prev acc = Some (dval s acc).
Proof.
  revert prev acc; induction s as [|x s IH]; intros prev acc Hd Hne; cbn [parse_digits dval].
  - destruct Hne as [Hne|Hne]; [congruence|now rewrite Hne].
  - inversion Hd as [|? ? Hx Hs]; subst.
    apply is_digit_iff in Hx; rewrite Hx. apply IH; auto.
Qed.

Lemma digit_not_space c : digitN c -> is_space c = false.
Proof. unfold digitN, is_space; lia. Qed.

Lemma lstrip_id c s : is_space c = false -> lstrip (c :: s) = c :: s.
Proof. cbn [lstrip]; intros ->; reflexivity. Qed.

Lemma lstrip_nospace s : Forall (fun c => is_space c = false) s -> lstrip s = s.
Proof. destruct s as [|c s]; intros H; [reflexivity|]. inversion H; subst. now apply lstrip_id. Qed.

Lemma strip_nospace s : Forall (fun c => is_space c = false) s -> strip s = s.
Proof.
  intros H. unfold strip, rstrip. rewrite (lstrip_nospace s) by assumption.
  rewrite lstrip_nospace; [apply rev_involutive|].
  apply Forall_rev; assumption.
Qed.

Lemma print_Z_nospace z : Forall (fun c => is_space c = false) (print_Z z).
Proof.
  destruct z as [|p|p]; cbn [print_Z].
  - constructor; [reflexivity|constructor].
  - destruct (print_N_spec (Npos p)) as (_ & H & _).
    eapply Forall_impl; [|exact H]. intros; now apply digit_not_space.
  - destruct (print_N_spec (Npos p)) as (_ & H & _).
    constructor; [reflexivity|].
    eapply Forall_impl; [|exact H]. intros; now apply digit_not_space.
Qed.

(** [int(str(z)) = z]. *)
Lemma parse_print_Z z : parse_int (print_Z z) = Some z.
Proof.
  unfold parse_int. rewrite strip_nospace by apply print_Z_nospace.
  destruct z as [|p|p]; cbn [print_Z].
  - reflexivity.
  - destruct (print_N_spec (Npos p)) as (Hne & Hd & Hv & _).
    destruct (print_N (Npos p)) as [|x s] eqn:E; [congruence|].
    inversion Hd as [|? ? Hx Hs]; subst.
    destruct (N.eqb_spec x 45); [unfold digitN in Hx; lia|].
    destruct (N.eqb_spec x 43); [unfold digitN in Hx; lia|].
    rewrite parse_digits_digits; [rewrite Hv; reflexivity|constructor; assumption|left; discriminate].
  - destruct (print_N_spec (Npos p)) as (Hne & Hd & Hv & _).
    rewrite N.eqb_refl.
    rewrite parse_digits_digits; [rewrite Hv; reflexivity|assumption|left; assumption].
Qed.

Lemma print_Z_inj a b : print_Z a = print_Z b -> a = b.
Proof. intros H. pose proof (parse_print_Z a) as Ha. rewrite H, parse_print_Z in Ha. congruence. Qed.

Lemma print_Z_nonnil z : print_Z z <> [].
Proof.
  destruct z as [|p|p]; cbn [print_Z]; try discriminate.
  destruct (print_N_spec (Npos p)) as (Hne & _). assumption.
Qed.

(** Characters of a printed integer. *)
Lemma print_Z_chars z : Forall (fun c => c = 45%N \/ digitN c) (print_Z z).
Proof.
  destruct z as [|p|p]; cbn [print_Z].
  - constructor; [right; unfold digitN; lia|constructor].
  - destruct (print_N_spec (Npos p)) as (_ & H & _).
    eapply Forall_impl; [|exact H]. intros; now right.
  - destruct (print_N_spec (Npos p)) as (_ & H & _).
    constructor; [now left|]. eapply Forall_impl; [|exact H]. intros; now right.
Qed.
