From Verif Require Import PyStr PyStr_facts PyVal Base64 Restricted Spec_Types Bits.
From Coq Require Import Lia ZifyBool ZifyNat ZifyN Permutation Sorted.

Lemma remove_str_In b x l : In x (remove_str b l) <-> In x l /\ x <> b.
Proof.
  induction l as [|y l IH]; cbn; [tauto|]. destruct (str_eqb y b) eqn:E.
  - apply str_eqb_eq in E. subst. rewrite IH. intuition congruence.
  - apply str_eqb_neq in E. cbn. rewrite IH. intuition (subst; auto).
Qed.

Lemma remove_str_NoDup b l : NoDup l -> NoDup (remove_str b l).
Proof.
  induction 1 as [|y l Hn Hd IH]; cbn; [constructor|]. destruct (str_eqb y b); [assumption|].
  constructor; [|assumption]. rewrite remove_str_In. tauto.
Qed.

Lemma remove_legal allowed b l : legal allowed l -> legal allowed (remove_str b l).
Proof. intros [H1 H2]. split; [now apply remove_str_NoDup|]. intros x Hx. apply remove_str_In in Hx. now apply H2. Qed.

Lemma NoDup_snoc {A} (x : A) l : NoDup l -> ~ In x l -> NoDup (l ++ [x]).
Proof.
  intros H Hn. apply NoDup_rev in H. rewrite <- (rev_involutive (l ++ [x])), rev_app_distr. apply NoDup_rev.
  cbn. constructor; [|assumption]. intros H'. apply in_rev in H'. contradiction.
Qed.

Lemma add_legal allowed l b l' : legal allowed l -> bits_add allowed l b = Ok l' -> legal allowed l'.
Proof.
  intros [H1 H2] H. unfold bits_add in H. destruct (str_in b (map fst allowed)) eqn:E; [|discriminate].
  injection H as <-. apply str_in_In in E. destruct (str_in b l) eqn:E2; [split; assumption|].
  apply str_in_false in E2. split; [now apply NoDup_snoc|].
  intros x Hx. apply in_app_or in Hx. destruct Hx as [Hx|[<-|[]]]; auto.
Qed.

Lemma op_legal allowed l o : legal allowed l -> legal allowed (fst (bits_op allowed l o)).
Proof.
  intros H. destruct o as [b|b|b| |i]; cbn.
  - destruct (bits_add allowed l b) eqn:E; [now apply (add_legal allowed l b)|assumption].
  - destruct (str_in _ _); cbn; [now apply remove_legal|assumption].
  - destruct (str_in _ _); cbn; [now apply remove_legal|assumption].
  - split; [constructor|intros b []].
  - destruct (nth_error l i); cbn; [now apply remove_legal|assumption].
Qed.

Lemma run_legal allowed ops : forall l, legal allowed l -> legal allowed (bits_run allowed l ops).
Proof. induction ops as [|o ops IH]; intros l H; [assumption|]. apply IH. now apply op_legal. Qed.

Lemma op_refused allowed l o :
  match o with
  | BAdd b | BDiscard b => (In b (map fst allowed) -> snd (bits_op allowed l o) = Ok tt) /\ (~ In b (map fst allowed) -> bits_op allowed l o = (l, Raise ValueError))
  | BRemove b => (In b l -> snd (bits_op allowed l o) = Ok tt) /\ (~ In b l -> bits_op allowed l o = (l, Raise KeyError))
  | BClear => snd (bits_op allowed l o) = Ok tt
  | BPop i => (l = [] -> bits_op allowed l o = ([], Raise KeyError)) /\ ((i < length l)%nat -> snd (bits_op allowed l o) = Ok tt)
  end.
Proof.
  destruct o as [b|b|b| |i]; cbn [bits_op]; try reflexivity; unfold bits_add.
  - split; intros H; [apply str_in_In in H|apply str_in_false in H]; now rewrite H.
  - split; intros H; [apply str_in_In in H|apply str_in_false in H]; now rewrite H.
  - split; intros H; [apply str_in_In in H|apply str_in_false in H]; now rewrite H.
  - split; [intros ->; now destruct i|]. intros H. apply nth_error_Some in H. now destruct (nth_error l i).
Qed.
(** The members after one operation, in terms of sets. *)
Lemma op_members allowed l o x :
  In x (fst (bits_op allowed l o)) <->
  match o with
  | BAdd b => In x l \/ (x = b /\ In b (map fst allowed))
  | BDiscard b => In x l /\ ~ (x = b /\ In b (map fst allowed))
  | BRemove b => In x l /\ x <> b
  | BClear => False
  | BPop i => In x l /\ nth_error l i <> Some x
  end.
Proof.
  destruct o as [b|b|b| |i]; cbn.
  - unfold bits_add. destruct (str_in b (map fst allowed)) eqn:E.
    + apply str_in_In in E. destruct (str_in b l) eqn:E2; cbn.
      * apply str_in_In in E2. intuition (subst; auto).
      * rewrite in_app_iff. cbn. intuition (subst; auto).
    + apply str_in_false in E. cbn. tauto.
  - destruct (str_in b _) eqn:E; cbn.
    + apply str_in_In in E. rewrite remove_str_In. tauto.
    + apply str_in_false in E. tauto.
  - destruct (str_in b _) eqn:E; cbn.
    + now rewrite remove_str_In.
    + apply str_in_false in E. split; [|tauto]. intros H. split; [assumption|]. intros ->. contradiction.
  - tauto.
  - destruct (nth_error l i) as [b|] eqn:E; cbn.
    + rewrite remove_str_In. split; intros [H1 H2]; (split; [assumption|]); congruence.
    + split; [intros H; split; [assumption|discriminate]|tauto].
Qed.

(* ---------------------------------------------------------------- sorting *)
Lemma str_leb_refl a : str_leb a a = true.
Proof. induction a as [|x a IH]; cbn; [reflexivity|]. now rewrite N.eqb_refl. Qed.

Lemma str_leb_total a : forall b, str_leb a b = true \/ str_leb b a = true.
Proof.
  induction a as [|x a IH]; intros [|y b]; cbn; auto.
  destruct (N.eqb_spec x y) as [->|Hn].
  - rewrite N.eqb_refl. apply IH.
  - rewrite (proj2 (N.eqb_neq y x)) by congruence. lia.
Qed.

Lemma str_leb_trans a : forall b c, str_leb a b = true -> str_leb b c = true -> str_leb a c = true.
Proof.
  induction a as [|x a IH]; intros [|y b] [|z c]; cbn; auto; try discriminate.
  destruct (N.eqb_spec x y) as [->|H1]; destruct (N.eqb_spec y z) as [->|H2].
  - rewrite ?N.eqb_refl. apply IH.
  - intros _ H. try rewrite (proj2 (N.eqb_neq _ _) H2). exact H.
  - intros H _. try rewrite (proj2 (N.eqb_neq _ _) H1). exact H.
  - intros Ha Hb. destruct (N.eqb_spec x z) as [->|H3]; [lia|lia].
Qed.

Lemma insert_by_perm key x l : Permutation (insert_by key x l) (x :: l).
Proof.
  induction l as [|y l IH]; cbn; [constructor; constructor|].
  destruct (str_leb _ _); [reflexivity|]. rewrite IH. constructor.
Qed.

Lemma sort_by_perm key l : Permutation (sort_by key l) l.
Proof. induction l as [|x l IH]; cbn; [constructor|]. rewrite insert_by_perm. now constructor. Qed.

Definition kle (key : str -> str) (a b : str) : Prop := str_leb (key a) (key b) = true.

Lemma insert_by_sorted key x l : StronglySorted (kle key) l -> StronglySorted (kle key) (insert_by key x l).
Proof.
  induction 1 as [|y l Hs IH Hall]; cbn; [constructor; constructor|].
  destruct (str_leb (key x) (key y)) eqn:E.
  - constructor; [now constructor|]. constructor; [exact E|].
    eapply Forall_impl; [|exact Hall]. intros z Hz. exact (str_leb_trans _ _ _ E Hz).
  - constructor; [assumption|].
    assert (Hyx : kle key y x) by (destruct (str_leb_total (key x) (key y)); [congruence|assumption]).
    eapply Permutation_Forall; [symmetry; apply insert_by_perm|]. now constructor.
Qed.

Lemma sort_by_sorted key l : StronglySorted (kle key) (sort_by key l).
Proof. induction l as [|x l IH]; cbn; [constructor|now apply insert_by_sorted]. Qed.

(** Equal-length digit strings compare like the numbers they denote. *)
Lemma dval_bound s : Forall digitN s -> (0 <= dval s 0 < 10 ^ Z.of_nat (length s))%Z.
Proof.
  induction s as [|x s IH]; intros H; [cbn; lia|]. inversion H; subst. cbn [dval length].
  rewrite dval_acc. rewrite Nat2Z.inj_succ, Z.pow_succ_r by lia. unfold digit_val, digitN in *.
  specialize (IH ltac:(assumption)). nia.
Qed.

Lemma digits_leb s : forall t, length s = length t -> Forall digitN s -> Forall digitN t ->
  str_leb s t = (dval s 0 <=? dval t 0)%Z.
Proof.
  induction s as [|x s IH]; intros [|y t] Hl Hs Ht; try discriminate; [reflexivity|].
  inversion Hs; inversion Ht; subst. cbn [str_leb dval]. cbn in Hl. injection Hl as Hl.
  rewrite (dval_acc s), (dval_acc t), <- Hl.
  pose proof (dval_bound s ltac:(assumption)) as B1. pose proof (dval_bound t ltac:(assumption)) as B2.
  rewrite <- Hl in B2. unfold digit_val, digitN in *.
  destruct (N.eqb_spec x y) as [->|Hn].
  - rewrite IH by assumption. lia.
  - set (P := (10 ^ Z.of_nat (length s))%Z) in *. destruct (N.ltb_spec x y); nia.
Qed.

(** Parsing what [str()] printed. *)
Lemma split_ws_aux_word w : forall cur rest, Forall (fun c => is_space c = false) w ->
  split_ws_aux cur (w ++ rest) = split_ws_aux (rev w ++ cur) rest.
Proof.
  induction w as [|x w IH]; intros cur rest H; [reflexivity|]. inversion H; subst.
  cbn [app split_ws_aux]. rewrite H2. rewrite IH by assumption. cbn [rev]. now rewrite <- app_assoc.
Qed.

Lemma split_ws_join l : Forall (fun w => w <> [] /\ Forall (fun c => is_space c = false) w) l ->
  split_ws (join [32%N] l) = l.
Proof.
  unfold split_ws. induction l as [|w l IH]; intros H; [reflexivity|]. inversion H as [|? ? [Hne Hw] Hl]; subst.
  assert (Hrev : exists c r, rev w = c :: r).
  { destruct (rev w) as [|c r] eqn:E; [|eauto]. apply (f_equal (@rev N)) in E. rewrite rev_involutive in E. contradiction. }
  destruct Hrev as (c & r & Hr).
  destruct l as [|w' l].
  - cbn [join]. rewrite <- (app_nil_r w) at 1. rewrite split_ws_aux_word by assumption.
    rewrite app_nil_r. cbn [split_ws_aux]. rewrite Hr. rewrite <- Hr, rev_involutive. reflexivity.
  - rewrite join_cons2, split_ws_aux_word by assumption. rewrite app_nil_r. cbn [app split_ws_aux].
    change (is_space 32) with true. cbv iota. rewrite Hr. rewrite <- Hr, rev_involutive. f_equal. now apply IH.
Qed.

Lemma add_all_fresh allowed l2 : forall l1, NoDup (l1 ++ l2) -> (forall b, In b l2 -> In b (map fst allowed)) ->
  bits_add_all allowed l1 l2 = Ok (l1 ++ l2).
Proof.
  induction l2 as [|b l2 IH]; intros l1 Hnd Hall; [now rewrite app_nil_r|].
  cbn [bits_add_all]. unfold bits_add at 1.
  rewrite (proj2 (str_in_In b _)) by (apply Hall; now left).
  apply NoDup_remove in Hnd as Hr. destruct Hr as [Hnd' Hni].
  rewrite (proj2 (str_in_false b l1)) by (intros H; apply Hni; apply in_or_app; now left).
  cbn [bind]. rewrite IH.
  - now rewrite <- app_assoc.
  - now rewrite <- app_assoc.
  - intros x Hx. apply Hall. now right.
Qed.

Lemma bits_reparse allowed l : legal allowed l ->
  Forall (fun w => w <> [] /\ Forall (fun c => is_space c = false) w) (map fst allowed) ->
  exists l', yang_bits allowed (VStr (bits_str allowed l)) = Ok (VBits l') /\ Permutation l' l.
Proof.
  intros [Hnd Hall] Hw. exists (sort_by (pos_of allowed) l). split; [|apply sort_by_perm].
  pose proof (sort_by_perm (pos_of allowed) l) as Hp.
  unfold yang_bits, bits_str. rewrite split_ws_join.
  - rewrite add_all_fresh; [reflexivity| |].
    + cbn. eapply Permutation_NoDup; [symmetry; exact Hp|assumption].
    + intros b Hb. apply Hall. now apply (Permutation_in _ Hp).
  - apply Forall_forall. intros b Hb. rewrite Forall_forall in Hw. apply Hw. apply Hall.
    now apply (Permutation_in _ Hp).
Qed.

Lemma pos_of_decl d b : In b (map fst d) -> pos_of (decl d) b = print_N (declared_pos d b).
Proof.
  induction d as [|[n p] d IH]; cbn; [contradiction|]. intros [->|H]; [now rewrite str_eqb_refl|].
  destruct (str_eqb n b); [reflexivity|now apply IH].
Qed.

Lemma declared_pos_In d b : In b (map fst d) -> In (b, declared_pos d b) d.
Proof.
  induction d as [|[n p] d IH]; cbn; [contradiction|]. intros H.
  destruct (str_eqb n b) eqn:E; [apply str_eqb_eq in E; subst; now left|].
  apply str_eqb_neq in E. destruct H as [H|H]; [contradiction|right; now apply IH].
Qed.

Lemma decl_names d : map fst (decl d) = map fst d.
Proof. unfold decl. rewrite map_map. now apply map_ext. Qed.

Lemma sorted_same_width d w l :
  (forall n p, In (n, p) d -> length (print_N p) = w) ->
  (forall b, In b l -> In b (map fst d)) ->
  StronglySorted (fun a b => (declared_pos d a <= declared_pos d b)%N) (sort_by (pos_of (decl d)) l).
Proof.
  intros Hw Hall.
  pose proof (sort_by_sorted (pos_of (decl d)) l) as Hs.
  assert (Hin : forall b, In b (sort_by (pos_of (decl d)) l) -> In b (map fst d)).
  { intros b Hb. apply Hall. exact (Permutation_in _ (sort_by_perm (pos_of (decl d)) l) Hb). }
  induction Hs as [|a l' Hs IH Hf]; [constructor|].
  constructor; [apply IH; intros b Hb; apply Hin; now right|].
  rewrite Forall_forall in *. intros b Hb. specialize (Hf b Hb). unfold kle in Hf.
  assert (Ha : In a (map fst d)) by (apply Hin; now left).
  assert (Hb' : In b (map fst d)) by (apply Hin; now right).
  rewrite !pos_of_decl in Hf by assumption.
  destruct (print_N_spec (declared_pos d a)) as (_ & D1 & V1 & _).
  destruct (print_N_spec (declared_pos d b)) as (_ & D2 & V2 & _).
  rewrite digits_leb in Hf; [lia| |assumption|assumption].
  rewrite (Hw a _ (declared_pos_In d a Ha)), (Hw b _ (declared_pos_In d b Hb')). reflexivity.
Qed.
