(** Lemmas about leaf-lists. *)
From Verif Require Import PyStr PyStr_facts PyVal Restricted Spec_Types Spec_Lists TypedList MemberTypes Member_proofs.
From Coq Require Import Lia ZifyBool ZifyN ZifyNat QArith.
Local Open Scope Z_scope.

(* ---------------------------------------------------------------- Python equality is symmetric *)
Lemma qeq_bool_sym a b : Qeq_bool a b = Qeq_bool b a.
Proof.
  destruct (Qeq_bool b a) eqn:E.
  - apply Qeq_bool_iff in E. apply Qeq_bool_iff. now symmetry.
  - apply not_true_is_false. intros H. apply Qeq_bool_iff in H. symmetry in H. apply Qeq_bool_iff in H. congruence.
Qed.
Lemma bytes_eqb_sym a : forall b, bytes_eqb a b = bytes_eqb b a.
Proof. induction a as [|x a IH]; intros [|y b]; cbn; try reflexivity. now rewrite N.eqb_sym, IH. Qed.
Lemma bytes_eqb_refl a : bytes_eqb a a = true.
Proof. induction a as [|x a IH]; cbn; [reflexivity|]. now rewrite N.eqb_refl. Qed.

Fixpoint vsize (v : pyval) : nat :=
  match v with
  | VList l => S (fold_right (fun x n => vsize x + n)%nat O l)
  | VDict l => S (fold_right (fun p n => vsize (fst p) + vsize (snd p) + n)%nat O l)
  | _ => 1%nat
  end.

Lemma py_eq_sym a b : py_eq a b = py_eq b a.
Proof.
  remember (vsize a) as n eqn:Hn. assert (Hle : (vsize a <= n)%nat) by lia. clear Hn.
  revert a b Hle. induction n as [|n IH]; intros a b Hle; [destruct a; cbn in Hle; lia|].
  destruct a as [|ba|za|m e|s|s|c e|l|l|l], b as [|bb|zb|m' e'|s'|s'|c' e'|l'|l'|l'];
    try reflexivity; try apply qeq_bool_sym.
  - apply str_eqb_sym.
  - apply bytes_eqb_sym.
  - cbn. apply andb_comm.
  - cbn [py_eq]. cbn [vsize] in Hle. revert l' Hle. induction l as [|x l IHl]; intros [|y l'] Hle; try reflexivity.
    cbn [fold_right] in Hle. rewrite IH by lia. rewrite IHl by lia. reflexivity.
  - cbn [py_eq]. cbn [vsize] in Hle. revert l' Hle. induction l as [|[k x] l IHl]; intros [|[k' y] l'] Hle; try reflexivity.
    cbn [fold_right fst snd] in Hle. rewrite (IH k) by lia. rewrite (IH x) by lia. rewrite IHl by lia. reflexivity.
Qed.

Lemma py_in_has v l : py_in v l = true <-> has l v.
Proof. unfold py_in, has. rewrite existsb_exists, Exists_exists. firstorder. Qed.
Lemma py_in_not v l : py_in v l = false <-> ~ has l v.
Proof. rewrite <- py_in_has. destruct (py_in v l); split; congruence. Qed.

(* ---------------------------------------------------------------- sublists *)
Lemma in_insert {A} i (x y : A) l : In y (list_insert i x l) -> y = x \/ In y l.
Proof.
  unfold list_insert. rewrite in_app_iff. cbn. intros [H|[H|H]]; [right|left; now symmetry|right].
  - rewrite <- (firstn_skipn (insert_pos (length l) i) l). apply in_app_iff. now left.
  - rewrite <- (firstn_skipn (insert_pos (length l) i) l). apply in_app_iff. now right.
Qed.
Lemma in_delete {A} k (y : A) l : In y (list_delete k l) -> In y l.
Proof.
  unfold list_delete. rewrite in_app_iff. intros [H|H].
  - rewrite <- (firstn_skipn k l). apply in_app_iff. now left.
  - rewrite <- (firstn_skipn (S k) l). apply in_app_iff. now right.
Qed.

Section TL.
Context (O : oracle).

(* ---------------------------------------------------------------- type safety *)
Section Safe.
Context (ts : list pty) (unique : bool) (P A : pyval -> Prop).
Context (HP : forall v w, A v -> member_value O ts v = Some w -> P w).

Lemma check_safe l v w : A v -> tl_check O ts unique l v = Ok w -> P w.
Proof.
  unfold tl_check. destruct (unique && py_in v l); [discriminate|].
  destruct (member_value O ts v) eqn:E; [|discriminate]. intros Ha H. injection H as <-. eauto.
Qed.
Lemma append_safe l v : A v -> Forall P l -> Forall P (fst (tl_append O ts unique l v)).
Proof.
  unfold tl_append. intros Ha Hl. destruct (unique && py_in v l); [assumption|].
  destruct (tl_check O ts unique l v) eqn:E; [|assumption]. cbn. apply Forall_app. split; [assumption|].
  constructor; [eapply check_safe; eassumption|constructor].
Qed.
Lemma op_safe l o : Forall A (op_args o) -> Forall P l -> Forall P (fst (tl_op O ts unique l o)).
Proof.
  intros Ha Hl. destruct o as [v|i v|i v|i|i|v|vs|]; cbn [tl_op op_args] in *.
  - apply append_safe; [now inversion Ha|assumption].
  - unfold tl_insert. destruct (tl_check O ts unique l v) eqn:E; [|assumption]. cbn. inversion Ha; subst.
    apply Forall_forall. intros y Hy. apply in_insert in Hy as [->|Hy]; [eapply check_safe; eassumption|].
    rewrite Forall_forall in Hl. auto.
  - unfold tl_insert. destruct (tl_check O ts unique l v) eqn:E; [|assumption]. cbn. inversion Ha; subst.
    apply Forall_forall. intros y Hy. apply in_insert in Hy as [->|Hy]; [eapply check_safe; eassumption|].
    rewrite Forall_forall in Hl. auto.
  - destruct (index_pos (length l) i); [|assumption]. cbn. rewrite Forall_forall in *. intros y Hy.
    apply in_delete in Hy. auto.
  - destruct (index_pos (length l) i); [|assumption]. cbn. rewrite Forall_forall in *. intros y Hy.
    apply in_delete in Hy. auto.
  - destruct (find_eq v l); [|assumption]. cbn. rewrite Forall_forall in *. intros y Hy.
    apply in_delete in Hy. auto.
  - revert l Hl. induction Ha as [|v vs Hv _ IH]; intros l Hl; [assumption|]. cbn [tl_extend].
    pose proof (append_safe l v Hv Hl) as Hs. destruct (tl_append O ts unique l v) as [l' [[]|e]]; [|exact Hs].
    apply IH, Hs.
  - constructor.
Qed.
Lemma run_safe os : forall l, Forall (fun o => Forall A (op_args o)) os -> Forall P l -> Forall P (tl_run O ts unique l os).
Proof.
  induction os as [|o os IH]; intros l Ha Hl; [assumption|]. inversion Ha; subst. cbn. apply IH; [assumption|].
  now apply op_safe.
Qed.
Lemma build_safe vs : forall tmp l, Forall A vs -> Forall P tmp -> tl_build O ts unique tmp vs = Ok l -> Forall P l.
Proof.
  induction vs as [|v vs IH]; intros tmp l Ha Ht H; cbn in H; [injection H as <-; assumption|].
  inversion Ha; subst. destruct (unique && py_in v tmp); [eapply IH; eassumption|].
  destruct (tl_check O ts unique [] v) as [w|] eqn:E; [|discriminate]. cbn in H.
  eapply IH; [eassumption| |eassumption]. apply Forall_app. split; [assumption|]. constructor; [|constructor].
  eapply check_safe; eassumption.
Qed.
End Safe.

Lemma value_member ts v w : Forall mtype_wf ts -> (forall t, In t ts -> arg_ok t v) ->
  member_value O (map pty_of ts) v = Some w -> Exists (fun t => is_value (o_match O) t w) ts.
Proof.
  induction ts as [|t ts IH]; intros Hwf Ha H; cbn in H; [discriminate|]. inversion Hwf; subst.
  destruct (member_try O (pty_of t) v) as [w'|] eqn:E.
  - injection H as ->. left. eapply member_is_value; [eassumption| |eassumption]. apply Ha. now left.
  - right. apply IH; [assumption| |assumption]. intros t' Ht'. apply Ha. now right.
Qed.

(** The values a whole assignment stores from. *)
Definition assigned_args (v : pyval) : list pyval := match v with VList vs => vs | _ => [v] end.

Lemma init_safe ts v l : Forall mtype_wf ts ->
  Forall (fun a => forall t, In t ts -> arg_ok t a) (assigned_args v) ->
  tl_init O (map pty_of ts) true v = Ok l -> Forall (fun w => Exists (fun t => is_value (o_match O) t w) ts) l.
Proof.
  intros Hwf Ha H.
  assert (HP : forall a w, (forall t, In t ts -> arg_ok t a) -> member_value O (map pty_of ts) a = Some w ->
     Exists (fun t => is_value (o_match O) t w) ts) by (intros; eapply value_member; eassumption).
  assert (Hone : forall a, (forall t, In t ts -> arg_ok t a) -> (w <- tl_check O (map pty_of ts) true [] a ;; Ok [w]) = Ok l ->
     Forall (fun w => Exists (fun t => is_value (o_match O) t w) ts) l).
  { intros a Hok Hb. destruct (tl_check O (map pty_of ts) true [] a) as [w|] eqn:E; [|discriminate].
    cbn in Hb. injection Hb as <-. constructor; [|constructor].
    exact (check_safe (map pty_of ts) true (fun w => Exists (fun t => is_value (o_match O) t w) ts) _ HP _ _ _ Hok E). }
  destruct v; cbn [tl_init assigned_args] in *; try (apply Hone with (2 := H); now inversion Ha).
  eapply (build_safe (map pty_of ts) true); [exact HP|exact Ha| |exact H]. constructor.
Qed.

Lemma types_safe ts l os : Forall mtype_wf ts ->
  Forall (fun o => Forall (fun v => forall t, In t ts -> arg_ok t v) (op_args o)) os ->
  Forall (fun w => Exists (fun t => is_value (o_match O) t w) ts) l ->
  Forall (fun w => Exists (fun t => is_value (o_match O) t w) ts) (tl_run O (map pty_of ts) true l os).
Proof.
  intros Hwf Ha Hl. eapply run_safe; [|exact Ha|exact Hl]. intros v w Hv Hm. cbn in Hv.
  eapply value_member; eassumption.
Qed.

(* ---------------------------------------------------------------- uniqueness *)
Definition dist (l : list pyval) : Prop := ForallOrdPairs (fun x y => py_eq x y = false) l.

Lemma dist_app l1 l2 : dist (l1 ++ l2) <->
  dist l1 /\ dist l2 /\ (forall x y, In x l1 -> In y l2 -> py_eq x y = false).
Proof.
  unfold dist. induction l1 as [|a l1 IH]; cbn.
  - split; [intros H; split; [constructor|]; split; [assumption|intros x y []]|tauto].
  - split.
    + intros H. inversion H as [|? ? Ha Hd]; subst. apply IH in Hd as (H1 & H2 & H3).
      rewrite Forall_app in Ha. destruct Ha as [Ha1 Ha2]. split; [now constructor|]. split; [assumption|].
      intros x y [->|Hx] Hy; [rewrite Forall_forall in Ha2; auto|auto].
    + intros (H1 & H2 & H3). inversion H1; subst. constructor.
      * apply Forall_app. split; [assumption|]. apply Forall_forall. intros y Hy. apply H3; [now left|assumption].
      * apply IH. split; [assumption|]. split; [assumption|]. intros x y Hx Hy. apply H3; [now right|assumption].
Qed.

Lemma dist_distinct l : dist l -> all_distinct l.
Proof.
  unfold dist, all_distinct. induction 1 as [|a l Ha _ IH]; intros i j x y Hx Hy Hij.
  - destruct i; discriminate.
  - rewrite Forall_forall in Ha. destruct i as [|i], j as [|j]; cbn in Hx, Hy.
    + congruence.
    + injection Hx as ->. apply Ha. eapply nth_error_In; eassumption.
    + injection Hy as ->. rewrite py_eq_sym. apply Ha. eapply nth_error_In; eassumption.
    + eapply IH; [eassumption..|congruence].
Qed.
Lemma distinct_dist l : all_distinct l -> dist l.
Proof.
  induction l as [|a l IH]; intros H; [constructor|]. constructor.
  - apply Forall_forall. intros y Hy. apply In_nth_error in Hy as [j Hj].
    apply (H 0%nat (S j)); [reflexivity|assumption|discriminate].
  - apply IH. intros i j x y Hx Hy Hij. apply (H (S i) (S j)); [assumption..|congruence].
Qed.

Lemma fresh_member l w x : py_in w l = false -> In x l -> py_eq w x = false.
Proof.
  intros H Hx. apply not_true_is_false. intros E. apply py_in_not in H. apply H.
  apply Exists_exists. eauto.
Qed.

Lemma dist_insert l1 l2 w : dist (l1 ++ l2) -> py_in w (l1 ++ l2) = false -> dist (l1 ++ w :: l2).
Proof.
  intros H Hw. apply dist_app in H as (H1 & H2 & H3). apply dist_app. split; [assumption|]. split.
  - constructor; [|assumption]. apply Forall_forall. intros y Hy. eapply fresh_member; [exact Hw|].
    apply in_app_iff. now right.
  - intros x y Hx [->|Hy]; [|auto]. rewrite py_eq_sym. eapply fresh_member; [exact Hw|].
    apply in_app_iff. now left.
Qed.
Lemma dist_delete k l : dist l -> dist (list_delete k l).
Proof.
  unfold list_delete. intros H. rewrite <- (firstn_skipn k l) in H. apply dist_app in H as (H1 & H2 & H3).
  assert (Hs : skipn (S k) l = tl (skipn k l)).
  { clear. revert l. induction k as [|k IH]; intros [|x l]; try reflexivity. cbn [skipn]. apply (IH l). }
  rewrite Hs. apply dist_app. split; [assumption|].
  assert (Hi : forall y, In y (tl (skipn k l)) -> In y (skipn k l)) by (destruct (skipn k l); cbn; auto).
  split; [|intros x y Hx Hy; auto]. destruct (skipn k l); cbn; [constructor|]. now inversion H2.
Qed.

Section Uniq.
Context (ts : list pty).
Definition canon (v : pyval) : Prop := forall w, member_value O ts v = Some w -> w = v.

Lemma append_dist l v : canon v -> dist l -> dist (fst (tl_append O ts true l v)).
Proof.
  intros Hc Hl. unfold tl_append, tl_check. cbn [andb]. destruct (py_in v l) eqn:E; [assumption|].
  destruct (member_value O ts v) as [w|] eqn:Em; [|assumption]. cbn.
  rewrite (Hc w Em). rewrite <- (app_nil_r l) in E. rewrite <- (app_nil_r l) in Hl.
  apply (dist_insert l [] v Hl E).
Qed.
Lemma insert_dist l i v : canon v -> dist l -> dist (fst (tl_insert O ts true l i v)).
Proof.
  intros Hc Hl. unfold tl_insert, tl_check. cbn [andb]. destruct (py_in v l) eqn:E; [assumption|].
  destruct (member_value O ts v) as [w|] eqn:Em; [|assumption]. cbn.
  rewrite (Hc w Em). unfold list_insert. apply dist_insert; rewrite firstn_skipn; assumption.
Qed.
Lemma op_dist l o : Forall canon (op_args o) -> dist l -> dist (fst (tl_op O ts true l o)).
Proof.
  intros Ha Hl. destruct o as [v|i v|i v|i|i|v|vs|]; cbn [tl_op op_args] in *.
  - apply append_dist; [now inversion Ha|assumption].
  - apply insert_dist; [now inversion Ha|assumption].
  - apply insert_dist; [now inversion Ha|assumption].
  - destruct (index_pos (length l) i); [now apply dist_delete|assumption].
  - destruct (index_pos (length l) i); [now apply dist_delete|assumption].
  - destruct (find_eq v l); [now apply dist_delete|assumption].
  - revert l Hl. induction Ha as [|v vs Hv _ IH]; intros l Hl; [assumption|]. cbn [tl_extend].
    pose proof (append_dist l v Hv Hl) as Hs. destruct (tl_append O ts true l v) as [l' [[]|e]]; [|exact Hs].
    apply IH, Hs.
  - constructor.
Qed.
Lemma run_dist os : forall l, Forall (fun o => Forall canon (op_args o)) os -> dist l -> dist (tl_run O ts true l os).
Proof.
  induction os as [|o os IH]; intros l Ha Hl; [assumption|]. inversion Ha; subst. cbn. apply IH; [assumption|].
  now apply op_dist.
Qed.
Lemma build_dist vs : forall tmp l, Forall canon vs -> dist tmp -> tl_build O ts true tmp vs = Ok l -> dist l.
Proof.
  induction vs as [|v vs IH]; intros tmp l Ha Ht H; cbn in H; [injection H as <-; assumption|].
  inversion Ha; subst. destruct (py_in v tmp) eqn:E; [eapply IH; eassumption|].
  unfold tl_check in H. cbn in H. destruct (member_value O ts v) as [w|] eqn:Em; [|discriminate]. cbn in H.
  eapply IH; [eassumption| |exact H]. rewrite (H2 w Em).
  rewrite <- (app_nil_r tmp) in E. rewrite <- (app_nil_r tmp) in Ht. apply (dist_insert tmp [] v Ht E).
Qed.
End Uniq.

Lemma spelled_canon t v : mtype_wf t -> spelled t v -> canon [pty_of t] v.
Proof.
  intros Hwf Hs w H. cbn in H. destruct (member_try O (pty_of t) v) as [w'|] eqn:E; [|discriminate].
  injection H as ->. eapply spelled_id; eassumption.
Qed.

Lemma unique_spelled t l os : mtype_wf t -> Forall (fun o => Forall (spelled t) (op_args o)) os ->
  all_distinct l -> all_distinct (tl_run O [pty_of t] true l os).
Proof.
  intros Hwf Ha Hl. apply dist_distinct, run_dist; [|now apply distinct_dist].
  eapply Forall_impl; [|exact Ha]. intros o Ho. eapply Forall_impl; [|exact Ho].
  intros v Hv. now apply spelled_canon.
Qed.
Lemma unique_init t v l : mtype_wf t -> Forall (spelled t) (assigned_args v) ->
  tl_init O [pty_of t] true v = Ok l -> all_distinct l.
Proof.
  intros Hwf Ha H. apply dist_distinct.
  assert (Hone : forall a, (w <- tl_check O [pty_of t] true [] a ;; Ok [w]) = Ok l -> dist l).
  { intros a Hb. destruct (tl_check O [pty_of t] true [] a) as [w|]; [|discriminate]. cbn in Hb. injection Hb as <-.
    constructor; [constructor|constructor]. }
  destruct v; cbn [tl_init assigned_args] in *; try (eapply Hone; exact H).
  eapply build_dist; [|constructor|exact H]. eapply Forall_impl; [|exact Ha]. intros a Hs. now apply spelled_canon.
Qed.

(* ---------------------------------------------------------------- sequence behaviour *)
Lemma insert_pos_spec n i : Z.of_nat (insert_pos n i) = insert_at i (Z.of_nat n).
Proof. unfold insert_pos, insert_at. destruct (i <? 0) eqn:E; lia. Qed.
Lemma insert_pos_le n i : (insert_pos n i <= n)%nat.
Proof. unfold insert_pos. destruct (i <? 0) eqn:E; lia. Qed.
Lemma index_pos_spec n i : match index_pos n i with
  | Some k => denotes i (Z.of_nat n) (Z.of_nat k)
  | None => forall k, ~ denotes i (Z.of_nat n) k
  end.
Proof.
  unfold index_pos, denotes. destruct (i <? 0) eqn:E; destruct (_ && _)%bool eqn:E2; lia.
Qed.
Lemma split_nth {A} k (l : list A) : (k < length l)%nat -> exists x, l = firstn k l ++ x :: skipn (S k) l.
Proof.
  revert k. induction l as [|a l IH]; intros k Hk; [cbn in Hk; lia|]. destruct k as [|k].
  - exists a. reflexivity.
  - destruct (IH k) as [x Hx]; [cbn in Hk; lia|]. exists x. cbn. f_equal. exact Hx.
Qed.
Lemma find_eq_spec v l : match find_eq v l with
  | Some k => exists x, l = firstn k l ++ x :: skipn (S k) l /\ py_eq x v = true /\ Forall (fun y => py_eq y v = false) (firstn k l)
  | None => Forall (fun y => py_eq y v = false) l
  end.
Proof.
  induction l as [|a l IH]; cbn; [constructor|]. destruct (py_eq a v) eqn:E.
  - exists a. split; [reflexivity|]. split; [assumption|constructor].
  - destruct (find_eq v l) as [k|]; cbn.
    + destruct IH as (x & H1 & H2 & H3). exists x. split; [now f_equal|]. split; [assumption|now constructor].
    + now constructor.
Qed.

Lemma append_step ts l v : seq_step (member_value O ts) l (LAppend v) (fst (tl_append O ts true l v)) (snd (tl_append O ts true l v)).
Proof.
  unfold tl_append, tl_check. cbn [andb]. destruct (py_in v l) eqn:E.
  - apply append_dup. now apply py_in_has.
  - apply py_in_not in E. destruct (member_value O ts v) eqn:Em; cbn; [now apply append_new|now apply append_bad].
Qed.
Lemma insert_step ts l i v o : o = LInsert i v \/ o = LSetItem i v ->
  seq_step (member_value O ts) l o (fst (tl_insert O ts true l i v)) (snd (tl_insert O ts true l i v)).
Proof.
  intros Ho. unfold tl_insert, tl_check. cbn [andb]. destruct (py_in v l) eqn:E; cbn.
  - eapply insert_bad; [exact Ho|]. left. now apply py_in_has.
  - destruct (member_value O ts v) as [w|] eqn:Em; cbn; [|eapply insert_bad; [exact Ho|now right]].
    unfold list_insert. set (k := insert_pos (length l) i).
    pose proof (firstn_skipn k l) as Hsk.
    assert (Hst : seq_step (member_value O ts) (firstn k l ++ skipn k l) o (firstn k l ++ w :: skipn k l) (Ok tt)).
    { eapply insert_new; [exact Ho| |exact Em|].
      - rewrite Hsk. now apply py_in_not.
      - rewrite Hsk. unfold len. rewrite firstn_length_le by apply insert_pos_le. apply insert_pos_spec. }
    rewrite Hsk in Hst. exact Hst.
Qed.
Lemma delete_step ts l i o : o = LDelItem i \/ o = LPop i ->
  let r := match index_pos (length l) i with Some k => (list_delete k l, Ok tt) | None => (l, Raise IndexError) end in
  seq_step (member_value O ts) l o (fst r) (snd r).
Proof.
  intros Ho. pose proof (index_pos_spec (length l) i) as H. destruct (index_pos (length l) i) as [k|]; cbn.
  - assert (Hk : (k < length l)%nat) by (destruct H; lia).
    destruct (split_nth k l Hk) as [x Hx]. unfold list_delete.
    assert (Hst : seq_step (member_value O ts) (firstn k l ++ x :: skipn (S k) l) o (firstn k l ++ skipn (S k) l) (Ok tt)).
    { eapply delete_ok; [exact Ho|]. rewrite <- Hx. unfold len. rewrite firstn_length_le by lia. exact H. }
    rewrite <- Hx in Hst. exact Hst.
  - eapply delete_bad; eassumption.
Qed.

Lemma op_step ts l o : seq_step (member_value O ts) l o (fst (tl_op O ts true l o)) (snd (tl_op O ts true l o)).
Proof.
  destruct o as [v|i v|i v|i|i|v|vs|]; cbn [tl_op].
  - apply append_step.
  - apply insert_step. now left.
  - apply insert_step. now right.
  - apply delete_step. now left.
  - apply delete_step. now right.
  - pose proof (find_eq_spec v l) as H. destruct (find_eq v l) as [k|]; cbn.
    + destruct H as (x & Hx & H1 & H2). unfold list_delete. rewrite Hx at 1. now apply remove_ok.
    + now apply remove_bad.
  - revert l. induction vs as [|v vs IH]; intros l; [apply extend_nil|]. cbn [tl_extend].
    pose proof (append_step ts l v) as Hs. destruct (tl_append O ts true l v) as [l' [[]|e]]; cbn [fst snd] in *.
    + eapply extend_go; [exact Hs|apply IH].
    + now apply extend_stop.
  - apply clear_all.
Qed.

Lemma member_first ts v w : member_value O ts v = Some w <->
  exists ts1 t ts2, ts = ts1 ++ t :: ts2 /\ Forall (fun t' => member_try O t' v = None) ts1 /\ member_try O t v = Some w.
Proof.
  induction ts as [|t ts IH]; cbn.
  - split; [discriminate|]. intros ([|] & ? & ? & ? & _); discriminate.
  - destruct (member_try O t v) as [w'|] eqn:E.
    + split.
      * intros H. injection H as ->. exists [], t, ts. split; [reflexivity|]. split; [constructor|assumption].
      * intros ([|t1 ts1] & t2 & ts2 & Heq & Hf & Ht); cbn in Heq; injection Heq as H1 H2; subst; [congruence|].
        inversion Hf; congruence.
    + rewrite IH. split.
      * intros (ts1 & t2 & ts2 & H1 & Hf & Ht). exists (t :: ts1), t2, ts2. split; [cbn; now f_equal|].
        split; [now constructor|assumption].
      * intros ([|t1 ts1] & t2 & ts2 & Heq & Hf & Ht); cbn in Heq; injection Heq as H1 H2; [congruence|].
        inversion Hf; subst. eauto 6.
Qed.

(* ---------------------------------------------------------------- bits *)
Lemma bits_check allowed u l v : exists e, tl_check O [TBits allowed] u l v = Raise e.
Proof. unfold tl_check. destruct (u && py_in v l)%bool; cbn; eauto. Qed.
Lemma bits_op allowed u o : fst (tl_op O [TBits allowed] u [] o) = [].
Proof.
  assert (Happ : forall v, fst (tl_append O [TBits allowed] u [] v) = []).
  { intros v. unfold tl_append. destruct (u && py_in v [])%bool; [reflexivity|].
    destruct (bits_check allowed u [] v) as [e ->]. reflexivity. }
  assert (Hins : forall i v, fst (tl_insert O [TBits allowed] u [] i v) = []).
  { intros i v. unfold tl_insert. destruct (bits_check allowed u [] v) as [e ->]. reflexivity. }
  destruct o as [v|i v|i v|i|i|v|vs|]; cbn [tl_op]; try apply Happ; try apply Hins; try reflexivity.
  - destruct (index_pos _ i); cbn; [destruct n; reflexivity|reflexivity].
  - destruct (index_pos _ i); cbn; [destruct n; reflexivity|reflexivity].
  - induction vs as [|v vs IH]; [reflexivity|]. cbn [tl_extend]. pose proof (Happ v) as Hv.
    destruct (tl_append O [TBits allowed] u [] v) as [l' [[]|e]]; cbn in Hv; subst l'; [exact IH|reflexivity].
Qed.
Lemma bits_never allowed u os : tl_run O [TBits allowed] u [] os = [].
Proof. induction os as [|o os IH]; [reflexivity|]. cbn [tl_run]. now rewrite bits_op. Qed.
End TL.
