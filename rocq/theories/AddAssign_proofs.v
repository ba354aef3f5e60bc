(** Lemmas about += on leaf-lists. *)
From Verif Require Import PyStr PyVal Restricted IntTypes Spec_Types Spec_Lists TypedList TypedList_proofs AddAssign.
Import ListNotations.
Local Open Scope list_scope.

Definition plain (t : pty) : bool := match t with TStr | TBool | TBits _ => true | _ => false end.
Lemma plain_list O t l : plain t = true -> member_try O t (VList l) = None.
Proof. destruct t; cbn [plain]; intros H; try discriminate H; reflexivity. Qed.
Lemma plain_lists O ts l : Forall (fun t => plain t = true) ts -> member_value O ts (VList l) = None.
Proof. induction ts as [|t ts IH]; intros H; [reflexivity|]. inversion H; subst. cbn [member_value]. rewrite plain_list by assumption. now apply IH. Qed.
Lemma extend_raise O ts vs : forall l l' e, tl_extend O ts true l vs = (l', Raise e) -> e = ValueError.
Proof.
  induction vs as [|v vs IH]; intros l l' e E; cbn [tl_extend] in E; [discriminate E|]. destruct (tl_append O ts true l v) as [l1 [[]|e1]] eqn:A; [now apply IH in E|].
  injection E as _ <-. unfold tl_append, tl_check in A. destruct (true && py_in v l)%bool; [discriminate A|]. destruct (member_value O ts v); inversion A; reflexivity.
Qed.
Lemma iadd_thm O ts l vs : Forall (fun t => plain t = true) ts ->
  snd (tl_iadd O ts l vs) = Raise ValueError /\ exists r, seq_step (member_value O ts) l (LExtend vs) (fst (tl_iadd O ts l vs)) r.
Proof.
  intros H. pose proof (op_step O ts l (LExtend vs)) as S. cbn [tl_op] in S. unfold tl_iadd. destruct (tl_extend O ts true l vs) as [l' [u|e]] eqn:E; cbn [fst snd] in S |- *.
  - unfold tl_check. cbn [py_in existsb andb]. rewrite plain_lists by exact H. cbn [fst snd]. split; [reflexivity|]. exists (Ok u). exact S.
  - split; [apply extend_raise in E; subst; reflexivity|]. exists (Raise e). exact S.
Qed.

Lemma pattern_list O p q l : convert_regexp p = Ok q ->
  member_try O (TRestr TStr [RPattern p]) (VList l) = if o_match O q (o_str O (VList l)) then Some (VStr (o_str O (VList l))) else None.
Proof.
  intros H. unfold member_try, ty_call. cbn [ty_new ty_init build fst snd is_restr]. cbn. unfold pattern_test. rewrite H. cbn.
  destruct (o_match O q (o_str O (VList l))) ; reflexivity.
Qed.
Lemma iadd_pattern O p q l vs l' : convert_regexp p = Ok q -> tl_op O [TRestr TStr [RPattern p]] true l (LExtend vs) = (l', Ok tt) ->
  tl_iadd O [TRestr TStr [RPattern p]] l vs =
    if o_match O q (o_str O (VList l')) then ([VStr (o_str O (VList l'))], Ok tt) else (l', Raise ValueError).
Proof.
  intros H E. cbn [tl_op] in E. unfold tl_iadd. rewrite E. unfold tl_check. cbn [py_in existsb andb member_value]. rewrite (pattern_list O p q l' H).
  destruct (o_match O q (o_str O (VList l'))); reflexivity.
Qed.

Lemma int_list O k b l : class_map_int (kind_name k) = Some b -> member_try O b (VList l) = None.
Proof. destruct k; intros H; apply (f_equal (fun o => match o with Some x => x | None => b end)) in H; cbv beta iota in H; rewrite <- H; destruct l; vm_compute; reflexivity. Qed.
Lemma iadd_int O k b l vs : class_map_int (kind_name k) = Some b ->
  snd (tl_iadd O [b] l vs) = Raise ValueError /\ exists r, seq_step (member_value O [b]) l (LExtend vs) (fst (tl_iadd O [b] l vs)) r.
Proof.
  intros H. pose proof (op_step O [b] l (LExtend vs)) as S. cbn [tl_op] in S. unfold tl_iadd. destruct (tl_extend O [b] true l vs) as [l' [u|e]] eqn:E; cbn [fst snd] in S |- *.
  - unfold tl_check. cbn [py_in existsb andb member_value]. rewrite (int_list O k b l' H). cbn [fst snd]. split; [reflexivity|]. exists (Ok u). exact S.
  - split; [apply extend_raise in E; subst; reflexivity|]. exists (Raise e). exact S.
Qed.
