(** Property theorems about += on leaf-lists: C102. *)
From Coq Require Import String.
From Verif Require Import PyStr PyVal Restricted IntTypes Spec_Types Spec_Lists TypedList AddAssign.
From Verif Require AddAssign_proofs.
Import ListNotations.

(* ------------------------------------------------------------------ C102 *)
(** Leaf-lists of strings, booleans and bits: += always raises ValueError, and the members are those that extend() leaves. *)
Theorem C102_always_raises_partial : forall O ts l vs, Forall (fun t => match t with TStr | TBool | TBits _ => true | _ => false end = true) ts ->
  snd (tl_iadd O ts l vs) = Raise ValueError /\ exists r, seq_step (member_value O ts) l (LExtend vs) (fst (tl_iadd O ts l vs)) r.
Proof. exact AddAssign_proofs.iadd_thm. Qed.
Print Assumptions C102_always_raises_partial.

(** The same for leaf-lists of the built-in integer types. *)
Theorem C102_integers : forall O k b l vs, class_map_int (kind_name k) = Some b ->
  snd (tl_iadd O [b] l vs) = Raise ValueError /\ exists r, seq_step (member_value O [b]) l (LExtend vs) (fst (tl_iadd O [b] l vs)) r.
Proof. exact AddAssign_proofs.iadd_int. Qed.
Print Assumptions C102_integers.
Example C102_integers_case : forall O, exists b, class_map_int (kind_name U16) = Some b /\ fst (tl_iadd O [b] [VInt 22] [VInt 80; VInt 443]) = [VInt 22; VInt 80; VInt 443].
Proof. intros O. eexists. split; [reflexivity|]. vm_compute. reflexivity. Qed.

(** Leaf-lists of strings with a pattern: if the text of the whole list matches it, the list becomes that one text. *)
Theorem C102_pattern : forall O p q l vs l', convert_regexp p = Ok q -> tl_op O [TRestr TStr [RPattern p]] true l (LExtend vs) = (l', Ok tt) ->
  tl_iadd O [TRestr TStr [RPattern p]] l vs =
    if o_match O q (o_str O (VList l')) then ([VStr (o_str O (VList l'))], Ok tt) else (l', Raise ValueError).
Proof. exact AddAssign_proofs.iadd_pattern. Qed.
Print Assumptions C102_pattern.
Example C102_pattern_case : let O := {| o_match := fun _ _ => true; o_str := fun _ => lit "['a', 'b']" |} in
  convert_regexp (lit ".*") = Ok (lit "^.*$") /\
  tl_op O [TRestr TStr [RPattern (lit ".*")]] true [VStr (lit "a")] (LExtend [VStr (lit "b")]) = ([VStr (lit "a"); VStr (lit "b")], Ok tt) /\
  tl_iadd O [TRestr TStr [RPattern (lit ".*")]] [VStr (lit "a")] [VStr (lit "b")] = ([VStr (lit "['a', 'b']")], Ok tt).
Proof. cbv zeta. split; [vm_compute; reflexivity|]. split; vm_compute; reflexivity. Qed.

(** x.l += ["b", "a", "c"] with a in the list: all members are taken, and ValueError is raised. *)
Example C102_case : forall O, Forall (fun t => match t with TStr | TBool | TBits _ => true | _ => false end = true) [TStr] /\
  fst (tl_iadd O [TStr] [VStr (lit "a")] [VStr (lit "b"); VStr (lit "a"); VStr (lit "c")]) = [VStr (lit "a"); VStr (lit "b"); VStr (lit "c")].
Proof. intros O. split; [repeat constructor|]. vm_compute. reflexivity. Qed.
(** Strings that a leaf-list of strings takes one by one. *)
Theorem C102_refuted : forall O, exists l vs, Forall (fun v => member_value O [TStr] v = Some v) vs /\
  snd (tl_op O [TStr] true l (LExtend vs)) = Ok tt /\ snd (tl_iadd O [TStr] l vs) = Raise ValueError /\ fst (tl_iadd O [TStr] l vs) = l ++ vs /\ vs <> [].
Proof.
  intros O. exists [VStr (lit "a")], [VStr (lit "b")]. split; [repeat constructor|]. split; [vm_compute; reflexivity|]. split; [vm_compute; reflexivity|].
  split; [vm_compute; reflexivity|discriminate].
Qed.
Print Assumptions C102_refuted.
