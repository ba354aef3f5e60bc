(** What is asked of a bits leaf as a Python set (C101): the meaning of the operations on sets. *)
From Verif Require Import PyStr Bits BitsSets.

(** [x] is in the set after the operation on [l]; [i] of pop is the place of the element that the set gives out. *)
Definition meaning (o : sop) (l : list str) (x : str) : Prop :=
  match o with
  | Own (BAdd b) => In x l \/ x = b
  | Own (BDiscard b) | Own (BRemove b) => In x l /\ x <> b
  | Own BClear => False
  | Own (BPop i) => In x l /\ nth_error l i <> Some x
  | Update u => In x l \/ In x u
  | InterUpdate u => In x l /\ In x u
  | DiffUpdate u => In x l /\ ~ In x u
  | SymUpdate u => (In x l /\ ~ In x u) \/ (In x u /\ ~ In x l)
  end.
(** The bits that an operation can bring in without looking at them. *)
Definition brings (o : sop) (l : list str) (x : str) : Prop :=
  match o with Update u | SymUpdate u => In x u /\ ~ In x l | _ => False end.
Definition inherited (o : sop) : bool := match o with Own _ => false | _ => true end.
Definition through_leaf (o : sop) : bool := match o with Own (BRemove _) | Own (BPop _) => true | _ => false end.
(** The calls that return. *)
Definition returns (allowed : list (str * str)) (helper : bool) (l : list str) (o : sop) : Prop :=
  match o with
  | Own (BAdd b) | Own (BDiscard b) => In b (map fst allowed)
  | Own (BRemove b) => helper = false /\ In b l
  | Own (BPop i) => i < length l
  | _ => True
  end.
