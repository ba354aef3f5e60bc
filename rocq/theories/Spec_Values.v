(** Vocabulary for the values held by a tree. *)
From Verif Require Import PyStr PyVal Spec_Types Spec_Lists Spec_Serialise.
Local Open Scope Z_scope.

(** What an argument that the type cannot make sense of is turned into (C10). *)
Definition blank (t : mtype) (v : pyval) : Prop :=
  match t with
  | MInt _ => v = VInt 0
  | MStr _ => v = VStr []
  | MDec _ => v = VDec 0 0
  | _ => False
  end.
(** Restricted at one level only. *)
Definition one_level (t : mtype) : Prop :=
  match t with MInt levels => length levels = 1%nat | MStr levels => length levels = 1%nat | _ => True end.
Definition one_level_text (t : mtype) : Prop :=
  match t with MStr levels => length levels = 1%nat | _ => True end.

(** [v] is a value of the leaf type [w].  A leaf of a single type may hold the blank value; the value of a union is one
    of a member type. *)
Definition holds (M : str -> str -> bool) (w : wtype) (v : pyval) : Prop :=
  match w with
  | WVal t => mtype_wf t -> one_level_text t -> is_value M t v \/ blank t v
  | WBits a => exists l, v = VBits l /\ legal a l
  | WUnion ts => Forall mtype_wf ts -> Forall one_level ts -> exists t, In t ts /\ is_value M t v
  | WRef => True
  end.

(** What a leaf holds that is not set.  (A union takes the blank value of its first member type.) *)
Definition start_of (t : mtype) : pyval :=
  match t with
  | MInt _ => VInt 0
  | MStr _ | MText | MEnum _ => VStr []
  | MBool => VBool false
  | MBin => VBytes []
  | MDec _ => VDec 0 0
  end.
Definition start (w : wtype) (v : pyval) : Prop :=
  match w with
  | WVal t => mtype_wf t -> v = start_of t
  | WBits _ => v = VBits []
  | WRef => v = VBool false
  | WUnion (t :: _) => mtype_wf t -> v = start_of t
  | WUnion [] => True
  end.
