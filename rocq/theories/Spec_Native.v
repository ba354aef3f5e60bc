(** Vocabulary for the property of values that are not given as text (C92): the number that a Python value is. *)
From Coq Require Import QArith Qabs.
From Verif Require Import PyStr PyVal.
Local Open Scope Q_scope.

Inductive number : pyval -> Q -> Prop :=
| NBool b : number (VBool b) (if b then 1 else 0)
| NInt z : number (VInt z) (inject_Z z)
| NFloat m e : number (VFloat m e) (inject_Z m * 2 ^ e)
| NDec c e : number (VDec c e) (inject_Z c * 10 ^ e).
(** The integer that is left when what is behind the point is dropped. *)
Definition toward_zero (q : Q) (z : Z) : Prop := Qabs (inject_Z z) <= Qabs q /\ Qabs q < Qabs (inject_Z z) + 1 /\ 0 <= q * inject_Z z.
(** No number, and no text. *)
Definition thing (v : pyval) : Prop := match v with VNone | VBits _ | VList _ | VDict _ => True | _ => False end.
