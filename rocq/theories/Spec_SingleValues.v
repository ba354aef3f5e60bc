(** Vocabulary for single numbers in ranges (C07). *)
From Coq Require Import ZArith List.
From Verif Require Import PyStr Spec_Types.
Import ListNotations.
Local Open Scope Z_scope.

(** Integers that are doubles (of 53 bits), and the double for an integer: none is nearer, and if another one is as near, this
    one is even. *)
Definition double_int (x : Z) : Prop := exists m e, 0 <= e /\ Z.abs m < 2 ^ 53 /\ x = m * 2 ^ e.
Definition nearest_double (n f : Z) : Prop :=
  double_int f /\ forall g, double_int g -> Z.abs (n - f) <= Z.abs (n - g) /\
    (g <> f -> Z.abs (n - f) = Z.abs (n - g) -> exists m e, 0 <= e /\ f = m * 2 ^ e /\ 2 ^ 52 <= Z.abs m <= 2 ^ 53 /\ Z.even m = true).
(** A part of a range, with its double for a single number. *)
Definition rounded (p p' : part) : Prop :=
  match p, p' with
  | Exactly n, Exactly f => nearest_double n f
  | Between _ _ _ _, _ => p' = p
  | _, _ => False
  end.
