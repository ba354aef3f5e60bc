(** The order of bits (C14). *)
From Coq Require Import NArith List.
Import ListNotations.
Local Open Scope N_scope.

(** The number has this many decimal digits. *)
Definition has_digits (p a : N) : Prop := (p = 0 /\ a = 1) \/ (0 < a /\ 10 ^ (a - 1) <= p < 10 ^ a).
(** Numbers as the decimals 0.p and 0.q: 0.10 comes before 0.2; of 0.1 and 0.10 the smaller number comes first. *)
Definition fraction_le (p q : N) : Prop :=
  exists a b, has_digits p a /\ has_digits q b /\ (p * 10 ^ b < q * 10 ^ a \/ (p * 10 ^ b = q * 10 ^ a /\ p <= q)).
