(** Vocabulary for the property of ranges of decimal64 (C93). *)
From Coq Require Import QArith Qabs.
From Verif Require Import PyStr PyVal Restricted Spec_Types Spec_Defaults Spec_Native.
Local Open Scope Z_scope.

(** A number in a range (RFC 6020, 9.2.4 and 9.3.4): a sign, digits, digits behind the point. *)
Record bound := { b_minus : bool; b_whole : list Z; b_fraction : list Z }.
Definition bound_wf (b : bound) : Prop := b_whole b <> [] /\ all_below 10 (b_whole b) /\ all_below 10 (b_fraction b).
Definition bound_text (b : bound) : str :=
  (if b_minus b then lit "-" else []) ++ digits (b_whole b) ++ match b_fraction b with [] => [] | fs => lit "." ++ digits fs end.
Definition bound_units (b : bound) : Z := (if b_minus b then -1 else 1) * magnitude 10 (b_whole b ++ b_fraction b).
Definition bound_value (b : bound) : Q := (inject_Z (bound_units b) * 10 ^ (- Z.of_nat (length (b_fraction b))))%Q.

(** A part of a range, and the values in it. *)
Inductive dpart := DBetween (lo hi : option bound) (sp1 sp2 : nat) | DExactly (b : bound).
Definition in_dpart (q : Q) (p : dpart) : Prop :=
  match p with
  | DBetween lo hi _ _ => match lo with Some l => (bound_value l <= q)%Q | None => True end /\ match hi with Some h => (q <= bound_value h)%Q | None => True end
  | DExactly b => (q == bound_value b)%Q
  end.
Definition dpart_text (p : dpart) : str :=
  match p with
  | DBetween lo hi a b => match lo with Some l => bound_text l | None => lit "min" end ++ spaces a ++ lit ".." ++ spaces b ++ match hi with Some h => bound_text h | None => lit "max" end
  | DExactly b => bound_text b
  end.
Definition dpart_bounds (p : dpart) : list bound :=
  match p with
  | DBetween lo hi _ _ => match lo with Some l => [l] | None => [] end ++ match hi with Some h => [h] | None => [] end
  | DExactly b => [b]
  end.

(** A leaf of type decimal64 with ranges, the leaf's own first.  [Some n]: fraction-digits n is in a typedef without a
    range; [None]: fraction-digits and a range are in one type statement, and the plugin drops the first (C56). *)
Definition dec_base (d : option nat) : pty := match d with Some n => TDecPrec (Z.of_nat n) | None => TDecimal end.
Fixpoint dec_type (d : option nat) (levels : list (list dpart)) : pty :=
  match levels with [] => dec_base d | l :: ls => TRestr (dec_type d ls) [RRange (map dpart_text l)] end.
Definition in_dlevels (q : Q) (levels : list (list dpart)) : Prop := Forall (Exists (in_dpart q)) levels.
(** The number is one of the type. *)
Definition bound_fits (d : option nat) (b : bound) : Prop :=
  match d with
  | None => True
  | Some n => (length (b_fraction b) <= n)%nat /\ Z.abs (bound_units b) * 10 ^ (Z.of_nat n - Z.of_nat (length (b_fraction b))) <= 2 ^ 63
  end.
(** A number that a double holds. *)
Definition double (q : Q) : Prop := exists m e, Z.abs m < 2 ^ 53 /\ (q == inject_Z m * 2 ^ e)%Q.
(** Every range is within the ones it restricts (RFC 6020, 9.2.4); single numbers are doubles. *)
Fixpoint dlevels_wf (d : option nat) (levels : list (list dpart)) : Prop :=
  match levels with
  | [] => True
  | l :: ls => Forall (fun p => match p with DExactly b => double (bound_value b) | _ => True end) l /\
               Forall (fun p => Forall (fun b => bound_wf b /\ bound_fits d b /\ in_dlevels (bound_value b) ls) (dpart_bounds p)) l /\ dlevels_wf d ls
  end.
(** The numbers that a leaf can be given, as a Python number or as text. *)
Definition means (v : pyval) (q : Q) : Prop :=
  number v q /\ v <> VBool false \/ (exists t z n, v = VStr t /\ dec_text t z n /\ (q == inject_Z z * 10 ^ (- Z.of_nat n))%Q).
(** The number of the type that is kept for a number: the number itself, or a nearest one. *)
Definition kept (d : option nat) (q r : Q) : Prop :=
  match d with
  | None => (r == q)%Q
  | Some n => (exists m, (r == inject_Z m * 10 ^ (- Z.of_nat n))%Q) /\ (2 * Qabs.Qabs (r - q) <= 10 ^ (- Z.of_nat n))%Q
  end.
Definition in_reach (d : option nat) (q : Q) : Prop := match d with None => True | Some n => (Qabs.Qabs q <= inject_Z (2 ^ 63) * 10 ^ (- Z.of_nat n))%Q end.
