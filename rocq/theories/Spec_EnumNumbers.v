(** Vocabulary for the numbers of enumerations (C13). *)
From Verif Require Import PyStr PyVal Spec_Types.
Import ListNotations.
Local Open Scope Z_scope.

(** Some name is given the number [z] by a value statement. *)
Definition given (l : list (str * option Z)) (z : Z) : Prop := exists n, In (n, Some z) l.
(** Exactly [k] of the numbers from 0 to below [z] are not given to any name, before or after. *)
Definition free_below (l : list (str * option Z)) (z : Z) (k : nat) : Prop :=
  exists fs, NoDup fs /\ length fs = k /\ forall x, In x fs <-> 0 <= x < z /\ ~ given l x.
(** The free number that has [k] free numbers below it. *)
Definition nth_free (l : list (str * option Z)) (z : Z) (k : nat) : Prop := 0 <= z /\ ~ given l z /\ free_below l z k.
