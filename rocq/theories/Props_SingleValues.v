(** Property theorems about single numbers in ranges: C05, C07. *)
From Verif Require Import PyStr PyVal Restricted IntTypes Spec_Types Spec_SingleValues.
From Verif Require SingleValues_proofs.
Import ListNotations.
Local Open Scope Z_scope.

(* ------------------------------------------------------------------ C05 *)
(** Ranges with any single numbers: the leaf accepts exactly the integers of its type in the parts of the range, where a single
    number stands for the double nearest to it. *)
Theorem C05_all_numbers : forall O k b own,
  class_map_int (kind_name k) = Some b -> Forall (fun p => Forall (kind_ok k) (part_bounds p)) own ->
  exists own', Forall2 rounded own own' /\ forall z,
    (in_parts z own' /\ kind_ok k z -> d_out (leaf_assign O (leaf_of b own) (VInt z)) = Ok (VInt z)) /\
    (~ (in_parts z own' /\ kind_ok k z) -> d_out (leaf_assign O (leaf_of b own) (VInt z)) = Raise ValueError).
Proof. exact SingleValues_proofs.exact_thm. Qed.
Print Assumptions C05_all_numbers.

(* ------------------------------------------------------------------ C07 *)
(** All numbers: a leaf with range "n" accepts exactly the double nearest to n, if the type has it. *)
Theorem C07_exact : forall O k b n, class_map_int (kind_name k) = Some b -> kind_ok k n ->
  exists f, nearest_double n f /\ (forall g, nearest_double n g -> g = f) /\ forall z,
    (z = f /\ kind_ok k z -> d_out (leaf_assign O (leaf_of b [Exactly n]) (VInt z)) = Ok (VInt z)) /\
    (~ (z = f /\ kind_ok k z) -> d_out (leaf_assign O (leaf_of b [Exactly n]) (VInt z)) = Raise ValueError).
Proof. exact SingleValues_proofs.single_exact. Qed.
Print Assumptions C07_exact.

(** So a range can leave nothing: that of the largest uint64 alone. *)
Theorem C07_nothing_refuted : forall O, exists b, class_map_int (kind_name U64) = Some b /\ kind_ok U64 (2 ^ 64 - 1) /\
  forall z, d_out (leaf_assign O (leaf_of b [Exactly (2 ^ 64 - 1)]) (VInt z)) = Raise ValueError.
Proof. exact SingleValues_proofs.top_refuted. Qed.
Print Assumptions C07_nothing_refuted.

(** Two numbers between doubles, one of them negative, beside an interval. *)
Example C07_exact_case : forall O, exists b, class_map_int (kind_name I64) = Some b /\
  Forall (fun p => Forall (kind_ok I64) (part_bounds p)) [Exactly (2 ^ 53 + 1); Exactly (- 2 ^ 53 - 3); Between (Some 1) (Some 9) 0 0] /\
  let t z := d_out (leaf_assign O (leaf_of b [Exactly (2 ^ 53 + 1); Exactly (- 2 ^ 53 - 3); Between (Some 1) (Some 9) 0 0]) (VInt z)) in
  t (2 ^ 53) = Ok (VInt (2 ^ 53)) /\ t (2 ^ 53 + 1) = Raise ValueError /\ t (2 ^ 53 + 2) = Raise ValueError /\
  t (- 2 ^ 53 - 4) = Ok (VInt (- 2 ^ 53 - 4)) /\ t (- 2 ^ 53 - 3) = Raise ValueError /\ t (- 2 ^ 53 - 2) = Raise ValueError /\ t 9 = Ok (VInt 9).
Proof.
  intros O. eexists. split; [reflexivity|]. split; [repeat (constructor; [cbn [part_bounds]; repeat (constructor; [split; vm_compute; discriminate|]); constructor|]); constructor|].
  cbv zeta. do 6 (split; [vm_compute; reflexivity|]). vm_compute. reflexivity.
Qed.
