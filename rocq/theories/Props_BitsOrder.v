(** Property theorems about the order of bits: C14. *)
From Coq Require Import String.
From Verif Require Import PyStr PyVal Restricted Bits Spec_Types Spec_BitsOrder.
From Verif Require BitsOrder_proofs.
From Coq Require Import NArith List Permutation Sorted.
Import ListNotations.

(* ------------------------------------------------------------------ C14 *)
(** All positions: str() gives the bits in the order of their positions read as decimals 0.p, so 10 comes before 2, and this is
    the order of the positions exactly if it is for every two of the bits that are set. *)
Theorem C14_order_exact : forall d l, words (map fst d) -> legal (decl d) l ->
  let shown := split_ws (bits_str (decl d) l) in
  Permutation shown l /\ StronglySorted (fun x y => fraction_le (declared_pos d x) (declared_pos d y)) shown /\
  (StronglySorted (fun x y => (declared_pos d x <= declared_pos d y)%N) shown <->
   forall x y, In x l -> In y l -> fraction_le (declared_pos d x) (declared_pos d y) -> (declared_pos d x <= declared_pos d y)%N).
Proof. exact BitsOrder_proofs.order_thm. Qed.
Print Assumptions C14_order_exact.

(** Positions 0, 1, 10 and 2: with the last the order is not that of the positions, without it is. *)
Example C14_order_case : let d := [(lit "z", 0%N); (lit "x", 2%N); (lit "y", 10%N); (lit "w", 1%N)] in
  words (map fst d) /\ legal (decl d) [lit "x"; lit "y"; lit "w"; lit "z"] /\ legal (decl d) [lit "y"; lit "w"; lit "z"] /\
  bits_str (decl d) [lit "x"; lit "y"; lit "w"; lit "z"] = lit "z w y x" /\ bits_str (decl d) [lit "y"; lit "w"; lit "z"] = lit "z w y" /\
  fraction_le 10 2 /\ ~ fraction_le 2 10.
Proof.
  cbv zeta. split; [repeat constructor; cbn; discriminate|]. split. { split; [repeat constructor; cbn; intuition discriminate|]. intros b Hb. cbn in Hb |- *. intuition. }
  split. { split; [repeat constructor; cbn; intuition discriminate|]. intros b Hb. cbn in Hb |- *. intuition. }
  split; [vm_compute; reflexivity|]. split; [vm_compute; reflexivity|]. split; [apply BitsOrder_proofs.print_cmp; vm_compute; reflexivity|].
  intros H. apply BitsOrder_proofs.print_cmp in H. vm_compute in H. discriminate.
Qed.
