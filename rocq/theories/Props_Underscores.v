(** Property theorems about hexadecimal defaults with underscores: C81. *)
From Coq Require Import String ZArith.
From Verif Require Import PyStr PyVal Restricted Defaults Spec_Defaults Spec_Underscores.
From Verif Require Underscores_proofs.
Import ListNotations.

(* ------------------------------------------------------------------ C81 *)
(** Exactly which texts after 0x Python reads as an integer, and which: digits with single underscores between them. *)
Theorem C81_underscores : forall s z, hd 0%N s <> 95%N ->
  (number (lit "0x" ++ s) = SVal (VInt z) <-> exists ds, grouped s ds /\ z = magnitude 16 ds).
Proof. exact Underscores_proofs.number_grouped. Qed.
Print Assumptions C81_underscores.

Example C81_underscores_case : grouped (lit "f_1") [15; 1]%Z /\ number (lit "0xf_1") = SVal (VInt 241) /\ number (lit "0xf__1") = SCode /\ hd 0%N (lit "f_1") <> 95%N.
Proof.
  split; [|split; [vm_compute; reflexivity|split; [vm_compute; reflexivity|discriminate]]].
  apply (Grouped (Z.to_N (15 + 87)) 15); [apply HcLower; split; [discriminate|reflexivity]|]. apply FollowUnderscore.
  apply (Grouped (Z.to_N (1 + 48)) 1); [apply HcDigit; split; [discriminate|reflexivity]|]. constructor.
Qed.
