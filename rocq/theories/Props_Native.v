(** Property theorems about values that are not given as text: C92. *)
From Coq Require Import QArith Qabs Lia.
From Verif Require Import PyStr PyVal Restricted IntTypes Spec_Types Spec_Lexical Spec_Native.
From Verif Require Native_proofs.
Local Open Scope Z_scope.

(* ------------------------------------------------------------------ C92 *)
(** Numbers of all kinds, for the integer types: what is behind the point is dropped, what is out of range is refused
    and nothing else. *)
Theorem C92_integers : forall O k b v q, class_map_int (kind_name k) = Some b -> number v q -> exists z, toward_zero q z /\
  (kind_ok k z -> leaf_assign O (LOne b) v = {| d_notified := true; d_out := Ok (VInt z) |}) /\
  (~ kind_ok k z -> leaf_assign O (LOne b) v = {| d_notified := false; d_out := Raise ValueError |}).
Proof. exact Native_proofs.native_integer. Qed.
Print Assumptions C92_integers.
(** Bytes are read like text (C82). *)
Theorem C92_bytes : forall O k b l, class_map_int (kind_name k) = Some b -> leaf_assign O (LOne b) (VBytes l) = leaf_assign O (LOne b) (VStr l).
Proof. exact Native_proofs.bytes_integer. Qed.
Print Assumptions C92_bytes.
(** Numbers of all kinds, for decimal64: the nearest value, and none in the range of the type is refused. *)
Theorem C92_decimals : forall O n v q, number v q ->
  (forall w, d_out (leaf_assign O (LOne (TDecPrec n)) v) = Ok w -> exists m, w = VDec m (- n) /\ (2 * Qabs (inject_Z m * 10 ^ (- n) - q) <= 10 ^ (- n))%Q) /\
  ((Qabs q <= inject_Z (2 ^ 63) * 10 ^ (- n))%Q -> exists w, d_out (leaf_assign O (LOne (TDecPrec n)) v) = Ok w).
Proof. exact Native_proofs.native_decimal. Qed.
Print Assumptions C92_decimals.
(** A string takes everything: integers and decimals become a text that is read back as the same number. *)
Theorem C92_strings : forall O v, exists s, leaf_assign O (LOne TStr) v = {| d_notified := true; d_out := Ok (VStr s) |} /\
  match v with
  | VNone => s = lit "None"
  | VBool b => s = if b then lit "True" else lit "False"
  | VInt z => python_int s z
  | VDec c e => python_dec s c e
  | VStr t => s = t
  | _ => True
  end.
Proof. exact Native_proofs.native_string. Qed.
Print Assumptions C92_strings.
(** What is neither a number nor text: 0 for the integer types and for decimal64, except that decimal64 refuses lists;
    binary refuses everything but text and bytes. *)
Theorem C92_things : forall O v, thing v ->
  (forall k b, class_map_int (kind_name k) = Some b -> leaf_assign O (LOne b) v = {| d_notified := true; d_out := Ok (VInt 0) |}) /\
  (forall n, leaf_assign O (LOne (TDecPrec n)) v = match v with VList _ => {| d_notified := false; d_out := Raise ValueError |} | _ => {| d_notified := true; d_out := Ok (VDec 0 0) |} end) /\
  leaf_assign O (LOne TBinary) v = {| d_notified := false; d_out := Raise ValueError |}.
Proof.
  intros O v Hv. split; [intros k b Hb; now apply (Native_proofs.thing_integer O k)|]. split; [intros n; apply Native_proofs.thing_decimal; now left|]. destruct v; try contradiction; reflexivity.
Qed.
Print Assumptions C92_things.
(** Bits: only text is taken; everything else but bytes raises AttributeError, numbers too, and the parent is notified. *)
Theorem C92_bits : forall O allowed v, (thing v \/ exists q, number v q) -> leaf_assign O (LOne (TBits allowed)) v = {| d_notified := true; d_out := Raise AttributeError |}.
Proof. intros O allowed v [H|(q & H)]; [destruct v; try contradiction; reflexivity|]. destruct H; reflexivity. Qed.
Print Assumptions C92_bits.
Theorem C92_binary_numbers : forall O v q, number v q -> leaf_assign O (LOne TBinary) v = {| d_notified := false; d_out := Raise ValueError |}.
Proof. intros O v q H. destruct H; reflexivity. Qed.
Print Assumptions C92_binary_numbers.

(** -7.75 (a float), 12.5 (a Decimal), True, 300 for a uint8, int8 and decimal64 with one digit. *)
Example C92_case : forall O, exists u8 i8, class_map_int (kind_name U8) = Some u8 /\ class_map_int (kind_name I8) = Some i8 /\
  number (VFloat (-31) (-2)) (- (31 # 4)) /\ toward_zero (- (31 # 4)) (-7) /\ number (VDec 125 (-1)) (125 # 10) /\ thing VNone /\ number (VBool true) 1 /\
  d_out (leaf_assign O (LOne i8) (VFloat (-31) (-2))) = Ok (VInt (-7)) /\ d_out (leaf_assign O (LOne u8) (VFloat (-31) (-2))) = Raise ValueError /\
  d_out (leaf_assign O (LOne u8) (VDec 125 (-1))) = Ok (VInt 12) /\ d_out (leaf_assign O (LOne u8) (VInt 300)) = Raise ValueError /\ d_out (leaf_assign O (LOne u8) (VBytes (lit "30"))) = Ok (VInt 30) /\
  d_out (leaf_assign O (LOne (TDecPrec 1)) (VFloat (-31) (-2))) = Ok (VDec (-78) (-1)).
Proof.
  intros O. eexists _, _. split; [reflexivity|]. split; [reflexivity|].
  split; [exact (NFloat (-31) (-2))|]. split; [unfold toward_zero, Qle, Qlt; cbn; lia|]. split; [exact (NDec 125 (-1))|]. split; [exact Logic.I|]. split; [exact (NBool true)|].
  repeat (split; [vm_compute; reflexivity|]). vm_compute. reflexivity.
Qed.
(** Expected: a value that is no number is refused, and one that is no integer too. *)
Theorem C92_none_refuted : forall O, exists b v, class_map_int (kind_name U8) = Some b /\ v = VNone /\ leaf_assign O (LOne b) v = {| d_notified := true; d_out := Ok (VInt 0) |}.
Proof. intros O. eexists _, _. split; [reflexivity|]. split; reflexivity. Qed.
Print Assumptions C92_none_refuted.
Theorem C92_fraction_refuted : forall O, exists b v q, class_map_int (kind_name U8) = Some b /\ number v q /\ (forall z, ~ (q == inject_Z z)%Q) /\ leaf_assign O (LOne b) v = {| d_notified := true; d_out := Ok (VInt 1) |}.
Proof.
  intros O. eexists. exists (VFloat 3 (-1)). eexists. split; [reflexivity|]. split; [apply NFloat|]. split; [|vm_compute; reflexivity]. intros z H. unfold Qeq in H. cbn in H. lia.
Qed.
Print Assumptions C92_fraction_refuted.
(** False is not tested against the range of the leaf itself. *)
Theorem C92_false_refuted : forall O, exists b own, class_map_int (kind_name U8) = Some b /\ leaf_assign O (leaf_of b own) (VBool false) = {| d_notified := true; d_out := Ok (VInt 0) |} /\ ~ in_parts 0 own /\
  d_out (leaf_assign O (leaf_of b own) (VInt 0)) = Raise ValueError.
Proof.
  intros O. eexists. exists [rng 5 10]. split; [reflexivity|]. split; [vm_compute; reflexivity|]. split; [|vm_compute; reflexivity].
  intros H. apply Range_proofs.in_partsb_iff in H. vm_compute in H. discriminate.
Qed.
Print Assumptions C92_false_refuted.
(** The value of a bits leaf cannot be assigned to another bits leaf of the same type. *)
Theorem C92_bits_refuted : forall O, exists allowed v, d_out (leaf_assign O (LOne (TBits allowed)) (VStr (lit "up"))) = Ok v /\ d_out (leaf_assign O (LOne (TBits allowed)) v) = Raise AttributeError.
Proof. intros O. exists [(lit "up", lit "0")]. eexists. split; reflexivity. Qed.
Print Assumptions C92_bits_refuted.
