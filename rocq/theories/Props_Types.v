(** Property theorems about scalar types: C05-C08, C10, C12-C19, C60. *)
From Verif Require Import PyStr PyVal Base64 Restricted IntTypes StrTypes Enum Bits Spec_Types Types_main.
From Verif Require StrTypes_proofs Scalars_proofs Restricted_proofs.
From Coq Require Import Permutation Sorted QArith.
Local Open Scope Z_scope.

(* ------------------------------------------------------------------ C05 *)
(** A leaf of built-in integer type with its own range statement accepts exactly the integers
    in one of the parts (and in the built-in type), and stores the integer unchanged. *)
Theorem C05_range_exact : forall O k b own z,
  class_map_int (kind_name k) = Some b ->
  Forall small_single own ->
  Forall (fun p => Forall (kind_ok k) (part_bounds p)) own ->
  (in_parts z own /\ kind_ok k z -> d_out (leaf_assign O (leaf_of b own) (VInt z)) = Ok (VInt z)) /\
  (~ (in_parts z own /\ kind_ok k z) -> d_out (leaf_assign O (leaf_of b own) (VInt z)) = Raise ValueError).
Proof. exact range_main. Qed.
Print Assumptions C05_range_exact.

Example C05_case : forall O, exists b own,
  class_map_int "int16" = Some b /\ Forall small_single own /\
  Forall (fun p => Forall (kind_ok I16) (part_bounds p)) own /\
  d_out (leaf_assign O (leaf_of b own) (VInt (-7))) = Ok (VInt (-7)) /\
  d_out (leaf_assign O (leaf_of b own) (VInt 5)) = Raise ValueError /\
  d_out (leaf_assign O (leaf_of b own) (VInt 40000)) = Raise ValueError.
Proof.
  intros O. eexists. exists [Between None (Some (-5)) 1 1; Exactly 4; Between (Some 10) None 0 2].
  split; [reflexivity|]. split; [repeat constructor; vm_compute; discriminate|].
  split; [repeat constructor; vm_compute; discriminate|].
  split; [vm_compute; reflexivity|]. split; vm_compute; reflexivity.
Qed.

(* ------------------------------------------------------------------ C06 *)
(** The built-in integer types accept exactly their RFC 6020 value space, as integers and as
    decimal strings; a rejected value does not even notify the parent. *)
Theorem C06_builtin_widths : forall O k b z v,
  class_map_int (kind_name k) = Some b -> v = VInt z \/ v = VStr (print_Z z) ->
  (kind_ok k z -> leaf_assign O (LOne b) v = {| d_notified := true; d_out := Ok (VInt z) |}) /\
  (~ kind_ok k z -> leaf_assign O (LOne b) v = {| d_notified := false; d_out := Raise ValueError |}).
Proof. exact width_main. Qed.
Print Assumptions C06_builtin_widths.

Example C06_case : forall O, exists b, class_map_int (kind_name U64) = Some b /\
  leaf_assign O (LOne b) (VStr (lit "18446744073709551615")) =
    {| d_notified := true; d_out := Ok (VInt 18446744073709551615) |} /\
  leaf_assign O (LOne b) (VInt (-1)) = {| d_notified := false; d_out := Raise ValueError |}.
Proof. intros O. eexists. split; [reflexivity|]. split; vm_compute; reflexivity. Qed.

(* ------------------------------------------------------------------ C07 *)
(** Full statement: [forall n z], a leaf with range "n" accepts z iff z = n.  False: the number
    is compared as a double. *)
Theorem C07_single_value_refuted : forall O,
  exists b n z, class_map_int "uint64" = Some b /\ kind_ok U64 n /\ z <> n /\
    d_out (leaf_assign O (leaf_of b [Exactly n]) (VInt n)) = Raise ValueError /\
    d_out (leaf_assign O (leaf_of b [Exactly n]) (VInt z)) = Ok (VInt z).
Proof. exact single_refuted. Qed.
Print Assumptions C07_single_value_refuted.

(** Missing from the full statement: numbers beyond 2^53 in absolute value. *)
Theorem C07_single_value_partial : forall O k b n z,
  class_map_int (kind_name k) = Some b -> kind_ok k n -> Z.abs n <= 2 ^ 53 ->
  (z = n -> d_out (leaf_assign O (leaf_of b [Exactly n]) (VInt z)) = Ok (VInt z)) /\
  (z <> n -> d_out (leaf_assign O (leaf_of b [Exactly n]) (VInt z)) = Raise ValueError).
Proof. exact single_main. Qed.
Print Assumptions C07_single_value_partial.

Example C07_case : exists b, class_map_int (kind_name I64) = Some b /\ kind_ok I64 (- 2 ^ 53) /\ Z.abs (- 2 ^ 53) <= 2 ^ 53.
Proof. eexists. split; [reflexivity|]. split; [split|]; vm_compute; discriminate. Qed.

(* ------------------------------------------------------------------ C08 *)
(** Full statement: a string leaf accepts a string iff it satisfies every restriction of every
    level.  False with two restrictions on an outer level: one of them is enough. *)
Theorem C08_all_restrictions_refuted : forall O, o_match O (lit "^x$") (lit "ab") = false ->
  exists levels s, slevels_wf levels /\
    ~ Forall (Forall (fun r => sat (o_match O) wrap_anchors r s)) levels /\
    d_out (leaf_assign O (LOne (str_chain levels)) (VStr s)) = Ok (VStr s).
Proof. exact str_refuted. Qed.
Print Assumptions C08_all_restrictions_refuted.

(** What the code enforces for any number of levels: some restriction of every level and every
    restriction of the innermost one.  Missing: all restrictions of the outer levels. *)
Theorem C08_levels_partial : forall O levels s, slevels_wf levels ->
  let ok := Forall (Exists (fun r => sat (o_match O) wrap_anchors r s)) levels /\
            Forall (fun r => sat (o_match O) wrap_anchors r s) (last levels []) in
  (ok -> leaf_assign O (LOne (str_chain levels)) (VStr s) = {| d_notified := true; d_out := Ok (VStr s) |}) /\
  (~ ok -> d_out (leaf_assign O (LOne (str_chain levels)) (VStr s)) = Raise ValueError).
Proof. exact str_chain_main. Qed.
Print Assumptions C08_levels_partial.

(** The full statement holds when each level has one restriction ... *)
Theorem C08_one_per_level_partial : forall O levels s, slevels_wf levels -> Forall (fun l => length l = 1%nat) levels ->
  let ok := Forall (Forall (fun r => sat (o_match O) wrap_anchors r s)) levels in
  (ok -> leaf_assign O (LOne (str_chain levels)) (VStr s) = {| d_notified := true; d_out := Ok (VStr s) |}) /\
  (~ ok -> d_out (leaf_assign O (LOne (str_chain levels)) (VStr s)) = Raise ValueError).
Proof. exact one_per_level_main. Qed.
Print Assumptions C08_one_per_level_partial.

(** ... and when there is a single level. *)
Theorem C08_single_level_partial : forall O l s, l <> [] -> Forall srestr_wf l ->
  (Forall (fun r => sat (o_match O) wrap_anchors r s) l ->
     leaf_assign O (LOne (str_chain [l])) (VStr s) = {| d_notified := true; d_out := Ok (VStr s) |}) /\
  (~ Forall (fun r => sat (o_match O) wrap_anchors r s) l ->
     d_out (leaf_assign O (LOne (str_chain [l])) (VStr s)) = Raise ValueError).
Proof. exact str_single_main. Qed.
Print Assumptions C08_single_level_partial.

Example C08_case : slevels_wf [[SLength [rng 1 3; Exactly 7]]; [SPattern (lit "a*"); SLength [Between None (Some 9) 0 0]]].
Proof.
  repeat constructor; cbn; try discriminate; intros H; repeat (destruct H as [H|H]; try discriminate); contradiction.
Qed.

(* ------------------------------------------------------------------ C10 *)
(** Full statement: the stored value always satisfies the type.  False for integer leaves with
    a range: text that is not a number silently becomes 0; and for length-restricted strings:
    an integer argument becomes the empty string. *)
Theorem C10_no_invalid_value_refuted : forall O,
  (exists k b own v w, class_map_int (kind_name k) = Some b /\
    d_out (leaf_assign O (leaf_of b own) v) = Ok (VInt w) /\ ~ in_parts w own) /\
  (exists ps v w, d_out (leaf_assign O (LOne (str_chain [[SLength ps]])) v) = Ok (VStr w) /\
    ~ in_parts (Z.of_nat (length w)) ps).
Proof. exact (fun O => conj (no_invalid_refuted O) (str_len_int_refuted O)). Qed.
Print Assumptions C10_no_invalid_value_refuted.

(** Whatever Python value is assigned, an integer leaf ends up with the integer the value denotes,
    inside all ranges - or with 0.  Missing: 0 need not be allowed. *)
Theorem C10_int_value_partial : forall O l ls v w n, levels_wf (l :: ls) ->
  leaf_assign O (LOne (int_chain (l :: ls))) v = {| d_notified := n; d_out := Ok w |} ->
  w = VInt 0 \/ exists z, w = VInt z /\ py_int v = Ok z /\ in_levels z (l :: ls).
Proof. exact StrTypes_proofs.int_leaf_value. Qed.
Print Assumptions C10_int_value_partial.

Example C10_case : levels_wf [[rng 5 50]; [rng 1 100]; [rng 0 255]].
Proof. exact three_levels_wf. Qed.

(* ------------------------------------------------------------------ C12 *)
(** An enumeration accepts a value iff its text is a declared name, and stores that name. *)
Theorem C12_enum_accepts : forall O names v,
  (In (py_str O v) names ->
     leaf_assign O (LOne (enum_type names)) v = {| d_notified := true; d_out := Ok (VStr (py_str O v)) |}) /\
  (~ In (py_str O v) names -> d_out (leaf_assign O (LOne (enum_type names)) v) = Raise ValueError).
Proof. exact enum_main. Qed.
Print Assumptions C12_enum_accepts.

(** Numbers: explicit ones kept, every name has one, no two names share one. *)
Theorem C12_enum_numbers : forall l, no_at l -> NoDup (map fst l) -> NoDup (used_values l) ->
  exists num, (forall n ov, In (n, ov) l -> get_value l n = Ok (num n)) /\
    (forall n v, In (n, Some v) l -> num n = v) /\
    (forall n m, In n (map fst l) -> In m (map fst l) -> num n = num m -> n = m) /\
    (forall n, ~ In n (map fst l) -> get_value l n = Raise KeyError).
Proof. exact enum_numbers. Qed.
Print Assumptions C12_enum_numbers.

Example C12_case : let l := [(lit "a", None); (lit "b", Some 0); (lit "c", Some 2); (lit "d", None)] in
  no_at l /\ NoDup (map fst l) /\ NoDup (used_values l) /\ get_value l (lit "a") = Ok 1 /\ get_value l (lit "d") = Ok 5.
Proof. repeat split; repeat constructor; cbn; intuition discriminate. Qed.

(* ------------------------------------------------------------------ C13 *)
Theorem C13_rfc_numbering_refuted :
  exists l, no_at l /\ NoDup (map fst l) /\ exists r, enum_values l = Ok r /\ r <> rfc_numbers 0 l.
Proof. exact rfc_refuted. Qed.
Print Assumptions C13_rfc_numbering_refuted.

(** Missing: enumerations that mix explicit and automatic values. *)
Theorem C13_rfc_numbering_partial : forall l, no_at l -> (forall p, In p l -> snd p = None) ->
  enum_values l = Ok (rfc_numbers 0 l).
Proof. exact rfc_partial. Qed.
Print Assumptions C13_rfc_numbering_partial.

Example C13_case : let l := [(lit "a", None); (lit "b", None); (lit "c", None)] in
  no_at l /\ (forall p, In p l -> snd p = None) /\ rfc_numbers 0 l = [(lit "a", 0); (lit "b", 1); (lit "c", 2)].
Proof. repeat split; repeat constructor. intros p H. cbn in H. intuition (subst; reflexivity). Qed.

(* ------------------------------------------------------------------ C14 *)
(** Any sequence of operations: legal set; str() lists exactly the set bits; reading it back
    gives the same set. *)
Theorem C14_bits_legal_and_reparse : forall d l ops, words (map fst d) -> legal (decl d) l ->
  let l' := bits_run (decl d) l ops in
  legal (decl d) l' /\
  Permutation (split_ws (bits_str (decl d) l')) l' /\
  (exists l2, yang_bits (decl d) (VStr (bits_str (decl d) l')) = Ok (VBits l2) /\ Permutation l2 l').
Proof. exact bits_main. Qed.
Print Assumptions C14_bits_legal_and_reparse.

(** Each operation has its set meaning. *)
Theorem C14_bits_operations : forall allowed l o x,
  In x (fst (bits_op allowed l o)) <->
  match o with
  | BAdd b => In x l \/ (x = b /\ In b (map fst allowed))
  | BDiscard b => In x l /\ ~ (x = b /\ In b (map fst allowed))
  | BRemove b => In x l /\ x <> b
  | BClear => False
  | BPop i => In x l /\ nth_error l i <> Some x
  end.
Proof. exact Bits_proofs.op_members. Qed.
Print Assumptions C14_bits_operations.
(** Unknown bits are refused, and a set gives out only what is in it; a refusal changes nothing. *)
Theorem C14_bits_refused : forall allowed l o,
  match o with
  | BAdd b | BDiscard b => (In b (map fst allowed) -> snd (bits_op allowed l o) = Ok tt) /\ (~ In b (map fst allowed) -> bits_op allowed l o = (l, Raise ValueError))
  | BRemove b => (In b l -> snd (bits_op allowed l o) = Ok tt) /\ (~ In b l -> bits_op allowed l o = (l, Raise KeyError))
  | BClear => snd (bits_op allowed l o) = Ok tt
  | BPop i => (l = [] -> bits_op allowed l o = ([], Raise KeyError)) /\ ((i < length l)%nat -> snd (bits_op allowed l o) = Ok tt)
  end.
Proof. exact Bits_proofs.op_refused. Qed.
Print Assumptions C14_bits_refused.

(** Full statement: the printed order is that of the declared positions.  False: positions are
    compared as text. *)
Theorem C14_bits_order_refuted : exists d l, NoDup (map fst d) /\ NoDup (map snd d) /\ legal (decl d) l /\
  ~ StronglySorted (fun a b => (declared_pos d a <= declared_pos d b)%N) (split_ws (bits_str (decl d) l)).
Proof. exact bits_canonical_refuted. Qed.
Print Assumptions C14_bits_order_refuted.

(** Missing: positions with different numbers of digits. *)
Theorem C14_bits_order_partial : forall d w l, words (map fst d) -> legal (decl d) l ->
  (forall n p, In (n, p) d -> length (print_N p) = w) ->
  StronglySorted (fun a b => (declared_pos d a <= declared_pos d b)%N) (split_ws (bits_str (decl d) l)).
Proof. exact bits_order_partial. Qed.
Print Assumptions C14_bits_order_partial.

Example C14_case : let d := [(lit "x", 9%N); (lit "y", 0%N)] in
  words (map fst d) /\ legal (decl d) [lit "x"; lit "y"] /\ (forall n p, In (n, p) d -> length (print_N p) = 1%nat) /\
  bits_str (decl d) (bits_run (decl d) [] [BAdd (lit "x"); BAdd (lit "y"); BAdd (lit "x")]) = lit "y x".
Proof.
  split; [repeat constructor; cbn; discriminate|]. split.
  { split; [repeat constructor; cbn; intuition discriminate|]. intros b Hb. exact Hb. }
  split; [|reflexivity]. intros n p H. cbn in H. intuition (match goal with E : _ = (n, p) |- _ => injection E as <- <- end; reflexivity).
Qed.

(* ------------------------------------------------------------------ C15 *)
Theorem C15_boolean : forall O v,
  (forall b, bool_spells v b -> leaf_assign O (LOne TBool) v = {| d_notified := true; d_out := Ok (VBool b) |}) /\
  ((forall b, ~ bool_spells v b) -> leaf_assign O (LOne TBool) v = {| d_notified := false; d_out := Raise ValueError |}) /\
  (forall b, leaf_assign O (LOne TBool) (VStr (py_str O (VBool b))) = {| d_notified := true; d_out := Ok (VBool b) |}).
Proof. exact bool_main. Qed.
Print Assumptions C15_boolean.

Example C15_case : bool_spells (VStr (lit "True")) true /\ bool_spells (VDec 0 3) false /\
  (forall b, ~ bool_spells (VStr (lit "yes")) b).
Proof.
  split; [cbn; tauto|]. split; [exists (0 # 1)%Q; split; reflexivity|].
  intros [] H; cbn in H; intuition discriminate.
Qed.

(* ------------------------------------------------------------------ C16 *)
Theorem C16_binary_round_trip : forall O l, Forall (fun b => (b < 256)%N) l ->
  leaf_assign O (LOne TBinary) (VStr (b64encode l)) = {| d_notified := true; d_out := Ok (VBytes l) |}.
Proof. exact Scalars_proofs.binary_assign_text. Qed.
Print Assumptions C16_binary_round_trip.

Example C16_case : Forall (fun b => (b < 256)%N) [0; 255; 128; 61]%N /\ b64encode [0; 255; 128; 61]%N = lit "AP+APQ==".
Proof. split; [repeat constructor|reflexivity]. Qed.

(* ------------------------------------------------------------------ C17 *)
(** Full statement: base64 text is accepted iff the number of decoded bytes is in the length
    restriction.  False: the length of the text is tested as well. *)
Theorem C17_binary_length_refuted : forall O, exists ps l, Forall (fun b => (b < 256)%N) l /\ Forall small_single ps /\
  in_parts (Z.of_nat (length l)) ps /\
  d_out (leaf_assign O (LOne (bin_len ps)) (VStr (b64encode l))) = Raise ValueError.
Proof. exact bin_len_refuted. Qed.
Print Assumptions C17_binary_length_refuted.

(** Exact conditions for text and for bytes.  Missing: text whose own length is outside. *)
Theorem C17_binary_length_partial : forall O ps l, Forall (fun b => (b < 256)%N) l -> Forall small_single ps ->
  let text := Z.of_nat (length (b64encode l)) in
  let bytes := Z.of_nat (length l) in
  (in_parts text ps /\ in_parts bytes ps ->
     d_out (leaf_assign O (LOne (bin_len ps)) (VStr (b64encode l))) = Ok (VBytes l)) /\
  (~ (in_parts text ps /\ in_parts bytes ps) ->
     d_out (leaf_assign O (LOne (bin_len ps)) (VStr (b64encode l))) = Raise ValueError) /\
  (in_parts bytes ps -> d_out (leaf_assign O (LOne (bin_len ps)) (VBytes l)) = Ok (VBytes l)) /\
  (~ in_parts bytes ps -> d_out (leaf_assign O (LOne (bin_len ps)) (VBytes l)) = Raise ValueError).
Proof. exact bin_text_main. Qed.
Print Assumptions C17_binary_length_partial.

Example C17_case : Forall small_single [rng 2 8] /\ in_parts (Z.of_nat (length (b64encode [1; 2; 3]%N))) [rng 2 8].
Proof. split; [repeat constructor|]. repeat constructor; vm_compute; discriminate. Qed.

(* ------------------------------------------------------------------ C18 *)
(** With 10^(n+k) as common scale: the stored multiple of 10^-n is nearest to the assigned
    value, ties to even, exact when possible; storing it again changes nothing; every value in the
    decimal64 range is accepted. *)
Theorem C18_decimal_rounding : forall O n v c e, py_decimal v = Ok (c, e) ->
  (forall w, d_out (leaf_assign O (LOne (TDecPrec n)) v) = Ok w ->
     exists q, w = VDec q (- n) /\
       (forall k, 0 <= k -> 0 <= e + n + k ->
          2 * Z.abs (q * 10 ^ k - c * 10 ^ (e + n + k)) <= 10 ^ k /\
          (2 * Z.abs (q * 10 ^ k - c * 10 ^ (e + n + k)) = 10 ^ k -> Z.even q = true) /\
          (forall x, x * 10 ^ k = c * 10 ^ (e + n + k) -> q = x)) /\
       d_out (leaf_assign O (LOne (TDecPrec n)) w) = Ok w) /\
  (forall k, 0 <= k -> 0 <= e + n + k -> Z.abs (c * 10 ^ (e + n + k)) <= 2 ^ 63 * 10 ^ k ->
     exists w, d_out (leaf_assign O (LOne (TDecPrec n)) v) = Ok w).
Proof. exact dec_main. Qed.
Print Assumptions C18_decimal_rounding.

Example C18_case : forall O, py_decimal (VStr (lit "-3.145")) = Ok (-3145, -3) /\
  d_out (leaf_assign O (LOne (TDecPrec 2)) (VStr (lit "-3.145"))) = Ok (VDec (-314) (-2)).
Proof. intros O. split; vm_compute; reflexivity. Qed.

(* ------------------------------------------------------------------ C19 *)
Theorem C19_union_first_match : forall O ts v,
  (forall ts1 t ts2 w, ts = ts1 ++ t :: ts2 ->
     Forall (fun t' => exists e, ty_call O t' v = Raise e) ts1 -> ty_call O t v = Ok w ->
     leaf_assign O (LUnion ts) v = {| d_notified := true; d_out := Ok w |}) /\
  (Forall (fun t' => exists e, ty_call O t' v = Raise e) ts ->
     leaf_assign O (LUnion ts) v = {| d_notified := false; d_out := Raise ValueError |}).
Proof. exact StrTypes_proofs.union_assign. Qed.
Print Assumptions C19_union_first_match.

Example C19_case : forall O, exists b, class_map_int "uint8" = Some b /\
  leaf_assign O (LUnion [b; TBool; TStr]) (VInt 300) = {| d_notified := true; d_out := Ok (VStr (lit "300")) |} /\
  leaf_assign O (LUnion [b; TBool]) (VStr (lit "true")) = {| d_notified := true; d_out := Ok (VBool true) |} /\
  leaf_assign O (LUnion [b; TBool]) (VStr (lit "x")) = {| d_notified := false; d_out := Raise ValueError |}.
Proof. intros O. eexists. split; [reflexivity|]. split; [vm_compute; reflexivity|]. split; vm_compute; reflexivity. Qed.

(* ------------------------------------------------------------------ C60 *)
(** Full statement: on a leaf whose type is a chain of typedefs with ranges, an integer outside
    some range is rejected.  False from three levels on: it is stored as 0. *)
Theorem C60_typedef_chain_refuted : forall O, exists levels z, levels_wf levels /\ ~ in_levels z levels /\
  ~ in_levels 0 levels /\ d_out (leaf_assign O (LOne (int_chain levels)) (VInt z)) = Ok (VInt 0).
Proof. exact chain_refuted. Qed.
Print Assumptions C60_typedef_chain_refuted.

(** Exactly what happens, for any number of levels and any truthy Python value.  Missing from the
    full statement: rejection when the value fails two or more levels below the outermost. *)
Theorem C60_typedef_chain_partial : forall O l ls v, levels_wf (l :: ls) -> truthy v = true ->
  leaf_assign O (LOne (int_chain (l :: ls))) v =
  match py_int v with
  | Ok z =>
      if in_levelsb z (l :: ls) then {| d_notified := true; d_out := Ok (VInt z) |}
      else if in_levelsb z ls then {| d_notified := false; d_out := Raise ValueError |}
      else if in_levelsb z (tl ls) then {| d_notified := true; d_out := Raise ValueError |}
      else {| d_notified := true; d_out := Ok (VInt 0) |}
  | Raise ValueError =>
      match ls with
      | [] => {| d_notified := true; d_out := Raise ValueError |}
      | _ :: _ => {| d_notified := true; d_out := Ok (VInt 0) |}
      end
  | Raise _ => {| d_notified := true; d_out := Ok (VInt 0) |}
  end.
Proof. exact chain_main. Qed.
Print Assumptions C60_typedef_chain_partial.

(** Constructing the type directly (as leaf-list members and union members are) never accepts an
    integer outside a range. *)
Theorem C60_typedef_call_exact : forall O levels v z, levels_wf levels -> py_int v = Ok z ->
  truthy v = true \/ v = VInt 0 ->
  (in_levels z levels -> ty_call O (int_chain levels) v = Ok (VInt z)) /\
  (~ in_levels z levels -> exists e, ty_call O (int_chain levels) v = Raise e).
Proof. exact Restricted_proofs.chain_call_iff. Qed.
Print Assumptions C60_typedef_call_exact.

Example C60_case : levels_wf [[rng 5 50]; [rng 1 100]; [rng 0 255]] /\
  in_levels 7 [[rng 5 50]; [rng 1 100]; [rng 0 255]].
Proof. split; [exact three_levels_wf|]. repeat constructor; vm_compute; discriminate. Qed.
