(** Property theorems about the values of defaults: C81. *)
From Verif Require Import PyStr PyStr_facts PyVal PathHelper Identity Restricted IntTypes Spec_Types Typedefs Spec_Typedefs Base64 Defaults Spec_Defaults Props_Typedefs.
From Verif Require Defaults_proofs.
From Coq Require Import Lia ZArith.
Import ListNotations.
Local Open Scope Z_scope.

(* ------------------------------------------------------------------ C81 *)
(** An integer written in decimal or hexadecimal is the default it says.  Octal numbers other than zero make the file that
    the plugin writes unreadable: Python does not take them. *)
Theorem C81_integers : forall xp cm0 tds cm ty l own r d O fuel k n z, default_of xp cm0 tds cm ty l own r d -> (length l < fuel)%nat -> base_key (end_of ty l) = lit (kind_name k) ->
  int_text n d z -> kind_ok k z ->
  leaf_value O fuel cm r own = match n with Oct => if z =? 0 then Made (Some (VInt z)) else Unreadable | _ => Made (Some (VInt z)) end.
Proof. exact Defaults_proofs.integers. Qed.
Print Assumptions C81_integers.
(** A text without quotes, backslashes and ends of lines (of strings, enumerations, identities) is the default it says. *)
Theorem C81_strings_partial : forall xp cm0 tds cm ty l own r d O fuel, default_of xp cm0 tds cm ty l own r d -> (length l < fuel)%nat -> base_key (end_of ty l) = lit "string" ->
  (xp = true -> ty_arg (end_of ty l) <> lit "leafref") -> clean d -> leaf_value O fuel cm r own = Made (Some (VStr d)).
Proof. exact Defaults_proofs.strings. Qed.
Print Assumptions C81_strings_partial.
Theorem C81_booleans : forall xp cm0 tds cm ty l own r O fuel v, default_of xp cm0 tds cm ty l own r (lit (if v : bool then "true" else "false")) -> (length l < fuel)%nat ->
  base_key (end_of ty l) = lit "boolean" -> leaf_value O fuel cm r own = Made (Some (VBool v)).
Proof. exact Defaults_proofs.booleans. Qed.
Print Assumptions C81_booleans.
Theorem C81_binary : forall xp cm0 tds cm ty l own r O fuel bs, Forall (fun b => (b < 256)%N) bs -> default_of xp cm0 tds cm ty l own r (b64encode bs) -> (length l < fuel)%nat ->
  base_key (end_of ty l) = lit "binary" -> leaf_value O fuel cm r own = Made (Some (VBytes bs)).
Proof. exact Defaults_proofs.binaries. Qed.
Print Assumptions C81_binary.
(** Bits: if the leaf itself declares them. *)
Theorem C81_bits_partial : forall xp cm0 tds cm ty own r O fuel ws, default_of xp cm0 tds cm ty [] own r (join [32%N] ws) -> (0 < fuel)%nat -> ty_arg ty = lit "bits" -> plain ty ->
  words ws -> NoDup ws -> incl ws (map fst (ty_bits ty)) -> clean (join [32%N] ws) -> leaf_value O fuel cm r own = Made (Some (VBits ws)).
Proof. exact Defaults_proofs.bits. Qed.
Print Assumptions C81_bits_partial.
(** Decimals become the nearest float.  Rounded to the fraction digits of the leaf, that is the default (up to 52 bits) ... *)
Theorem C81_decimals_partial : forall xp cm0 tds cm ty l own r d O fuel q n f, default_of xp cm0 tds cm ty l own r d -> (length l < fuel)%nat -> base_key (end_of ty l) = lit "decimal64" ->
  (0 < n)%nat /\ dec_text d q n \/ n = 0%nat /\ int_text Dec d q -> Z.of_nat n <= f -> Z.abs q * 10 ^ (f - Z.of_nat n) < 2 ^ 52 ->
  exists c x, leaf_value O fuel cm r own = Made (Some (VDec c x)) /\ quantize c x f = Ok (q * 10 ^ (f - Z.of_nat n), - f).
Proof. exact Defaults_proofs.decimals. Qed.
Print Assumptions C81_decimals_partial.
(** ... but nothing rounds it, and it is the value only if that is a fraction of a power of two ... *)
Theorem C81_decimals_exact : forall xp cm0 tds cm ty l own r d O fuel q n, default_of xp cm0 tds cm ty l own r d -> (length l < fuel)%nat -> base_key (end_of ty l) = lit "decimal64" ->
  (0 < n)%nat -> dec_text d q n -> Z.abs q < 2 ^ 53 * 5 ^ Z.of_nat n ->
  exists c x, leaf_value O fuel cm r own = Made (Some (VDec c x)) /\ x <= 0 /\ (c * 10 ^ Z.of_nat n = q * 10 ^ (- x) <-> (5 ^ Z.of_nat n | q)).
Proof. exact Defaults_proofs.decimals_exact. Qed.
Print Assumptions C81_decimals_exact.
(** ... and without a point, leading zeros make the file unreadable. *)
Theorem C81_decimals_zeros : forall xp cm0 tds cm ty l own r d O fuel q, default_of xp cm0 tds cm ty l own r d -> (length l < fuel)%nat -> base_key (end_of ty l) = lit "decimal64" ->
  dec_text d q 0 -> ~ int_text Dec d q -> leaf_value O fuel cm r own = if q =? 0 then Made (Some (VDec 0 0)) else Unreadable.
Proof. exact Defaults_proofs.decimals_zero. Qed.
Print Assumptions C81_decimals_zeros.

(* ------------------------------------------------------------------ what goes wrong *)
Lemma default_here xp ty r d : In (ty_arg ty) yang_types -> ty_bases ty = [] -> build_elemtype xp builtin_map ty = Ok r -> default_of xp builtin_map [] builtin_map ty [] (Some d) r d.
Proof.
  intros H B E. split; [exact builtin_identities|]. split; [split; [intros td []|split; [intros t td td' [[] _]|intros t td [[] _]]]|]. split; [intros t td [[] _]|]. split; [reflexivity|].
  split; [apply chain_end; [exact H|rewrite B; discriminate]|]. split; [exact E|]. split; [exact I|]. split; [right; right; discriminate|reflexivity].
Qed.
(** The octal default 010. *)
Theorem C81_octal_refuted : exists d r, int_text Oct d 8 /\ default_of false builtin_map [] builtin_map (just (lit "int32")) [] (Some d) r d /\
  forall O, leaf_value O 1 builtin_map r (Some d) = Unreadable.
Proof.
  exists (lit "010"). eexists. split; [exact (ItOct NoSign [1; 0] ltac:(discriminate) ltac:(repeat constructor; lia))|]. split; [apply default_here; [apply str_in_In; vm_compute; reflexivity|reflexivity|vm_compute; reflexivity]|].
  intros O. vm_compute. reflexivity.
Qed.
Print Assumptions C81_octal_refuted.
(** A backslash and the letter n become the end of a line. *)
Theorem C81_backslash_refuted : exists d r, default_of false builtin_map [] builtin_map (just (lit "string")) [] (Some d) r d /\
  forall O, exists v, leaf_value O 1 builtin_map r (Some d) = Made (Some (VStr v)) /\ v <> d.
Proof.
  exists (97 :: 92 :: 110 :: nil)%N. eexists. split; [apply default_here; [apply str_in_In; vm_compute; reflexivity|reflexivity|vm_compute; reflexivity]|].
  intros O. eexists. split; [vm_compute; reflexivity|discriminate].
Qed.
Print Assumptions C81_backslash_refuted.
(** What follows a double quote in a default is executed. *)
Theorem C81_quote_refuted : forall s, clean s -> exists r, default_of false builtin_map [] builtin_map (just (lit "string")) [] (Some (s ++ lit """")) r (s ++ lit """") /\
  forall O, leaf_value O 1 builtin_map r (Some (s ++ lit """")) = Code.
Proof.
  intros s C. eexists. split; [apply default_here; [apply str_in_In; vm_compute; reflexivity|reflexivity|vm_compute; reflexivity]|]. intros O. exact (Defaults_proofs.after_quote O s C).
Qed.
Print Assumptions C81_quote_refuted.
(** The default of a typedef of bits is converted without the names that it declares. *)
Theorem C81_bits_refuted : exists tds cm r d, process_typedefs false builtin_map tds = Ok cm /\ build_elemtype false cm (just (lit "t")) = Ok r /\
  (exists td, named tds (lit "t") td /\ td_default td = Some d /\ ty_arg (td_type td) = lit "bits" /\ In d (map fst (ty_bits (td_type td)))) /\
  forall O, leaf_value O 10 cm r None = Failed ValueError.
Proof.
  set (td := tdef_of "m" "t" (YType (lit "bits") [] None None [] None None None [] [(lit "up", Some (lit "0"))] []) (Some (lit "up"))). exists [td]. eexists. eexists. exists (lit "up").
  split; [vm_compute; reflexivity|]. split; [vm_compute; reflexivity|]. split; [exists td; split; [split; [left; reflexivity|right; exists (lit "m"); split; [reflexivity|split; vm_compute; intuition discriminate]]|split; [reflexivity|split; [reflexivity|left; reflexivity]]]|].
  intros O. vm_compute. reflexivity.
Qed.
Print Assumptions C81_bits_refuted.
(** The default 0.1 is not 0.1: 5 does not divide 1. *)
Theorem C81_decimal_refuted : exists d r, dec_text d 1 1 /\ default_of false builtin_map [] builtin_map (decimal "2") [] (Some d) r d /\
  forall O, exists c x, leaf_value O 1 builtin_map r (Some d) = Made (Some (VDec c x)) /\ x <= 0 /\ c * 10 <> 10 ^ (- x).
Proof.
  exists (lit "0.1"). eexists. split; [exact (DtPoint NoSign [0] [1] ltac:(discriminate) ltac:(discriminate) ltac:(repeat constructor; lia) ltac:(repeat constructor; lia))|].
  split; [apply default_here; [apply str_in_In; vm_compute; reflexivity|reflexivity|vm_compute; reflexivity]|].
  intros O. eexists. eexists. split; [vm_compute; reflexivity|]. split; [lia|]. vm_compute. discriminate.
Qed.
Print Assumptions C81_decimal_refuted.
(** A reference has no default (with a path helper), whatever the module gives. *)
Theorem C81_reference_refuted : forall d (p : str), exists ty r, ty_arg ty = lit "leafref" /\ ty_path ty = Some p /\ default_of true builtin_map [] builtin_map ty [] (Some d) r d /\
  forall O, leaf_value O 1 builtin_map r (Some d) = Made None.
Proof.
  intros d p. exists (YType (lit "leafref") [] None None [] None (Some p) None [] [] []). eexists. split; [reflexivity|]. split; [reflexivity|]. split; [apply default_here; [apply str_in_In; vm_compute; reflexivity|reflexivity|vm_compute; reflexivity]|].
  intros O. vm_compute. reflexivity.
Qed.
Print Assumptions C81_reference_refuted.
(** The default of a typedef of a union is read as one of its members, which need not be the first one that it fits. *)
Theorem C81_union_refuted : exists tds cm r td, process_typedefs false builtin_map tds = Ok cm /\ build_elemtype false cm (just (lit "t")) = Ok r /\ named tds (lit "t") td /\ td_default td = Some (lit "abc") /\
  td_type td = union_of [just (lit "string"); just (lit "int32")] /\ forall O, leaf_value O 10 cm r None = Code.
Proof.
  set (td := tdef_of "m" "t" (union_of [just (lit "string"); just (lit "int32")]) (Some (lit "abc"))). exists [td]. eexists. eexists. exists td.
  split; [vm_compute; reflexivity|]. split; [vm_compute; reflexivity|]. split; [split; [left; reflexivity|right; exists (lit "m"); split; [reflexivity|split; vm_compute; intuition discriminate]]|]. split; [reflexivity|]. split; [reflexivity|].
  intros O. vm_compute. reflexivity.
Qed.
Print Assumptions C81_union_refuted.
(** default() answers False where the default is the empty text. *)
Theorem C81_empty_refuted : exists r, default_of false builtin_map [] builtin_map (just (lit "string")) [] (Some []) r [] /\
  forall O, leaf_value O 1 builtin_map r (Some []) = Made (Some (VStr [])) /\ default_method (Some (VStr [])) = VBool false.
Proof.
  eexists. split; [apply default_here; [apply str_in_In; vm_compute; reflexivity|reflexivity|vm_compute; reflexivity]|]. intros O. split; [vm_compute; reflexivity|reflexivity].
Qed.
Print Assumptions C81_empty_refuted.

(** The default "2" of a typedef of uint8, restricted by another one; a text, base64, bits, -0x1F, 7, 2.75 and +007. *)
Lemma below b ds : forallb (fun d => (0 <=? d) && (d <? b)) ds = true -> all_below b ds.
Proof. intros H. apply Forall_forall. intros d Hd. rewrite forallb_forall in H. specialize (H d Hd). lia. Qed.
Definition flags : ytype := YType (lit "bits") [] None None [] None None None [] [(lit "up", Some (lit "0")); (lit "down", Some (lit "1"))] [].
Lemma here (t : String.string) r d : str_in (lit t) yang_types = true -> build_elemtype false builtin_map (just (lit t)) = Ok r -> default_of false builtin_map [] builtin_map (just (lit t)) [] (Some d) r d.
Proof. intros H E. apply default_here; [apply str_in_In; exact H|reflexivity|exact E]. Qed.
Example C81_case : (exists cm l r, default_of false builtin_map chain_defs cm (just (lit "p")) l None r (lit "2") /\ length l = 2%nat /\ base_key (end_of (just (lit "p")) l) = lit (kind_name U8) /\
    int_text Dec (lit "2") 2 /\ kind_ok U8 2 /\ forall O, leaf_value O 3 cm r None = Made (Some (VInt 2))) /\
  (exists r, default_of false builtin_map [] builtin_map (just (lit "int8")) [] (Some (lit "-0x1F")) r (lit "-0x1F") /\ int_text Hex (lit "-0x1F") (-31) /\ kind_ok I8 (-31) /\
    forall O, leaf_value O 1 builtin_map r (Some (lit "-0x1F")) = Made (Some (VInt (-31)))) /\
  (exists r, default_of false builtin_map [] builtin_map (just (lit "string")) [] (Some (lit "it's")) r (lit "it's") /\ clean (lit "it's") /\ forall O, leaf_value O 1 builtin_map r (Some (lit "it's")) = Made (Some (VStr (lit "it's")))) /\
  (exists r, default_of false builtin_map [] builtin_map (just (lit "boolean")) [] (Some (lit "false")) r (lit "false") /\ forall O, leaf_value O 1 builtin_map r (Some (lit "false")) = Made (Some (VBool false))) /\
  (exists r, default_of false builtin_map [] builtin_map (just (lit "binary")) [] (Some (b64encode [1; 255]%N)) r (b64encode [1; 255]%N) /\ forall O, leaf_value O 1 builtin_map r (Some (b64encode [1; 255]%N)) = Made (Some (VBytes [1; 255]%N))) /\
  (exists r, default_of false builtin_map [] builtin_map flags [] (Some (lit "down up")) r (lit "down up") /\ words [lit "down"; lit "up"] /\ forall O, leaf_value O 1 builtin_map r (Some (lit "down up")) = Made (Some (VBits [lit "down"; lit "up"]))) /\
  (exists r, default_of false builtin_map [] builtin_map (decimal "3") [] (Some (lit "2.75")) r (lit "2.75") /\ dec_text (lit "2.75") 275 2 /\ (5 ^ 2 | 275) /\
    forall O, exists c x, leaf_value O 1 builtin_map r (Some (lit "2.75")) = Made (Some (VDec c x)) /\ c * 10 ^ 2 = 275 * 10 ^ (- x)) /\
  (exists r, default_of false builtin_map [] builtin_map (decimal "3") [] (Some (lit "+007")) r (lit "+007") /\ dec_text (lit "+007") 7 0 /\ ~ int_text Dec (lit "+007") 7 /\
    forall O, leaf_value O 1 builtin_map r (Some (lit "+007")) = Unreadable).
Proof.
  split.
  { set (p := nth 2 chain_defs (nth 0 chain_defs (tdef_of "" "" (just []) None))). set (q := nth 0 chain_defs (tdef_of "" "" (just []) None)).
    destruct C55_case as (cm & r & H1 & H2 & H3 & H4 & _ & Hr & _). exists cm, [p; q], r.
    assert (Hc : chain chain_defs (just (lit "p")) [p; q]).
    { apply chain_typedef; [apply is_named; [pick 2|reflexivity|reflexivity]|]. apply chain_typedef; [apply (is_named "r"); [pick 0|reflexivity|reflexivity]|].
      apply chain_end; [apply str_in_In; vm_compute; reflexivity|intros b l E; discriminate]. }
    assert (D : default_of false builtin_map chain_defs cm (just (lit "p")) [p; q] None r (lit "2")).
    { split; [exact H1|]. split; [exact H2|]. split; [exact H3|]. split; [exact H4|]. split; [exact Hc|]. split; [exact Hr|]. split; [cbn [none_passed_over]; split; [intros (_ & _ & C); discriminate|exact I]|]. split; [left; reflexivity|reflexivity]. }
    assert (K : base_key (end_of (just (lit "p")) [p; q]) = lit (kind_name U8)) by (vm_compute; reflexivity).
    assert (T : int_text Dec (lit "2") 2) by (apply (ItDec NoSign [2]); [apply below; reflexivity|right; exists 2, []; split; [reflexivity|lia]]).
    assert (Z2 : kind_ok U8 2) by (vm_compute; intuition discriminate).
    split; [exact D|]. split; [reflexivity|]. split; [exact K|]. split; [exact T|]. split; [exact Z2|]. intros O. rewrite (C81_integers _ _ _ _ _ _ _ _ _ O 3 U8 Dec 2 D ltac:(cbn; lia) K T Z2). reflexivity. }
  split.
  { eexists. split; [apply here; vm_compute; reflexivity|]. split; [apply (ItHex Minus (lit "1F") [1; 15]); [discriminate|constructor; [apply (HcDigit 1); lia|constructor; [apply (HcUpper 15); lia|constructor]]]|]. split; [vm_compute; intuition discriminate|]. intros O. vm_compute. reflexivity. }
  split.
  { eexists. split; [apply here; vm_compute; reflexivity|]. split; [repeat (constructor; [intros C; vm_compute in C; intuition discriminate|]); constructor|]. intros O. vm_compute. reflexivity. }
  split.
  { eexists. split; [apply here; vm_compute; reflexivity|]. intros O. vm_compute. reflexivity. }
  split.
  { eexists. split; [apply here; vm_compute; reflexivity|]. intros O. vm_compute. reflexivity. }
  split.
  { eexists. split; [apply default_here; [apply str_in_In; vm_compute; reflexivity|reflexivity|vm_compute; reflexivity]|]. split; [repeat (constructor; [split; [discriminate|repeat constructor]|]); constructor|]. intros O. vm_compute. reflexivity. }
  split.
  { eexists. split; [apply default_here; [apply str_in_In; vm_compute; reflexivity|reflexivity|vm_compute; reflexivity]|].
    split; [exact (DtPoint NoSign [2] [7; 5] ltac:(discriminate) ltac:(discriminate) ltac:(repeat constructor; lia) ltac:(repeat constructor; lia))|]. split; [exists 11; reflexivity|].
    intros O. eexists. eexists. split; [vm_compute; reflexivity|]. vm_compute. reflexivity. }
  eexists. split; [apply default_here; [apply str_in_In; vm_compute; reflexivity|reflexivity|vm_compute; reflexivity]|].
  split; [exact (DtInt Plus [0; 0; 7] ltac:(discriminate) ltac:(repeat constructor; lia))|]. split; [|intros O; vm_compute; reflexivity].
  intros T. apply Defaults_proofs.number_int in T. vm_compute in T. discriminate.
Qed.
