(** Property theorems about XML: C57, C62-C64. *)
From Verif Require Import PyStr PyVal Base64 Restricted IntTypes StrTypes SafeName Spec_Types Spec_Lists TypedList MemberTypes Bits YList
  Tree Spec_Tree Serialise Spec_Serialise Xml Spec_Xml Props_Serialise.
From Verif Require XmlRound_proofs XmlDoc_proofs Serialise_cases.
From Coq Require Import Lia.
Import ListNotations.
Local Open Scope Z_scope.

(* ------------------------------------------------------------------ data for the cases *)
(** Identities: of module "x", namespace "urn:x". *)
Definition mod_x (i : einfo) (s : str) : option str := Some (lit "x").
Definition ns_x (i : einfo) (s : str) : option str := Some (lit "urn:x").
Definition no_floats (s : str) : option pyval := None.
Definition write (O : oracle) := encode O mod_x ns_x true (lit "urn:m") (lit "m").

(* ------------------------------------------------------------------ C57 *)
(** A leaf-list of strings: "007" is taken for a number and comes back as "7". *)
Theorem C57_member_refuted : forall O ft, exists cs os e m',
  choice_free cs /\ python_names cs /\ key_leaves cs /\
  write O cs (run O cs os) = Ok e /\ decode O ft no_uid cs e = (m', Ok tt) /\
  run O cs os = [OLeafList true [VStr (lit "007")]] /\ m' = [OLeafList true [VStr (lit "7")]].
Proof.
  intros O ft. exists [SLeafList (inf (lit "ll")) [pty_of MText] (lit "string")], [([Kid 0], ALeafList (LAppend (VStr (lit "007"))))].
  eexists _, _. split; [apply Serialise_cases.choice_free_by; reflexivity|]. split; [apply Serialise_cases.names_by; vm_compute; reflexivity|].
  split; [apply Serialise_cases.key_leaves_by; vm_compute; reflexivity|].
  split; [vm_compute; reflexivity|]. split; [vm_compute; reflexivity|]. split; vm_compute; reflexivity.
Qed.
Print Assumptions C57_member_refuted.

(** "true" and "false" are taken for booleans and come back with a capital letter. *)
Theorem C57_true_refuted : forall O, exists cs os e m',
  choice_free cs /\ python_names cs /\ key_leaves cs /\
  write O cs (run O cs os) = Ok e /\ decode O no_floats no_uid cs e = (m', Ok tt) /\
  run O cs os = [OLeafList true [VStr (lit "true"); VStr (lit "false")]] /\ m' = [OLeafList true [VStr (lit "True"); VStr (lit "False")]].
Proof.
  intros O. exists [SLeafList (inf (lit "ll")) [pty_of MText] (lit "string")], [([Kid 0], ALeafList (LAppend (VStr (lit "true")))); ([Kid 0], ALeafList (LAppend (VStr (lit "false"))))].
  eexists _, _. split; [apply Serialise_cases.choice_free_by; reflexivity|]. split; [apply Serialise_cases.names_by; vm_compute; reflexivity|].
  split; [apply Serialise_cases.key_leaves_by; vm_compute; reflexivity|].
  split; [vm_compute; reflexivity|]. split; [vm_compute; reflexivity|]. split; vm_compute; reflexivity.
Qed.
Print Assumptions C57_true_refuted.

(** The key of a list entry is converted in the same way. *)
Theorem C57_key_refuted : forall O ft, exists cs os e m' x x',
  choice_free cs /\ python_names cs /\ key_leaves cs /\
  write O cs (run O cs os) = Ok e /\ decode O ft no_uid cs e = (m', Ok tt) /\
  run O cs os = [OList false [(VStr (lit "007"), x)]] /\ m' = [OList false [(VStr (lit "7"), x')]].
Proof.
  intros O ft. exists [SList (inf (lit "l")) [lit "k"] false entry_cs], [([Kid 0], add "007")].
  eexists _, _, _, _. split; [apply Serialise_cases.choice_free_by; reflexivity|]. split; [apply Serialise_cases.names_by; vm_compute; reflexivity|].
  split; [apply Serialise_cases.key_leaves_by; vm_compute; reflexivity|].
  split; [vm_compute; reflexivity|]. split; [vm_compute; reflexivity|]. split; vm_compute; reflexivity.
Qed.
Print Assumptions C57_key_refuted.

(** An entry added under the integer key 5 comes back under the text "5". *)
Theorem C57_int_key_refuted : forall O ft, exists cs os e m' x x',
  choice_free cs /\ python_names cs /\ key_leaves cs /\
  write O cs (run O cs os) = Ok e /\ decode O ft no_uid cs e = (m', Ok tt) /\
  run O cs os = [OList false [(VInt 5, x)]] /\ m' = [OList false [(VStr (lit "5"), x')]].
Proof.
  intros O ft.
  exists [SList (inf (lit "l")) [lit "k"] false [SLeaf (inf (lit "k")) (LOne (pty_of u8t)) None (lit "uint8") true]], [([Kid 0], AList [] (YAdd (VInt 5)))].
  eexists _, _, _, _. split; [apply Serialise_cases.choice_free_by; reflexivity|]. split; [apply Serialise_cases.names_by; vm_compute; reflexivity|].
  split; [apply Serialise_cases.key_leaves_by; vm_compute; reflexivity|].
  split; [vm_compute; reflexivity|]. split; [vm_compute; reflexivity|]. split; vm_compute; reflexivity.
Qed.
Print Assumptions C57_int_key_refuted.

(** A leaf that was set to the empty string is lost; one of type empty that was set to False comes back as True. *)
Theorem C57_empty_refuted : forall O ft, exists cs os e m',
  choice_free cs /\ python_names cs /\ key_leaves cs /\
  write O cs (run O cs os) = Ok e /\ decode O ft no_uid cs e = (m', Ok tt) /\
  run O cs os = [OLeaf true (VStr []); OLeaf true (VBool false)] /\ m' = [OLeaf false (VStr []); OLeaf true (VBool true)].
Proof.
  intros O ft. exists [leaf "s" MText "string"; leaf "e" MBool "empty"], [([Kid 0], assign (VStr [])); ([Kid 1], assign (VBool false))].
  eexists _, _. split; [apply Serialise_cases.choice_free_by; reflexivity|]. split; [apply Serialise_cases.names_by; vm_compute; reflexivity|].
  split; [apply Serialise_cases.key_leaves_by; vm_compute; reflexivity|].
  split; [vm_compute; reflexivity|]. split; [vm_compute; reflexivity|]. split; vm_compute; reflexivity.
Qed.
Print Assumptions C57_empty_refuted.

(** A leaf-list of identities cannot be written at all. *)
Theorem C57_identities_refuted : forall O, exists cs os,
  choice_free cs /\ python_names cs /\ key_leaves cs /\
  run O cs os = [OLeafList true [VStr (lit "gige")]] /\ write O cs (run O cs os) = Raise AttributeError.
Proof.
  intros O. exists [SLeafList (inf (lit "ids")) [pty_of (MEnum [lit "gige"])] (lit "identityref")], [([Kid 0], ALeafList (LAppend (VStr (lit "gige"))))].
  split; [apply Serialise_cases.choice_free_by; reflexivity|]. split; [apply Serialise_cases.names_by; vm_compute; reflexivity|].
  split; [apply Serialise_cases.key_leaves_by; vm_compute; reflexivity|]. split; vm_compute; reflexivity.
Qed.
Print Assumptions C57_identities_refuted.

(** A leaf-list of strings of one to four characters holds "12", is written, and cannot be read. *)
Theorem C57_length_refuted : forall O ft, exists cs os e m',
  choice_free cs /\ python_names cs /\ key_leaves cs /\
  run O cs os = [OLeafList true [VStr (lit "12")]] /\
  write O cs (run O cs os) = Ok e /\ decode O ft no_uid cs e = (m', Raise ValueError).
Proof.
  intros O ft. exists [SLeafList (inf (lit "ll")) [pty_of (MStr [[SLength [rng 1 4]]])] (lit "string")], [([Kid 0], ALeafList (LAppend (VStr (lit "12"))))].
  eexists _, _. split; [apply Serialise_cases.choice_free_by; reflexivity|]. split; [apply Serialise_cases.names_by; vm_compute; reflexivity|].
  split; [apply Serialise_cases.key_leaves_by; vm_compute; reflexivity|].
  split; [vm_compute; reflexivity|]. split; [vm_compute; reflexivity|]. vm_compute; reflexivity.
Qed.
Print Assumptions C57_length_refuted.

(** Missing: data in several cases of a choice, and the values and keys excluded by [xstorable]. *)
Theorem C57_round_trip_partial : forall O ft im ins uid cs ns name kids, plain_keys cs -> unrivalled cs kids -> python_names cs -> key_leaves cs ->
  Forall2 (xstorable O ft im ins) cs kids ->
  exists e m', encode O im ins true ns name cs kids = Ok e /\ decode O ft uid cs e = (m', Ok tt) /\
    get_kids true cs m' = get_kids true cs kids.
Proof. exact XmlRound_proofs.xml_round_trip. Qed.
Print Assumptions C57_round_trip_partial.

(** container c { leaf s; leaf d (decimal64); leaf e (empty); leaf id (identityref); leaf b (bits); leaf u (union of uint8 and string); }
    leaf-list ll (uint8); list m2 { key "name no"; leaf name; leaf no (int64); leaf v; } *)
Definition flags : list (str * str) := [(lit "up", lit "0"); (lit "on", lit "1")].
Definition xpair_cs : list schema :=
  [SLeaf (inf (lit "name")) (LOne (pty_of MText)) None (lit "string") true;
   SLeaf (inf (lit "no")) (LOne (pty_of i64t)) None (lit "int64") true; leaf "v" u8t "uint8"].
Definition xml_cs : list schema :=
  [SCont (inf (lit "c")) false
     [leaf "s" MText "string"; leaf "d" (MDec 2) "decimal64"; leaf "e" MBool "empty"; leaf "id" (MEnum [lit "gige"]) "identityref";
      SLeaf (inf (lit "b")) (LOne (TBits flags)) None (lit "bits") false;
      SLeaf (inf (lit "u")) (LUnion (map pty_of [u8t; MText])) None (lit "union") false];
   SLeafList (inf (lit "ll")) [pty_of u8t] (lit "uint8");
   SList (inf (lit "m2")) [lit "name"; lit "no"] false xpair_cs].
Definition xml_ops : list (list pstep * op) :=
  let e := Ent (VStr (lit "a 7")) in
  [([Kid 0; Kid 0], assign (VStr (lit "007"))); ([Kid 0; Kid 1], assign (VDec 125 (-2))); ([Kid 0; Kid 2], assign (VBool true));
   ([Kid 0; Kid 3], assign (VStr (lit "gige"))); ([Kid 0; Kid 4], assign (VStr (lit "up on"))); ([Kid 0; Kid 5], assign (VInt 9));
   ([Kid 1], ALeafList (LAppend (VInt 3))); ([Kid 2], add "a 7"); ([Kid 2; e; Kid 2], assign (VInt 1))].
Definition xml_kids : list obj :=
  [OCont true false
     [OLeaf true (VStr (lit "007")); OLeaf true (VDec 125 (-2)); OLeaf true (VBool true); OLeaf true (VStr (lit "gige"));
      OLeaf true (VBits [lit "up"; lit "on"]); OLeaf true (VInt 9)];
   OLeafList true [VInt 3];
   OList false [(VStr (lit "a 7"), OCont true false [OLeaf true (VStr (lit "a")); OLeaf true (VInt 7); OLeaf true (VInt 1)])]].
Lemma xml_reached O : run O xml_cs xml_ops = xml_kids.
Proof. vm_compute. reflexivity. Qed.

Ltac letters := repeat (constructor; [unfold xml_letter; cbn; lia|]); constructor.
Lemma xleaf_storable O ft im ins n t yt v : type_name (WVal t) (lit yt) -> xleaf_ok O im ins (inf (lit n)) (WVal t) (lit yt) v ->
  xstorable O ft im ins (leaf n t yt) (OLeaf true v).
Proof. intros H1 H2. apply (XsLeaf O ft im ins (inf (lit n)) (WVal t) None (lit yt) false). intros _. now split. Qed.
Lemma number_ok O im ins i levels yt z : mtype_wf (MInt levels) -> in_levels z levels -> yt <> lit "identityref" ->
  xleaf_ok O im ins i (WVal (MInt levels)) yt (VInt z).
Proof.
  intros H1 H2 H3. split; [exact H1|]. split; [now apply int_value|]. split; [discriminate|]. split; [discriminate|congruence].
Qed.
Lemma xml_storable O ft : ft (lit "a") = None -> Forall2 (xstorable O ft mod_x ns_x) xml_cs xml_kids.
Proof.
  intros Hft. constructor; [|constructor; [|constructor; [|constructor]]].
  - apply XsCont; [|discriminate]. constructor; [|constructor; [|constructor; [|constructor; [|constructor; [|constructor; [|constructor]]]]]].
    + apply xleaf_storable; [known|]. split; [exact I|]. split; [apply text_value|]. split; [discriminate|]. split; [|discriminate].
      intros s E. injection E as <-. split; [discriminate|letters].
    + apply xleaf_storable; [known|]. split; [exact I|]. split; [split; [now exists 125|split; [lia|vm_compute; reflexivity]]|].
      split; [discriminate|]. split; discriminate.
    + apply xleaf_storable; [known|]. split; [exact I|]. split; [split; [now exists true|reflexivity]|]. split; [discriminate|]. split; discriminate.
    + apply xleaf_storable; [known|]. split; [exact I|]. split.
      { split; [exists (lit "gige"); split; [reflexivity|now left]|]. intros _ _. vm_compute. intuition discriminate. }
      split; [discriminate|]. split; [intros s E; injection E as <-; split; [discriminate|letters]|].
      intros _. exists (lit "gige"), (lit "x"), (lit "urn:x"). split; [reflexivity|]. split; [reflexivity|]. split; [reflexivity|].
      split; [vm_compute; intuition discriminate|letters].
    + apply (XsLeaf O ft mod_x ns_x (inf (lit "b")) (WBits flags) None (lit "bits") false). intros _.
      split; [right; cbn; intuition discriminate|]. exists [lit "up"; lit "on"]. split; [reflexivity|]. split; [discriminate|].
      split; [split; [repeat constructor; cbn; intuition discriminate|]; cbn; tauto|]. split.
      { repeat constructor; try discriminate. }
      split; [reflexivity|]. constructor; [letters|]. constructor; [letters|constructor].
    + apply (XsLeaf O ft mod_x ns_x (inf (lit "u")) (WUnion [u8t; MText]) None (lit "union") false). intros _.
      split; [right; cbn; intuition discriminate|]. exists u8t, (lit "9"). split; [now left|]. split; [vm_compute; reflexivity|].
      split; [vm_compute; reflexivity|]. split; [apply u8_ok|]. split; [apply int_value, between; lia|]. split; [reflexivity|].
      split; [discriminate|letters].
  - apply (XsLeafList O ft mod_x ns_x (inf (lit "ll")) u8t); [apply u8_ok| |apply one_distinct|discriminate|discriminate].
    constructor; [|constructor]. split; [apply int_value, between; lia|]. split; [discriminate|]. split; [discriminate|exact I].
  - apply XsList; [discriminate|apply one_distinct|]. constructor; [|constructor]. do 3 eexists. split; [reflexivity|]. split.
    + constructor; [|constructor; [|constructor; [|constructor]]].
      * apply (XsLeaf O ft mod_x ns_x (inf (lit "name")) (WVal MText) None (lit "string") true). intros _. split; [known|].
        exists MText, (lit "a"). split; [reflexivity|]. split; [reflexivity|]. split; [letters|]. split; discriminate.
      * apply (XsLeaf O ft mod_x ns_x (inf (lit "no")) (WVal i64t) None (lit "int64") true). intros _. split; [known|].
        exists i64t, (lit "7"). split; [reflexivity|]. split; [reflexivity|]. split; [letters|]. split; discriminate.
      * apply xleaf_storable; [known|]. apply number_ok; [apply u8_ok|apply between; lia|discriminate].
    + exists [lit "a"; lit "7"]. split; [reflexivity|]. constructor; [|constructor; [|constructor]].
      * exists MText, (lit "string"), (VStr (lit "a")). split; [|split; [known|split; [discriminate|]]].
        { exists 0%nat, (inf (lit "name")), None, true. split; [reflexivity|]. split; [reflexivity|]. split; [reflexivity|]. split; [exact I|apply text_value]. }
        split; [letters|]. split; [reflexivity|]. unfold objectified. change (lit "a") with [97%N] in *. rewrite Hft. reflexivity.
      * exists i64t, (lit "int64"), (VInt 7). split; [|split; [known|split; [discriminate|]]].
        { exists 1%nat, (inf (lit "no")), None, true. split; [reflexivity|]. split; [reflexivity|]. split; [reflexivity|]. split; [apply i64_ok|].
          apply int_value, between. lia. }
        split; [letters|]. exists 7. now split.
Qed.
Lemma ch_xstorable O ft : ft (lit "one") = None -> Forall2 (xstorable O ft mod_x ns_x) ch_cs ch_kids.
Proof.
  assert (Hn : forall c k n v b, 0 <= v <= 255 -> xstorable O ft mod_x ns_x (case_leaf c k n u8t "uint8") (OLeaf b (VInt v))).
  { intros c k n v b Hv. apply (XsLeaf O ft mod_x ns_x (cased c k n) (WVal u8t) None (lit "uint8") false). intros _. split; [known|].
    apply number_ok; [apply u8_ok|apply between; exact Hv|discriminate]. }
  intros Hft. constructor; [|constructor]. apply XsCont; [|discriminate]. constructor; [|constructor; [|constructor; [|constructor]]].
  - apply (XsLeaf O ft mod_x ns_x (cased "ch" "x" "a") (WVal MText) None (lit "string") false). discriminate.
  - apply XsCont; [|discriminate]. constructor; [|constructor]. apply Hn. lia.
  - apply XsList; [discriminate|apply one_distinct|]. constructor; [|constructor]. do 3 eexists. split; [reflexivity|]. split.
    + constructor; [|constructor; [|constructor; [|constructor]]]; [|apply Hn; lia|apply Hn; lia].
      apply (XsLeaf O ft mod_x ns_x (inf (lit "k")) (WVal MText) None (lit "string") true). intros _. split; [known|].
      exists MText, (lit "one"). split; [reflexivity|]. split; [reflexivity|]. split; [letters|]. split; discriminate.
    + exists [lit "one"]. split; [reflexivity|]. constructor; [|constructor].
      exists MText, (lit "string"), (VStr (lit "one")). split; [|split; [known|split; [discriminate|]]].
      { exists 0%nat, (inf (lit "k")), None, true. split; [reflexivity|]. split; [reflexivity|]. split; [reflexivity|]. split; [exact I|apply text_value]. }
      split; [letters|]. split; [reflexivity|]. unfold objectified. change (lit "one") with [111; 110; 101]%N in *. rewrite Hft. reflexivity.
Qed.
Example C57_case : forall O,
  (plain_keys xml_cs /\ unrivalled xml_cs (run O xml_cs xml_ops) /\ python_names xml_cs /\ key_leaves xml_cs /\
   Forall2 (xstorable O no_floats mod_x ns_x) xml_cs (run O xml_cs xml_ops) /\ length (get_kids true xml_cs (run O xml_cs xml_ops)) = 3%nat) /\
  (plain_keys ch_cs /\ unrivalled ch_cs (run O ch_cs ch_ops) /\ python_names ch_cs /\ key_leaves ch_cs /\
   Forall2 (xstorable O no_floats mod_x ns_x) ch_cs (run O ch_cs ch_ops) /\ get_kids true ch_cs (run O ch_cs ch_ops) <> []).
Proof.
  intros O. pose proof (ch_ok O) as (H1 & H2 & H3). rewrite xml_reached, ch_reached in *. split.
  - destruct (Serialise_cases.no_choice_by xml_cs xml_kids) as [G1 G2]; [vm_compute; reflexivity|]. split; [exact G1|]. split; [exact G2|].
    split; [apply Serialise_cases.names_by; vm_compute; reflexivity|]. split; [apply Serialise_cases.key_leaves_by; vm_compute; reflexivity|].
    split; [now apply xml_storable|reflexivity].
  - split; [exact H1|]. split; [exact H2|]. split; [exact H3|]. split; [apply Serialise_cases.key_leaves_by; vm_compute; reflexivity|].
    split; [now apply ch_xstorable|discriminate].
Qed.

(* ------------------------------------------------------------------ C62 *)
(** Members of leaf-lists that are booleans are written as 1 and 0. *)
Theorem C62_bool_refuted : forall O, exists cs os e,
  run O cs os = [OLeafList true [VBool true]] /\ write O cs (run O cs os) = Ok e /\ map x_text (x_kids e) = [lit "1"].
Proof.
  intros O. exists [SLeafList (inf (lit "ll")) [pty_of MBool] (lit "boolean")], [([Kid 0], ALeafList (LAppend (VBool true)))].
  eexists. split; [vm_compute; reflexivity|]. split; [vm_compute; reflexivity|]. reflexivity.
Qed.
Print Assumptions C62_bool_refuted.
(** The structure in full: name, namespace, order, nesting; the text of leaves with builtin types, their
    restrictions, bits, unions and leafrefs; of members of leaf-lists ([value_element]).  Missing: unions whose
    member types are bits or leafrefs, leaf-lists with several types; boolean members have the text of a number;
    identities are C63. *)
Theorem C62_document_partial : forall O im ins filter ns name cs kids e, shaped cs kids ->
  encode O im ins filter ns name cs kids = Ok e ->
  x_ns e = ns /\ x_name e = name /\ x_text e = [] /\ groups (value_element O) filter cs kids (x_kids e).
Proof. exact XmlDoc_proofs.xml_values. Qed.
Print Assumptions C62_document_partial.
Example C62_case : forall O, exists e, shaped xml_cs (run O xml_cs xml_ops) /\ write O xml_cs (run O xml_cs xml_ops) = Ok e /\
  map x_name (x_kids e) = [lit "c"; lit "ll"; lit "m2"] /\
  map x_text (concat (map x_kids (x_kids e))) = [lit "007"; lit "1.25"; []; lit "x:gige"; lit "up on"; lit "9"; lit "a"; lit "7"; lit "1"].
Proof.
  intros O. eexists. split; [apply run_shaped|]. split; [vm_compute; reflexivity|]. split; vm_compute; reflexivity.
Qed.

(* ------------------------------------------------------------------ C63 *)
(** An identity of another module whose name starts with the name of that module is written without prefix. *)
Theorem C63_refuted : forall O, exists im ins i v m n e,
  im i v = Some m /\ ins i v = Some n /\ m <> e_mod i /\
  encode O im ins true (lit "urn:m") (lit "m") [SLeaf i (LOne (pty_of (MEnum [v]))) None (lit "identityref") false] [OLeaf true (VStr v)] = Ok e /\
  map x_text (x_kids e) = [v].
Proof.
  intros O. exists (fun _ _ => Some (lit "eth")), (fun _ _ => Some (lit "urn:eth")), (inf (lit "id")), (lit "ethernet"), (lit "eth"), (lit "urn:eth").
  eexists. split; [reflexivity|]. split; [reflexivity|]. split; [discriminate|]. split; [vm_compute; reflexivity|reflexivity].
Qed.
Print Assumptions C63_refuted.
(** Missing: identities whose name starts with the name of their module. *)
Theorem C63_identities_partial : forall O im ins ns name cs kids e, shaped cs kids ->
  encode O im ins true ns name cs kids = Ok e -> groups (identity_element im ins) true cs kids (x_kids e).
Proof. exact XmlDoc_proofs.xml_identities. Qed.
Print Assumptions C63_identities_partial.
Example C63_case : forall O, exists e, shaped xml_cs (run O xml_cs xml_ops) /\ write O xml_cs (run O xml_cs xml_ops) = Ok e /\
  In (XElem (lit "urn:m") (lit "id") [(lit "x", lit "urn:x")] (lit "x:gige") []) (concat (map x_kids (x_kids e))).
Proof.
  intros O. eexists. split; [apply run_shaped|]. split; [vm_compute; reflexivity|]. vm_compute. tauto.
Qed.

(* ------------------------------------------------------------------ C64 *)
(** An element inside the element of a leaf is ignored; so is the namespace of every element. *)
Theorem C64_refuted : forall O ft, exists cs e m',
  python_names cs /\ e = XElem (lit "urn:m") (lit "m") [] [] [XElem (lit "urn:other") (lit "s") [] (lit "hi") [XElem (lit "urn:m") (lit "nope") [] [] []]] /\
  decode O ft no_uid cs e = (m', Ok tt) /\ m' = [OLeaf true (VStr (lit "hi"))].
Proof.
  intros O ft. exists [leaf "s" MText "string"]. eexists _, _. split; [apply Serialise_cases.names_by; vm_compute; reflexivity|].
  split; [reflexivity|]. split; [vm_compute; reflexivity|reflexivity].
Qed.
Print Assumptions C64_refuted.
(** Elements in the module, in containers and in entries, at any depth.  Missing: elements inside leaves, namespaces. *)
Theorem C64_raises_partial : forall O ft uid cs e m, unknown_element cs e ->
  exists m' ex, load_doc O ft uid cs e m = (m', Raise ex).
Proof. exact XmlDoc_proofs.xunknown_raises. Qed.
Print Assumptions C64_raises_partial.
Example C64_case : forall O ft, let e := XElem (lit "urn:m") (lit "m") [] []
    [XElem (lit "urn:m") (lit "m2") [] [] [XElem (lit "urn:m") (lit "name") [] (lit "007") []; XElem (lit "urn:m") (lit "no") [] (lit "7") [];
                                           XElem (lit "urn:m") (lit "nope") [] [] []]] in
  unknown_element xml_cs e /\ snd (decode O ft no_uid xml_cs e) = Raise AttributeError.
Proof.
  intros O ft. cbv zeta. split; [|vm_compute; reflexivity].
  eapply UxList; [now left|reflexivity|]. eapply UxHere; [right; right; now left|vm_compute; reflexivity].
Qed.
