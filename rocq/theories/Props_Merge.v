(** Property theorems about documents written for one tree and loaded into another: C90. *)
From Verif Require Import PyStr PyStr_facts PyVal Restricted IntTypes StrTypes SafeName Spec_Types Spec_Lists TypedList YList
  Tree Spec_Tree Serialise Spec_Serialise Spec_Stored Spec_Loading Spec_Shape Spec_Accept Spec_AcceptJson
  Xml Spec_Xml Spec_StoredXml Spec_AcceptXml Spec_Merge.
From Verif Require MergeStored_proofs MergeXml_proofs Serialise_cases Tree_cases.
From Verif Require Import Props_Serialise Props_Stored.
Import ListNotations.
Local Open Scope Z_scope.

(* ------------------------------------------------------------------ C90 *)
(** What a program has stored in one tree is written, and loaded into another that holds anything: no exception is
    raised, and everything that the first tree holds - values of leaves, members of leaf-lists, present containers,
    entries - is then in the second.  Missing: nested choices, lists without keys, whole objects assigned before. *)
Theorem C90_json_partial : forall O im ft uid skip cs os l,
  Forall suited cs -> leaf_keys cs -> uniform cs -> own_choices cs -> python_names cs ->
  program O Plain cs os -> plain_deeds O ft uid cs l ->
  exists j m', dumps O im cs (module_run O cs (module_new O cs) os) = Ok j /\ load_json O uid cs false skip j (after O ft uid cs l) = (m', Ok tt) /\
    forall q s x w, schema_at cs q = Some s -> at_path (module_run O cs (module_new O cs) os) q = Some x -> holds s x w \/ is_entry q = true /\ w = ToldEntry ->
    exists y, at_path m' q = Some y /\ so w y.
Proof. exact MergeStored_proofs.plain_program_merged. Qed.
Print Assumptions C90_json_partial.
(** In the IETF format the values of key leaves, which entries take from their keys, are left out. *)
Theorem C90_ietf_partial : forall O im ft uid skip cs os l, (forall i s m, im i s = Some m -> no_colon m) ->
  Forall suited cs -> leaf_keys cs -> uniform cs -> own_choices cs -> python_names cs -> ietf_names cs -> key_leaves cs ->
  program O Ietf cs os -> plain_deeds O ft uid cs l ->
  exists j m', dumps_ietf O im true WNone cs (module_run O cs (module_new O cs) os) = Ok j /\ load_ietf_json O uid cs false skip j (after O ft uid cs l) = (m', Ok tt) /\
    forall q s x w, schema_at cs q = Some s -> at_path (module_run O cs (module_new O cs) os) q = Some x -> holds_ietf s x w \/ is_entry q = true /\ w = WThere ->
    exists y, at_path m' q = Some y /\ meets w y.
Proof. exact MergeStored_proofs.ietf_program_merged. Qed.
Print Assumptions C90_ietf_partial.
(** The same in XML, where members are added to those that the second tree has. *)
Theorem C90_xml_partial : forall O ft im ins uid ns name cs os l,
  Forall suited cs -> leaf_keys cs -> uniform cs -> own_choices cs -> python_names cs -> key_leaves cs ->
  xprogram O ft im ins cs os -> plain_deeds O ft uid cs l ->
  exists e m', encode O im ins true ns name cs (module_run O cs (module_new O cs) os) = Ok e /\ load_doc O ft uid cs e (after O ft uid cs l) = (m', Ok tt) /\
    forall q s x w, schema_at cs q = Some s -> at_path (module_run O cs (module_new O cs) os) q = Some x -> holds_xml s x w \/ is_entry q = true /\ w = ShownEntry ->
    exists y, at_path m' q = Some y /\ shows w y.
Proof. exact MergeXml_proofs.xml_program_merged. Qed.
Print Assumptions C90_xml_partial.

(** The program of C73; the tree that its document is loaded into has a leaf in the other case, a leaf with another value,
    another member in the leaf-list, and another entry. *)
Definition mg_down : deed := Do [Kid 0; Kid 1] (ALeafList (LAppend (VStr (lit "down")))).
Definition mg_three : deed := Do [Kid 0; Kid 5] (add "w 3").
Definition mg_word : deed := Do [Kid 0; Kid 2] (assign (VStr (lit "wxyz"))).
Definition mg_deeds : list deed := [mg_down; mg_three; mg_word].
Definition mg_rival : list deed := [LoadJson false false (JObj [(lit "c", JObj [(lit "a", JInt 3)])])].
Definition mg_uid (es : list (pyval * obj)) : str := repeat 49%N (length es).
Lemma mg_plain O : plain_deeds O st_ft mg_uid st_cs mg_deeds.
Proof.
  apply (PdSnoc _ _ _ _ [mg_down; mg_three] mg_word); [apply (PdSnoc _ _ _ _ [mg_down] mg_three); [apply (PdSnoc _ _ _ _ [] mg_down); [constructor|]|]|]; (split; [exact I|]).
  - intros u yo ch es E. discriminate E.
  - intros u yo ch es E _ H. injection E as <- _.
    assert (H0 : exists c, at_path (after O st_ft mg_uid st_cs [mg_down]) [Kid 0; Kid 5] = Some (OList c [])) by (eexists; vm_compute; reflexivity).
    destruct H0 as (c & H0). rewrite H0 in H. injection H as _ <-. reflexivity.
  - intros u yo ch es E. discriminate E.
Qed.
Lemma mg_rival_plain O : plain_deeds O st_ft mg_uid st_cs mg_rival.
Proof. apply (PdSnoc _ _ _ _ []); [constructor|exact I]. Qed.
Definition mg_entry := [Kid 0; Kid 5; Ent (VStr (lit "k 5"))].
Definition mg_old := [Kid 0; Kid 5; Ent (VStr (lit "w 3"))].
Definition mg_there (m : list obj) (q : list pstep) : bool := match at_path m q with Some _ => true | None => false end.
Example C90_case : forall O,
  Forall suited st_cs /\ leaf_keys st_cs /\ uniform st_cs /\ own_choices st_cs /\ python_names st_cs /\ ietf_names st_cs /\ key_leaves st_cs /\
  program O Plain st_cs st_ops /\ program O Ietf st_cs st_ops /\ plain_deeds O st_ft mg_uid st_cs mg_deeds /\ plain_deeds O st_ft mg_uid st_cs mg_rival /\
  (let m := after O st_ft mg_uid st_cs mg_deeds in at_path m [Kid 0; Kid 2] = Some (OLeaf true (VStr (lit "wxyz"))) /\ mg_there m mg_old = true /\ mg_there m mg_entry = false) /\
  at_path (after O st_ft mg_uid st_cs mg_rival) [Kid 0; Kid 0] = Some (OLeaf true (VInt 3)) /\
  at_path (run O st_cs st_ops) [Kid 0; Kid 2] = Some (OLeaf true (VStr (lit "abc"))) /\ mg_there (run O st_cs st_ops) mg_entry = true.
Proof.
  intros O. destruct (C73_case O) as (H1 & H2 & H3 & H4 & H5 & H6 & H7 & H8 & H9 & _).
  split; [exact H1|]. split; [exact H2|]. split; [exact H3|]. split; [exact H4|]. split; [exact H5|]. split; [exact H6|]. split; [exact H7|]. split; [exact H8|]. split; [exact H9|].
  split; [apply mg_plain|]. split; [apply mg_rival_plain|].
  split; [split; [vm_compute; reflexivity|split; vm_compute; reflexivity]|]. split; [vm_compute; reflexivity|]. split; vm_compute; reflexivity.
Qed.
(** What comes of it: the entries of both trees; the leaf-list has the members of the first. *)
Definition mg_of {A} (r : res A) (f : A -> list obj) : list obj := match r with Ok a => f a | Raise _ => [] end.
Example C90_case_merged : forall O im, (forall i s, im i s = None) ->
  (let m := mg_of (dumps O im st_cs (run O st_cs st_ops)) (fun j => fst (load_json O mg_uid st_cs false false j (after O st_ft mg_uid st_cs mg_deeds))) in
   at_path m [Kid 0; Kid 1] = Some (OLeafList true [VStr (lit "up")]) /\ at_path m [Kid 0; Kid 2] = Some (OLeaf true (VStr (lit "abc"))) /\
   mg_there m mg_old = true /\ at_path m (mg_entry ++ [Kid 2]) = Some (OLeaf true (VDec 125 (-2)))) /\
  (let m := mg_of (dumps_ietf O im true WNone st_cs (run O st_cs st_ops)) (fun j => fst (load_ietf_json O mg_uid st_cs false false j (after O st_ft mg_uid st_cs mg_deeds))) in
   at_path m [Kid 0; Kid 1] = Some (OLeafList true [VStr (lit "up")]) /\ mg_there m mg_old = true /\ at_path m (mg_entry ++ [Kid 2]) = Some (OLeaf true (VDec 125 (-2)))) /\
  (let m := mg_of (dumps O im st_cs (run O st_cs st_ops)) (fun j => fst (load_json O mg_uid st_cs false false j (after O st_ft mg_uid st_cs mg_rival))) in
   at_path m [Kid 0; Kid 0] = Some (OLeaf false (VInt 0)) /\ at_path m [Kid 0; Kid 1] = Some (OLeafList true [VStr (lit "up")])).
Proof.
  intros O im _. split; [|split]; cbv zeta.
  - split; [vm_compute; reflexivity|]. split; [vm_compute; reflexivity|]. split; vm_compute; reflexivity.
  - split; [vm_compute; reflexivity|]. split; vm_compute; reflexivity.
  - split; vm_compute; reflexivity.
Qed.
(** And in XML: the leaf-list has the members of both trees. *)
Example C90_xml_case : forall O im ins,
  Forall suited st_cs /\ leaf_keys st_cs /\ uniform st_cs /\ own_choices st_cs /\ python_names st_cs /\ key_leaves st_cs /\
  xprogram O st_ft im ins st_cs st_xops /\ plain_deeds O st_ft mg_uid st_cs mg_deeds /\
  (let m := mg_of (encode O im ins true (lit "n") (lit "top") st_cs (run O st_cs st_xops)) (fun e => fst (load_doc O st_ft mg_uid st_cs e (after O st_ft mg_uid st_cs mg_deeds))) in
   at_path m [Kid 0; Kid 1] = Some (OLeafList true [VStr (lit "down"); VStr (lit "up")]) /\ at_path m [Kid 0; Kid 2] = Some (OLeaf true (VStr (lit "abc"))) /\
   mg_there m mg_old = true /\ at_path m (mg_entry ++ [Kid 2]) = Some (OLeaf true (VDec 125 (-2))) /\ mg_there m [Kid 0; Kid 5; Ent (VStr (lit "a b 7"))] = true).
Proof.
  intros O im ins. destruct (C73_case O) as (H1 & H2 & H3 & H4 & H5 & _ & H7 & _).
  split; [exact H1|]. split; [exact H2|]. split; [exact H3|]. split; [exact H4|]. split; [exact H5|]. split; [exact H7|]. split; [apply st_xprogram|]. split; [apply mg_plain|]. cbv zeta.
  split; [vm_compute; reflexivity|]. split; [vm_compute; reflexivity|]. split; [vm_compute; reflexivity|]. split; vm_compute; reflexivity.
Qed.
