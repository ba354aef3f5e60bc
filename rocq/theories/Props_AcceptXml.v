(** Property theorems about XML documents that are accepted: C88. *)
From Verif Require Import PyStr PyStr_facts PyVal Restricted IntTypes StrTypes SafeName Spec_Types Spec_Lists TypedList MemberTypes YList
  Tree Spec_Tree Compile Spec_Compile Serialise Spec_Serialise Xml Spec_Loading Spec_Shape Spec_AcceptXml.
From Verif Require Shape_proofs Accept_proofs AcceptXml_proofs Serialise_cases Props_Xml.
From Verif Require Import Props_Tree Props_Loading Props_Path Props_Shape Props_AcceptJson.
Import ListNotations.

(* ------------------------------------------------------------------ C88 *)
(** A valid document loads into whatever state, and everything that it says then holds.  Missing: schemas with choices;
    the order of members and entries. *)
Theorem C88_xml_partial : forall O ft uid cs l e, choice_free cs -> python_names cs -> xml_valid O ft (entry_schema cs) e ->
  exists m', load_doc O ft uid cs e (after O ft uid cs l) = (m', Ok tt) /\
    forall q w, xtells O ft (entry_schema cs) e q w -> exists x, at_path m' q = Some x /\ shows w x.
Proof. intros O ft uid cs l e Hc Hn. apply AcceptXml_proofs.xml_accepted; [exact Hc|exact Hn|]. apply Shape_proofs.after_shaped. Qed.
Print Assumptions C88_xml_partial.

(** A document says nothing by the absence of members: a leaf-list keeps those that it does not give. *)
Definition el (n t : str) (kids : list xml) : xml := XElem (lit "urn:m") n [] t kids.
Definition doc_of (kids : list xml) : xml := el (lit "m") [] kids.
Theorem C88_members_refuted : forall O, exists e1 e2 m', x_kids e2 = [el (lit "s") (lit "b") []] /\
  load_doc O no_floats longer crate_cs e2 (after O no_floats longer crate_cs [LoadXml e1]) = (m', Ok tt) /\ crate_at m' 2 = [VStr (lit "a"); VStr (lit "b")].
Proof. intros O. exists (doc_of [el (lit "s") (lit "a") []]), (doc_of [el (lit "s") (lit "b") []]). eexists. split; [reflexivity|]. split; vm_compute; reflexivity. Qed.
Print Assumptions C88_members_refuted.

(** An element without text leaves the value of its leaf as it was, where its type takes the empty text. *)
Definition note_cs := compile_module true [YLeaf (hd (lit "note")) txt None (lit "string")].
Theorem C88_blank_refuted : forall O, exists e1 e2 m', d_out (leaf_assign O txt (VStr [])) = Ok (VStr []) /\ x_kids e2 = [el (lit "note") [] []] /\
  load_doc O no_floats longer note_cs e2 (after O no_floats longer note_cs [LoadXml e1]) = (m', Ok tt) /\ m' = [OLeaf true (VStr (lit "old"))].
Proof. intros O. exists (doc_of [el (lit "note") (lit "old") []]), (doc_of [el (lit "note") [] []]). eexists. split; [vm_compute; reflexivity|]. split; [reflexivity|]. split; vm_compute; reflexivity. Qed.
Print Assumptions C88_blank_refuted.

(** The prefix of an identity is taken off for a leaf, but not for a key: what was written for the entry "gige" comes
    back as the entry "x:gige". *)
Definition kinds : pty := pty_of (MEnum [lit "gige"; lit "x:gige"]).
Definition ports_cs : list schema :=
  [SList (Props_Serialise.inf (lit "l")) [lit "k"] false [SLeaf (Props_Serialise.inf (lit "k")) (LOne kinds) None (lit "identityref") true; SLeaf (Props_Serialise.inf (lit "w")) (LOne kinds) None (lit "identityref") false]].
Theorem C88_identity_key_refuted : forall O, exists os e m',
  m_entries (run O ports_cs os) = [VStr (lit "gige")] /\ encode O Props_Xml.mod_x Props_Xml.ns_x true (lit "urn:m") (lit "m") ports_cs (run O ports_cs os) = Ok e /\
  load_doc O no_floats longer ports_cs e (module_new O ports_cs) = (m', Ok tt) /\ m_entries m' = [VStr (lit "x:gige")] /\
  at_path m' [Kid 0; Ent (VStr (lit "x:gige")); Kid 1] = Some (OLeaf true (VStr (lit "gige"))).
Proof.
  intros O. exists [([Kid 0], AList [] (YAdd (VStr (lit "gige")))); ([Kid 0; Ent (VStr (lit "gige")); Kid 1], ASet (Priv false) (AVal (VStr (lit "gige"))))].
  eexists _, _. split; [vm_compute; reflexivity|]. split; [vm_compute; reflexivity|]. split; [vm_compute; reflexivity|]. split; vm_compute; reflexivity.
Qed.
Print Assumptions C88_identity_key_refuted.

(** A document with an entry that is there and one that is not, members of both leaf-lists, and a container with presence. *)
Definition entry_el (k1 k2 : str) (more : list xml) : xml := el (lit "p") [] (el (lit "k1") k1 [] :: el (lit "k2") k2 [] :: more).
Definition hold : xml :=
  doc_of [entry_el (lit "a") (lit "1") [el (lit "v") (lit "9") []]; el (lit "n") (lit "8") []; entry_el (lit "b") (lit "2") [el (lit "v") (lit "5") []];
          el (lit "n") (lit "9") []; el (lit "s") (lit "12") []; el (lit "s") (lit "z") []; el (lit "e") [] [el (lit "x") (lit "1") []]].
Lemma crate_key O k1 k2 z more k : objectified no_floats k1 = VStr k1 -> objectified no_floats k2 = VInt z -> (exists w, d_out (leaf_assign O u8 (VInt z)) = Ok w) ->
  k = VStr (k1 ++ lit " " ++ k2) -> py_str O (VInt z) = k2 ->
  xentry_key O no_floats (match crate 0 with SList _ _ _ cs => cs | _ => [] end) [lit "k1"; lit "k2"] (entry_el k1 k2 more) k.
Proof.
  intros H1 H2 (w & Hw) -> Hk. exists [(lit "k1", VStr k1); (lit "k2", VInt z)]. split.
  - constructor; [split; [reflexivity|]|constructor; [split; [reflexivity|]|constructor]].
    + exists 0%nat. eexists _, _, _, _, (el (lit "k1") k1 []), (VStr k1). split; [reflexivity|]. split; [reflexivity|]. split; [|split; [reflexivity|split; [exact (eq_sym H1)|reflexivity]]].
      exists [], (el (lit "k2") k2 [] :: more). split; [reflexivity|]. split; [reflexivity|]. split; [reflexivity|]. intros c [].
    + exists 1%nat. eexists _, _, _, _, (el (lit "k2") k2 []), w. split; [reflexivity|]. split; [reflexivity|]. split; [|split; [reflexivity|split; [exact (eq_sym H2)|exact Hw]]].
      exists [el (lit "k1") k1 []], more. split; [reflexivity|]. split; [reflexivity|]. split; [reflexivity|]. intros c [<-|[]] [_ H]. apply str_eqb_eq in H. vm_compute in H. discriminate.
  - unfold key_text. cbn [map snd]. rewrite Hk. reflexivity.
Qed.
Ltac el_in H := repeat (destruct H as [H|H]; [rewrite <- H in *; clear H|]); [..|destruct H].
Ltac el_spelt n := exists n; eexists; split; [apply Accept_proofs.spelt_by; vm_compute; reflexivity|].
Lemma crate_entry O k1 k2 v z : objectified no_floats k1 = VStr k1 -> objectified no_floats k2 = VInt z -> (exists w, d_out (leaf_assign O u8 (VInt z)) = Ok w) -> py_str O (VInt z) = k2 ->
  v <> [] -> (exists w, d_out (leaf_assign O u8 (VStr v)) = Ok w) -> xml_valid O no_floats (crate 0) (entry_el k1 k2 [el (lit "v") v []]).
Proof.
  intros H1 H2 H3 H4 Hv (w & Hw). apply (XvEntry O no_floats _ _ _ _ _ (VStr (k1 ++ lit " " ++ k2))); [discriminate|apply nodup_by; vm_compute; reflexivity|now apply (crate_key O k1 k2 z)|].
  apply XvCont; [apply AcceptXml_proofs.no_clash_by, nodup_by; vm_compute; reflexivity|]. intros c H. el_in H.
  - el_spelt 0%nat. apply XvKey.
  - el_spelt 1%nat. apply XvKey.
  - el_spelt 2%nat. apply (XvLeaf O no_floats _ _ _ _ _ (VStr v) w); [|exact Hw]. apply TvPlain; [exact Hv| |left]; intros E; apply str_eqb_eq in E; vm_compute in E; discriminate.
Qed.
Example C88_case : forall O, choice_free crate_cs /\ python_names crate_cs /\ xml_valid O no_floats (entry_schema crate_cs) hold /\
  (exists m', load_doc O no_floats longer crate_cs hold (after O no_floats longer crate_cs packed) = (m', Ok tt) /\
     m_entries m' = [VStr (lit "b 2"); VStr (lit "a 1")] /\ crate_at m' 1 = [VInt 7; VInt 8; VInt 9] /\ crate_at m' 2 = [VStr (lit "12"); VStr (lit "z")]) /\
  xtells O no_floats (entry_schema crate_cs) hold [Kid 0; Ent (VStr (lit "b 2")); Kid 2] (ShownValue (VInt 5)) /\
  xtells O no_floats (entry_schema crate_cs) hold [Kid 2] (ShownMember [VInt 12; VStr (lit "12"); VStr (lit "12")]) /\
  xtells O no_floats (entry_schema crate_cs) hold [Kid 3] ShownPresent.
Proof.
  intros O. split; [apply Serialise_cases.choice_free_by; vm_compute; reflexivity|]. split; [apply Serialise_cases.names_by; vm_compute; reflexivity|].
  assert (K1 : xentry_key O no_floats (match crate 0 with SList _ _ _ cs => cs | _ => [] end) [lit "k1"; lit "k2"] (entry_el (lit "a") (lit "1") [el (lit "v") (lit "9") []]) (VStr (lit "a 1"))).
  { apply (crate_key O (lit "a") (lit "1") 1); [reflexivity|reflexivity|eexists; vm_compute; reflexivity|reflexivity|reflexivity]. }
  assert (K2 : xentry_key O no_floats (match crate 0 with SList _ _ _ cs => cs | _ => [] end) [lit "k1"; lit "k2"] (entry_el (lit "b") (lit "2") [el (lit "v") (lit "5") []]) (VStr (lit "b 2"))).
  { apply (crate_key O (lit "b") (lit "2") 2); [reflexivity|reflexivity|eexists; vm_compute; reflexivity|reflexivity|reflexivity]. }
  assert (M12 : member_seen O no_floats [TStr] (lit "12") [VInt 12; VStr (lit "12"); VStr (lit "12")]).
  { right. exists ValueError, (VStr (lit "12")). split; [vm_compute; reflexivity|]. split; [now left|]. split; vm_compute; reflexivity. }
  split.
  { apply XvCont.
    - unfold hold, doc_of, el at 1. cbn [x_kids].
      repeat (apply AcceptXml_proofs.clash_cons; [intros c2 n s H E Hn Hp; el_in H; try (vm_compute in E; discriminate E);
        (destruct n as [|[|[|[|n]]]]; [| | | |destruct n; discriminate Hn]; injection Hn as <-; try (vm_compute in Hp; discriminate Hp))|]).
      + intros k1 k2 H1 H2. assert (Hd : NoDup (map (fun s => e_py (s_info s)) (match crate 0 with SList _ _ _ cs => cs | _ => [] end))) by (apply nodup_by; vm_compute; reflexivity).
        rewrite (AcceptXml_proofs.key_unique O no_floats _ _ _ _ _ Hd H1 K1), (AcceptXml_proofs.key_unique O no_floats _ _ _ _ _ Hd H2 K2). vm_compute. discriminate.
      + exact I.
      + exact I.
      + intros [|? ?] ? ? ? ? ? ? E; discriminate.
    - intros c H. unfold hold, doc_of, el at 1 in H. cbn [x_kids] in H. el_in H.
      + exists 0%nat, (crate 0). split; [apply Accept_proofs.spelt_by; vm_compute; reflexivity|]. apply crate_entry with (z := 1%Z); try reflexivity; [eexists; vm_compute; reflexivity|discriminate|eexists; vm_compute; reflexivity].
      + exists 1%nat, (crate 1). split; [apply Accept_proofs.spelt_by; vm_compute; reflexivity|]. eapply XvMember; [reflexivity|]. left. eexists. split; [vm_compute; reflexivity|reflexivity].
      + exists 0%nat, (crate 0). split; [apply Accept_proofs.spelt_by; vm_compute; reflexivity|]. apply crate_entry with (z := 2%Z); try reflexivity; [eexists; vm_compute; reflexivity|discriminate|eexists; vm_compute; reflexivity].
      + exists 1%nat, (crate 1). split; [apply Accept_proofs.spelt_by; vm_compute; reflexivity|]. eapply XvMember; [reflexivity|]. left. eexists. split; [vm_compute; reflexivity|reflexivity].
      + exists 2%nat, (crate 2). split; [apply Accept_proofs.spelt_by; vm_compute; reflexivity|]. eapply XvMember; [reflexivity|exact M12].
      + exists 2%nat, (crate 2). split; [apply Accept_proofs.spelt_by; vm_compute; reflexivity|]. eapply XvMember; [reflexivity|]. left. eexists. split; [vm_compute; reflexivity|reflexivity].
      + exists 3%nat, (crate 3). split; [apply Accept_proofs.spelt_by; vm_compute; reflexivity|]. apply XvCont; [apply AcceptXml_proofs.no_clash_by, nodup_by; vm_compute; reflexivity|]. intros c1 H1. el_in H1.
        el_spelt 0%nat. eapply XvLeaf; [apply TvPlain; [discriminate| |left]; intros E; apply str_eqb_eq in E; vm_compute in E; discriminate|vm_compute; reflexivity]. }
  split; [eexists; split; [vm_compute; reflexivity|]; split; [vm_compute; reflexivity|]; split; vm_compute; reflexivity|].
  split.
  { eapply XtIn; [right; right; now left|apply (Accept_proofs.spelt_by _ _ 0 (crate 0)); vm_compute; reflexivity|]. apply (XtInEntry O no_floats _ _ _ _ _ _ _ _ K2).
    eapply XtIn; [right; right; now left|apply Accept_proofs.spelt_by; vm_compute; reflexivity|]. eapply XtLeaf; [apply TvPlain; [discriminate| |left]; intros E; apply str_eqb_eq in E; vm_compute in E; discriminate|vm_compute; reflexivity]. }
  split.
  { eapply XtIn; [right; right; right; right; now left|apply (Accept_proofs.spelt_by _ _ 2 (crate 2)); vm_compute; reflexivity|]. apply XtMember. exact M12. }
  eapply XtIn; [right; right; right; right; right; right; now left|apply (Accept_proofs.spelt_by _ _ 3 (crate 3)); vm_compute; reflexivity|]. apply XtPresent.
Qed.
