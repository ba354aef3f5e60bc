(** Property theorems about texts in XML: C99. *)
From Coq Require Import String.
From Verif Require Import PyStr PyVal Restricted SafeName Spec_Types Spec_Lists MemberTypes TypedList YList Tree Spec_Tree Serialise Spec_Serialise Xml Spec_Xml
  Spec_Parts Spec_XmlText Props_Serialise Props_Xml.
From Verif Require XmlText_proofs.
Import ListNotations.
Local Open Scope Z_scope.

(* ------------------------------------------------------------------ C99 *)
(** Full statement: every tree can be written as XML.  False: a string with a character that XML does not have can be assigned,
    it is written and read as JSON, in both formats, but not written as XML. *)
Theorem C99_refuted : forall O, exists cs os j j', run O cs os = [OLeaf true (VStr [97; 1]%N)] /\
  dumps O no_modules cs (run O cs os) = Ok j /\ loads O no_uid cs j = (run O cs os, Ok tt) /\
  dumps_ietf O no_modules true WNone cs (run O cs os) = Ok j' /\ loads_ietf O no_uid cs j' = (run O cs os, Ok tt) /\
  write O cs (run O cs os) = Raise ValueError.
Proof.
  intros O. exists [leaf "s" MText "string"], [([Kid 0], assign (VStr [97; 1]%N))]. eexists. eexists. split; [vm_compute; reflexivity|]. split; [vm_compute; reflexivity|]. split; [vm_compute; reflexivity|].
  split; [vm_compute; reflexivity|]. split; vm_compute; reflexivity.
Qed.
Print Assumptions C99_refuted.
(** Trees of plain values ([plain_tree]), of any depth, are written if XML has the characters of all their texts, and are
    refused with ValueError if not.  Missing: identities; unions with bits or leafrefs,
    leaf-lists with several types or of bits; binaries in leaf-lists, which are never written. *)
Theorem C99_written_partial : forall O im ins flt ns name cs kids, Forall2 (plain_tree O flt) cs kids ->
  ((forall s v w, held_in flt cs kids s v -> plain_text O s v w -> xml_text w) -> exists e, encode O im ins flt ns name cs kids = Ok e) /\
  ((exists s v w, held_in flt cs kids s v /\ plain_text O s v w /\ ~ xml_text w) -> encode O im ins flt ns name cs kids = Raise ValueError).
Proof. exact XmlText_proofs.written_thm. Qed.
Print Assumptions C99_written_partial.
(** Whatever else is in the tree, one plain value with another character and no document is written ... *)
Theorem C99_refused : forall O im ins flt ns name cs kids s v w e, held_in flt cs kids s v -> plain_text O s v w -> ~ xml_text w ->
  encode O im ins flt ns name cs kids <> Ok e.
Proof. exact XmlText_proofs.refused_thm. Qed.
Print Assumptions C99_refused.
(** ... nor with a leaf-list of identities, an identity whose module is not known, or binaries in a leaf-list, anywhere in the tree. *)
Theorem C99_no_form : forall O im ins flt ns name cs kids s x e, node_of cs kids s x -> no_form im ins s x ->
  encode O im ins flt ns name cs kids <> Ok e.
Proof. exact XmlText_proofs.formless_thm. Qed.
Print Assumptions C99_no_form.
(** container c { leaf id (identityref); } leaf-list bin (binary) *)
Definition nf_cs : list schema := [SCont (inf (lit "c")) false [leaf "id" (MEnum [lit "gige"]) "identityref"]; SLeafList (inf (lit "bin")) [pty_of MBin] (lit "binary")].
Definition nf_kids : list obj := [OCont true false [OLeaf true (VStr (lit "gige"))]; OLeafList true [VBytes [1%N]]].
Example C99_no_form_case : forall O, run O nf_cs [([Kid 0; Kid 0], assign (VStr (lit "gige"))); ([Kid 1], ALeafList (LAppend (VBytes [1%N])))] = nf_kids /\
  (exists s x, node_of nf_cs nf_kids s x /\ no_form (fun _ _ => None) (fun _ _ => None) s x) /\
  exists l, node_of nf_cs nf_kids (SLeafList (inf (lit "bin")) [pty_of MBin] (lit "binary")) (OLeafList true l) /\
    no_form (fun _ _ => Some (lit "m")) (fun _ _ => Some (lit "urn:m")) (SLeafList (inf (lit "bin")) [pty_of MBin] (lit "binary")) (OLeafList true l).
Proof.
  intros O. split; [vm_compute; reflexivity|]. split.
  - exists (leaf "id" (MEnum [lit "gige"]) "identityref"), (OLeaf true (VStr (lit "gige"))). split.
    + exists 0%nat. do 2 eexists. split; [reflexivity|]. split; [reflexivity|]. eapply NiCont with (n := 0%nat); [reflexivity|reflexivity|constructor].
    + split; [reflexivity|now left].
  - exists [VBytes [1%N]]. split.
    + exists 1%nat. do 2 eexists. split; [reflexivity|]. split; [reflexivity|constructor].
    + right. split; [reflexivity|]. split; [discriminate|]. constructor; [now exists [1%N]|constructor].
Qed.
(** No document, of any tree, has a text with a character that XML does not have. *)
Theorem C99_legal : forall O im ins flt ns name cs kids e, encode O im ins flt ns name cs kids = Ok e ->
  forall e', e' = e \/ inside e' e -> xml_text (x_text e').
Proof. exact XmlText_proofs.encode_legal. Qed.
Print Assumptions C99_legal.

(** container c { leaf s; leaf d (decimal64); leaf e (empty); leaf b (bits); leaf u (uint8 or string); leaf r (leafref); }
    leaf-list ll (string); leaf-list lb (boolean); list o { key k; leaf k; leaf v; } *)
Definition tx_cs : list schema :=
  [SCont (inf (lit "c")) false [leaf "s" MText "string"; leaf "d" (MDec 2) "decimal64"; leaf "e" MBool "empty";
     SLeaf (inf (lit "b")) (LOne (TBits flags)) None (lit "bits") false; SLeaf (inf (lit "u")) (LUnion (map pty_of [u8t; MText])) None (lit "union") false;
     SLeaf (inf (lit "r")) (LOne TRef) None (lit "leafref") false];
   SLeafList (inf (lit "ll")) [pty_of MText] (lit "string"); SLeafList (inf (lit "lb")) [pty_of MBool] (lit "boolean");
   SList (inf (lit "o")) [lit "k"] false entry_cs].
Definition tx_ops (s m : str) : list (list pstep * op) :=
  [([Kid 0; Kid 0], assign (VStr s)); ([Kid 0; Kid 1], assign (VDec 125 (-2))); ([Kid 0; Kid 2], assign (VBool true));
   ([Kid 0; Kid 3], assign (VStr (lit "up on"))); ([Kid 0; Kid 4], assign (VInt 9)); ([Kid 0; Kid 5], assign (VStr (lit "p")));
   ([Kid 1], ALeafList (LAppend (VStr m))); ([Kid 2], ALeafList (LAppend (VBool true)));
   ([Kid 3], AList (lit "x") (YAdd (VStr (lit "a")))); ([Kid 3; Ent (VStr (lit "a")); Kid 1], assign (VInt 7))].
Definition tx_kids (s m : str) : list obj :=
  [OCont true false [OLeaf true (VStr s); OLeaf true (VDec 125 (-2)); OLeaf true (VBool true); OLeaf true (VBits [lit "up"; lit "on"]);
     OLeaf true (VInt 9); OLeaf true (VStr (lit "p"))]; OLeafList true [VStr m]; OLeafList true [VBool true];
   OList false [(VStr (lit "a"), OCont true false [OLeaf true (VStr (lit "a")); OLeaf true (VInt 7)])]].
Lemma tx_reached O : run O tx_cs (tx_ops (lit "x") (lit "y")) = tx_kids (lit "x") (lit "y") /\ run O tx_cs (tx_ops (lit "x") [121; 0]%N) = tx_kids (lit "x") [121; 0]%N.
Proof. split; vm_compute; reflexivity. Qed.
Lemma tx_plain O s m : Forall2 (plain_tree O true) tx_cs (tx_kids s m).
Proof.
  assert (L : forall n t yt k v w, type_name (WVal t) (lit yt) -> lit yt <> lit "identityref" -> lit yt <> lit "empty" -> text_of t v w ->
    plain_tree O true (SLeaf (inf (lit n)) (LOne (pty_of t)) None (lit yt) k) (OLeaf true v)).
  { intros n t yt k v w H1 H2 H3 H4. constructor. intros _. exists w. right. split; [exact H3|]. left. exists t. auto. }
  constructor; [|constructor; [|constructor; [|constructor; [|constructor]]]].
  - constructor. constructor; [|constructor; [|constructor; [|constructor; [|constructor; [|constructor; [|constructor]]]]]].
    + apply (L _ MText "string"%string _ _ s); [left; cbn; tauto|discriminate|discriminate|reflexivity].
    + eapply (L _ (MDec 2) "decimal64"%string); [left; cbn; tauto|discriminate|discriminate|reflexivity].
    + constructor. intros _. exists []. left. split; reflexivity.
    + constructor. intros _. eexists. right. split; [discriminate|]. right. left. exists flags, [lit "up"; lit "on"]. split; [reflexivity|].
      split; [right; vm_compute; intuition discriminate|]. split; reflexivity.
    + constructor. intros _. exists (lit "9"). right. split; [discriminate|]. right. right. right. exists [u8t; MText], u8t. split; [reflexivity|].
      split; [right; vm_compute; intuition discriminate|]. split; [vm_compute; reflexivity|reflexivity].
    + constructor. intros _. exists (lit "p"). right. split; [discriminate|]. right. right. left. split; [reflexivity|]. split; [left; cbn; tauto|reflexivity].
  - constructor; [discriminate|]. intros _. constructor; [|constructor]. exists m, MText. split; [reflexivity|]. split; [exact I|]. split; [|split; [discriminate|reflexivity]].
    split; [eexists; reflexivity|]. cbn. auto.
  - constructor; [discriminate|]. intros _. constructor; [|constructor]. exists (lit "1"), MBool. split; [reflexivity|]. split; [exact I|]. split; [|split; [discriminate|split; reflexivity]].
    split; [eexists; reflexivity|]. intros _ H. discriminate H.
  - constructor. constructor; [|constructor]. do 3 eexists. split; [reflexivity|]. constructor; [|constructor; [|constructor]].
    + eapply (L _ MText "string"%string); [left; cbn; tauto|discriminate|discriminate|reflexivity].
    + eapply (L _ u8t "uint8"%string); [left; cbn; tauto|discriminate|discriminate|reflexivity].
Qed.
Example C99_case : forall O, Forall2 (plain_tree O true) tx_cs (run O tx_cs (tx_ops (lit "x") (lit "y"))) /\ (exists e, write O tx_cs (run O tx_cs (tx_ops (lit "x") (lit "y"))) = Ok e) /\ Forall2 (plain_tree O true) tx_cs (run O tx_cs (tx_ops (lit "x") [121; 0]%N)) /\ exists s w, held_in true tx_cs (run O tx_cs (tx_ops (lit "x") [121; 0]%N)) s (VStr w) /\ plain_text O s (VStr w) w /\ ~ xml_text w.
Proof.
  intros O. destruct (tx_reached O) as [-> ->]. split; [apply tx_plain|]. split; [eexists; vm_compute; reflexivity|]. split; [apply tx_plain|].
  exists (SLeafList (inf (lit "ll")) [pty_of MText] (lit "string")), [121; 0]%N. split; [|split].
  - exists 1%nat. do 2 eexists. split; [reflexivity|]. split; [reflexivity|]. constructor; [now right|now left].
  - exists MText. split; [reflexivity|]. split; [exact I|]. split; [|split; [discriminate|reflexivity]]. split; [eexists; reflexivity|]. cbn. auto.
  - intros H. inversion H as [|? ? _ H2]; subst. inversion H2 as [|? ? H3 _]; subst. unfold xml_letter in H3. repeat (destruct H3 as [H3|H3]; [first [discriminate H3|destruct H3 as [H3 _]; now apply H3]|]). destruct H3 as [H3 _]. now apply H3.
Qed.
