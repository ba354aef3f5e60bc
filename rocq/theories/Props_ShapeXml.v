(** C83 for XML documents. *)
From Coq Require Import String.
From Verif Require Import PyStr PyStr_facts PyVal Restricted IntTypes StrTypes SafeName Spec_Types Spec_Lists TypedList YList
  Tree Spec_Tree Serialise Spec_Serialise Xml Spec_Loading Spec_Shape Spec_ShapeXml.
From Verif Require Shape_proofs ShapeXml_proofs.
From Verif Require Import Props_Serialise.
Import ListNotations.
Local Open Scope list_scope.

(** An XML document that is loaded without an exception has the shape of the schema. *)
Theorem C83_xml : forall O ft uid cs e m m', load_doc O ft uid cs e m = (m', Ok tt) -> xml_fits O (entry_schema cs) e.
Proof. exact ShapeXml_proofs.xml_shape. Qed.
Print Assumptions C83_xml.
(** The exception for a mistake, when it is the first one, after elements [pre] that load.  Missing: mistakes after other elements further down and inside entries of lists. *)
Theorem C83_mistakes_xml_partial : forall O ft uid cs l ns name d t pre c rest ex, let m := after O ft uid cs l in
  snd (load_doc O ft uid cs (XElem ns name d t pre) m) = Ok tt -> xml_mistake O (entry_schema cs) (XElem ns name d t (c :: rest)) ex ->
  snd (load_doc O ft uid cs (XElem ns name d t (pre ++ c :: rest)) m) = Raise ex.
Proof. intros O ft uid cs l ns name d t pre c rest ex m. apply ShapeXml_proofs.xml_mistake_raises. apply Shape_proofs.after_shaped. Qed.
Print Assumptions C83_mistakes_xml_partial.

Definition rack : list schema :=
  [SCont (inf (lit "c")) false [leaf "e" MBool "empty"; leaf "i" (MEnum [lit "gige"]) "identityref"; leaf "u" u8t "uint8"];
   SList (inf (lit "l")) [lit "k"] false [SLeaf (inf (lit "k")) (LOne TStr) None (lit "string") true; leaf "u" u8t "uint8"];
   SLeafList (inf (lit "s")) [TStr] (lit "string");
   SList (inf (lit "n")) [] false [leaf "u" u8t "uint8"]].
Definition el (n : string) (t : string) (kids : list xml) : xml := XElem (lit "urn:m") (lit n) [] (lit t) kids.
Definition rack_good : list xml :=
  [el "c" "" [el "i" "x:gige" []; el "e" "" []; el "u" "" []]; el "l" "" [el "u" "7" []; el "k" "a" []]; el "s" "w" []].
Definition mistakes : list (xml * exn) :=
  [(el "zzz" "" [], AttributeError); (el "c" "" [el "e" "no" []], ValueError); (el "c" "" [el "i" "" []], TypeError); (el "c" "" [el "u" "256" []], ValueError);
   (el "l" "" [el "u" "7" []], AttributeError); (el "n" "" [], RuntimeError); (el "s" "" [el "t" "w" []], AttributeError)].
Definition no_uuid (_ : list (pyval * obj)) : str := [].
Definition none_float (_ : str) : option pyval := None.
Example C83_xml_case : forall O, snd (decode O none_float no_uuid rack (XElem (lit "urn:m") (lit "m") [] [] rack_good)) = Ok tt /\
  forall c ex, In (c, ex) mistakes -> xml_mistake O (entry_schema rack) (XElem (lit "urn:m") (lit "m") [] [] [c]) ex /\
    snd (decode O none_float no_uuid rack (XElem (lit "urn:m") (lit "m") [] [] (rack_good ++ [c]))) = Raise ex.
Proof.
  intros O. split; [vm_compute; reflexivity|]. intros c ex H.
  assert (C : forall n key, nth_error rack n <> None -> match nth_error rack n with Some s => str_eqb (e_py (s_info s)) (safe_name key) | None => false end = true ->
    forallb (fun s' => negb (str_eqb (e_py (s_info s')) (safe_name key))) (firstn n rack ++ skipn (S n) rack) = true -> match nth_error rack n with Some s => the_child rack key s | None => True end).
  { intros n key. destruct (nth_error rack n) as [s|] eqn:E; [|intros []; reflexivity]. intros _. now apply (Shape_proofs.child_by rack n s key E). }
  repeat (destruct H as [H|H]; [injection H as <- <-; split; [|vm_compute; reflexivity]|]); [..|destruct H].
  - eapply XmUnknown; [reflexivity|]. intros n s' [Hn Hp]. assert (B : forallb (fun s => negb (str_eqb (e_py (s_info s)) (safe_name (lit "zzz")))) rack = true) by (vm_compute; reflexivity).
    rewrite forallb_forall in B. specialize (B s' (nth_error_In _ _ Hn)). cbn [x_name el] in Hp. rewrite Hp, str_eqb_refl in B. discriminate.
  - eapply XmIn; [reflexivity|apply (C 0%nat (lit "c")); [discriminate|vm_compute; reflexivity..]|]. eapply XmIn; [reflexivity|apply (Shape_proofs.child_by _ 0); vm_compute; reflexivity|]. apply XmEmpty. discriminate.
  - eapply XmIn; [reflexivity|apply (C 0%nat (lit "c")); [discriminate|vm_compute; reflexivity..]|]. eapply XmIn; [reflexivity|apply (Shape_proofs.child_by _ 1 (leaf "i" (MEnum [lit "gige"]) "identityref")); vm_compute; reflexivity|]. apply XmIdentity. reflexivity.
  - eapply XmIn; [reflexivity|apply (C 0%nat (lit "c")); [discriminate|vm_compute; reflexivity..]|]. eapply XmIn; [reflexivity|apply (Shape_proofs.child_by _ 2 (leaf "u" u8t "uint8")); vm_compute; reflexivity|]. apply XmValue; [discriminate|intros E; apply str_eqb_eq in E; vm_compute in E; discriminate|intros E; apply str_eqb_eq in E; vm_compute in E; discriminate|vm_compute; reflexivity].
  - eapply XmIn; [reflexivity|apply (C 1%nat (lit "l")); [discriminate|vm_compute; reflexivity..]|]. eapply (XmKey O _ _ _ _ _ _ 0); [reflexivity|reflexivity| |].
    + intros s' [<-|[<-|[]]] E; [reflexivity|]. apply (f_equal (fun x => str_eqb x (lit "u"))) in E. vm_compute in E. discriminate.
    + intros c [<-|[]]. left. intros E. apply (f_equal (fun x => str_eqb x (lit "u"))) in E. vm_compute in E. discriminate.
  - eapply XmIn; [reflexivity|apply (C 3%nat (lit "n")); [discriminate|vm_compute; reflexivity..]|]. apply XmKeyless.
  - eapply XmIn; [reflexivity|apply (C 2%nat (lit "s")); [discriminate|vm_compute; reflexivity..]|]. apply XmMember. discriminate.
Qed.
