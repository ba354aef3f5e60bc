(** Property theorems about documents that are accepted although there are choices: C89. *)
From Verif Require Import PyStr PyStr_facts PyVal Restricted IntTypes StrTypes SafeName Spec_Types Spec_Lists TypedList YList
  Tree Spec_Tree Compile Spec_Compile Serialise Spec_Serialise Xml Spec_Loading Spec_Shape Spec_Accept Spec_AcceptJson Spec_AcceptXml Spec_AcceptChoice.
From Verif Require Accept_proofs AcceptJson_proofs AcceptXml_proofs AcceptChoice_proofs Serialise_cases Tree_cases Compile_proofs.
From Verif Require Import Props_Tree Props_Loading Props_Path Props_Shape Props_Accept Props_AcceptXml.
Import ListNotations.

(* ------------------------------------------------------------------ C89 *)
(** A valid document that has data in one case of each choice loads whatever the tree holds - data of other cases or not -
    and everything that it says then holds.  Missing: nested choices, keys in another case than their list, the
    assignment of whole objects before. *)
Theorem C89_ietf_partial : forall O ft uid cs l skip ms, uniform cs -> even_keys cs -> python_names cs -> plain_deeds O ft uid cs l ->
  ietf_valid O skip (entry_schema cs) (JObj ms) -> consistent cs (fun q => exists w, says O (entry_schema cs) (JObj ms) q w) ->
  exists m', load_ietf_json O uid cs false skip (JObj ms) (after O ft uid cs l) = (m', Ok tt) /\
    forall q w, says O (entry_schema cs) (JObj ms) q w -> exists x, at_path m' q = Some x /\ meets w x.
Proof. intros O ft uid cs l skip ms H1 H2 H3 H4. now apply AcceptChoice_proofs.ietf_choice. Qed.
Print Assumptions C89_ietf_partial.
Theorem C89_json_partial : forall O ft uid cs l skip ms, uniform cs -> even_keys cs -> python_names cs -> plain_deeds O ft uid cs l ->
  json_valid O skip false (entry_schema cs) (JObj ms) -> consistent cs (fun q => exists w, tells O false (entry_schema cs) (JObj ms) q w) ->
  exists m', load_json O uid cs false skip (JObj ms) (after O ft uid cs l) = (m', Ok tt) /\
    forall q w, tells O false (entry_schema cs) (JObj ms) q w -> exists x, at_path m' q = Some x /\ so w x.
Proof. intros O ft uid cs l skip ms H1 H2 H3 H4. now apply AcceptChoice_proofs.json_choice. Qed.
Print Assumptions C89_json_partial.
Theorem C89_xml_partial : forall O ft uid cs l e, uniform cs -> even_keys cs -> python_names cs -> plain_deeds O ft uid cs l ->
  xml_valid O ft (entry_schema cs) e -> consistent cs (fun q => exists w, xtells O ft (entry_schema cs) e q w) ->
  exists m', load_doc O ft uid cs e (after O ft uid cs l) = (m', Ok tt) /\
    forall q w, xtells O ft (entry_schema cs) e q w -> exists x, at_path m' q = Some x /\ shows w x.
Proof. intros O ft uid cs l e H1 H2 H3 H4. now apply AcceptChoice_proofs.xml_choice. Qed.
Print Assumptions C89_xml_partial.

(** Two leaves in one case, a container in the other, and a leaf in none. *)
Definition menu : list ystmt :=
  [YCont (hd (lit "c")) true
     [YChoice (lit "pick") None
        [(lit "one", [YLeaf (hd (lit "x")) txt None (lit "string"); YLeaf (hd (lit "y")) u8 None (lit "uint8")]);
         (lit "two", [YCont (hd (lit "t")) false [YLeaf (hd (lit "z")) u8 None (lit "uint8")]])];
      YLeaf (hd (lit "w")) u8 None (lit "uint8")]].
Definition menu_cs := compile_module true menu.
Definition served : list deed := [LoadJson false false (JObj [(lit "c", JObj [(lit "t", JObj [(lit "z", JInt 1)])])])].
Lemma menu_uniform : uniform menu_cs.
Proof. apply Serialise_cases.uniform_by. vm_compute. reflexivity. Qed.
Lemma menu_even : even_keys menu_cs.
Proof. apply Tree_cases.even_by. vm_compute. reflexivity. Qed.
Lemma menu_names : python_names menu_cs.
Proof. apply Serialise_cases.names_by. vm_compute. reflexivity. Qed.
Lemma served_plain O : plain_deeds O no_floats longer menu_cs served.
Proof. apply (PdSnoc _ _ _ _ []); [constructor|exact I]. Qed.
Definition dish (n : nat) : schema := match menu_cs with SCont _ _ cs :: _ => nth n cs (SLeafList plain [] []) | _ => SLeafList plain [] [] end.
Definition wishes : list (str * json) := [(lit "x", JStr (lit "a")); (lit "w", JInt 3); (lit "y", JInt 4)].
Definition mixed : list (str * json) := [(lit "x", JStr (lit "a")); (lit "t", JObj [(lit "z", JInt 2)])].
Definition order (ms : list (str * json)) : list (str * json) := [(lit "c", JObj ms)].
Ltac dish_at n := right; left; exists n, (dish n); split; [apply Accept_proofs.spelt_by; vm_compute; reflexivity|].
Lemma sent_as yt j : str_eqb yt (lit "empty") = false -> str_eqb yt (lit "identityref") = false -> scalar j -> sent yt j j.
Proof. intros H1 H2 Hs. right. split; [now apply other_name|]. split; [exact Hs|]. split; [apply GivenPlain; left; now apply other_name|]. intros E. rewrite E in H2. discriminate. Qed.

(** With data in both cases, a valid document loads without an exception, and what comes first is lost. *)
Theorem C89_two_cases_refuted : forall O, exists ms m', ietf_valid O false (entry_schema menu_cs) (JObj ms) /\
  load_ietf_json O longer menu_cs false false (JObj ms) (module_new O menu_cs) = (m', Ok tt) /\
  says O (entry_schema menu_cs) (JObj ms) [Kid 0; Kid 0] (WLeaf (VStr (lit "a"))) /\
  at_path m' [Kid 0; Kid 0] = Some (OLeaf false (VStr [])) /\ at_path m' [Kid 0; Kid 2; Kid 0] = Some (OLeaf true (VInt 2)).
Proof.
  intros O. exists (order mixed). eexists. split; [|split; [vm_compute; reflexivity|split; [|split; vm_compute; reflexivity]]].
  - apply VCont; [apply Accept_proofs.once_by, nodup_by; vm_compute; reflexivity|]. intros key j H. case_in H. right. left. exists 0%nat. eexists. split; [spelt_at|].
    apply VCont; [apply Accept_proofs.once_by, nodup_by; vm_compute; reflexivity|]. intros key j H. case_in H.
    + dish_at 0%nat. eapply VLeaf; [now apply sent_as|vm_compute; reflexivity].
    + dish_at 2%nat. apply VCont; [apply Accept_proofs.once_by, nodup_by; vm_compute; reflexivity|]. intros key j H. case_in H. right. left. exists 0%nat. eexists. split; [spelt_at|].
      eapply VLeaf; [now apply sent_as|vm_compute; reflexivity].
  - eapply SaysIn; [now left|no_at|spelt_at|]. eapply SaysIn; [now left|no_at|apply (Accept_proofs.spelt_by _ _ 0 (dish 0)); vm_compute; reflexivity|].
    eapply SaysLeaf; [now apply sent_as|vm_compute; reflexivity].
Qed.
Print Assumptions C89_two_cases_refuted.

(** A document for the first case; the tree has data in the second. *)
Definition told_of : list (list pstep) := [[Kid 0]; [Kid 0; Kid 0]; [Kid 0; Kid 1]; [Kid 0; Kid 3]].
Lemma menu_top key n s : spelt menu_cs key n s -> n = 0%nat /\ s = match menu_cs with s0 :: _ => s0 | [] => s end.
Proof. intros [H _]. destruct n as [|n]; [injection H as <-; split; reflexivity|]. cbn in H. now destruct n. Qed.
Lemma dish_one key n s n' : spelt [dish 0; dish 1; dish 2; dish 3] key n s -> nth_error [dish 0; dish 1; dish 2; dish 3] n' = Some (dish n') -> str_eqb (e_py (s_info (dish n'))) (safe_name key) = true -> n = n' /\ s = dish n'.
Proof. intros H Hn E. eapply Accept_proofs.spelt_one; [|exact H|apply Accept_proofs.spelt_by; [exact Hn|exact E]]. apply nodup_by. vm_compute. reflexivity. Qed.
Definition menu_top_schema : schema := match menu_cs with s0 :: _ => s0 | [] => SLeafList plain [] [] end.
Lemma menu_top_is : exists i, menu_top_schema = SCont i true [dish 0; dish 1; dish 2; dish 3].
Proof. eexists. vm_compute. reflexivity. Qed.
Example C89_case_ietf : forall O, uniform menu_cs /\ even_keys menu_cs /\ python_names menu_cs /\ plain_deeds O no_floats longer menu_cs served /\
  ietf_valid O false (entry_schema menu_cs) (JObj (order wishes)) /\ consistent menu_cs (fun q => exists w, says O (entry_schema menu_cs) (JObj (order wishes)) q w) /\
  at_path (after O no_floats longer menu_cs served) [Kid 0; Kid 2; Kid 0] = Some (OLeaf true (VInt 1)) /\
  (exists m', load_ietf_json O longer menu_cs false false (JObj (order wishes)) (after O no_floats longer menu_cs served) = (m', Ok tt) /\ at_path m' [Kid 0; Kid 2; Kid 0] = Some (OLeaf false (VInt 0))) /\
  says O (entry_schema menu_cs) (JObj (order wishes)) [Kid 0; Kid 1] (WLeaf (VInt 4)).
Proof.
  intros O. split; [exact menu_uniform|]. split; [exact menu_even|]. split; [exact menu_names|]. split; [exact (served_plain O)|]. split.
  { apply VCont; [apply Accept_proofs.once_by, nodup_by; vm_compute; reflexivity|]. intros key j H. case_in H. right. left. exists 0%nat. eexists. split; [spelt_at|].
    apply VCont; [apply Accept_proofs.once_by, nodup_by; vm_compute; reflexivity|]. intros key j H. case_in H.
    - dish_at 0%nat. eapply VLeaf; [now apply sent_as|vm_compute; reflexivity].
    - dish_at 3%nat. eapply VLeaf; [now apply sent_as|vm_compute; reflexivity].
    - dish_at 1%nat. eapply VLeaf; [now apply sent_as|vm_compute; reflexivity]. }
  split.
  { apply (AcceptChoice_proofs.consistent_by _ _ told_of); [|vm_compute; reflexivity]. intros q (w & H).
    inversion H as [| | |? ? ? ? key j n s r w' Hi _ Hsp Hs| |]; subst. case_in Hi. apply menu_top in Hsp as [-> E]. fold menu_top_schema in E. destruct menu_top_is as (i & Em). rewrite E in Hs.
    assert (Hs' : says O menu_top_schema (JObj wishes) r w) by exact Hs. clear Hs E. rewrite Em in Hs'.
    inversion Hs' as [| | |? ? ? ? key2 j2 n2 s2 r2 w2 Hi2 _ Hsp2 Hs2| |]; subst; [now left|]. case_in Hi2.
    - destruct (dish_one _ _ _ 0%nat Hsp2) as [-> ->]; [reflexivity|vm_compute; reflexivity|]. inversion Hs2; subst. right. now left.
    - destruct (dish_one _ _ _ 3%nat Hsp2) as [-> ->]; [reflexivity|vm_compute; reflexivity|]. inversion Hs2; subst. right. right. right. now left.
    - destruct (dish_one _ _ _ 1%nat Hsp2) as [-> ->]; [reflexivity|vm_compute; reflexivity|]. inversion Hs2; subst. right. right. now left. }
  split; [vm_compute; reflexivity|]. split; [eexists; split; vm_compute; reflexivity|].
  eapply SaysIn; [now left|no_at|spelt_at|]. eapply SaysIn; [right; right; now left|no_at|apply (Accept_proofs.spelt_by _ _ 1 (dish 1)); vm_compute; reflexivity|].
  eapply SaysLeaf; [now apply sent_as|vm_compute; reflexivity].
Qed.

Example C89_case_json : forall O, json_valid O false false (entry_schema menu_cs) (JObj (order wishes)) /\ consistent menu_cs (fun q => exists w, tells O false (entry_schema menu_cs) (JObj (order wishes)) q w) /\
  (exists m', load_json O longer menu_cs false false (JObj (order wishes)) (after O no_floats longer menu_cs served) = (m', Ok tt) /\ at_path m' [Kid 0; Kid 2; Kid 0] = Some (OLeaf false (VInt 0))) /\
  tells O false (entry_schema menu_cs) (JObj (order wishes)) [Kid 0; Kid 1] (ToldValue (VInt 4)).
Proof.
  intros O. split.
  { apply JvCont; [apply AcceptJson_proofs.once_by, nodup_by; vm_compute; reflexivity|]. intros key j H. case_in H. right. left. exists 0%nat. eexists. split; [spelt_at|].
    apply JvCont; [apply AcceptJson_proofs.once_by, nodup_by; vm_compute; reflexivity|]. intros key j H. case_in H.
    - dish_at 0%nat. eapply JvLeaf. vm_compute. reflexivity.
    - dish_at 3%nat. eapply JvLeaf. vm_compute. reflexivity.
    - dish_at 1%nat. eapply JvLeaf. vm_compute. reflexivity. }
  split.
  { apply (AcceptChoice_proofs.consistent_by _ _ told_of); [|vm_compute; reflexivity]. intros q (w & H).
    inversion H as [| | |? ? ? ? ? key j n s r w' Hi _ Hsp Hs| | |]; subst. case_in Hi. apply menu_top in Hsp as [-> E]. fold menu_top_schema in E. destruct menu_top_is as (i & Em). rewrite E in Hs.
    assert (Hs' : tells O false menu_top_schema (JObj wishes) r w) by exact Hs. clear Hs E. rewrite Em in Hs'.
    inversion Hs' as [| | |? ? ? ? ? key2 j2 n2 s2 r2 w2 Hi2 _ Hsp2 Hs2| | |]; subst; [now left|]. case_in Hi2.
    - destruct (dish_one _ _ _ 0%nat Hsp2) as [-> ->]; [reflexivity|vm_compute; reflexivity|]. inversion Hs2; subst. right. now left.
    - destruct (dish_one _ _ _ 3%nat Hsp2) as [-> ->]; [reflexivity|vm_compute; reflexivity|]. inversion Hs2; subst. right. right. right. now left.
    - destruct (dish_one _ _ _ 1%nat Hsp2) as [-> ->]; [reflexivity|vm_compute; reflexivity|]. inversion Hs2; subst. right. right. now left. }
  split; [eexists; split; vm_compute; reflexivity|].
  eapply TellsIn; [now left|intros [? _]; discriminate|spelt_at|]. eapply TellsIn; [right; right; now left|intros [? _]; discriminate|apply (Accept_proofs.spelt_by _ _ 1 (dish 1)); vm_compute; reflexivity|].
  eapply TellsLeaf. vm_compute. reflexivity.
Qed.
Definition wishes_x : xml := doc_of [el (lit "c") [] [el (lit "x") (lit "a") []; el (lit "w") (lit "3") []; el (lit "y") (lit "4") []]].
Lemma text_is yt t : str_eqb yt (lit "empty") = false -> str_eqb yt (lit "identityref") = false -> t <> [] -> text_value yt t (VStr t).
Proof. intros H1 H2 Ht. apply TvPlain; [exact Ht|now apply other_name|left; now apply other_name]. Qed.
Example C89_case_xml : forall O, xml_valid O no_floats (entry_schema menu_cs) wishes_x /\ consistent menu_cs (fun q => exists w, xtells O no_floats (entry_schema menu_cs) wishes_x q w) /\
  (exists m', load_doc O no_floats longer menu_cs wishes_x (after O no_floats longer menu_cs served) = (m', Ok tt) /\ at_path m' [Kid 0; Kid 2; Kid 0] = Some (OLeaf false (VInt 0))) /\
  xtells O no_floats (entry_schema menu_cs) wishes_x [Kid 0; Kid 1] (ShownValue (VInt 4)).
Proof.
  intros O. split.
  { apply XvCont; [apply AcceptXml_proofs.no_clash_by, nodup_by; vm_compute; reflexivity|]. intros c [<-|[]]. exists 0%nat. eexists. split; [spelt_at|].
    apply XvCont; [apply AcceptXml_proofs.no_clash_by, nodup_by; vm_compute; reflexivity|]. intros c [<-|[<-|[<-|[]]]].
    - exists 0%nat, (dish 0). split; [spelt_at|]. eapply XvLeaf; [apply text_is; [reflexivity|reflexivity|discriminate]|vm_compute; reflexivity].
    - exists 3%nat, (dish 3). split; [spelt_at|]. eapply XvLeaf; [apply text_is; [reflexivity|reflexivity|discriminate]|vm_compute; reflexivity].
    - exists 1%nat, (dish 1). split; [spelt_at|]. eapply XvLeaf; [apply text_is; [reflexivity|reflexivity|discriminate]|vm_compute; reflexivity]. }
  split.
  { apply (AcceptChoice_proofs.consistent_by _ _ told_of); [|vm_compute; reflexivity]. intros q (w & H).
    inversion H as [| | |? ? ? ? c n s r w' Hi Hsp Hs| |]; subst. destruct Hi as [<-|[]]. apply menu_top in Hsp as [-> E]. fold menu_top_schema in E. destruct menu_top_is as (i & Em). rewrite E in Hs.
    assert (Hs' : xtells O no_floats menu_top_schema (el (lit "c") [] [el (lit "x") (lit "a") []; el (lit "w") (lit "3") []; el (lit "y") (lit "4") []]) r w) by exact Hs. clear Hs E. rewrite Em in Hs'.
    inversion Hs' as [| | |? ? ? ? c2 n2 s2 r2 w2 Hi2 Hsp2 Hs2| |]; subst; [now left|]. destruct Hi2 as [<-|[<-|[<-|[]]]].
    - destruct (dish_one _ _ _ 0%nat Hsp2) as [-> ->]; [reflexivity|vm_compute; reflexivity|]. inversion Hs2; subst. right. now left.
    - destruct (dish_one _ _ _ 3%nat Hsp2) as [-> ->]; [reflexivity|vm_compute; reflexivity|]. inversion Hs2; subst. right. right. right. now left.
    - destruct (dish_one _ _ _ 1%nat Hsp2) as [-> ->]; [reflexivity|vm_compute; reflexivity|]. inversion Hs2; subst. right. right. now left. }
  split; [eexists; split; vm_compute; reflexivity|].
  eapply XtIn; [now left|spelt_at|]. eapply XtIn; [right; right; now left|apply (Accept_proofs.spelt_by _ _ 1 (dish 1)); vm_compute; reflexivity|].
  eapply XtLeaf; [apply text_is; [reflexivity|reflexivity|discriminate]|vm_compute; reflexivity].
Qed.
