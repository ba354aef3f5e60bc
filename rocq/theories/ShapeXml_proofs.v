(** XML documents that load have the shape of the schema. *)
From Coq Require Import Lia.
From Verif Require Import PyStr PyStr_facts PyVal Restricted Spec_Lists TypedList YList SafeName
  Tree Spec_Tree Tree_proofs Tree_frame Tree_main Tree_past Serialise Spec_Serialise Load_proofs Spec_Loading Loading_proofs Unknown_proofs UnknownIetf_proofs LoadingIetf_proofs Tree_past  Spec_Shape Shape_proofs Xml Xml_proofs Spec_ShapeXml.
From Verif Require LoadingMain_proofs.

Section S.
Context (O : oracle) (ft : str -> option pyval) (uid : list (pyval * obj) -> str) (top : list schema).
Notation run_op := (run_op O top).
Notation xload_kid := (xload_kid O ft uid top).
Notation xfits := (xml_fits O).

Lemma neq_by (a b : str) : str_eqb a b = false -> a <> b.
Proof. intros H E. rewrite E, str_eqb_refl in H. discriminate. Qed.
Lemma text_set i lt d yt k q e m : schema_at top q = Some (SLeaf i lt d yt k) -> snd (xml_set O top q (SLeaf i lt d yt k) e m) = Ok tt -> xfits (SLeaf i lt d yt k) e.
Proof.
  intros Hs H. apply XfLeaf. unfold xml_set in H. cbn [is_key s_ytype] in H. destruct k; [now left|right]. unfold xml_value in H. destruct (str_eqb yt (lit "empty")) eqn:Ee.
  { apply str_eqb_eq in Ee. destruct (x_text e); [|discriminate]. apply TfEmpty; [exact Ee|]. exact (leaf_takes _ _ _ _ (set_ok O uid top _ _ _ _ _ Hs H)). }
  apply neq_by in Ee. destruct (str_eqb yt (lit "identityref")) eqn:Ei.
  - apply str_eqb_eq in Ei. destruct (x_text e) as [|a t] eqn:Et; [discriminate|]. rewrite <- Et in *. apply (TfIdentity O lt yt (x_text e) (if has_char 58 (x_text e) then after_first_colon (x_text e) else x_text e) Ei); [rewrite Et; discriminate| |].
    + destruct (has_char 58 (x_text e)) eqn:Ec.
      * destruct (first_colon _ Ec) as (b & Hb & Hn). rewrite Hb at 1. now apply GivenLocal.
      * apply GivenPlain. right. intros w Hw. injection Hw as <-. now apply no_colon.
    + exact (leaf_takes _ _ _ _ (set_ok O uid top _ _ _ _ _ Hs H)).
  - apply neq_by in Ei. destruct (x_text e) as [|a t] eqn:Et; [now apply TfNone|]. apply TfText; [exact Ee|exact Ei|discriminate|]. exact (leaf_takes _ _ _ _ (set_ok O uid top _ _ _ _ _ Hs H)).
Qed.
Definition xsound (s : schema) : Prop := forall q e m, schema_at top q = Some s -> snd (xload_kid s q e m) = Ok tt -> xfits s e.
Lemma xsound_obj cs : Forall xsound cs -> forall p e m i pr, (forall n s, nth_error cs n = Some s -> schema_at top (p ++ [Kid n]) = Some s) ->
  snd (load_xml O ft uid top cs p e m) = Ok tt -> xfits (SCont i pr cs) e.
Proof.
  intros HP p e m i pr Hs H. apply XfCont. intros c Hi. rewrite load_xml_each in H. destruct (each_ok _ _ _ Hi _ H) as (m1 & H1). unfold xload_member in H1.
  destruct (find_kid (x_name c) cs) as [[n s]|] eqn:Ef; [|discriminate]. pose proof (find_spelt _ _ _ _ Ef) as Hsp. exists n, s. split; [exact Hsp|]. destruct Hsp as [Hn _]. rewrite Forall_forall in HP. apply (HP s (nth_error_In _ _ Hn) (p ++ [Kid n]) c m1); [now apply Hs|exact H1].
Qed.
Lemma child_found e y c : child_of e y = Ok c -> In c (x_kids e) /\ x_name c = y /\ x_ns c = x_ns e.
Proof.
  unfold child_of. destruct (find _ (x_kids e)) as [c'|] eqn:E; [|discriminate]. intros H. injection H as <-. apply find_some in E. destruct E as [Hi E]. apply andb_prop in E. destruct E as [E1 E2]. apply str_eqb_eq in E1, E2. now split.
Qed.
Lemma map_res_cons {A B} (f : A -> res B) a l : map_res f (a :: l) = (b <- f a ;; bs <- map_res f l ;; Ok (b :: bs)).
Proof. reflexivity. Qed.
Lemma keys_there cs e : forall keys kd, xml_keys ft cs keys e = Ok kd -> xkeyed cs keys e.
Proof.
  unfold xml_keys. induction keys as [|k keys IH]; intros kd H; [intros k []|]. rewrite map_res_cons in H. destruct (yang_key cs k) as [y|] eqn:Ey; [|discriminate]. cbn [bind] in H. destruct (child_of e y) as [c|] eqn:Ec; [|discriminate]. cbn [bind] in H.
  destruct (x_kids c) eqn:Ek; [|discriminate]. cbn [bind] in H. destruct (map_res _ keys) as [kd'|] eqn:Em; [|discriminate]. intros k' [<-|Hk]; [|exact (IH _ eq_refl k' Hk)].
  unfold yang_key in Ey. destruct (kid_index k cs) as [n|] eqn:En; [|discriminate]. destruct (kid_index_py _ _ _ En) as (s & Hs & Hpy). rewrite Hs in Ey. injection Ey as <-. destruct (child_found _ _ _ Ec) as (A & B & C). exists n, s, c. now repeat (split; [assumption|]).
Qed.
Lemma all_xsound s : xsound s.
Proof.
  induction s as [i lt d yt k|i ts yt|i pr cs IH|i keys od cs IH] using schema_ind'; intros q e m Hs H; cbn [Xml_proofs.xload_kid] in H.
  - exact (text_set i lt d yt k q e m Hs H).
  - apply XfMember. unfold xml_member in H. destruct (x_kids e); [reflexivity|discriminate].
  - apply then_ok in H. destruct H as (_ & m1 & H). exact (xsound_obj cs IH q e m1 i pr (kid_paths _ _ _ _ _ Hs) H).
  - destruct (xml_entry O ft uid top q keys cs e m) as [m1 [k|ex]] eqn:E; [|discriminate]. assert (Hne : keys <> []) by (intros ->; discriminate). apply XfEntry; [exact Hne| |].
    + unfold xml_entry in E. destruct keys as [|k0 keys]; [congruence|]. destruct (xml_keys ft cs (k0 :: keys) e) as [kd|] eqn:Ek; [|discriminate]. exact (keys_there _ _ _ _ Ek).
    + apply (xsound_obj cs IH (q ++ [Ent k]) e m1 plain false); [|exact H]. apply (kid_paths top (q ++ [Ent k]) plain false). exact (entry_path top q i keys od cs k Hs).
Qed.
Theorem xml_shape e m m' : load_doc O ft uid top e m = (m', Ok tt) -> xfits (entry_schema top) e.
Proof.
  unfold load_doc. intros H. apply (xsound_obj top) with (p := []) (m := m); [apply Forall_forall; intros s _; apply all_xsound|apply (kid_paths top [] plain false); reflexivity|now rewrite H].
Qed.

(* ------------------------------------------------------------------ mistakes *)
Lemma xmistaken s e ex : xml_mistake O s e ex -> forall q m, shaped top m -> kid_path q -> ends_kid q -> schema_at top q = Some s -> snd (xload_kid s q e m) = Raise ex.
Proof.
  induction 1 as [i pr cs e c rest Hk Hf|i od cs e|i k keys od cs e n s Hn Hpy Hu Hc|i lt d e Ht|i lt d e Ht|i lt d yt e ex Ht Hy1 Hy2 Ha|i ts yt e Hk|i pr cs e c rest s ex Hk Hch Hm IH]; intros q m Hs Hkp He0 Hsc; cbn [Xml_proofs.xload_kid].
  all: try (destruct (if pr then run_op m q (APresent true) else (m, Ok tt)) as [m1 r] eqn:Ep;
    assert (Hr : r = Ok tt /\ shaped top m1) by (destruct pr; [|injection Ep as <- <-; auto]; destruct (op_out O top m q (APresent true) _ Hs Hkp He0 Hsc) as (Hs1 & x & Hx & Hr); rewrite Ep in Hr, Hs1; cbn [fst snd] in *; subst r; inversion Hx; auto);
    destruct Hr as [-> Hs1]; cbn [andthen]).
  - rewrite load_xml_each, Hk. apply first_raises. unfold xload_member. now rewrite (found_none _ _ Hf).
  - reflexivity.
  - assert (Ek : xml_keys ft cs (k :: keys) e = Raise AttributeError).
    { unfold xml_keys. rewrite map_res_cons. unfold yang_key at 1. destruct (kid_index k cs) as [n'|] eqn:En.
      - destruct (kid_index_py _ _ _ En) as (s' & Hs' & Hp'). rewrite Hs'. cbn [bind]. rewrite (Hu s' (nth_error_In _ _ Hs') Hp'). unfold child_of. destruct (find _ (x_kids e)) as [c|] eqn:Ef; [|reflexivity]. exfalso. apply find_some in Ef. destruct Ef as [Hi E]. apply andb_prop in E. destruct E as [E1 E2]. apply str_eqb_eq in E1, E2. destruct (Hc c Hi); contradiction.
      - exfalso. clear - Hn Hpy En. revert cs Hn En. induction n as [|n IH]; intros [|c cs] Hn En; try discriminate; cbn [kid_index nth_error] in *.
        + injection Hn as ->. rewrite Hpy, str_eqb_refl in En. discriminate.
        + destruct (str_eqb _ _); [discriminate|]. destruct (kid_index _ cs) eqn:E; [discriminate|]. eapply IH; eauto. }
    unfold xml_entry. rewrite Ek. reflexivity.
  - unfold xml_set, xml_value. cbn [is_key s_ytype]. rewrite str_eqb_refl. destruct (x_text e); [congruence|reflexivity].
  - unfold xml_set, xml_value. cbn [is_key s_ytype]. rewrite Ht. replace (str_eqb (lit "identityref") (lit "empty")) with false by reflexivity. rewrite str_eqb_refl. reflexivity.
  - unfold xml_set, xml_value. cbn [is_key s_ytype]. destruct (str_eqb yt (lit "empty")) eqn:E1; [apply str_eqb_eq in E1; congruence|]. destruct (str_eqb yt (lit "identityref")) eqn:E3; [apply str_eqb_eq in E3; congruence|]. destruct (x_text e) as [|a t] eqn:Et; [congruence|].
    apply (set_raises O top m q (SLeaf i lt d yt false) (VStr (a :: t)) ex Hs Hkp He0 Hsc eq_refl). cbn [set_any]. unfold set_leaf. rewrite Ha. cbn. now rewrite (assigned_exn _ _ _ _ Ha).
  - unfold xml_member. destruct (x_kids e); [congruence|reflexivity].
  - rewrite load_xml_each, Hk. apply first_raises. unfold xload_member. destruct (found_child _ _ _ Hch) as (n & -> & Hn). apply IH; [exact Hs1|now apply kid_snoc|apply ends_kid_app|]. eapply kid_paths; eauto.
Qed.
Lemma xml_first ns a d t c rest ex m : shaped top m -> xml_mistake O (entry_schema top) (XElem ns a d t (c :: rest)) ex -> snd (for_each (xload_member O ft uid top top []) (c :: rest) m) = Raise ex.
Proof.
  intros Hs H. inversion H as [? ? ? ? c' rest' Hk Hf| | | | | | |? ? ? ? c' rest' s ? Hk Hch Hm]; subst; cbn [x_kids] in Hk; injection Hk as <- <-; apply first_raises; unfold xload_member.
  - now rewrite (found_none _ _ Hf).
  - destruct (found_child _ _ _ Hch) as (n & -> & Hn). apply (xmistaken _ _ _ Hm); [exact Hs|apply (kid_snoc []); constructor|apply (ends_kid_app [])|]. apply (kid_paths top [] plain false top eq_refl n s Hn).
Qed.
Theorem xml_mistake_raises ns a d t pre c rest ex m : shaped top m -> snd (load_doc O ft uid top (XElem ns a d t pre) m) = Ok tt ->
  xml_mistake O (entry_schema top) (XElem ns a d t (c :: rest)) ex -> snd (load_doc O ft uid top (XElem ns a d t (pre ++ c :: rest)) m) = Raise ex.
Proof.
  intros Hs Hp H. unfold load_doc in *. rewrite load_xml_each in *. cbn [x_kids] in *. rewrite for_each_app.
  assert (Hs1 : shaped top (fst (for_each (xload_member O ft uid top top []) pre m))).
  { pose proof (load_xml_each O ft uid top top [] (XElem ns a d t pre) m) as E. cbn [x_kids] in E. rewrite <- E. destruct (load_xml O ft uid top top [] (XElem ns a d t pre) m) as [m' r] eqn:E2. destruct (LoadingMain_proofs.xml_series O uid top ft _ m m' r E2) as (os & -> & _). cbn [fst]. now apply module_run_shaped. }
  pose proof (xml_first ns a d t c rest ex _ Hs1 H) as G. destruct (for_each _ pre m) as [m1 r]. cbn [fst snd] in *. subst r. exact G.
Qed.
End S.
