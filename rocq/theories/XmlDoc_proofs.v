(** What an XML document looks like; unknown elements. *)
From Coq Require Import Lia Permutation Sorted.
From Verif Require Import PyStr PyStr_facts PyVal Restricted Spec_Types IntTypes StrTypes Spec_Lists TypedList MemberTypes YList SafeName
  Bits Bits_proofs Tree Spec_Tree Tree_proofs Tree_dump Serialise Spec_Serialise Load_proofs Serialise_proofs Json_proofs Unknown_proofs UnknownIetf_proofs IetfRound_proofs
  Xml Spec_Xml Xml_proofs XmlRound_proofs.
Local Open Scope Z_scope.

Section G.
Context (O : oracle) (im ins : einfo -> str -> option str) (flt : bool) (L : schema -> pyval -> xml -> Prop).
Context (HL : forall i lt d yt k ch v ds t, flt = false \/ ch = true -> prefixes O im ins (SLeaf i lt d yt k) (OLeaf ch v) = Ok ds ->
          leaf_text O im i lt yt v = Ok t -> L (SLeaf i lt d yt k) v (XElem (e_ns i) (e_yang i) ds t [])).
Context (HM : forall i ts yt v ds t, member_text O ts v = Ok t -> L (SLeafList i ts yt) v (XElem (e_ns i) (e_yang i) ds t [])).
Notation kid_els := (kid_els O im ins flt).
Notation kids_els := (kids_els O im ins flt).

Definition grouped (s : schema) : Prop := forall x els, conf s x -> kid_els s x = Ok els -> group L flt s x els.
Lemma kids_grouped cs : Forall grouped cs -> forall kids els, Forall2 conf cs kids -> kids_els cs kids = Ok els -> groups L flt cs kids els.
Proof.
  intros HP kids els Hc. revert HP els. induction Hc as [|s x cs kids Hs Hc IH]; intros HP els E.
  - injection E as <-. constructor.
  - inversion HP as [|? ? H1 H2]; subst. apply kids_els_cons in E as (g & gs & Eg & Egs & ->). constructor; auto.
Qed.
Lemma set_flag ch : (negb flt || ch)%bool = true <-> flt = false \/ ch = true.
Proof. destruct flt, ch; cbn; intuition congruence. Qed.
Lemma all_grouped s : grouped s.
Proof.
  induction s as [i lt d yt k|i ts yt|i pr cs IH|i keys od cs IH] using schema_ind'; intros x els Hc E; inversion Hc; subst.
  - unfold Xml_proofs.kid_els in E. cbn [xgen_kid] in E.
    destruct (prefixes O im ins (SLeaf i lt d yt k) (OLeaf ch v)) as [ds|] eqn:Ed; [|discriminate]. cbn [bind] in E.
    destruct (negb flt || ch)%bool eqn:Ef.
    + cbn [bind member_els elements] in E. destruct (leaf_text O im i lt yt v) as [t|] eqn:Et; [|discriminate]. cbn [bind] in E. injection E as <-.
      apply set_flag in Ef. apply GLeaf; [assumption|now split|reflexivity|eapply HL; eassumption].
    + injection E as <-. apply Bool.orb_false_iff in Ef as [E1 ->]. apply GNoLeaf. now destruct flt.
  - unfold Xml_proofs.kid_els in E. cbn [xgen_kid] in E.
    destruct (prefixes O im ins (SLeafList i ts yt) (OLeafList ch l)) as [ds|] eqn:Ed; [|discriminate]. cbn [bind] in E.
    destruct (negb flt || ch)%bool eqn:Ef.
    + cbn [bind member_els elements] in E. apply set_flag in Ef. apply GLeafList; [assumption|]. clear -E HM. revert els E.
      induction l as [|v l IHl]; intros els E; [injection E as <-; constructor|]. rewrite map_res_cons in E.
      destruct (member_text O ts v) as [t|] eqn:Et; [|discriminate]. cbn [bind] in E.
      destruct (map_res _ l) as [r|] eqn:Er; [|discriminate]. cbn [bind] in E. injection E as <-. constructor; [|auto].
      split; [now split|]. split; [reflexivity|]. now apply HM.
    + injection E as <-. apply Bool.orb_false_iff in Ef as [E1 ->]. apply GNoLeafList. now destruct flt.
  - destruct (kid_els_cont _ _ _ _ _ _ _ _ _ _ _ E) as (l & ks & El & Ek & ->).
    assert (Hk : kids_els cs kids = Ok (concat ks)) by (unfold Xml_proofs.kids_els; rewrite El; cbn [bind]; now rewrite Ek).
    pose proof (kids_grouped cs IH kids _ ltac:(eassumption) Hk) as Hg.
    destruct l as [|a l].
    + injection Ek as <-. cbn [concat] in Hg. destruct pres; [|now constructor].
      constructor; [now split|reflexivity|exact Hg].
    + constructor; [now split|reflexivity|exact Hg].
  - apply kid_els_list in E. constructor. clear Hc.
    revert els E. match goal with H : Forall _ es |- _ => induction H as [|[k0 e] es He Hes IHes] end; intros els E.
    + injection E as <-. constructor.
    + rewrite map_res_cons in E. unfold entry_els at 1 in E. cbn [snd] in *. inversion He; subst.
      destruct (kids_els cs kids) as [ks|] eqn:Ek; [|discriminate]. cbn [bind] in E.
      destruct (map_res (entry_els O im ins flt i cs) es) as [r|] eqn:Er; [|discriminate]. cbn [bind] in E. injection E as <-. constructor; auto.
      split; [now split|]. split; [reflexivity|]. do 3 eexists. split; [reflexivity|]. now apply kids_grouped.
Qed.
Theorem encode_groups ns name cs kids e : shaped cs kids -> encode O im ins flt ns name cs kids = Ok e ->
  x_ns e = ns /\ x_name e = name /\ x_text e = [] /\ groups L flt cs kids (x_kids e).
Proof.
  intros Hs. rewrite encode_els. destruct (kids_els cs kids) as [ks|] eqn:Ek; [|discriminate]. cbn [bind]. intros E. injection E as <-.
  repeat (split; [reflexivity|]). apply kids_grouped; auto. apply Forall_forall. intros s _. apply all_grouped.
Qed.
End G.

Lemma legal_same s t : legal_text s = Ok t -> t = s.
Proof. unfold legal_text. destruct (forallb xml_char s); [|discriminate]. intros E. now injection E. Qed.

Ltac each_name H := repeat (destruct H as [<-|H]; [|]); try contradiction.
Section V.
Context (O : oracle) (im ins : einfo -> str -> option str).

Theorem xml_values flt ns name cs kids e : shaped cs kids -> encode O im ins flt ns name cs kids = Ok e ->
  x_ns e = ns /\ x_name e = name /\ x_text e = [] /\ groups (value_element O) flt cs kids (x_kids e).
Proof.
  apply encode_groups.
  - intros i lt d yt k ch v ds t _ _ Ht. split; [|split; [|split; [|split]]].
    + intros ->. unfold leaf_text in Ht. rewrite str_eqb_refl in Ht. now injection Ht.
    + intros mt w -> Hty Hid Hem Hw. unfold leaf_text in Ht. rewrite (str_eqb_neq _ _ Hem) in Ht.
      destruct (leaf_doc O im i mt yt v w Hty Hw Hid Hem) as (j & Hj & Hjs). rewrite Hj in Ht. cbn [bind] in Ht. rewrite Hjs in Ht.
      now apply legal_same in Ht.
    + intros a l -> Hn ->. apply bits_name in Hn. destruct (unknown_ordinary _ Hn) as [Hem _].
      unfold leaf_text in Ht. rewrite (str_eqb_neq _ _ Hem), enc_unknown in Ht by assumption. cbn [leaf_class] in Ht. unfold enc_class in Ht.
      cbn [base_of bind scalar_text jval py_str] in Ht. apply legal_same in Ht. subst t.
      exists (sort_by (pos_of a) l). split; [apply sort_by_perm|]. split; [apply sort_by_sorted|reflexivity].
    + intros w -> Hn ->.
      assert (E : yt <> lit "empty" /\ enc_leaf O im true i (LOne TRef) yt (VStr w) = Ok (JStr w)).
      { destruct Hn as [Hn|Hn].
        - cbn in Hn. each_name Hn. split; [vm_compute; congruence|reflexivity].
        - split; [now apply unknown_ordinary in Hn as [H _]|]. rewrite enc_unknown by assumption. reflexivity. }
      destruct E as [Hem E]. unfold leaf_text in Ht. rewrite (str_eqb_neq _ _ Hem), E in Ht. cbn [bind scalar_text jval py_str] in Ht.
      now apply legal_same in Ht.
    + intros ts mt w -> Hn Hp Hw. apply union_name in Hn. destruct (unknown_ordinary _ Hn) as [Hem _].
      destruct (class_text O mt v w Hw) as (j & Hj & Hjs).
      unfold leaf_text in Ht. rewrite (str_eqb_neq _ _ Hem), enc_unknown in Ht by assumption. cbn [leaf_class] in Ht. rewrite Hp, Hj in Ht.
      cbn [bind] in Ht. rewrite Hjs in Ht. now apply legal_same in Ht.
  - intros i ts yt v ds t Ht mt w -> Hwf [Hval Hok] Hw. unfold member_text, enc_member in Ht. cbn [member_class] in Ht.
    assert (Hd : match mt, v with MDec n, VDec q _ => Z.abs q < 10 ^ 28 | _, _ => True end).
    { destruct mt; try exact I. destruct v; try exact I. apply Hok. }
    destruct mt as [levels|levels| | |names| |n], v; cbn [text_of] in Hw; try contradiction; subst w; cbn [x_text].
    + rewrite (try_own O (MInt levels)) in Ht by (assumption || discriminate). unfold enc_class in Ht. cbn [pty_of] in Ht. rewrite base_int in Ht.
      destruct (int64_class (int_chain levels)); cbn in Ht; now apply legal_same in Ht.
    + rewrite (try_own O (MStr levels)) in Ht by (assumption || discriminate). unfold enc_class in Ht. cbn [pty_of] in Ht. rewrite base_str in Ht.
      now apply legal_same in Ht.
    + rewrite (try_own O MText) in Ht by (assumption || discriminate). now apply legal_same in Ht.
    + destruct b; apply legal_same in Ht; exact Ht.
    + rewrite (try_own O (MEnum names)) in Ht by (assumption || discriminate). now apply legal_same in Ht.
    + exfalso. cbn [pty_of] in Ht. discriminate Ht.
    + rewrite (try_own O (MDec n)) in Ht by (assumption || discriminate). now apply legal_same in Ht.
Qed.

Theorem xml_identities ns name cs kids e : shaped cs kids -> encode O im ins true ns name cs kids = Ok e ->
  groups (identity_element im ins) true cs kids (x_kids e).
Proof.
  intros Hs He. refine (proj2 (proj2 (proj2 (encode_groups O im ins true (identity_element im ins) _ _ ns name cs kids e Hs He)))).
  - intros i lt d yt k ch v ds t [H|Hch] Hp Ht; [discriminate|]. subst ch. unfold identity_element. destruct v as [| | | |w| | | | |]; try exact I. intros ->.
    cbn [prefixes] in Hp. rewrite str_eqb_refl in Hp. cbn [andb py_str] in Hp.
    destruct (im i w) as [m|] eqn:Em; [|discriminate]. destruct (ins i w) as [n|] eqn:En; [|discriminate]. injection Hp as <-.
    exists m, n. split; [reflexivity|]. split; [reflexivity|]. split; [now left|].
    unfold leaf_text in Ht. change (str_eqb (lit "identityref") (lit "empty")) with false in Ht. cbv iota in Ht.
    assert (E : enc_leaf O im true i lt (lit "identityref") (VStr w) = Ok (enc_identity O im i (VStr w))) by reflexivity.
    rewrite E in Ht. cbn [bind] in Ht. unfold enc_identity in Ht. cbn [py_str] in Ht. rewrite Em in Ht.
    split.
    + intros Hm Hst. rewrite (str_eqb_neq _ _ Hm), Hst in Ht. cbn [negb andb scalar_text jval py_str] in Ht. now apply legal_same in Ht.
    + intros ->. rewrite str_eqb_refl in Ht. cbn [negb andb scalar_text jval py_str] in Ht. now apply legal_same in Ht.
  - intros i ts yt v ds t Ht. destruct v; exact I.
Qed.
End V.

(* ------------------------------------------------------------------ unknown elements *)
Section U.
Context (O : oracle) (ft : str -> option pyval) (uid : list (pyval * obj) -> str) (top : list schema).
Definition xunknown1 (s : schema) (e : xml) : Prop :=
  match s with SCont _ _ cs' | SList _ _ _ cs' => unknown_element cs' e | _ => False end.
Definition xrefuses (s : schema) : Prop := forall q e m, xunknown1 s e -> snd (xload_kid O ft uid top s q e m) <> Ok tt.
Lemma xrefuses_obj cs : Forall xrefuses cs -> forall p e m, unknown_element cs e -> snd (load_xml O ft uid top cs p e m) <> Ok tt.
Proof.
  intros HP p e m Hu.
  assert (Hu' : exists c, In c (x_kids e) /\ (node_for (x_name c) cs = None \/ exists s, node_for (x_name c) cs = Some s /\ xunknown1 s c)).
  { inversion Hu; subst; exists c; split; auto; right; eexists; (split; [eassumption|]); assumption. }
  destruct Hu' as (c & Hi & Hk). rewrite load_xml_each. eapply each_refuses; [exact Hi|]. clear m. intros m.
  unfold xload_member. pose proof (find_node (x_name c) cs) as Hf. destruct (find_kid (x_name c) cs) as [[k s]|].
  - destruct Hf as [Hf Hn]. destruct Hk as [Hk|(s' & Hk & H1)]; [congruence|]. assert (s' = s) by congruence. subst s'.
    rewrite Forall_forall in HP. apply (HP s); auto. eapply nth_error_In; eassumption.
  - discriminate.
Qed.
Lemma all_xrefuse s : xrefuses s.
Proof.
  induction s as [i lt d yt k|i ts yt|i pr cs IH|i keys od cs IH] using schema_ind'; intros q e m Hu; try contradiction; cbn [xload_kid].
  - apply then_refuses2. intros m1. now apply xrefuses_obj.
  - destruct (xml_entry O ft uid top q keys cs e m) as [m2 [k|ex]]; [now apply xrefuses_obj|discriminate].
Qed.
Theorem xunknown_raises e m : unknown_element top e -> exists m' ex, load_doc O ft uid top e m = (m', Raise ex).
Proof.
  intros Hu. assert (H : snd (load_doc O ft uid top e m) <> Ok tt).
  { apply xrefuses_obj; auto. apply Forall_forall. intros s _. apply all_xrefuse. }
  destruct (load_doc O ft uid top e m) as [m' [[]|ex]]; [now cbn in H|eauto].
Qed.
End U.
