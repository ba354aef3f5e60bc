(** The same for XML: what is written is a valid document that says what the tree holds. *)
From Coq Require Import Lia.
From Verif Require Import PyStr PyStr_facts PyVal Restricted Spec_Types Spec_Lists IntTypes StrTypes MemberTypes TypedList TypedList_proofs YList YList_proofs SafeName
  Tree Spec_Tree Tree_proofs Tree_frame Tree_main Tree_hist Tree_dump Serialise Spec_Serialise Spec_Stored Load_proofs Serialise_proofs Json_proofs
  Xml Spec_Xml Xml_proofs XmlRound_proofs Spec_StoredXml Spec_Loading Spec_Shape Spec_AcceptXml Spec_AcceptChoice Spec_Values Spec_Merge Merge_proofs.
From Verif Require Ietf_proofs Accept_proofs AcceptXml_proofs AcceptChoice_proofs StoredXml_proofs Stored_proofs Rival_proofs Tree_case ValuesMain_proofs.
Local Open Scope Z_scope.

Lemma find_first {A} (f : A -> bool) l c : find f l = Some c -> exists k1 k2, l = k1 ++ c :: k2 /\ f c = true /\ forall a, In a k1 -> f a = false.
Proof.
  induction l as [|a l IH]; [discriminate|]. cbn. destruct (f a) eqn:E.
  - intros H. injection H as <-. exists [], l. split; [reflexivity|]. split; [exact E|]. intros b [].
  - intros H. destruct (IH H) as (k1 & k2 & -> & Hc & Hn). exists (a :: k1), k2. split; [reflexivity|]. split; [exact Hc|]. intros b [<-|Hb]; auto.
Qed.
Lemma pairs_app {A} (R : A -> A -> Prop) l l' : ForallOrdPairs R l -> ForallOrdPairs R l' -> (forall a b, In a l -> In b l' -> R a b) -> ForallOrdPairs R (l ++ l').
Proof.
  intros H H' Hc. induction H as [|a l Ha Hl IH]; [exact H'|]. cbn. constructor; [|apply IH; intros; apply Hc; [now right|assumption]].
  apply Forall_app. split; [exact Ha|]. apply Forall_forall. intros b Hb. apply Hc; [now left|exact Hb].
Qed.
Lemma pairs_split {A} (R : A -> A -> Prop) l : ForallOrdPairs R l -> forall l1 a l2 b l3, l = l1 ++ a :: l2 ++ b :: l3 -> R a b.
Proof.
  induction 1 as [|c l Hc Hl IH]; intros l1 a l2 b l3 E; [destruct l1; discriminate|]. destruct l1 as [|c' l1]; injection E as -> E.
  - rewrite Forall_forall in Hc. apply Hc. rewrite E. apply in_or_app. right. now left.
  - exact (IH _ _ _ _ _ E).
Qed.
Lemma value_read yt t v : xml_value yt t = Ok (Some v) -> text_value yt t v.
Proof.
  unfold xml_value. destruct (str_eqb yt (lit "empty")) eqn:E1.
  - apply str_eqb_eq in E1. destruct t; [|discriminate]. intros H. injection H as <-. now constructor.
  - assert (Hye : yt <> lit "empty") by (intros ->; rewrite str_eqb_refl in E1; discriminate).
    destruct (str_eqb yt (lit "identityref")) eqn:E2.
    + apply str_eqb_eq in E2. intros H. assert (Hu : t <> [] /\ v = VStr (if has_char 58 t then after_first_colon t else t)) by (destruct t; [discriminate|split; [discriminate|congruence]]). destruct Hu as [Hu ->]. clear H. rename t into u.
      assert (G : forall u, (~ In 58%N u /\ has_char 58 u = false) \/ exists a b, u = a ++ lit ":" ++ b /\ ~ In 58%N a /\ has_char 58 u = true /\ after_first_colon u = b).
      { clear. induction u as [|c u IH]; [left; split; [intros []|reflexivity]|]. destruct (N.eq_dec c 58) as [->|Hc].
        - right. exists [], u. split; [reflexivity|]. split; [intros []|]. split; reflexivity.
        - destruct IH as [[H1 H2]|(a & b & -> & H1 & H2 & H3)].
          + left. split; [intros [H|H]; [congruence|auto]|]. unfold has_char in *. cbn [existsb]. rewrite H2. destruct (N.eqb_spec 58 c); [congruence|reflexivity].
          + right. exists (c :: a), b. split; [reflexivity|]. split; [intros [H|H]; [congruence|auto]|]. apply (Accept_proofs.after_colon_cut (c :: a) b). intros [H|H]; [congruence|auto]. }
      destruct (G u) as [[H1 H2]|(a & b & -> & H1 & H2 & H3)].
      * rewrite H2. constructor; auto.
      * rewrite H2, H3. now constructor.
    + assert (Hid : yt <> lit "identityref") by (intros ->; rewrite str_eqb_refl in E2; discriminate).
      destruct t as [|c t]; [discriminate|]. intros H. injection H as <-. constructor; [discriminate|exact Hye|now left].
Qed.

Section X.
Context (O : oracle) (ft : str -> option pyval) (im ins : einfo -> str -> option str) (uid : list (pyval * obj) -> str) (top : list schema).
Context (Hnm : python_names top) (Hkl : key_leaves top) (Hpk : plain_keys top).
Local Notation kid_els := (kid_els O im ins true).
Local Notation kids_els := (kids_els O im ins true).
Local Notation xst := (xstorable O ft im ins).
Local Notation xrd := (xready O ft im ins).
Local Notation valid := (xml_valid O ft).
Local Notation xtells := (xtells O ft).
Local Notation compatible := (compatible O ft).
Local Notation xentry_key := (xentry_key O ft).

Definition typed (t : schema) (z : obj) : Prop :=
  match t, z with
  | SLeafList _ ts _, OLeafList _ l => forall mt, ts = [pty_of mt] -> mtype_wf mt -> one_level mt -> Forall (is_value (o_match O) mt) l
  | _, _ => True
  end.
Definition data_in (s : schema) (x : obj) (c : xml) : Prop := forall r w, xtells s c r w -> exists t y, sub s r = Some t /\ node x r = Some y /\ has_data t y.
Definition held_in (s : schema) (x : obj) (els : list xml) : Prop := forall r t y w, sub s r = Some t -> node x r = Some y -> holds_xml t y w \/ is_entry r = true /\ w = ShownEntry ->
  exists c r' w', In c els /\ Forall2 step_eq r' r /\ xtells s c r' w' /\ forall z, typed t z -> shows w' z -> shows w z.
Record shown_els (s : schema) (x : obj) (els : list xml) : Prop := {
  se_own : Forall (element_of (s_info s)) els;
  se_valid : Forall (valid s) els;
  se_pairs : ForallOrdPairs (compatible s) els;
  se_data : Forall (data_in s x) els;
  se_held : held_in s x els
}.
Definition fine (s : schema) : Prop := forall q x els, schema_at top q = Some s -> ends_kid q -> suited s -> xst s x -> kid_els s x = Ok els -> shown_els s x els.

Lemma own_els s q x els : schema_at top q = Some s -> ends_kid q -> xst s x -> kid_els s x = Ok els -> Forall (element_of (s_info s)) els.
Proof.
  intros Hq He Hx Hk. apply (kid_element O ft uid top im ins s x els); auto; [|now exists q|exact (xstorable_xready O ft im ins top Hnm Hkl s q Hq He x Hx)].
  exact (all_xarrive O ft uid top Hpk im ins Hnm s q Hq).
Qed.

(** The elements of the children. *)
Lemma kids_parts cs : forall kids els, length kids = length cs -> kids_els cs kids = Ok els ->
  (forall c, In c els -> exists n s x g, nth_error cs n = Some s /\ nth_error kids n = Some x /\ kid_els s x = Ok g /\ In c g) /\
  (forall n s x, nth_error cs n = Some s -> nth_error kids n = Some x -> exists g, kid_els s x = Ok g /\ incl g els).
Proof.
  induction cs as [|s cs IH]; intros [|x kids] els Hl E; try discriminate Hl.
  - injection E as <-. split; [intros c []|intros [|n]; discriminate].
  - apply kids_els_cons in E as (g & gs & Hg & Hgs & ->). injection Hl as Hl. destruct (IH kids gs Hl Hgs) as [H1 H2]. split.
    + intros c Hc. apply in_app_or in Hc. destruct Hc as [Hc|Hc]; [exists 0%nat, s, x, g; auto|]. destruct (H1 c Hc) as (n & s' & x' & g' & H). now exists (S n), s', x', g'.
    + intros [|n] s' x' Hs Hx; cbn in Hs, Hx.
      * injection Hs as <-. injection Hx as <-. exists g. split; [exact Hg|]. now apply incl_appl, incl_refl.
      * destruct (H2 n s' x' Hs Hx) as (g' & E & Hi). exists g'. split; [exact E|]. now apply incl_appr.
Qed.
Definition meet (cs : list schema) (c1 c2 : xml) : Prop := forall n s, spelt cs (x_name c1) n s -> spelt cs (x_name c2) n s -> compatible s c1 c2.
Lemma kids_pairs cs : named_ok cs -> forall cs2 kids n0, (forall n s, nth_error cs2 n = Some s -> nth_error cs (n0 + n) = Some s) ->
  (forall n s x g, nth_error cs2 n = Some s -> nth_error kids n = Some x -> kid_els s x = Ok g -> Forall (element_of (s_info s)) g /\ ForallOrdPairs (compatible s) g) ->
  forall els, length kids = length cs2 -> kids_els cs2 kids = Ok els ->
  ForallOrdPairs (meet cs) els /\ Forall (fun c => exists n s, spelt cs (x_name c) (n0 + n) s) els.
Proof.
  intros Hn. induction cs2 as [|s cs2 IH]; intros [|x kids] n0 Hsub Hg els Hl E; try discriminate Hl.
  - injection E as <-. split; constructor.
  - apply kids_els_cons in E as (g & gs & Eg & Egs & ->). injection Hl as Hl.
    destruct (Hg 0%nat s x g eq_refl eq_refl Eg) as [Hel Hpa]. pose proof (Hsub 0%nat s eq_refl) as Hs0. rewrite Nat.add_0_r in Hs0.
    destruct (IH kids (S n0)) with (els := gs) as [Hp Hf]; auto.
    { intros n s' H. rewrite Nat.add_succ_comm. now apply Hsub. }
    { intros n s' x' g' H1 H2. exact (Hg (S n) s' x' g' H1 H2). }
    assert (Hsp : forall c, In c g -> spelt cs (x_name c) n0 s). { intros c Hc. rewrite Forall_forall in Hel. destruct (Hel c Hc) as [-> _]. now apply spelt_own. }
    split.
    + apply pairs_app; [|exact Hp|].
      * assert (G : forall g0, incl g0 g -> ForallOrdPairs (compatible s) g0 -> ForallOrdPairs (meet cs) g0); [|exact (G g (incl_refl g) Hpa)].
        intros g0 Hi H. induction H as [|c g0 Hc H IHg]; constructor; [|apply IHg; intros a Ha; apply Hi; now right].
        apply Forall_forall. intros c2 Hc2 n s' S1 S2. destruct (Accept_proofs.spelt_one cs _ _ _ _ _ (proj1 Hn) S1 (Hsp c (Hi c (or_introl eq_refl)))) as [-> ->]. rewrite Forall_forall in Hc. now apply Hc.
      * intros c1 c2 H1 H2 n s' S1 S2. exfalso. rewrite Forall_forall in Hf. destruct (Hf c2 H2) as (n2 & s2 & S2').
        destruct (Accept_proofs.spelt_one cs _ _ _ _ _ (proj1 Hn) S1 (Hsp c1 H1)) as [-> _]. destruct (Accept_proofs.spelt_one cs _ _ _ _ _ (proj1 Hn) S2 S2') as [E _]. lia.
    + apply Forall_app. split; apply Forall_forall; intros c Hc.
      * exists 0%nat, s. rewrite Nat.add_0_r. now apply Hsp.
      * rewrite Forall_forall in Hf. destruct (Hf c Hc) as (n & s' & H). exists (S n), s'. rewrite <- Nat.add_succ_comm. exact H.
Qed.

(** An element with the elements of the children of an object. *)
Lemma obj_shown i pr cs ns nm ds tx c ps kids ks : named_ok cs -> Forall fine cs -> (forall n s, nth_error cs n = Some s -> exists q, schema_at top q = Some s /\ ends_kid q) -> Forall suited cs ->
  Forall2 xst cs kids -> kids_els cs kids = Ok ks -> (pr = true -> ps = true) ->
  let e := XElem ns nm ds tx ks in valid (SCont i pr cs) e /\ data_in (SCont i pr cs) (OCont c ps kids) e /\ held_in (SCont i pr cs) (OCont c ps kids) [e].
Proof.
  intros Hn HF Hq Hsu Hst Hks Hps e. assert (Hlen : length kids = length cs) by (clear - Hst; induction Hst; cbn; congruence).
  assert (Hfine : forall n s x g, nth_error cs n = Some s -> nth_error kids n = Some x -> kid_els s x = Ok g -> shown_els s x g).
  { intros n s x g Hs Hx Hg. destruct (Hq n s Hs) as (q & Hq1 & Hq2). rewrite Forall_forall in HF, Hsu. pose proof (nth_error_In _ _ Hs) as HI. destruct (Forall2_nth _ _ _ _ _ Hst Hs) as (x' & Hx' & Hstx).
    rewrite Hx in Hx'. injection Hx' as <-. exact (HF s HI q x g Hq1 Hq2 (Hsu s HI) Hstx Hg). }
  destruct (kids_parts cs kids ks Hlen Hks) as [Hfrom Hto].
  split; [|split].
  - apply XvCont.
    + intros l1 c1 l2 c2 l3 n s E. cbn [e x_kids] in E. refine (pairs_split (meet cs) ks _ l1 c1 l2 c2 l3 E n s).
      apply (kids_pairs cs Hn cs kids 0%nat); auto. intros n' s' x g Hs Hx Hg. destruct (Hfine n' s' x g Hs Hx Hg). auto.
    + cbn [e x_kids]. intros c' Hc'. destruct (Hfrom c' Hc') as (n & s & x & g & Hs & Hx & Hg & Hin). destruct (Hfine n s x g Hs Hx Hg) as [Ho Hv _ _ _]. rewrite Forall_forall in Ho, Hv.
      exists n, s. split; [|auto]. destruct (Ho c' Hin) as [-> _]. now apply spelt_own.
  - intros r w Ht. inversion Ht as [| | |? ? ? ? c' n s r' ? Hin Hsp Ht'| |]; subst.
    + exists (SCont i true cs), (OCont c ps kids). split; [reflexivity|]. split; [reflexivity|]. unfold has_data. rewrite get_cont, (Hps eq_refl). destruct (get_kids true cs kids); discriminate.
    + cbn [e x_kids] in Hin. destruct (Hfrom c' Hin) as (n' & s' & x & g & Hs & Hx & Hg & Hing). destruct (Hfine n' s' x g Hs Hx Hg) as [Ho _ _ Hd _]. rewrite Forall_forall in Ho, Hd.
      assert (Hsp' : spelt cs (x_name c') n' s'). { destruct (Ho c' Hing) as [-> _]. now apply spelt_own. }
      destruct (Accept_proofs.spelt_one cs _ _ _ _ _ (proj1 Hn) Hsp Hsp') as [-> ->]. destruct (Hd c' Hing r' w Ht') as (t & y & H1 & H2 & H3). exists t, y. cbn [sub node]. rewrite Hs, Hx. auto.
  - intros r t y w Hsub Hnode Hw. exists e. destruct r as [|[n|k] r].
    + cbn in Hsub, Hnode. injection Hsub as <-. injection Hnode as <-. destruct Hw as [Hw|[Hw _]]; [|discriminate]. inversion Hw; subst. exists [], ShownPresent. split; [now left|]. split; [constructor|]. split; [constructor|auto].
    + cbn [sub node] in Hsub, Hnode. destruct (nth_error cs n) as [s|] eqn:Hs; [|discriminate]. destruct (nth_error kids n) as [x|] eqn:Hx; [|discriminate].
      destruct (Hto n s x Hs Hx) as (g & Hg & Hincl). destruct (Hfine n s x g Hs Hx Hg) as [Ho _ _ _ Hh]. destruct (Hh r t y w Hsub Hnode) as (c' & r' & w' & Hc' & H1 & H2 & H3).
      { destruct Hw as [Hw|[Hw ->]]; [now left|]. right. split; [|reflexivity]. destruct r; [discriminate|exact Hw]. }
      exists (Kid n :: r'), w'. split; [now left|]. split; [constructor; [constructor|exact H1]|]. split; [|exact H3]. apply XtIn with c' s; [cbn [e x_kids]; auto| |exact H2].
      rewrite Forall_forall in Ho. destruct (Ho c' Hc') as [-> _]. now apply spelt_own.
    + discriminate.
Qed.

Lemma leaf_fine i lt d yt k : fine (SLeaf i lt d yt k).
Proof.
  intros q x els Hq He Hsu Hst Hk. pose proof (own_els _ q x els Hq He Hst Hk) as Hown. pose proof (xstorable_xready O ft im ins top Hnm Hkl _ q Hq He x Hst) as Hr.
  inversion Hr as [? ? ? ? ? ch v Hok| | |]; subst. unfold Xml_proofs.kid_els in Hk. cbn [xgen_kid] in Hk. destruct ch; cbn [negb orb] in Hk.
  - destruct (Hok eq_refl) as (ds & t & Hp & Ht & Hv). rewrite Hp in Hk. cbn [bind member_els elements] in Hk. rewrite Ht in Hk. cbn [bind] in Hk. injection Hk as <-.
    assert (D : forall r w, xtells (SLeaf i lt d yt k) (XElem (e_ns i) (e_yang i) ds t []) r w -> exists t0 y, sub (SLeaf i lt d yt k) r = Some t0 /\ node (OLeaf true v) r = Some y /\ has_data t0 y).
    { intros r w H. inversion H; subst. eexists _, _. split; [reflexivity|]. split; [reflexivity|]. discriminate. }
    destruct k.
    + split; [exact Hown|constructor; [apply XvKey|constructor]|constructor; constructor|constructor; [exact D|constructor]|].
      intros r t0 y w Hsub Hnode Hw. destruct r as [|[]]; try discriminate. cbn in Hsub, Hnode. injection Hsub as <-. injection Hnode as <-. destruct Hw as [Hw|[Hw _]]; [|discriminate]. inversion Hw.
    + destruct (Hv eq_refl) as (w & Hxv & Ha). apply value_read in Hxv. split; [exact Hown| | | |].
      * constructor; [|constructor]. eapply XvLeaf; [exact Hxv|exact Ha].
      * constructor; constructor.
      * constructor; [exact D|constructor].
      * intros r t0 y w0 Hsub Hnode Hw. destruct r as [|[]]; try discriminate. cbn in Hsub, Hnode. injection Hsub as <-. injection Hnode as <-. destruct Hw as [Hw|[Hw _]]; [|discriminate]. inversion Hw; subst.
        eexists _, [], (ShownValue v). split; [now left|]. split; [constructor|]. split; [eapply XtLeaf; [exact Hxv|exact Ha]|auto].
  - assert (els = []) as ->. { cbn [prefixes] in Hk. rewrite Bool.andb_false_r in Hk. cbn in Hk. now injection Hk as <-. }
    split; [constructor|constructor|constructor|constructor|]. intros r t0 y w Hsub Hnode Hw. destruct r as [|[]]; try discriminate. cbn in Hsub, Hnode. injection Hsub as <-. injection Hnode as <-. destruct Hw as [Hw|[Hw _]]; [|discriminate]. inversion Hw.
Qed.
Lemma no_member ts a : member_value O ts a = None -> tl_init O ts true (PyVal.VList [a]) = Raise ValueError.
Proof. intros H. cbn [tl_init tl_build py_in existsb andb]. unfold tl_check. cbn [py_in existsb andb]. now rewrite H. Qed.
Definition alts_of (ts : list pty) (t : str) (alts : list pyval) (v : pyval) : Prop :=
  let a := objectified ft t in let u := VStr (py_str O a) in
  (member_value O ts a = Some v /\ alts = [a; v]) \/ (member_value O ts a = None /\ In TStr ts /\ member_value O ts u = Some v /\ alts = [a; u; v]).
Lemma seen_of ts l t v : xappends O ft ts l t v -> exists alts, member_seen O ft ts t alts /\ alts_of ts t alts v.
Proof.
  intros [_ [H|(H1 & H2 & H3 & _)]].
  - exists [objectified ft t; v]. split; [left; exists v; split; [now apply one_member|reflexivity]|left; auto].
  - eexists. split; [right; exists ValueError, v; split; [now apply no_member|]; split; [exact H2|]; split; [now apply one_member|reflexivity]|right; auto].
Qed.
Lemma classic_level mt : one_level mt \/ ((exists l, mt = MInt l) \/ exists l, mt = MStr l).
Proof. destruct mt; cbn [one_level]; eauto. Qed.
Lemma many_seen mt yt v t : ((exists l, mt = MInt l) \/ exists l, mt = MStr l) -> xmember_ok O ft mt yt v -> member_text O [pty_of mt] v = Ok t -> mtype_wf mt -> objectified ft t = v.
Proof.
  intros Hl (Hval & Hid & Hx & Hm) Ht Hwf. destruct Hval as [Hval Hok].
  assert (Hown : member_try O (pty_of mt) v = Some v). { destruct Hl as [[l ->]|[l ->]]; apply try_own; auto; try discriminate; exact I. }
  unfold member_text, enc_member in Ht. cbn [member_class] in Ht. rewrite Hown in Ht. destruct Hl as [[l ->]|[l ->]].
  - destruct Hval as (z & -> & Hz). unfold enc_class in Ht. cbn [pty_of] in Ht. rewrite base_int in Ht.
    assert (t = print_Z z) as ->; [|apply objectified_int].
    destruct (int64_class (int_chain l)); cbn [enc_long enc_int py_int bind jval py_str] in Ht; rewrite (legal_ok _ (printZ_xml z)) in Ht; now injection Ht as <-.
  - destruct Hm as (s & -> & Ho). unfold enc_class in Ht. cbn [pty_of] in Ht. rewrite base_str in Ht. cbn [bind jval py_str] in Ht. rewrite (legal_ok _ (Hx s eq_refl)) in Ht. now injection Ht as <-.
Qed.
Lemma leaf_list_fine i ts yt : fine (SLeafList i ts yt).
Proof.
  intros q x els Hq He Hsu Hst Hk. pose proof (own_els _ q x els Hq He Hst Hk) as Hown. pose proof (xstorable_xready O ft im ins top Hnm Hkl _ q Hq He x Hst) as Hr.
  inversion Hst as [|? mt ? ch l Hwf Hmem _ Hid Hempty| |]; subst. unfold Xml_proofs.kid_els in Hk. cbn [xgen_kid prefixes] in Hk.
  destruct ch.
  - rewrite (str_eqb_neq yt _ (Hid eq_refl)) in Hk. cbn [andb bind negb orb member_els elements] in Hk. pose proof (map_res_all _ _ _ Hk) as F.
    assert (Hval : forall w, In w l -> is_value (o_match O) mt w). { intros w Hw. rewrite Forall_forall in Hmem. apply (Hmem w Hw). }
    assert (F' : Forall2 (fun v e => exists t, e = XElem (e_ns i) (e_yang i) [] t [] /\ member_text O [pty_of mt] v = Ok t /\ xappends O ft [pty_of mt] l t v /\ xmember_ok O ft mt yt v) l els).
    { assert (G : forall v, In v l -> exists t, member_text O [pty_of mt] v = Ok t /\ xappends O ft [pty_of mt] l t v /\ xmember_ok O ft mt yt v).
      { intros v Hv. rewrite Forall_forall in Hmem. destruct (xmember O ft mt yt v l Hwf (Hmem v Hv) Hval) as (t & H1 & H2). eauto. }
      clear - F G. revert F G. generalize l at 1 2 5. intros l0 F G. induction F as [|v e l0 els Hv HF IH]; constructor; [|apply IH; intros; apply G; now right]. destruct (G v (or_introl eq_refl)) as (t & H1 & H2). rewrite H1 in Hv. cbn in Hv. injection Hv as <-. eauto. }
    split; [exact Hown| | | |].
    + apply Forall_forall. intros e Hin. destruct (F2_in_r _ _ _ F' _ Hin) as (v & _ & t & -> & _ & Hap & _). destruct (seen_of _ _ _ _ Hap) as (alts & Hs & _). eapply XvMember; [reflexivity|exact Hs].
    + clear. induction els as [|e els IH]; constructor; [apply Forall_forall; intros; exact I|exact IH].
    + apply Forall_forall. intros e Hin r w Ht. inversion Ht; subst. eexists _, _. split; [reflexivity|]. split; [reflexivity|]. unfold has_data. cbn. destruct l; [inversion F; subst; contradiction|discriminate].
    + intros r t0 y w Hsub Hnode Hw. destruct r as [|[]]; try discriminate. cbn in Hsub, Hnode. injection Hsub as <-. injection Hnode as <-. destruct Hw as [Hw|[Hw _]]; [|discriminate]. inversion Hw as [|? ? ? ? ? v Hv|]; subst.
      destruct (F2_in_l _ _ _ F' _ Hv) as (e & He' & t & -> & Htx & Hap & Hok). destruct (seen_of _ _ _ _ Hap) as (alts & Hs & Halt).
      exists (XElem (e_ns i) (e_yang i) [] t []), [], (ShownMember alts). split; [exact He'|]. split; [constructor|]. split; [now constructor|].
      intros z Hty (c & vs & z0 & v0 & -> & Hz & Hv0 & Heq). exists c, vs. cbn [typed] in Hty.
      assert (G : exists a, In a alts /\ In z0 vs /\ py_eq a z0 = true) by eauto. clear v0 Hv0 Heq.
      exists z0, v. split; [reflexivity|]. split; [exact Hz|]. split; [now left|]. destruct G as (a & Ha & _ & Heq).
      (* what is seen is the value, or the members are texts *)
      destruct (xmember O ft mt yt v [] Hwf Hok ltac:(intros w [])) as (t' & Ht' & _). rewrite Htx in Ht'. injection Ht' as <-.
      assert (P : forall vs, Forall (is_value (o_match O) mt) vs -> In z0 vs -> py_eq v z0 = true).
      { intros vs0 Hvs Hin. rewrite Forall_forall in Hvs. destruct (xmember O ft mt yt v vs0 Hwf Hok Hvs) as (t' & Ht' & H1 & H2). rewrite Htx in Ht'. injection Ht' as <-.
        assert (Hv' : forall b, b = v -> py_eq b z0 = true -> py_eq v z0 = true) by (intros b ->; auto).
        destruct Halt as [[Hm ->]|(Hm & _ & Hu & ->)]; cbn in Ha.
        - destruct Ha as [<-|[<-|[]]]; [|exact Heq]. rewrite py_eq_sym. apply H1; [exact Hin|]. now rewrite py_eq_sym.
        - destruct H2 as [H2|(_ & _ & _ & H2)]; [congruence|]. destruct Ha as [<-|[<-|[<-|[]]]]; [| |exact Heq]; rewrite py_eq_sym; [apply H1|apply H2]; try exact Hin; now rewrite py_eq_sym. }
      destruct (classic_level mt) as [Hone|Hmany].
      * apply (P vs); [exact (Hty mt eq_refl Hwf Hone)|exact Hz].
      * assert (Ho : objectified ft t = v). { exact (many_seen mt yt v t Hmany Hok Htx Hwf). }
        destruct Halt as [[Hm ->]|(Hm & Hin & _ & _)]; [cbn in Ha; destruct Ha as [<-|[<-|[]]]; [now rewrite Ho in Heq|exact Heq]|].
        exfalso. destruct Hin as [Hin|[]]. destruct Hmany as [[l0 ->]|[l0 ->]]; destruct Hwf as [Hne _]; destruct l0 as [|? []]; try congruence; discriminate Hin.
  - rewrite Bool.andb_false_r in Hk. cbn in Hk. injection Hk as <-. pose proof (Hempty eq_refl) as ->. split; [constructor|constructor|constructor|constructor|].
    intros r t0 y w Hsub Hnode Hw. destruct r as [|[]]; try discriminate. cbn in Hsub, Hnode. injection Hsub as <-. injection Hnode as <-. destruct Hw as [Hw|[Hw _]]; [|discriminate]. inversion Hw; subst. contradiction.
Qed.
Lemma kid_places q i pr cs : schema_at top q = Some (SCont i pr cs) -> forall n s, nth_error cs n = Some s -> exists q', schema_at top q' = Some s /\ ends_kid q'.
Proof. intros Hq n s Hs. exists (q ++ [Kid n]). split; [now rewrite (schema_kid top q i pr cs)|apply ends_kid_app]. Qed.
Lemma cont_fine i pr cs : Forall fine cs -> fine (SCont i pr cs).
Proof.
  intros IH q x els Hq He Hsu Hst Hk. pose proof (own_els _ q x els Hq He Hst Hk) as Hown.
  inversion Hst as [| |? ? ? ch pres kids Hks Hp|]; subst. inversion Hsu as [| |? ? ? Hsk|]; subst.
  destruct (kid_els_cont O im ins true i pr cs ch pres kids els Hk) as (l & ks & Hl & Hm & Hels).
  assert (Hke : kids_els cs kids = Ok (concat ks)) by (unfold Xml_proofs.kids_els; rewrite Hl; cbn [bind]; now rewrite Hm).
  assert (Hshown : (pr = true -> pres = true) -> els = [XElem (e_ns i) (e_yang i) [] [] (concat ks)] -> shown_els (SCont i pr cs) (OCont ch pres kids) els).
  { intros Hps ->. destruct (obj_shown i pr cs (e_ns i) (e_yang i) [] [] ch pres kids (concat ks) (Hnm _ _ _ _ Hq) IH (kid_places q i pr cs Hq) Hsk Hks Hke Hps) as (H1 & H2 & H3).
    split; [exact Hown|constructor; [exact H1|constructor]|constructor; constructor|constructor; [exact H2|constructor]|exact H3]. }
  destruct l as [|a l].
  - cbn in Hm. injection Hm as <-. destruct pres; [apply Hshown; auto|]. subst els. split; [constructor|constructor|constructor|constructor|].
    intros r t y w Hsub Hnode Hw. destruct r as [|[n|k] r]; [| |discriminate].
    + cbn in Hsub, Hnode. injection Hsub as <-. injection Hnode as <-. destruct Hw as [Hw|[Hw _]]; [|discriminate]. inversion Hw.
    + destruct (obj_shown i false cs (e_ns i) (e_yang i) [] [] ch false kids [] (Hnm _ _ _ _ Hq) IH (kid_places q i pr cs Hq) Hsk Hks Hke ltac:(discriminate)) as (_ & _ & H3).
      destruct (H3 (Kid n :: r) t y w Hsub Hnode Hw) as (c & r' & w' & [<-|[]] & H4 & H5 & _). inversion H4 as [|a0 ? r0 ? Ha Hr0]; subst. inversion H5 as [| | |? ? ? ? c' n' s' r1 ? Hin| |]; subst. contradiction.
  - apply Hshown; [|exact Hels]. intros Epr. destruct (Hp Epr) as [H|H]; [exact H|]. rewrite (untouched_xgens O im ins cs kids H) in Hl. discriminate.
Qed.
Lemma first_key cs kids els ns ki lt d yt key a v t : named_ok cs -> (forall n s, nth_error cs n = Some s -> exists q, schema_at top q = Some s /\ ends_kid q) -> Forall2 xst cs kids ->
  kids_els cs kids = Ok els -> nth_error cs a = Some (SLeaf ki lt d yt key) -> nth_error kids a = Some (OLeaf true v) -> leaf_text O im ki lt yt v = Ok t -> ns = e_ns ki ->
  forall nm ds tx, exists c, first_child (XElem ns nm ds tx els) (e_yang ki) c /\ x_kids c = [] /\ x_text c = t.
Proof.
  intros Hn Hq Hst Hels Hs Hx Ht Hns nm ds tx.
  assert (Hr : Forall2 xrd cs kids).
  { assert (G : forall cs2 kids2, (forall s, In s cs2 -> In s cs) -> Forall2 xst cs2 kids2 -> Forall2 xrd cs2 kids2); [|apply G; auto].
    intros cs2 kids2 Hi H. induction H as [|s x cs2 kids2 Hsx H IH]; constructor; [|apply IH; intros; apply Hi; now right].
    destruct (In_nth_error _ _ (Hi s (or_introl eq_refl))) as [n Hsn]. destruct (Hq n s Hsn) as (q & Hq1 & Hq2). exact (xstorable_xready O ft im ins top Hnm Hkl s q Hq1 Hq2 x Hsx). }
  destruct (child_read O ft uid top im ins cs (yang_dist cs Hn)) with (kids := kids) (els := els) (a := a) (ki := ki) (lt := lt) (d := d) (yt := yt) (key := key) (v := v) (t := t) (ns := ns) as [ds' E]; auto.
  { apply Forall_forall. intros s Hin. apply In_nth_error in Hin. destruct Hin as [n Hsn]. destruct (Hq n s Hsn) as (q & Hq1 & _). exact (all_xarrive O ft uid top Hpk im ins Hnm s q Hq1). }
  { intros s Hin. apply In_nth_error in Hin. destruct Hin as [n Hsn]. destruct (Hq n s Hsn) as (q & Hq1 & _). now exists q. }
  destruct (find_first _ _ _ E) as (k1 & k2 & E1 & E2 & E3). exists (XElem (e_ns ki) (e_yang ki) ds' t []). split; [exists k1, k2|split; reflexivity]. cbn [x_kids x_name x_ns]. split; [exact E1|]. split; [reflexivity|]. split; [now symmetry|].
  intros c Hc [H1 H2]. specialize (E3 c Hc). cbn beta in E3. rewrite H1, H2, !str_eqb_refl in E3. discriminate.
Qed.
Lemma list_fine i keys od cs : Forall fine cs -> fine (SList i keys od cs).
Proof.
  intros IH q x els Hq He Hsu Hst Hk. pose proof (own_els _ q x els Hq He Hst Hk) as Hown.
  inversion Hst as [| | |? ? ? ? ch es Hne Hdis Hes]; subst. inversion Hsu as [| | |? ? ? ? _ Hkn Hsk Hmark]; subst.
  apply kid_els_list in Hk. pose proof (map_res_all _ _ _ Hk) as F. pose proof (schema_entry top q i keys od cs VNone Hq) as Hq'. pose proof (Hnm _ _ _ _ Hq') as Hn.
  assert (Hdist : kdist es) by now apply all_distinct_iff.
  assert (Hns : Forall (fun s => In (e_py (s_info s)) keys -> e_ns (s_info s) = e_ns i) cs). { destruct Hkl as (_ & _ & H). eapply Forall_impl; [|exact (H _ _ _ _ _ Hq)]. now intros s [_ Hs]. }
  (* each entry and its element *)
  assert (G : forall e c, In e es -> entry_els O im ins true i cs e = Ok c -> exists ec ps kids, snd e = OCont ec ps kids /\ xentry_key cs keys c (fst e) /\ valid (entry_schema cs) c /\
     data_in (entry_schema cs) (snd e) c /\ held_in (entry_schema cs) (snd e) [c] /\ has_data (entry_schema cs) (snd e)).
  { intros e c He0 Hc. rewrite Forall_forall in Hes. destruct (Hes e He0) as (ec & ps & kids & Ee & Hks & Hkey). exists ec, ps, kids. split; [exact Ee|].
    unfold entry_els in Hc. rewrite Ee in Hc. destruct (kids_els cs kids) as [ks|] eqn:Eks; [|discriminate]. cbn [bind] in Hc. injection Hc as <-.
    destruct (obj_shown plain false cs (e_ns i) (e_yang i) [] [] ec ps kids ks Hn IH (kid_places _ _ _ _ Hq') Hsk Hks Eks ltac:(discriminate)) as (H1 & H2 & H3).
    destruct (xkeys_made O ft im ins keys cs kids i (fst e) (proj1 Hn) Hns Hkey) as (kvs & Hkv & Ek).
    split; [|rewrite Ee; split; [exact H1|split; [exact H2|split; [exact H3|]]]].
    - exists (combine keys kvs). split.
      + assert (HH : forall n kv, In n keys -> xkey_value O ft im cs kids i n kv -> xkey_part O ft cs (XElem (e_ns i) (e_yang i) [] [] ks) n kv).
        { intros n kv Hin (a & ki & lt & d & yt & key & v & t & Ha & Hs & Hx & Hki & Ht & Hob & Hla). destruct (kid_index_some _ _ _ Ha) as (s' & Hs' & Ep). rewrite Hs in Hs'. injection Hs' as <-. cbn [s_info] in Ep.
          destruct (first_key cs kids ks (e_ns i) ki lt d yt key a v t Hn (kid_places _ _ _ _ Hq') Hks Eks Hs Hx Ht (eq_sym Hki) (e_yang i) [] []) as (c & Hc & Hck & Hct).
          assert (key = true) as ->. { pose proof (Hmark _ (nth_error_In _ _ Hs)) as M. cbn in M. apply M. now rewrite Ep. }
          exists a, ki, lt, d, yt, c, v. split; [exact Hs|]. split; [exact Ep|]. split; [exact Hc|]. split; [exact Hck|]. split; [now rewrite Hct|exact Hla]. }
        clear - Hkv HH. induction Hkv as [|n kv keys kvs Hnk HF IHk]; constructor; [split; [reflexivity|apply HH; [now left|exact Hnk]]|apply IHk; intros; apply HH; [now right|assumption]].
      + rewrite Ek. f_equal. symmetry. apply Ietf_proofs.key_text_of. exact (Ietf_proofs.F2_len _ _ _ Hkv).
    - destruct keys as [|k1 keys']; [congruence|]. inversion Hkv as [|? kv1 ? ? (a & ki & lt & d & yt & key & v & t & _ & Hs & Hx & _) _]; subst.
      apply (data_above [Kid a] (entry_schema cs) _ (SLeaf ki lt d yt key) (OLeaf true v)); [cbn; now rewrite Hs|cbn; now rewrite Hx|left; discriminate]. }
  assert (Uniq : forall c k k', xentry_key cs keys c k -> xentry_key cs keys c k' -> k = k') by (intros c k k'; apply AcceptXml_proofs.key_unique, Hn).
  split; [exact Hown| | | |].
  - apply Forall_forall. intros c Hc. destruct (F2_in_r _ _ _ F _ Hc) as (e & He0 & Hec). destruct (G e c He0 Hec) as (ec & ps & kids & _ & Hkey & Hv & _). now apply XvEntry with (fst e).
  - clear Hown Hk. assert (Hdist' := Hdist). revert F Hdist' G. clear - Uniq. intros F Hd G. induction F as [|e c es els Hec HF IHF]; constructor.
    + apply Forall_forall. intros c2 Hc2. destruct (F2_in_r _ _ _ HF _ Hc2) as (e2 & He2 & Hec2). destruct (G e c (or_introl eq_refl) Hec) as (_ & _ & _ & _ & K1 & _). destruct (G e2 c2 (or_intror He2) Hec2) as (_ & _ & _ & _ & K2 & _).
      intros k1 k2 H1 H2 ->. pose proof (Uniq _ _ _ H1 K1) as E1. pose proof (Uniq _ _ _ H2 K2) as E2. unfold kdist in Hd. cbn [map] in Hd. inversion Hd as [|? ? Hf _]; subst. rewrite Forall_forall in Hf.
      specialize (Hf (fst e2) (in_map fst _ _ He2)). rewrite <- E2, py_eq_refl in Hf. discriminate.
    + apply IHF; [unfold kdist in *; cbn [map] in Hd; now inversion Hd|]. intros e' c' Hin. apply G. now right.
  - apply Forall_forall. intros c Hc. destruct (F2_in_r _ _ _ F _ Hc) as (e & He0 & Hec). destruct (G e c He0 Hec) as (ec & ps & kids & Ee & Hkey & _ & Hdat & _ & Hhas).
    assert (Hm : mget (fst e) es = Some (snd e)) by (apply (kdist_mget es Hdist); now destruct e).
    intros r w Ht. inversion Ht as [| | | |? ? ? ? ? k Hk'|? ? ? ? ? k r' ? Hk' Ht']; subst; rewrite (Uniq _ _ _ Hk' Hkey).
    + exists (entry_schema cs), (snd e). cbn [sub node]. rewrite Hm. auto.
    + cbn [sub node]. rewrite Hm. exact (Hdat r' w Ht').
  - intros r t y w Hsub Hnode Hw. destruct r as [|[a|k] r]; [|discriminate|].
    + cbn in Hsub, Hnode. injection Hsub as <-. injection Hnode as <-. destruct Hw as [Hw|[Hw _]]; [inversion Hw|discriminate].
    + cbn [sub node] in Hsub, Hnode. destruct (mget k es) as [e0|] eqn:Em; [|discriminate]. apply (mget_in es k e0 Hdist) in Em. destruct Em as (k' & Hin & Hkk).
      destruct (F2_in_l _ _ _ F _ Hin) as (c & Hc & Hec). destruct (G (k', e0) c Hin Hec) as (ec & ps & kids & Ee & Hkey & _ & _ & Hheld & _). cbn [fst snd] in *.
      assert (Hse : step_eq (Ent k') (Ent k)) by (constructor; now rewrite py_eq_sym). exists c. destruct r as [|b r].
      * destruct Hw as [Hw|[_ ->]].
        { cbn in Hsub, Hnode. injection Hsub as <-. injection Hnode as <-. inversion Hw. }
        exists [Ent k'], ShownEntry. split; [exact Hc|]. split; [constructor; [exact Hse|constructor]|]. split; [now constructor|auto].
      * destruct (Hheld (b :: r) t y w Hsub Hnode) as (c' & r' & w' & [<-|[]] & H1 & H2 & H3); [destruct Hw as [Hw|[Hw ->]]; [now left|right; split; [exact Hw|reflexivity]]|].
        exists (Ent k' :: r'), w'. split; [exact Hc|]. split; [now constructor|]. split; [now apply XtInEntry|exact H3].
Qed.
Lemma all_fine s : fine s.
Proof. induction s using schema_ind'; auto using leaf_fine, leaf_list_fine, cont_fine, list_fine. Qed.
Theorem xml_doc ns name kids e : Forall suited top -> Forall2 xst top kids -> encode O im ins true ns name top kids = Ok e ->
  valid (entry_schema top) e /\ data_in (entry_schema top) (OCont false false kids) e /\ held_in (entry_schema top) (OCont false false kids) [e].
Proof.
  intros Hsu Hst He. rewrite encode_els in He. destruct (kids_els top kids) as [ks|] eqn:Ek; [|discriminate]. cbn [bind] in He. injection He as <-.
  assert (Hq : schema_at top [] = Some (SCont plain false top)) by reflexivity.
  exact (obj_shown plain false top ns name [] [] false false kids ks (Hnm [] _ _ _ Hq) (proj2 (Forall_forall _ _) (fun s _ => all_fine s)) (kid_places [] _ _ _ Hq) Hsu Hst Ek ltac:(discriminate)).
Qed.
End X.

Theorem xml_merged O ft im ins uid ns name cs l kids : uniform cs -> even_keys cs -> python_names cs -> key_leaves cs -> plain_deeds O ft uid cs l ->
  Forall suited cs -> unrivalled cs kids -> Forall2 (xstorable O ft im ins) cs kids ->
  exists e m', encode O im ins true ns name cs kids = Ok e /\ load_doc O ft uid cs e (after O ft uid cs l) = (m', Ok tt) /\
    forall q s x w, schema_at cs q = Some s -> at_path kids q = Some x -> holds_xml s x w \/ is_entry q = true /\ w = ShownEntry ->
    exists y, at_path m' q = Some y /\ shows w y.
Proof.
  intros Hu Hk Hn Hkl Hl Hsu Hun Hst.
  assert (Hpk : plain_keys cs) by (intros p i keys od cs' n s Hp Hn' Hi; right; exact (Hk p i keys od cs' n s Hp Hn' Hi)).
  destruct (xml_round_trip O ft im ins uid cs ns name kids Hpk Hun Hn Hkl Hst) as (e & _ & He & _). destruct (xml_doc O ft im ins uid cs Hn Hkl Hpk ns name kids e Hsu Hst He) as (Hv & Hd & Hh).
  destruct (AcceptChoice_proofs.xml_choice O ft uid cs l Hu Hk Hn Hl e Hv) as (m' & Hm & Ht).
  { apply (data_consistent cs kids); [exact Hun|]. intros q (w & Hw) _. exact (Hd q w Hw). }
  exists e, m'. split; [exact He|]. split; [exact Hm|]. intros q s x w Hs Hx Hw. destruct (Hh q s x w Hs Hx Hw) as (c & r & w' & [<-|[]] & Hr & Hw' & Hso).
  destruct (Ht r w' Hw') as (y & Hy & Hyw). exists y. assert (Hy' : at_path m' q = Some y) by (unfold at_path in *; now rewrite <- (node_steps r q Hr)). split; [exact Hy'|]. apply Hso; [|exact Hyw].
  assert (Ha : m' = after O ft uid cs (l ++ [LoadXml e])) by (unfold after in *; rewrite fold_left_app; cbn [fold_left]; unfold perform at 1; now rewrite Hm).
  destruct s as [|i ts yt| |]; try exact I. destruct y as [|c vs| |]; try exact I. intros mt -> Hwf Hone. rewrite Ha in Hy'.
  assert (H := ValuesMain_proofs.members_hold O ft uid cs (l ++ [LoadXml e]) q i [mt] yt c vs Hs Hy' ltac:(auto) ltac:(auto)). eapply Forall_impl; [|exact H]. intros v (t & [<-|[]] & Hv'). exact Hv'.
Qed.
Theorem xml_program_merged O ft im ins uid ns name cs os l : Forall suited cs -> leaf_keys cs -> uniform cs -> own_choices cs -> python_names cs -> key_leaves cs ->
  xprogram O ft im ins cs os -> plain_deeds O ft uid cs l ->
  exists e m', encode O im ins true ns name cs (module_run O cs (module_new O cs) os) = Ok e /\ load_doc O ft uid cs e (after O ft uid cs l) = (m', Ok tt) /\
    forall q s x w, schema_at cs q = Some s -> at_path (module_run O cs (module_new O cs) os) q = Some x -> holds_xml s x w \/ is_entry q = true /\ w = ShownEntry ->
    exists y, at_path m' q = Some y /\ shows w y.
Proof.
  intros Hs Hlk Hu Ho Hn Hkl Hp Hl. assert (Hk := Stored_proofs.leaf_plain cs Hlk). assert (Hst := StoredXml_proofs.xprogram_storable O ft im ins cs os Hs (Stored_proofs.names_lists cs Hk Hu Hn) Hp).
  apply xml_merged; auto; [now apply leaf_even|]. apply Rival_proofs.one_case_unrivalled; auto; [exact (StoredXml_proofs.xsts_shaped O ft im ins cs _ Hst)|].
  apply Tree_case.one_case_past; auto. eapply StoredXml_proofs.xprogram_case; eauto.
Qed.
