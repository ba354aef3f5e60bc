(** Valid XML documents are accepted, and the tree then holds what they say. *)
From Coq Require Import Lia.
From Verif Require Import PyStr PyStr_facts PyVal Restricted Spec_Lists TypedList TypedList_proofs YList YList_proofs SafeName
  Tree Spec_Tree Tree_proofs Tree_frame Tree_main Tree_past Serialise Spec_Serialise Load_proofs Xml Xml_proofs Spec_Loading Loading_proofs Spec_Shape Shape_proofs Spec_AcceptXml.
From Verif Require Import AcceptBase_proofs.
From Verif Require Accept_proofs.

Section S.
Context (O : oracle) (ft : str -> option pyval) (uid : list (pyval * obj) -> str) (top : list schema).
Context (good : list obj -> Prop) (asked : list pstep -> Prop) (HL : lawful good asked O top) (Hnm : python_names top).
Notation run_op := (run_op O top).
Notation load_xml := (load_xml O ft uid top).
Notation xload_kid := (xload_kid O ft uid top).
Notation xload_member := (xload_member O ft uid top).
Notation changes := (changes good asked).
Notation sh := (l_shape _ _ _ _ HL _).
Notation valid := (xml_valid O ft).
Notation xtells := (xtells O ft).
Notation compatible := (compatible O ft).
Notation xentry_key := (xentry_key O ft).

(** What is left alone by an element for a list or a leaf-list. *)
Definition spares (s : schema) (c : xml) (q : list pstep) (m m' : list obj) : Prop :=
  match s with
  | SList _ keys _ cs => forall t, (forall k, xentry_key cs keys c k -> k <> VStr t) -> forall r, asked (q ++ Ent (VStr t) :: r) -> at_path m' (q ++ Ent (VStr t) :: r) = at_path m (q ++ Ent (VStr t) :: r)
  | SLeafList _ _ _ => forall c0 l, at_path m q = Some (OLeafList c0 l) -> exists c1 l1, at_path m' q = Some (OLeafList c1 l1) /\ incl l l1
  | _ => True
  end.
Definition accepted (s : schema) : Prop := forall q c m x, good m -> ends_kid q -> schema_at top q = Some s -> at_path m q = Some x -> valid s c -> (forall r w, xtells s c r w -> asked (q ++ r)) ->
  exists m', xload_kid s q c m = (m', Ok tt) /\ changes q m m' /\ spares s c q m m' /\ forall r w, xtells s c r w -> exists y, at_path m' (q ++ r) = Some y /\ shows w y.

Lemma text_eq a b : py_eq (VStr a) (VStr b) = false <-> a <> b.
Proof. cbn. split; [intros H ->; rewrite str_eqb_refl in H; discriminate|apply Accept_proofs.str_neqb]. Qed.
(** What an element says is not undone by another one. *)
Lemma persists s c c' q m m' r w y : xtells s c r w -> asked (q ++ r) -> compatible s c c' -> spares s c' q m m' -> at_path m (q ++ r) = Some y -> shows w y ->
  exists y', at_path m' (q ++ r) = Some y' /\ shows w y'.
Proof.
  intros Hw Hask Hc Hk Hy Hs. destruct s as [i lt d yt k|i ts yt|i pr cs|i keys od cs]; cbn in Hc, Hk; try contradiction.
  - inversion Hw as [|? ? ? ? alts Hm| | | |]; subst. rewrite app_nil_r in *. destruct Hs as (c0 & vs & z & v & -> & Hz & Hv & Ev). destruct (Hk _ _ Hy) as (c1 & l1 & Hy' & Hi).
    eexists. split; [exact Hy'|]. exists c1, l1, z, v. auto.
  - assert (G : forall k, xentry_key cs keys c k -> forall r, asked (q ++ Ent k :: r) -> at_path m' (q ++ Ent k :: r) = at_path m (q ++ Ent k :: r)).
    { intros k Hkey r0 Ha. pose proof Hkey as (kd & _ & ->). apply Hk; [|exact Ha]. intros k' Hk'. intros E. exact (Hc _ _ Hkey Hk' (eq_sym E)). }
    inversion Hw as [| | | |? ? ? ? ? k0 Hk0|? ? ? ? ? k0 r' ? Hk0 Hw']; subst; rewrite (G _ Hk0) by exact Hask; eauto.
Qed.

(** The children of an element. *)
Lemma members_accepted cs : Forall accepted cs -> forall p i pr, schema_at top p = Some (SCont i pr cs) -> forall kids, no_clash O ft cs kids ->
  (forall c, In c kids -> exists n s, spelt cs (x_name c) n s /\ valid s c) ->
  (forall c' n s r w, In c' kids -> spelt cs (x_name c') n s -> xtells s c' r w -> asked (p ++ Kid n :: r)) ->
  forall m c ps ks, good m -> at_path m p = Some (OCont c ps ks) ->
  exists m', for_each (xload_member cs p) kids m = (m', Ok tt) /\ changes p m m' /\ kept (at_path m p) (at_path m' p) /\
    (forall c0 n s r w y, (forall c', In c' kids -> spelt cs (x_name c') n s -> compatible s c0 c') -> nth_error cs n = Some s ->
       xtells s c0 r w -> asked (p ++ Kid n :: r) -> at_path m (p ++ Kid n :: r) = Some y -> shows w y -> exists y', at_path m' (p ++ Kid n :: r) = Some y' /\ shows w y') /\
    (forall c' n s r w, In c' kids -> spelt cs (x_name c') n s -> xtells s c' r w -> exists y, at_path m' (p ++ Kid n :: r) = Some y /\ shows w y).
Proof.
  intros HP p i pr Hp. pose proof (Accept_proofs.names_differ top Hnm _ _ _ _ Hp) as Hd. induction kids as [|e kids IH]; intros Hn Hv Has m c ps ks Hs Hx.
  - exists m. split; [reflexivity|]. split; [now apply changes_refl|]. split; [apply kept_refl|]. split; [|intros c' n s r w []]. intros c0 n s r w y _ _ _ _ Hy Hsh. exists y. auto.
  - assert (Hn' : no_clash O ft cs kids). { intros l1 c1 l2 c2 l3 n s E. apply (Hn (e :: l1) c1 l2 c2 l3 n s). now rewrite E. }
    destruct (Hv e (or_introl eq_refl)) as (n & s & Hsp & Hval).
    destruct (Accept_proofs.kid_at top m p i pr cs c ps ks n s Hp (sh Hs) Hx (proj1 Hsp)) as (x & Hxn).
    rewrite Forall_forall in HP. destruct (HP s (nth_error_In _ _ (proj1 Hsp)) (p ++ [Kid n]) e m x Hs (ends_kid_app p n)) as (m1 & E1 & Hu1 & Hk1 & Hs1); [now rewrite (schema_kid top p i pr cs n Hp), (proj1 Hsp)|exact Hxn|exact Hval|intros r w Hw; rewrite <- app_assoc; exact (Has e n s r w (or_introl eq_refl) Hsp Hw)|].
    pose proof (changes_above good asked p (Kid n) m m1 Hu1) as Hab. rewrite Hx in Hab. cbn in Hab. destruct (at_path m1 p) as [[| |c1 ps1 kids1|]|] eqn:Hx1; try discriminate Hab.
    destruct (IH Hn' (fun c0 Hi => Hv c0 (or_intror Hi)) (fun c' n0 s0 r0 w0 Hi => Has c' n0 s0 r0 w0 (or_intror Hi)) m1 c1 ps1 kids1 (c_good _ _ _ _ _ Hu1) Hx1) as (m' & E' & Hu & Hk & Hper & Hsay).
    exists m'. split.
    { cbn [for_each]. unfold Xml_proofs.xload_member at 1. rewrite (Accept_proofs.found_spelt _ _ _ _ Hd Hsp), E1. cbn [andthen]. exact E'. }
    split; [eapply changes_trans; [eapply changes_below; exact Hu1|exact Hu]|]. split; [eapply kept_trans; [|exact Hk]; now rewrite Hx, Hx1|].
    assert (Hone : forall c0 n0 s0 r w y, (spelt cs (x_name e) n0 s0 -> compatible s0 c0 e) -> nth_error cs n0 = Some s0 -> xtells s0 c0 r w -> asked (p ++ Kid n0 :: r) ->
       at_path m (p ++ Kid n0 :: r) = Some y -> shows w y -> exists y', at_path m1 (p ++ Kid n0 :: r) = Some y' /\ shows w y').
    { intros c0 n0 s0 r w y Hcmp Hn0 Hw Hask Hy Hsh. destruct (Nat.eq_dec n n0) as [<-|Hne].
      - rewrite (proj1 Hsp) in Hn0. injection Hn0 as <-. assert (Ha : forall mm, at_path mm (p ++ Kid n :: r) = at_path mm ((p ++ [Kid n]) ++ r)) by (intros mm; now rewrite <- app_assoc).
        rewrite Ha in Hy |- *. eapply persists; eauto. rewrite <- app_assoc. exact Hask.
      - exists y. split; [|exact Hsh]. rewrite <- Hy. apply (c_apart _ _ _ _ _ Hu1); [exact Hask|]. now apply Accept_proofs.apart_kids_r. }
    split.
    + intros c0 n0 s0 r w y Hcmp Hn0 Hw Hask Hy Hsh. destruct (Hone c0 n0 s0 r w y (Hcmp e (or_introl eq_refl)) Hn0 Hw Hask Hy Hsh) as (y1 & Hy1 & Hsh1).
      apply (Hper c0 n0 s0 r w y1); auto. intros c' Hi. apply Hcmp. now right.
    + intros c' n0 s0 r w [<-|Hi] Hsp0 Hw; [|exact (Hsay c' n0 s0 r w Hi Hsp0 Hw)]. destruct (Accept_proofs.spelt_one _ _ _ _ _ _ Hd Hsp Hsp0) as [<- <-].
      destruct (Hs1 r w Hw) as (y & Hy & Hsh). rewrite <- app_assoc in Hy. apply (Hper e n s r w y); auto; [|exact (proj1 Hsp)|exact (Has e n s r w (or_introl eq_refl) Hsp Hw)].
      intros c' Hi Hsp'. apply in_split in Hi. destruct Hi as (l1 & l2 & ->). exact (Hn [] e l1 c' l2 n s eq_refl Hsp Hsp').
Qed.

(** The key of an entry. *)
Lemma first_found e name c : first_child e name c -> child_of e name = Ok c.
Proof.
  intros (k1 & k2 & E & Hn & Hns & Hno). unfold child_of. rewrite E. clear E. induction k1 as [|c0 k1 IH]; cbn [app find].
  - rewrite Hn, Hns, !str_eqb_refl. reflexivity.
  - destruct (str_eqb (x_ns c0) (x_ns e) && str_eqb (x_name c0) name)%bool eqn:Eb; [|apply IH; intros c' Hi; apply Hno; now right].
    apply andb_prop in Eb. destruct Eb as [E1 E2]. apply str_eqb_eq in E1, E2. destruct (Hno c0 (or_introl eq_refl)). auto.
Qed.
Lemma keys_seen cs keys e kd : NoDup (map (fun s => e_py (s_info s)) cs) -> Forall2 (fun name nv => fst nv = name /\ xkey_part O ft cs e name (snd nv)) keys kd ->
  xml_keys ft cs keys e = Ok kd /\ map fst kd = keys /\ exists kids evs, fill_keys O cs (map (fresh O) cs) kd = (kids, evs, Ok tt).
Proof.
  intros Hd H. assert (G : forall kids, exists kids' evs, fill_keys O cs kids kd = (kids', evs, Ok tt)).
  { induction H as [|name [n0 v] keys kd [E1 (n & i & lt & dd & yt & c & w & Hn & Hp & Hf & Hk & Hv & Hw)] _ IH]; intros kids; [eexists _, _; reflexivity|]. cbn [fst snd] in *. subst n0.
    assert (Hx : kid_index name cs = Some n) by (rewrite <- Hp; exact (kid_index_nth cs Hd n _ Hn)). cbn [fill_keys]. rewrite Hx, Hn. cbn [set_any]. unfold set_leaf. rewrite Hw. cbn [bind setter f_out f_pre f_post].
    match goal with |- context [fill_keys O cs ?k kd] => destruct (IH k) as (kids' & evs & ->) end. eexists _, _. reflexivity. }
  split; [|split; [clear G; induction H as [|name nv keys kd [E1 _] _ IH]; cbn; congruence|apply G]]. clear G. unfold xml_keys.
  induction H as [|name [n0 v] keys kd [E1 (n & i & lt & dd & yt & c & w & Hn & Hp & Hf & Hk & Hv & Hw)] _ IH]; [reflexivity|]. cbn [fst snd] in *. subst n0.
  assert (Hx : kid_index name cs = Some n) by (rewrite <- Hp; exact (kid_index_nth cs Hd n _ Hn)). rewrite map_res_cons, IH. unfold yang_key. rewrite Hx, Hn. cbn [bind s_info]. rewrite (first_found _ _ _ Hf). cbn [bind]. rewrite Hk. cbn [bind]. now rewrite Hv.
Qed.
Lemma key_unique cs keys e k k' : NoDup (map (fun s => e_py (s_info s)) cs) -> xentry_key cs keys e k -> xentry_key cs keys e k' -> k = k'.
Proof. intros Hd (kd & H & ->) (kd' & H' & ->). apply keys_seen in H, H'; auto. destruct H as [H _], H' as [H' _]. rewrite H in H'. now injection H' as <-. Qed.
Lemma entry_in i keys od cs e k q m c es : keys <> [] -> NoDup keys -> xentry_key cs keys e k -> good m -> asked q -> schema_at top q = Some (SList i keys od cs) -> ends_kid q -> at_path m q = Some (OList c es) ->
  exists m1 c1 es1 x, xml_entry O ft uid top q keys cs e m = (m1, Ok k) /\ changes q m m1 /\ at_path m1 q = Some (OList c1 es1) /\ mget k es1 = Some x /\
    forall k', py_eq k k' = false -> mget k' es1 = mget k' es.
Proof.
  intros Hne Hnd (kd & Hkd & ->) Hs Hask Hsc He Hat. pose proof (Accept_proofs.names_differ top Hnm _ _ _ _ (schema_entry top q i keys od cs VNone Hsc)) as Hd.
  destruct (keys_seen cs keys e kd Hd Hkd) as (Ek & Hfst & k0 & evs & Hfill).
  assert (Hmk : mk_entry O cs kd = (evs, Ok (OCont (mark evs false) false k0))) by (unfold mk_entry; now rewrite Hfill).
  set (e0 := OCont (mark evs false) false k0) in *. set (k := VStr (key_text O kd)) in *.
  unfold xml_entry. destruct keys as [|n1 ks] eqn:Eks; [congruence|]. rewrite <- Eks in *. rewrite Ek. cbv zeta. unfold entries. rewrite Hat. fold k. destruct (mhas k es) eqn:Eh.
  - destruct (mget k es) as [x|] eqn:Eg; [|apply mget_none in Eg; now apply mhas_key in Eh]. exists m, c, es, x. split; [reflexivity|]. split; [now apply changes_refl|]. auto.
  - assert (E2 : list_op O keys cs (uid es) es (YAddKw kd) = (mput k e0 es, evs, Ok tt)).
    { unfold list_op, yl_op, yl_add_kw. rewrite (Accept_proofs.kw_fst _ Hnd _ Hfst). cbv zeta. fold k. rewrite Eh, Hmk. destruct kd as [|kv kd']; [cbn in Hfst; congruence|]. destruct keys; [discriminate|reflexivity]. }
    destruct (l_op _ _ _ _ HL m q (AList (uid es) (YAddKw kd)) _ _ Hs He Hask I Hsc Hat) as (Hu & Ho & Hp); [intros; intros [=]; congruence|].
    destruct (run_op m q (AList (uid es) (YAddKw kd))) as [m1 r] eqn:Er. cbn [fst snd] in *. unfold put in Hp. cbn [apply] in Ho, Hp. rewrite E2 in Ho, Hp. cbn in Ho, Hp. subst r.
    exists m1. eexists _, _, e0. split; [reflexivity|]. split; [exact Hu|]. split; [exact Hp|]. split; [apply mget_mput_same|]. intros k' Hk'. apply mget_mput_other. rewrite py_eq_sym. exact Hk'.
Qed.

(** Values of leaves. *)
Lemma text_read yt t v : text_value yt t v -> xml_value yt t = Ok (Some v).
Proof.
  intros H. unfold xml_value. destruct H as [->|t Hne Hye Hid|a b -> Ha].
  - reflexivity.
  - rewrite (Accept_proofs.str_neqb _ _ Hye). destruct (str_eqb yt (lit "identityref")) eqn:Ei; [|destruct t; [congruence|reflexivity]].
    apply str_eqb_eq in Ei. destruct Hid as [Hid|Hid]; [congruence|]. rewrite (Accept_proofs.no_colon_char t Hid). destruct t; [congruence|reflexivity].
  - destruct (Accept_proofs.after_colon_cut a b Ha) as [E1 E2]. change (str_eqb (lit "identityref") (lit "empty")) with false. rewrite str_eqb_refl, E1, E2.
    destruct (a ++ lit ":" ++ b) eqn:E; [destruct a; discriminate|reflexivity].
Qed.
(** Members of leaf-lists. *)
Lemma single ts a w : tl_init O ts true (VList [a]) = Ok [w] -> member_value O ts a = Some w.
Proof. cbn [tl_init tl_build py_in existsb andb]. unfold tl_check. cbn [py_in existsb andb]. destruct (member_value O ts a); [cbn; congruence|discriminate]. Qed.
Lemma single_no ts a e : tl_init O ts true (VList [a]) = Raise e -> member_value O ts a = None.
Proof. cbn [tl_init tl_build py_in existsb andb]. unfold tl_check. cbn [py_in existsb andb]. destruct (member_value O ts a); [discriminate|reflexivity]. Qed.
Lemma append_taken i ts yt q m c l a : good m -> asked q -> ends_kid q -> schema_at top q = Some (SLeafList i ts yt) -> at_path m q = Some (OLeafList c l) ->
  let r := run_op m q (ALeafList (LAppend a)) in changes q m (fst r) /\
  ((py_in a l = true /\ snd r = Ok tt /\ exists c1, at_path (fst r) q = Some (OLeafList c1 l)) \/
   (exists w, py_in a l = false /\ member_value O ts a = Some w /\ snd r = Ok tt /\ exists c1, at_path (fst r) q = Some (OLeafList c1 (l ++ [w]))) \/
   (py_in a l = false /\ member_value O ts a = None /\ snd r = Raise ValueError /\ exists c1, at_path (fst r) q = Some (OLeafList c1 l))).
Proof.
  intros Hs Hask He Hsc Hat. cbv zeta. destruct (l_op _ _ _ _ HL m q (ALeafList (LAppend a)) _ _ Hs He Hask I Hsc Hat) as (Hu & Ho & Hp); [discriminate|].
  split; [exact Hu|]. rewrite Ho, Hp. unfold put. cbn [apply tl_op]. unfold tl_append, tl_check. destruct (py_in a l) eqn:Ein; cbn [andb].
  - left. cbn. eauto.
  - destruct (member_value O ts a) as [w|]; cbn; [right; left; exists w|right; right]; eauto 6.
Qed.

Lemma all_accepted s : accepted s.
Proof.
  induction s as [i lt d yt k|i ts yt|i pr cs IH|i keys od cs IH] using schema_ind'; intros q c m x Hs He Hsc Hx Hv Has.
  - inversion Hv as [? ? ? ? ? v w Ht Ha|? ? ? ? ? Ht Hy Hi| | | |]; subst.
    + assert (Hask : asked q) by (rewrite <- (app_nil_r q); eapply Has; econstructor; eauto).
      destruct (l_op _ _ _ _ HL m q (ASet (Priv false) (AVal v)) _ _ Hs He Hask I Hsc Hx) as (Hu & Ho & Hp); [discriminate|].
      cbn [Xml_proofs.xload_kid]. unfold xml_set. cbn [is_key s_ytype]. rewrite (text_read _ _ _ Ht).
      destruct (run_op m q (ASet (Priv false) (AVal v))) as [m' r]. cbn [fst snd] in *. unfold put in Hp. cbn [apply assign is_key andb set_any] in Ho, Hp. unfold set_leaf in Ho, Hp. rewrite Ha in Ho, Hp. cbn in Ho, Hp. subst r.
      exists m'. split; [reflexivity|]. split; [exact Hu|]. split; [exact I|]. intros r w' Hw. inversion Hw as [? ? ? ? ? v1 w1 Ht1 Ha1| | | | |]; subst. rewrite app_nil_r. exists (OLeaf true w). split; [exact Hp|].
      apply text_read in Ht, Ht1. rewrite Ht in Ht1. injection Ht1 as <-. rewrite Ha in Ha1. injection Ha1 as <-. reflexivity.
    + exists m. cbn [Xml_proofs.xload_kid]. unfold xml_set, xml_value. cbn [is_key s_ytype]. rewrite (Accept_proofs.str_neqb _ _ Hy), (Accept_proofs.str_neqb _ _ Hi), Ht. split; [reflexivity|]. split; [now apply changes_refl|]. split; [exact I|].
      intros r w Hw. inversion Hw as [? ? ? ? ? v1 w1 Ht1 Ha1| | | | |]; subst. rewrite Ht in Ht1. inversion Ht1 as [E|t E|a b E]; subst; try congruence.
    + exists m. split; [reflexivity|]. split; [now apply changes_refl|]. split; [exact I|]. intros r w Hw. inversion Hw.
  - inversion Hv as [| | |? ? ? ? alts Hk Hm| |]; subst. destruct (at_path_conf top m q x (sh Hs) Hx) as (s' & Hs' & Hc). rewrite Hsc in Hs'. injection Hs' as <-. inversion Hc as [|? ? ? c0 l0| |]; subst.
    assert (Hask : asked q) by (rewrite <- (app_nil_r q); eapply Has; econstructor; eauto).
    cbn [Xml_proofs.xload_kid]. unfold xml_member. rewrite Hk. cbv zeta. set (a := objectified ft (x_text c)). set (u := VStr (py_str O a)).
    assert (G : exists m' c1 l1, (match run_op m q (ALeafList (LAppend a)) with
        | (m', Raise ValueError) => if existsb (fun t => match t with TStr => true | _ => false end) ts then run_op m' q (ALeafList (LAppend u)) else (m', Raise ValueError)
        | r => r end) = (m', Ok tt) /\ changes q m m' /\ at_path m' q = Some (OLeafList c1 l1) /\ incl l0 l1 /\
        forall alts, member_seen O ft ts (x_text c) alts -> exists z v, In z l1 /\ In v alts /\ py_eq v z = true).
    { destruct (append_taken i ts yt q m c0 l0 a Hs Hask He Hsc Hx) as [Hu [(Hin & Ho & c1 & Hp)|[(w & Hin & Hmv & Ho & c1 & Hp)|(Hin & Hmv & Ho & c1 & Hp)]]];
        destruct (run_op m q (ALeafList (LAppend a))) as [m1 r]; cbn [fst snd] in *; subst r.
      - exists m1, c1, l0. split; [reflexivity|]. split; [exact Hu|]. split; [exact Hp|]. split; [apply incl_refl|]. intros alts' Ha. apply py_in_has, Exists_exists in Hin. destruct Hin as (z & Hz & Ez). exists z, a. split; [exact Hz|]. split; [|first [exact Ez|rewrite py_eq_sym; exact Ez]].
        destruct Ha as [(w & _ & ->)|(e & w & _ & _ & _ & ->)]; now left.
      - exists m1, c1, (l0 ++ [w]). split; [reflexivity|]. split; [exact Hu|]. split; [exact Hp|]. split; [apply incl_appl, incl_refl|]. intros alts' Ha. exists w, w. split; [apply in_or_app; right; now left|]. split; [|apply py_eq_refl].
        destruct Ha as [(w' & Hw & ->)|(e & w' & Hr & _)]; [|apply single_no in Hr; fold a in Hr; congruence]. apply single in Hw. fold a in Hw. rewrite Hmv in Hw. injection Hw as <-. right. now left.
      - destruct Hm as [(w & Hw & _)|(e & w & Hr & Hstr & Hw & _)]; [apply single in Hw; fold a in Hw; congruence|]. rewrite (existsb_str _ Hstr). apply single in Hw. fold a u in Hw.
        destruct (append_taken i ts yt q m1 c1 l0 u (c_good _ _ _ _ _ Hu) Hask He Hsc Hp) as [Hu2 [(Hin2 & Ho2 & c2 & Hp2)|[(w2 & Hin2 & Hmv2 & Ho2 & c2 & Hp2)|(Hin2 & Hmv2 & Ho2 & c2 & Hp2)]]];
          destruct (run_op m1 q (ALeafList (LAppend u))) as [m2 r2]; cbn [fst snd] in *; subst r2.
        + exists m2, c2, l0. split; [reflexivity|]. split; [eapply changes_trans; eauto|]. split; [exact Hp2|]. split; [apply incl_refl|]. intros alts' Ha. apply py_in_has, Exists_exists in Hin2. destruct Hin2 as (z & Hz & Ez). exists z, u. split; [exact Hz|]. split; [|first [exact Ez|rewrite py_eq_sym; exact Ez]].
          destruct Ha as [(w' & Hw' & _)|(e' & w' & _ & _ & _ & ->)]; [apply single in Hw'; fold a in Hw'; congruence|]. right. now left.
        + exists m2, c2, (l0 ++ [w2]). split; [reflexivity|]. split; [eapply changes_trans; eauto|]. split; [exact Hp2|]. split; [apply incl_appl, incl_refl|]. intros alts' Ha. exists w2, w2. split; [apply in_or_app; right; now left|]. split; [|apply py_eq_refl].
          destruct Ha as [(w' & Hw' & _)|(e' & w' & _ & _ & Hw' & ->)]; [apply single in Hw'; fold a in Hw'; congruence|]. apply single in Hw'. fold a u in Hw'. rewrite Hmv2 in Hw'. injection Hw' as <-. right. right. now left.
        + congruence. }
    destruct G as (m' & c1 & l1 & E & Hu & Hat & Hincl & Hsee). exists m'. split; [exact E|]. split; [exact Hu|]. split.
    + intros c2 l2 E2. rewrite Hx in E2. injection E2 as <- <-. eauto.
    + intros r w Hw. inversion Hw as [|? ? ? ? alts' Hm'| | | |]; subst. rewrite app_nil_r. eexists. split; [exact Hat|]. destruct (Hsee alts' Hm') as (z & v & Hz & Hvi & Ev). exists c1, l1, z, v. auto.
  - inversion Hv as [| | | |? ? ? ? Hno Hms|]; subst. cbn [Xml_proofs.xload_kid].
    assert (Hpre : exists m1 c0 ps kids, (if pr then run_op m q (APresent true) else (m, Ok tt)) = (m1, Ok tt) /\ changes q m m1 /\ at_path m1 q = Some (OCont c0 ps kids) /\ (pr = true -> ps = true)).
    { destruct (at_path_conf top m q x (sh Hs) Hx) as (s' & Hs' & Hc). rewrite Hsc in Hs'. injection Hs' as <-. inversion Hc as [| |? ? ? ec eps ekids Hck|]; subst.
      destruct pr; [|exists m, ec, eps, ekids; split; [reflexivity|]; split; [now apply changes_refl|]; split; [exact Hx|discriminate]].
      assert (Hask : asked q) by (rewrite <- (app_nil_r q); eapply Has; econstructor).
      destruct (l_op _ _ _ _ HL m q (APresent true) _ _ Hs He Hask I Hsc Hx) as (Hu & Ho1 & Hp); [discriminate|].
      destruct (run_op m q (APresent true)) as [m1 r]. cbn [fst snd] in *. unfold put in Hp. cbn in Ho1, Hp. subst r. exists m1. eexists _, _, _. split; [reflexivity|]. split; [exact Hu|]. split; [exact Hp|]. reflexivity. }
    destruct Hpre as (m1 & c0 & ps & kids & -> & Hu1 & Hx1 & Hps). cbn [andthen]. rewrite load_xml_each.
    destruct (members_accepted cs IH q i pr Hsc (x_kids c) Hno Hms (fun c' n s r w Hi1 Hsp1 Hs1 => Has (Kid n :: r) w (XtIn O ft i pr cs c c' n s r w Hi1 Hsp1 Hs1)) m1 c0 ps kids (c_good _ _ _ _ _ Hu1) Hx1) as (m' & E & Hu & Hk & _ & Hsay).
    exists m'. split; [exact E|]. split; [eapply changes_trans; eauto|]. split; [exact I|]. intros r w Hw. inversion Hw as [| | |? ? ? ? c' n s r' w' Hi1 Hsp1 Hs1| |]; subst.
    + rewrite app_nil_r. rewrite Hx1 in Hk. cbn in Hk. destruct (at_path m' q) as [[| |c' ps' kids'|]|]; try discriminate Hk. exists (OCont c' ps' kids'). split; [reflexivity|]. cbn [shows]. rewrite (Hps eq_refl) in Hk. exists c', kids'. now rewrite (Hk eq_refl).
    + exact (Hsay c' n s r' w Hi1 Hsp1 Hs1).
  - inversion Hv as [| | | | |? ? ? ? ? k Hne Hnd Hkey Hev]; subst. destruct (at_path_conf top m q x (sh Hs) Hx) as (s' & Hs' & Hc). rewrite Hsc in Hs'. injection Hs' as <-. inversion Hc as [| | |? ? ? ? c0 es0]; subst.
    pose proof (fun k => schema_entry top q i keys od cs k Hsc) as Hse. pose proof (Accept_proofs.names_differ top Hnm _ _ _ _ (Hse VNone)) as Hd.
    assert (Hask : asked q) by (apply (l_down _ _ _ _ HL q [Ent k]); eapply Has; econstructor; exact Hkey).
    destruct (entry_in i keys od cs c k q m c0 es0 Hne Hnd Hkey Hs Hask Hsc He Hx) as (m1 & c1 & es1 & x1 & E1 & Hu1 & Hat1 & Hg1 & Hoth).
    assert (Hx1 : at_path m1 (q ++ [Ent k]) = Some x1) by now rewrite (at_entry m1 q _ _ k Hat1).
    destruct (at_path_conf top m1 _ x1 (sh (c_good _ _ _ _ _ Hu1)) Hx1) as (s' & Hs' & Hc1). rewrite Hse in Hs'. injection Hs' as <-. inversion Hc1 as [| |? ? ? ec eps ekids Hck|]; subst.
    inversion Hev as [| | | |? ? ? ? Hno Hms|]; subst.
    destruct (members_accepted cs IH _ _ _ (Hse k) (x_kids c) Hno Hms) with (m := m1) (c := ec) (ps := eps) (ks := ekids) as (m2 & E2 & Hu2 & Hk2 & _ & Hsay2);
      [intros c' n s r w Hi1 Hsp1 Hs1; rewrite <- app_assoc; apply (Has (Ent k :: Kid n :: r) w); eapply XtInEntry; [exact Hkey|]; econstructor; eauto|exact (c_good _ _ _ _ _ Hu1)|exact Hx1|].
    destruct (changes_entry good asked q k m1 m2 c1 es1 Hu2 Hat1) as (c2 & es2 & Hat2 & _).
    exists m2. split; [cbn [Xml_proofs.xload_kid]; rewrite E1, load_xml_each; exact E2|]. split; [eapply changes_trans; [exact Hu1|eapply changes_below; exact Hu2]|]. split.
    + intros t Ht r Hak. assert (Hkt : py_eq k (VStr t) = false).
      { pose proof (Ht k Hkey) as Hn. destruct Hkey as (kd & _ & ->). apply text_eq. congruence. }
      rewrite (c_apart _ _ _ _ _ Hu2) by (first [exact Hak|now apply Accept_proofs.apart_ents_r]). rewrite (Accept_proofs.below_entry m1 q _ _ _ r Hat1), (Accept_proofs.below_entry m q _ _ _ r Hx). now rewrite (Hoth _ Hkt).
    + intros r w Hw. inversion Hw as [| | | |? ? ? ? ? k' Hk'|? ? ? ? ? k' r' w' Hk' Hw']; subst; rewrite (key_unique _ _ _ _ _ Hd Hk' Hkey).
      * pose proof Hk2 as Hk2'. rewrite Hx1 in Hk2'. destruct (at_path m2 (q ++ [Ent k])) as [y|]; [|discriminate Hk2']. exists y. split; [reflexivity|exact I].
      * inversion Hw' as [| | |? ? ? ? c' n s r'' w'' Hi1 Hsp1 Hs1| |]; subst. destruct (Hsay2 c' n s r'' w Hi1 Hsp1 Hs1) as (y & Hy & Hmt). exists y. split; [|exact Hmt].
        rewrite <- app_assoc in Hy. exact Hy.
Qed.
Theorem xml_accepted_in m e : good m -> valid (entry_schema top) e -> (forall r w, xtells (entry_schema top) e r w -> asked r) ->
  exists m', load_doc O ft uid top e m = (m', Ok tt) /\ forall r w, xtells (entry_schema top) e r w -> exists y, at_path m' r = Some y /\ shows w y.
Proof.
  intros Hs Hv Has. inversion Hv as [| | | |? ? ? ? Hno Hms|]; subst.
  destruct (members_accepted top) with (p := @nil pstep) (i := plain) (pr := false) (kids := x_kids e) (m := m) (c := false) (ps := false) (ks := m) as (m' & E & _ & _ & _ & Hsay); auto.
  { apply Forall_forall. intros s _. apply all_accepted. }
  { intros c' n s r w Hi1 Hsp1 Hs1. exact (Has (Kid n :: r) w (XtIn O ft plain false top e c' n s r w Hi1 Hsp1 Hs1)). }
  exists m'. split; [unfold load_doc; rewrite load_xml_each; exact E|]. intros r w Hw. inversion Hw as [| | |? ? ? ? c' n s r' w' Hi1 Hsp1 Hs1| |]; subst. exact (Hsay c' n s r' w Hi1 Hsp1 Hs1).
Qed.
End S.
Theorem xml_accepted O ft uid top : choice_free top -> python_names top -> forall m e, shaped top m -> xml_valid O ft (entry_schema top) e ->
  exists m', load_doc O ft uid top e m = (m', Ok tt) /\ forall r w, xtells O ft (entry_schema top) e r w -> exists y, at_path m' r = Some y /\ shows w y.
Proof. intros Hcf Hnm m e Hs Hv. apply (xml_accepted_in O ft uid top _ _ (free_lawful O top Hcf) Hnm m e Hs Hv). auto. Qed.

(** For concrete documents. *)
Lemma clash_cons O ft cs c kids : (forall c2 n s, In c2 kids -> str_eqb (safe_name (x_name c)) (safe_name (x_name c2)) = true -> nth_error cs n = Some s -> str_eqb (e_py (s_info s)) (safe_name (x_name c)) = true -> compatible O ft s c c2) ->
  no_clash O ft cs kids -> no_clash O ft cs (c :: kids).
Proof.
  intros H Hn [|c0 l1] c1 l2 c2 l3 n s E S1 S2; injection E as -> E.
  - destruct S1 as [S1 E1], S2 as [_ E2]. apply (H c2 n s); auto; [rewrite E; apply in_or_app; right; now left| |]; apply str_eqb_eq; congruence.
  - exact (Hn l1 c1 l2 c2 l3 n s E S1 S2).
Qed.
Lemma no_clash_by O ft cs kids : NoDup (map (fun c => safe_name (x_name c)) kids) -> no_clash O ft cs kids.
Proof.
  induction kids as [|c kids IH]; intros H; [intros [|? ?] ? ? ? ? ? ? E; discriminate|]. inversion H as [|? ? Hi H']; subst. apply clash_cons; [|now apply IH].
  intros c2 n s Hc E _ _. apply str_eqb_eq in E. destruct Hi. rewrite E. now apply in_map with (f := fun c => safe_name (x_name c)).
Qed.
