(** Valid documents are accepted, and the tree then holds what they say. *)
From Coq Require Import Lia.
From Verif Require Import PyStr PyStr_facts PyVal Restricted Spec_Lists TypedList TypedList_proofs YList YList_proofs SafeName
  Tree Spec_Tree Tree_proofs Tree_frame Tree_main Tree_past Serialise Spec_Serialise Load_proofs Unknown_proofs UnknownIetf_proofs Spec_Loading Loading_proofs LoadingIetf_proofs Spec_Shape Shape_proofs Spec_Accept Ietf_proofs AcceptBase_proofs.

Lemma str_neqb a b : a <> b -> str_eqb a b = false.
Proof. apply str_eqb_neq. Qed.
Section S.
Context (O : oracle) (uid : list (pyval * obj) -> str) (top : list schema) (skip : bool).
Context (good : list obj -> Prop) (asked : list pstep -> Prop) (HL : lawful good asked O top) (Hnm : python_names top).
Notation run_op := (run_op O top).
Notation load_ietf := (load_ietf O uid top).
Notation iload_kid := (iload_kid O uid top false skip).
Notation iload_member := (iload_member O uid top false skip).
Notation changes := (changes good asked).
Notation sh := (l_shape _ _ _ _ HL _).
Notation valid := (ietf_valid O skip).
Notation says := (says O).

(** The names of children are different. *)
Lemma names_differ p i pr cs : schema_at top p = Some (SCont i pr cs) -> NoDup (map (fun s => e_py (s_info s)) cs).
Proof. intros H. exact (proj1 (Hnm p i pr cs H)). Qed.
Lemma spelt_one cs key n s n' s' : NoDup (map (fun s => e_py (s_info s)) cs) -> spelt cs key n s -> spelt cs key n' s' -> n = n' /\ s = s'.
Proof.
  intros Hd [H1 E1] [H2 E2]. assert (n = n').
  { apply (proj1 (NoDup_nth_error _) Hd). - rewrite map_length. apply nth_error_Some. congruence. - rewrite !nth_error_map, H1, H2. cbn. congruence. }
  subst n'. split; [reflexivity|congruence].
Qed.
Lemma found_spelt cs key n s : NoDup (map (fun s => e_py (s_info s)) cs) -> spelt cs key n s -> find_kid key cs = Some (n, s).
Proof.
  intros Hd H. destruct (find_kid key cs) as [[n' s']|] eqn:E; [|destruct (not_found _ _ E n s H)].
  pose proof (find_spelt _ _ _ _ E) as H'. destruct (spelt_one _ _ _ _ _ _ Hd H H') as [-> ->]. reflexivity.
Qed.
Lemma kid_at m p i pr cs c ps kids n s : schema_at top p = Some (SCont i pr cs) -> shaped top m -> at_path m p = Some (OCont c ps kids) -> nth_error cs n = Some s ->
  exists x, at_path m (p ++ [Kid n]) = Some x.
Proof.
  intros Hsc Hs Hx Hn. destruct (at_path_conf top m p _ Hs Hx) as (s' & Hs' & Hc). rewrite Hsc in Hs'. injection Hs' as <-.
  inversion Hc as [| |? ? ? ? ? ? HF|]; subst. destruct (Forall2_nth _ _ _ _ _ HF Hn) as (x & Hxn & _). exists x.
  unfold at_path in *. rewrite node_app, Hx. cbn [node]. rewrite Hxn. reflexivity.
Qed.
Lemma apart_kids_r p a b r : a <> b -> apart (p ++ [Kid a]) (p ++ Kid b :: r).
Proof. intros H. induction p as [|c p IH]; cbn; [left; intros E; inversion E; congruence|now right]. Qed.
Lemma apart_ents_r p a b r : py_eq a b = false -> apart (p ++ [Ent a]) (p ++ Ent b :: r).
Proof. intros H. induction p as [|c p IH]; cbn; [left; intros E; inversion E; congruence|now right]. Qed.

Definition accepted (s : schema) : Prop := forall q j m x, good m -> ends_kid q -> schema_at top q = Some s -> at_path m q = Some x -> valid s j -> (forall r w, says s j r w -> asked (q ++ r)) ->
  exists m', iload_kid s q j m = (m', Ok tt) /\ changes q m m' /\ forall r w, says s j r w -> exists y, at_path m' (q ++ r) = Some y /\ meets w y.

(** Members of an object. *)
Lemma members_accepted cs : Forall accepted cs -> forall p i pr, schema_at top p = Some (SCont i pr cs) -> forall ms, once cs ms ->
  (forall key j, In (key, j) ms ->
       In 64%N key \/ (exists n s, spelt cs (local_name key) n s /\ valid s j) \/
       (skip = true /\ foreign cs (local_name key) /\ forall l, j <> JArr l)) ->
  (forall key j n s r w, In (key, j) ms -> ~ In 64%N key -> spelt cs (local_name key) n s -> says s j r w -> asked (p ++ Kid n :: r)) ->
  forall m c ps kids, good m -> at_path m p = Some (OCont c ps kids) ->
  exists m', for_each (iload_member cs p) ms m = (m', Ok tt) /\ changes p m m' /\ kept (at_path m p) (at_path m' p) /\
    (forall n, (forall key j s, In (key, j) ms -> ~ In 64%N key -> ~ spelt cs (local_name key) n s) -> forall r, asked (p ++ Kid n :: r) -> at_path m' (p ++ Kid n :: r) = at_path m (p ++ Kid n :: r)) /\
    (forall key j n s r w, In (key, j) ms -> ~ In 64%N key -> spelt cs (local_name key) n s -> says s j r w -> exists y, at_path m' (p ++ Kid n :: r) = Some y /\ meets w y).
Proof.
  intros HP p i pr Hp. pose proof (names_differ _ _ _ _ Hp) as Hd. induction ms as [|[key j] ms IH]; intros Ho Hv Has m c ps kids Hs Hx.
  - exists m. split; [reflexivity|]. split; [now apply changes_refl|]. split; [apply kept_refl|]. split; [reflexivity|]. intros key j n s r w [].
  - assert (Ho' : once cs ms).
    { destruct Ho as [Hn Ho]. split; [now inversion Hn|]. intros ms1 k1 j1 ms2 k2 j2 ms3 E. apply (Ho ((key, j) :: ms1) k1 j1 ms2 k2 j2 ms3). now rewrite E. }
    assert (Hv' : forall key j, In (key, j) ms -> In 64%N key \/ (exists n s, spelt cs (local_name key) n s /\ valid s j) \/ (skip = true /\ foreign cs (local_name key) /\ forall l, j <> JArr l))
      by (intros k0 j0 Hi; apply Hv; now right).
    specialize (IH Ho' Hv' (fun k0 j0 n0 s0 r0 w0 Hi => Has k0 j0 n0 s0 r0 w0 (or_intror Hi))).
    match goal with |- ?G => assert (Hskip : (forall n s, ~ In 64%N key -> ~ spelt cs (local_name key) n s) -> iload_member cs p (key, j) m = (m, Ok tt) -> G) end.
    { intros Hno E. destruct (IH m c ps kids Hs Hx) as (m' & E' & Hu & Hk & Hr & Hsay). exists m'. cbn [for_each]. rewrite E. cbn [andthen].
      split; [exact E'|]. split; [exact Hu|]. split; [exact Hk|]. split.
      - intros n Hn. apply Hr. intros k0 j0 s0 Hi. apply (Hn k0 j0 s0). now right.
      - intros k0 j0 n s r w [Ei|Hi] H1 H2 H3; [injection Ei as <- <-; destruct (Hno n s H1 H2)|exact (Hsay k0 j0 n s r w Hi H1 H2 H3)]. }
    destruct (Hv key j (or_introl eq_refl)) as [Hat|[(n & s & Hsp & Hval)|(Hsk & Hf & Hl)]].
    + apply Hskip; [intros n s Hc; contradiction|]. unfold UnknownIetf_proofs.iload_member. cbn [fst]. unfold metadata.
      assert (existsb (N.eqb 64) key = true) as ->; [|reflexivity]. apply existsb_exists. exists 64%N. split; [exact Hat|apply N.eqb_refl].
    + destruct (in_dec N.eq_dec 64%N key) as [Hat|Hat].
      { apply Hskip; [intros n0 s0 Hc; contradiction|]. unfold UnknownIetf_proofs.iload_member. cbn [fst]. unfold metadata.
        assert (existsb (N.eqb 64) key = true) as ->; [|reflexivity]. apply existsb_exists. exists 64%N. split; [exact Hat|apply N.eqb_refl]. }
      clear Hskip. destruct (kid_at m p i pr cs c ps kids n s Hp (sh Hs) Hx (proj1 Hsp)) as (x & Hxn).
      rewrite Forall_forall in HP. destruct (HP s (nth_error_In _ _ (proj1 Hsp)) (p ++ [Kid n]) j m x Hs (ends_kid_app p n)) as (m1 & E1 & Hu1 & Hs1); [now rewrite (schema_kid top p i pr cs n Hp), (proj1 Hsp)|exact Hxn|exact Hval|intros r w Hw; rewrite <- app_assoc; exact (Has key j n s r w (or_introl eq_refl) Hat Hsp Hw)|].
      pose proof (changes_above good asked p (Kid n) m m1 Hu1) as Hk1. rewrite Hx in Hk1. cbn in Hk1. destruct (at_path m1 p) as [[| |c1 ps1 kids1|]|] eqn:Hx1; try discriminate Hk1.
      destruct (IH m1 c1 ps1 kids1 (c_good _ _ _ _ _ Hu1) Hx1) as (m' & E' & Hu & Hk & Hr & Hsay).
      exists m'. split.
      { cbn [for_each]. unfold UnknownIetf_proofs.iload_member at 1. cbn [fst snd]. rewrite (no_at _ Hat), (found_spelt _ _ _ _ Hd Hsp), E1. cbn [andthen]. exact E'. }
      split; [eapply changes_trans; [eapply changes_below; exact Hu1|exact Hu]|]. split; [eapply kept_trans; [|exact Hk]; now rewrite Hx, Hx1|]. split.
      * intros n' Hn' r Hask. rewrite Hr by (first [exact Hask|intros k0 j0 s0 Hi; apply (Hn' k0 j0 s0); now right]). apply (c_apart _ _ _ _ _ Hu1); [exact Hask|]. apply apart_kids_r.
        intros <-. exact (Hn' key j s (or_introl eq_refl) Hat Hsp).
      * intros k0 j0 n0 s0 r w [Ei|Hi] H1 H2 H3; [|exact (Hsay k0 j0 n0 s0 r w Hi H1 H2 H3)]. injection Ei as <- <-.
        destruct (spelt_one _ _ _ _ _ _ Hd Hsp H2) as [<- <-]. destruct (Hs1 r w H3) as (y & Hy & Hm). exists y. split; [|exact Hm].
        rewrite <- app_assoc in Hy. cbn [app] in Hy. rewrite Hr; [exact Hy| |exact (Has key j n s r w (or_introl eq_refl) Hat Hsp H3)]. intros k1 j1 s1 Hi1 Hk1' Hsp1. apply in_split in Hi1. destruct Hi1 as (ms1 & ms2 & ->).
        exact (proj2 Ho [] key j ms1 k1 j1 ms2 eq_refl Hat Hk1' n s s1 Hsp Hsp1).
    + apply Hskip; [intros n s _; apply Hf|]. unfold UnknownIetf_proofs.iload_member. cbn [fst snd]. destruct (metadata key); [reflexivity|].
      rewrite (found_none _ _ Hf). unfold lost. rewrite Hsk. destruct j; try reflexivity. now destruct (Hl l).
Qed.

(** The key of an entry. *)
Lemma nodup_in {A} n (a b : A) (l : list (str * A)) : NoDup (map fst l) -> In (n, a) l -> In (n, b) l -> a = b.
Proof.
  induction l as [|[k c] l IH]; intros Hd Ha Hb; [contradiction|]. inversion Hd as [|? ? Hk Hd']; subst. destruct Ha as [Ea|Ha], Hb as [Eb|Hb].
  - congruence.
  - injection Ea as <- <-. destruct Hk. now apply (in_map fst) in Hb.
  - injection Eb as <- <-. destruct Hk. now apply (in_map fst) in Ha.
  - auto.
Qed.
Lemma nodup_assoc {A} n (a : A) (l : list (str * A)) : NoDup (map fst l) -> In (n, a) l -> assoc n l = Some a.
Proof.
  intros Hd Hi. destruct (assoc n l) as [b|] eqn:E.
  - f_equal. exact (nodup_in n b a l Hd (assoc_in _ _ _ E) Hi).
  - exfalso. clear Hd. induction l as [|[k b] l IH]; [contradiction|]. cbn in E. destruct (str_eqb n k) eqn:En; [discriminate|]. destruct Hi as [Ei|Hi]; [|auto].
    injection Ei as -> ->. rewrite str_eqb_refl in En. discriminate.
Qed.
Definition key_part (cs : list schema) (ms : list (str * json)) (name : str) : Prop :=
  exists n i lt dd yt j v, nth_error cs n = Some (SLeaf i lt dd yt true) /\ e_py i = name /\ In (e_yang i, j) ms /\ scalar j /\ d_out (leaf_assign O lt (jval j)) = Ok v.
Lemma same_values cs keys ms : NoDup (map (fun s => e_py (s_info s)) cs) -> NoDup (map fst ms) -> forall kd kd',
  i_key_values cs keys (JObj ms) kd -> i_key_values cs keys (JObj ms) kd' -> kd = kd'.
Proof.
  intros Hd Hm kd kd' (ms1 & E1 & H1) (ms2 & E2 & H2). injection E1 as <-. injection E2 as <-. revert kd' H2.
  induction H1 as [|k [k1 v1] keys kd (Hk1 & n1 & s1 & j1 & Hn1 & Hp1 & Hi1 & Hv1) _ IH]; intros kd' H2; inversion H2 as [|? [k2 v2] ? ? (Hk2 & n2 & s2 & j2 & Hn2 & Hp2 & Hi2 & Hv2) H2']; subst; [reflexivity|].
  f_equal; [|auto]. cbn [fst snd] in *. subst. assert (n1 = n2).
  { apply (proj1 (NoDup_nth_error _) Hd). - rewrite map_length. apply nth_error_Some. congruence. - rewrite !nth_error_map, Hn1, Hn2. cbn. congruence. }
  subst n2. rewrite Hn1 in Hn2. injection Hn2 as <-. now rewrite (nodup_in _ _ _ _ Hm Hi1 Hi2).
Qed.
Lemma keys_given cs keys ms : NoDup (map (fun s => e_py (s_info s)) cs) -> NoDup (map fst ms) -> Forall (key_part cs ms) keys ->
  exists kd, elem_keys cs keys (JObj ms) = Ok kd /\ map fst kd = keys /\
    Forall (fun nv => exists a i lt d yt v, kid_index (fst nv) cs = Some a /\ nth_error cs a = Some (SLeaf i lt d yt true) /\ d_out (leaf_assign O lt (snd nv)) = Ok v /\
                      exists j, scalar j /\ snd nv = jval j) kd.
Proof.
  intros Hd Hm H. induction H as [|k keys (n & i & lt & dd & yt & j & v & Hn & Hp & Hi & Hsc & Hv) _ (kd & E & Ef & Hf)].
  - exists []. split; [reflexivity|]. split; [reflexivity|constructor].
  - exists ((k, jval j) :: kd). assert (Hx : kid_index k cs = Some n) by (rewrite <- Hp; exact (kid_index_nth cs Hd n _ Hn)). split.
    + unfold elem_keys in *. rewrite map_res_cons, E. unfold yang_key. rewrite Hx, Hn. cbn [bind s_info elem_get]. now rewrite (nodup_assoc _ _ _ Hm Hi).
    + split; [cbn; now rewrite Ef|]. constructor; [|exact Hf]. exists n, i, lt, dd, yt, v. cbn [fst snd]. eauto 8.
Qed.
Lemma fill_ok cs : forall kd kids, Forall (fun nv => exists a i lt d yt v, kid_index (fst nv) cs = Some a /\ nth_error cs a = Some (SLeaf i lt d yt true) /\ d_out (leaf_assign O lt (snd nv)) = Ok v /\
                      exists j, scalar j /\ snd nv = jval j) kd -> exists kids' evs, fill_keys O cs kids kd = (kids', evs, Ok tt).
Proof.
  induction kd as [|[n w] kd IH]; intros kids H; [eexists _, _; reflexivity|]. inversion H as [|? ? (a & i & lt & d & yt & v & Ha & Hs & Hv & _) Hf]; subst. cbn [fst snd] in *.
  cbn [fill_keys]. rewrite Ha, Hs. cbn [set_any]. unfold set_leaf. rewrite Hv. cbn [bind setter f_out f_pre f_post].
  match goal with |- context [fill_keys O cs ?k kd] => destruct (IH k Hf) as (kids' & evs & ->) end. eexists _, _. reflexivity.
Qed.
Lemma kw_fst keys : NoDup keys -> forall kd, map fst kd = keys -> kw_keys keys kd = Ok kd.
Proof.
  intros Hd kd Hf. subst keys.
  assert (G : forall pre post, NoDup (map fst (pre ++ post)) -> kw_keys (map fst post) (pre ++ post) = Ok post).
  { intros pre post. revert pre. induction post as [|[n v] post IH]; intros pre Hn; [reflexivity|]. cbn [map fst kw_keys].
    assert (Hg : kw_get n (pre ++ (n, v) :: post) = Some v).
    { clear IH. induction pre as [|[k w] pre IHp]; cbn; [now rewrite str_eqb_refl|]. cbn [app map fst] in Hn. inversion Hn as [|? ? Hk Hn']; subst.
      rewrite str_neqb; [auto|]. intros ->. apply Hk. rewrite map_app. apply in_or_app. right. now left. }
    rewrite Hg. specialize (IH (pre ++ [(n, v)])). rewrite <- app_assoc in IH. cbn [app] in IH. now rewrite IH. }
  exact (G [] kd Hd).
Qed.

(** The entry for an element: found or added. *)
Lemma entry_in i keys od cs ms q m c es : keys <> [] -> NoDup keys -> NoDup (map fst ms) -> good_key O cs keys (JObj ms) ->
  good m -> asked q -> schema_at top q = Some (SList i keys od cs) -> ends_kid q -> at_path m q = Some (OList c es) ->
  exists m1 k c1 es1 x, ietf_entry O uid top q keys cs (JObj ms) m = (m1, Ok k) /\ entry_key O cs keys (JObj ms) k /\ changes q m m1 /\
    at_path m1 q = Some (OList c1 es1) /\ mget k es1 = Some x /\ forall k', py_eq k k' = false -> mget k' es1 = mget k' es.
Proof.
  intros Hne Hnd Hm (ms' & E & Hparts & Hk) Hs Hask Hsc He Hat. injection E as <-. change (Forall (key_part cs ms) keys) in Hparts.
  pose proof (names_differ _ _ _ _ (schema_entry top q i keys od cs VNone Hsc)) as Hd.
  destruct (keys_given cs keys ms Hd Hm Hparts) as (kd & Ekd & Hfst & Hkd). pose proof (elem_keys_values cs keys (JObj ms) kd Hne Ekd) as Hkv.
  assert (Hek : entry_key O cs keys (JObj ms) match kd with [(_, v)] => v | _ => VStr (key_text O kd) end) by (exists kd; auto).
  destruct (Hk _ Hek) as [Hne1 Hrs]. clear Hk.
  destruct (fill_ok cs kd (map (fresh O) cs) Hkd) as (k0 & evs & Hfill).
  assert (Hmk : mk_entry O cs kd = (evs, Ok (OCont (mark evs false) false k0))) by (unfold mk_entry; now rewrite Hfill).
  set (e0 := OCont (mark evs false) false k0) in *.
  set (k := match kd with [(_, v)] => v | _ => VStr (key_text O kd) end) in *.
  assert (Hop : ietf_entry O uid top q keys cs (JObj ms) m = (m, Ok k) /\ mhas k es = true \/
     exists o, plain_op (AList (uid es) o) /\ ietf_entry O uid top q keys cs (JObj ms) m = match run_op m q (AList (uid es) o) with (m', Ok _) => (m', Ok k) | (m', Raise e) => (m', Raise e) end /\
       list_op O keys cs (uid es) es o = (mput k e0 es, evs, Ok tt)).
  { unfold ietf_entry, entries. rewrite Hat. destruct keys as [|n [|n2 ks]]; [congruence| |].
    - destruct kd as [|[n' v] [|]]; try discriminate. injection Hfst as ->. rewrite Ekd. inversion Hkd as [|? ? (a & i1 & lt & dd & yt & v1 & _ & _ & _ & j & Hj & Hv) _]; subst. cbn [snd] in Hv. subst k.
      assert (Hh : hashable v = true) by (subst v; destruct j; try contradiction; reflexivity). rewrite Hh. cbn [negb].
      destruct (mhas v es) eqn:Eh; [left; auto|right]. exists (YAdd v). split; [exact I|]. split; [reflexivity|]. unfold list_op, yl_op, yl_add. rewrite Hh, Eh. cbn [negb].
      assert (Hkdv : key_dict [n] v = Ok [(n, v)]) by (unfold key_dict; destruct v as [| | | |[|]| | | | |]; congruence).
      rewrite Hkdv, Hmk. cbn [store]. subst v. destruct j; try contradiction; reflexivity.
    - destruct kd as [|[a1 v1] [|[a2 v2] kd]]; try discriminate. rewrite Ekd. cbv zeta. rewrite (Hrs _ eq_refl ltac:(discriminate)). fold k.
      destruct (mhas k es) eqn:Eh; [left; auto|right]. eexists (YAddKw _). split; [exact I|]. split; [reflexivity|]. unfold list_op, yl_op, yl_add_kw. rewrite (kw_fst _ Hnd _ Hfst). cbv zeta. fold k. rewrite Eh, Hmk. reflexivity. }
  destruct Hop as [[E1 Hh]|(o & Hpl & E1 & E2)].
  - destruct (mget k es) as [x|] eqn:Eg; [|apply mget_none in Eg; now apply mhas_key in Hh]. exists m, k, c, es, x. split; [exact E1|]. split; [exact Hek|]. split; [now apply changes_refl|]. auto.
  - destruct (l_op _ _ _ _ HL m q (AList (uid es) o) _ _ Hs He Hask Hpl Hsc Hat) as (Hu & Ho & Hp); [intros; intros [=]; congruence|].
    rewrite E1. destruct (run_op m q (AList (uid es) o)) as [m1 r]. cbn [fst snd] in *. unfold put in Hp. cbn [apply] in Ho, Hp. rewrite E2 in Ho, Hp. cbn in Ho, Hp. subst r.
    exists m1, k. eexists _, _, e0. split; [reflexivity|]. split; [exact Hek|]. split; [exact Hu|]. split; [exact Hp|]. split; [apply mget_mput_same|].
    intros k' Hk'. apply mget_mput_other. rewrite py_eq_sym. exact Hk'.
Qed.
Lemma below_entry m q c es k r : at_path m q = Some (OList c es) -> at_path m (q ++ Ent k :: r) = match mget k es with Some x => node x r | None => None end.
Proof. intros H. unfold at_path in *. rewrite node_app, H. cbn [node]. destruct (mget k es); reflexivity. Qed.

Definition element (q : list pstep) (keys : list str) (cs : list schema) (elem : json) (m : list obj) : step :=
  andthen (m, Ok tt) (fun m => match ietf_entry O uid top q keys cs elem m with
               | (m, Raise e) => (m, Raise e)
               | (m, Ok k) => load_ietf false skip cs (Some q) (q ++ [Ent k]) elem m
               end).
Lemma elements_accepted i keys od cs : Forall accepted cs -> keys <> [] -> NoDup keys -> forall q, schema_at top q = Some (SList i keys od cs) -> ends_kid q -> forall l,
  (forall e, In e l -> good_key O cs keys e /\ valid (entry_schema cs) e) ->
  (forall l1 e1 l2 e2 l3 k1 k2, l = l1 ++ e1 :: l2 ++ e2 :: l3 -> entry_key O cs keys e1 k1 -> entry_key O cs keys e2 k2 -> py_eq k1 k2 = false) ->
  (forall e k r w, In e l -> entry_key O cs keys e k -> r = [] \/ says (entry_schema cs) e r w -> asked (q ++ Ent k :: r)) ->
  forall m c es, good m -> at_path m q = Some (OList c es) ->
  exists m', for_each (fun f m => f m) (map (element q keys cs) l) m = (m', Ok tt) /\ changes q m m' /\
    (forall k, (forall e k', In e l -> entry_key O cs keys e k' -> py_eq k' k = false) -> forall r, asked (q ++ Ent k :: r) -> at_path m' (q ++ Ent k :: r) = at_path m (q ++ Ent k :: r)) /\
    (forall e k r w, In e l -> entry_key O cs keys e k -> r = [] /\ w = WThere \/ says (entry_schema cs) e r w -> exists y, at_path m' (q ++ Ent k :: r) = Some y /\ meets w y).
Proof.
  intros HP Hne Hnd q Hsc He. pose proof (fun k => schema_entry top q i keys od cs k Hsc) as Hse.
  induction l as [|e l IH]; intros Hv Hdi Has m c es Hs Hat.
  - exists m. split; [reflexivity|]. split; [now apply changes_refl|]. split; [reflexivity|]. intros e k r w [].
  - destruct (Hv e (or_introl eq_refl)) as [Hgk Hval]. inversion Hval as [| | |? ? ? ms Ho Hms|]; subst.
    assert (Hask : asked q).
    { destruct Hgk as (ms' & Ems & Hparts & _). pose proof Ems as Ems'. injection Ems' as <-. destruct (keys_given cs keys ms (names_differ _ _ _ _ (Hse VNone)) (proj1 Ho) Hparts) as (kd & Ekd & _).
      apply (l_down _ _ _ _ HL q [Ent match kd with [(_, v)] => v | _ => VStr (key_text O kd) end]). apply (Has (JObj ms) _ [] WThere (or_introl eq_refl)); [exists kd; split; [exact (elem_keys_values cs keys (JObj ms) kd Hne Ekd)|reflexivity]|now left]. }
    destruct (entry_in i keys od cs ms q m c es Hne Hnd (proj1 Ho) Hgk Hs Hask Hsc He Hat) as (m1 & k & c1 & es1 & x & E1 & Hek & Hu1 & Hat1 & Hg1 & Hoth).
    assert (Hx : at_path m1 (q ++ [Ent k]) = Some x) by now rewrite (at_entry m1 q _ _ k Hat1).
    destruct (at_path_conf top m1 _ x (sh (c_good _ _ _ _ _ Hu1)) Hx) as (s' & Hs' & Hc). rewrite Hse in Hs'. injection Hs' as <-. inversion Hc as [| |? ? ? ec eps ekids Hck|]; subst.
    destruct (members_accepted cs HP _ _ _ (Hse k) ms Ho Hms) with (m := m1) (c := ec) (ps := eps) (kids := ekids) as (m2 & E2 & Hu2 & Hk2 & _ & Hsay2);
      [intros key j n s r w Hi1 Hn1 Hsp1 Hs1; rewrite <- app_assoc; apply (Has (JObj ms) k (Kid n :: r) w (or_introl eq_refl) Hek); right; econstructor; eauto|exact (c_good _ _ _ _ _ Hu1)|exact Hx|].
    destruct (changes_entry good asked q k m1 m2 c1 es1 Hu2 Hat1) as (c2 & es2 & Hat2 & _).
    destruct (IH) with (m := m2) (c := c2) (es := es2) as (m' & E3 & Hu3 & Hr3 & Hsay3); [intros e0 Hi; apply Hv; now right| |intros e0 k0 r0 w0 Hi; apply (Has e0 k0 r0 w0); now right|exact (c_good _ _ _ _ _ Hu2)|exact Hat2|].
    { intros l1 e1 l2 e2 l3 k1 k2 El. apply (Hdi (JObj ms :: l1) e1 l2 e2 l3). now rewrite El. }
    assert (Huniq : forall k', entry_key O cs keys (JObj ms) k' -> k' = k).
    { intros k' (kd' & Hkd' & ->). destruct Hek as (kd & Hkd & ->). now rewrite (same_values cs keys ms (names_differ _ _ _ _ (Hse VNone)) (proj1 Ho) kd' kd Hkd' Hkd). }
    exists m'. split.
    { cbn [map for_each]. unfold element at 1. cbn [andthen]. rewrite E1, iload_obj, E2. exact E3. }
    split; [eapply changes_trans; [exact Hu1|]; eapply changes_trans; [eapply changes_below; exact Hu2|exact Hu3]|]. split.
    + intros k' Hk' r Hak. rewrite Hr3 by (first [exact Hak|intros e0 k0 Hi; apply Hk'; now right]). pose proof (Hk' _ _ (or_introl eq_refl) Hek) as Hkk.
      rewrite (c_apart _ _ _ _ _ Hu2) by (first [exact Hak|now apply apart_ents_r]). rewrite (below_entry m1 q _ _ k' r Hat1), (below_entry m q _ _ k' r Hat). now rewrite (Hoth k' Hkk).
    + intros e0 k' r w [<-|Hi] Hk' Hw; [|exact (Hsay3 e0 k' r w Hi Hk' Hw)]. rewrite (Huniq k' Hk').
      rewrite Hr3.
      2:{ intros e1 k1 Hi1 Hk1. apply in_split in Hi1. destruct Hi1 as (l1 & l2 & ->). rewrite py_eq_sym. exact (Hdi [] (JObj ms) l1 e1 l2 k k1 eq_refl Hek Hk1). }
      2:{ apply (Has (JObj ms) k r w (or_introl eq_refl) Hek). destruct Hw as [[-> _]|Hw]; auto. }
      destruct Hw as [[-> ->]|Hw].
      * pose proof Hk2 as Hk2'. rewrite Hx in Hk2'. destruct (at_path m2 (q ++ [Ent k])) as [y|]; [|discriminate Hk2']. now exists y.
      * inversion Hw as [| | |? ? ? ? key j n s r' w' Hi1 Hn1 Hsp1 Hs1| |]; subst. destruct (Hsay2 key j n s r' w Hi1 Hn1 Hsp1 Hs1) as (y & Hy & Hmt). exists y. split; [|exact Hmt].
        rewrite <- app_assoc in Hy. exact Hy.
Qed.

Lemma after_colon_cut a b : ~ In 58%N a -> has_char 58 (a ++ lit ":" ++ b) = true /\ after_first_colon (a ++ lit ":" ++ b) = b.
Proof.
  intros Ha. induction a as [|c a IH]; [split; reflexivity|]. cbn [app] in *. destruct IH as [I1 I2]; [intros H; apply Ha; now right|]. split.
  - unfold has_char in *. cbn [existsb]. rewrite I1. apply orb_true_r.
  - cbn [after_first_colon]. destruct (N.eqb_spec c 58) as [->|_]; [destruct Ha; now left|exact I2].
Qed.
Lemma no_colon_char t : ~ In 58%N t -> has_char 58 t = false.
Proof. intros H. unfold has_char. destruct (existsb _ t) eqn:E; [|reflexivity]. apply existsb_exists in E. destruct E as (c & Hc & Ec). apply N.eqb_eq in Ec. now subst c. Qed.
Lemma leaf_value_sent i lt d yt j j' : sent yt j j' -> ietf_value (SLeaf i lt d yt false) j = Ok j' /\ j' <> JNull /\
  (forall q m, iload_kid (SLeaf i lt d yt false) q j m = std_set O top q (SLeaf i lt d yt false) j m).
Proof.
  intros [(-> & -> & ->)|(Hne & Hsc & Hg & Hid)].
  - split; [reflexivity|]. split; [discriminate|reflexivity].
  - split; [|split].
    + unfold ietf_value. cbn [s_ytype]. rewrite (str_neqb _ _ Hne). cbn [bind]. destruct (str_eqb yt (lit "identityref")) eqn:Ei.
      * apply str_eqb_eq in Ei. destruct (Hid Ei) as (t & Et). destruct Hg as [j0 H|a b _ Ha].
        -- rewrite Et in *. destruct H as [H|H]; [congruence|]. now rewrite (no_colon_char t (H t eq_refl)).
        -- destruct (after_colon_cut a b Ha) as [-> ->]. reflexivity.
      * destruct Hg as [j0 H|a b E Ha]; [reflexivity|]. rewrite E in Ei. discriminate Ei.
    + apply given_shape in Hg. destruct j; try contradiction; subst; try discriminate. destruct Hg as (v & ->). discriminate.
    + intros q m. destruct j; try contradiction; reflexivity.
Qed.
Lemma all_accepted s : accepted s.
Proof.
  induction s as [i lt d yt k|i ts yt|i pr cs IH|i keys od cs IH] using schema_ind'; intros q j m x Hs He Hsc Hx Hv Has.
  - inversion Hv as [? ? ? ? ? j' v Hsent Ha|? ? ? ? ? Hj| | |]; subst.
    + destruct (leaf_value_sent i lt d yt j j' Hsent) as (Hiv & Hnn & Hrun). rewrite Hrun, (std_run O top q (SLeaf i lt d yt false) j j' m eq_refl Hiv Hnn).
      assert (Hask : asked q) by (rewrite <- (app_nil_r q); eapply Has; econstructor; eauto).
      destruct (l_op _ _ _ _ HL m q (ASet (Priv false) (AVal (jval j'))) _ _ Hs He Hask I Hsc Hx) as (Hu & Ho & Hp); [discriminate|].
      destruct (run_op m q (ASet (Priv false) (AVal (jval j')))) as [m' r]. cbn [fst snd] in *. unfold put in Hp. cbn [apply assign is_key andb set_any] in Ho, Hp. unfold set_leaf in Ho, Hp. rewrite Ha in Ho, Hp. cbn in Ho, Hp. subst r.
      exists m'. split; [reflexivity|]. split; [exact Hu|]. intros r w Hw. inversion Hw as [? ? ? ? ? j1 v1 Hs1 Ha1| | | | |]; subst. rewrite app_nil_r. exists (OLeaf true v). split; [exact Hp|].
      destruct (leaf_value_sent i lt d yt j j1 Hs1) as (Hiv1 & _ & _). rewrite Hiv in Hiv1. injection Hiv1 as <-. rewrite Ha in Ha1. injection Ha1 as <-. reflexivity.
    + exists m. split; [destruct j; try contradiction; reflexivity|]. split; [now apply changes_refl|]. intros r w Hw. inversion Hw.
  - inversion Hv as [| |? ? ? l Hne Hcol Hall| |]; subst. destruct l as [|j0 l].
    { exists m. split; [reflexivity|]. split; [now apply changes_refl|]. intros r w Hw. inversion Hw; congruence. }
    destruct Hall as [|(vs & Hvs)]; [discriminate|].
    assert (Hiv : ietf_value (SLeafList i ts yt) (JArr (j0 :: l)) = Ok (JArr (j0 :: l))).
    { unfold ietf_value. cbn [s_ytype]. rewrite (str_neqb _ _ Hne). cbn [bind]. destruct (str_eqb yt (lit "identityref")) eqn:Eid; [|reflexivity]. apply str_eqb_eq in Eid.
      destruct (existsb _ (j0 :: l)) eqn:Ee; [|reflexivity]. apply existsb_exists in Ee. destruct Ee as (z & Hz & Ez). destruct (Hcol Eid).
      destruct z as [| | | |[|[|p] t]| |]; try discriminate. do 6 (try (destruct p as [p|p|]; try discriminate Ez)). now destruct t. }
    change (iload_kid (SLeafList i ts yt) q (JArr (j0 :: l)) m) with (std_set O top q (SLeafList i ts yt) (JArr (j0 :: l)) m).
    rewrite (std_run O top q (SLeafList i ts yt) _ _ m eq_refl Hiv ltac:(discriminate)). set (jj := JArr (j0 :: l)) in *.
    assert (Hask : asked q) by (rewrite <- (app_nil_r q); eapply Has; subst jj; econstructor; [discriminate|exact Hvs]).
    destruct (l_op _ _ _ _ HL m q (ASet (Priv false) (AVal (jval jj))) _ _ Hs He Hask I Hsc Hx) as (Hu & Ho & Hp); [discriminate|].
    destruct (run_op m q (ASet (Priv false) (AVal (jval jj)))) as [m' r]. cbn [fst snd] in *. unfold put in Hp. cbn [apply assign is_key andb set_any] in Ho, Hp. unfold set_leaf_list in Ho, Hp. rewrite Hvs in Ho, Hp. cbn in Ho, Hp. subst r.
    exists m'. split; [reflexivity|]. split; [exact Hu|]. intros r w Hw. inversion Hw; subst. rewrite app_nil_r. exists (OLeafList true vs). split; [exact Hp|]. cbn [meets]. subst jj. congruence.
  - inversion Hv as [| | |? ? ? ms Ho Hms|]; subst. unfold UnknownIetf_proofs.iload_kid.
    assert (Hpre : exists m1 c ps kids, (if pr then run_op m q (APresent true) else (m, Ok tt)) = (m1, Ok tt) /\ changes q m m1 /\ at_path m1 q = Some (OCont c ps kids) /\ (pr = true -> ps = true)).
    { destruct (at_path_conf top m q x (sh Hs) Hx) as (s' & Hs' & Hc). rewrite Hsc in Hs'. injection Hs' as <-. inversion Hc as [| |? ? ? ec eps ekids Hck|]; subst.
      destruct pr; [|exists m, ec, eps, ekids; split; [reflexivity|]; split; [now apply changes_refl|]; split; [exact Hx|discriminate]].
      assert (Hask : asked q) by (rewrite <- (app_nil_r q); eapply Has; econstructor).
      destruct (l_op _ _ _ _ HL m q (APresent true) _ _ Hs He Hask I Hsc Hx) as (Hu & Ho1 & Hp); [discriminate|].
      destruct (run_op m q (APresent true)) as [m1 r]. cbn [fst snd] in *. unfold put in Hp. cbn in Ho1, Hp. subst r. exists m1. eexists _, _, _. split; [reflexivity|]. split; [exact Hu|]. split; [exact Hp|]. reflexivity. }
    destruct Hpre as (m1 & c & ps & kids & -> & Hu1 & Hx1 & Hps). cbn [andthen]. rewrite iload_obj.
    destruct (members_accepted cs IH q i pr Hsc ms Ho Hms (fun key j n s r w Hi1 Hn1 Hsp1 Hs1 => Has (Kid n :: r) w (SaysIn O i pr cs ms key j n s r w Hi1 Hn1 Hsp1 Hs1)) m1 c ps kids (c_good _ _ _ _ _ Hu1) Hx1) as (m' & E & Hu & Hk & _ & Hsay).
    exists m'. split; [exact E|]. split; [eapply changes_trans; eauto|]. intros r w Hw. inversion Hw as [| | |? ? ? ? key j n s r' w' Hi1 Hn1 Hsp1 Hs1| |]; subst.
    + rewrite app_nil_r. rewrite Hx1 in Hk. cbn in Hk. destruct (at_path m' q) as [[| |c' ps' kids'|]|]; try discriminate Hk. exists (OCont c' ps' kids'). split; [reflexivity|]. cbn [meets]. rewrite (Hps eq_refl) in Hk. exists c', kids'. now rewrite (Hk eq_refl).
    + exact (Hsay key j n s r' w Hi1 Hn1 Hsp1 Hs1).
  - inversion Hv as [| | | |? ? ? ? l Hne Hnd Hel Hdi]; subst. destruct (at_path_conf top m q x (sh Hs) Hx) as (s' & Hs' & Hc). rewrite Hsc in Hs'. injection Hs' as <-. inversion Hc as [| | |? ? ? ? c0 es0]; subst.
    destruct (elements_accepted i keys od cs IH Hne Hnd q Hsc He l Hel Hdi) with (m := m) (c := c0) (es := es0) as (m' & E & Hu & _ & Hsay); [intros e k r w Hi1 Hk1 [->|Hw1]; eapply Has; [econstructor 5|econstructor 6]; eauto|exact Hs|exact Hx|]. exists m'. split.
    { destruct l as [|e l]; [injection E as <-; reflexivity|exact E]. }
    split; [exact Hu|]. intros r w Hw. inversion Hw as [| | | |? ? ? ? ? e k Hi1 Hk1|? ? ? ? ? e k r' w' Hi1 Hk1 Hw1]; subst; [apply (Hsay e k [] WThere); auto|exact (Hsay e k r' w Hi1 Hk1 (or_intror Hw1))].
Qed.
Theorem ietf_accepted_in m ms : good m -> valid (entry_schema top) (JObj ms) -> (forall r w, says (entry_schema top) (JObj ms) r w -> asked r) ->
  exists m', load_ietf_json O uid top false skip (JObj ms) m = (m', Ok tt) /\ forall r w, says (entry_schema top) (JObj ms) r w -> exists y, at_path m' r = Some y /\ meets w y.
Proof.
  intros Hs Hv Has. inversion Hv as [| | |? ? ? ms' Ho Hms|]; subst.
  destruct (members_accepted top) with (p := @nil pstep) (i := plain) (pr := false) (ms := ms) (m := m) (c := false) (ps := false) (kids := m) as (m' & E & _ & _ & _ & Hsay); auto.
  { apply Forall_forall. intros s _. apply all_accepted. }
  { intros key j n s r w Hi1 Hn1 Hsp1 Hs1. exact (Has (Kid n :: r) w (SaysIn O plain false top ms key j n s r w Hi1 Hn1 Hsp1 Hs1)). }
  exists m'. split; [unfold load_ietf_json; rewrite iload_obj; exact E|]. intros r w Hw. inversion Hw as [| | |? ? ? ? key j n s r' w' Hi1 Hn1 Hsp1 Hs1| |]; subst. exact (Hsay key j n s r' w Hi1 Hn1 Hsp1 Hs1).
Qed.
End S.
Theorem ietf_accepted O uid top skip : choice_free top -> python_names top -> forall m ms, shaped top m -> ietf_valid O skip (entry_schema top) (JObj ms) ->
  exists m', load_ietf_json O uid top false skip (JObj ms) m = (m', Ok tt) /\ forall r w, says O (entry_schema top) (JObj ms) r w -> exists y, at_path m' r = Some y /\ meets w y.
Proof. intros Hcf Hnm m ms Hs Hv. apply (ietf_accepted_in O uid top skip _ _ (free_lawful O top Hcf) Hnm m ms Hs Hv). auto. Qed.

(** For concrete documents. *)
Lemma once_by cs ms : NoDup (map (fun m => safe_name (local_name (fst m))) ms) -> once cs ms.
Proof.
  intros H. split.
  - apply (NoDup_map_inv (fun k => safe_name (local_name k))). now rewrite map_map.
  - intros ms1 key j ms2 key' j' ms3 -> _ _ n s s' [Hn Hp] [Hn' Hp']. rewrite Hn in Hn'. injection Hn' as <-. rewrite !map_app in H. cbn [map fst] in H.
    apply NoDup_remove_2 in H. apply H. apply in_or_app. right. rewrite map_app. apply in_or_app. right. left. cbn [fst]. congruence.
Qed.
Lemma spelt_by cs key n s : nth_error cs n = Some s -> str_eqb (e_py (s_info s)) (safe_name key) = true -> spelt cs key n s.
Proof. intros H E. split; [exact H|now apply str_eqb_eq]. Qed.
