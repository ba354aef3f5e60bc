(** Valid documents in the default format are accepted, and the tree then holds what they say. *)
From Coq Require Import Lia Permutation.
From Verif Require Import PyStr PyStr_facts PyVal Restricted Spec_Lists TypedList TypedList_proofs YList YList_proofs SafeName
  Tree Spec_Tree Tree_proofs Tree_frame Tree_main Tree_past Serialise Spec_Serialise Load_proofs Unknown_proofs Spec_Loading Loading_proofs Spec_Shape Shape_proofs Spec_AcceptJson.
From Verif Require Import AcceptBase_proofs.
From Verif Require Accept_proofs.

(** Entries in order are the entries. *)
Lemma put_order_perm {A} z (x : A) l : ~ In z (map fst l) -> Permutation (map snd (put_order z x l)) (x :: map snd l).
Proof.
  induction l as [|[y v] l IH]; intros H; [reflexivity|]. cbn in H |- *. destruct (Z.eqb_spec z y) as [->|]; [tauto|]. destruct (z <? y)%Z; cbn; [reflexivity|].
  rewrite IH by tauto. apply perm_swap.
Qed.
Lemma put_order_fst {A} z (x : A) l z' : In z' (map fst (put_order z x l)) -> z' = z \/ In z' (map fst l).
Proof. induction l as [|[y v] l IH]; cbn; [intuition|]. destruct (Z.eqb_spec z y) as [->|]; [cbn; intuition|]. destruct (z <? y)%Z; cbn; intuition. Qed.
Lemma in_order_perm {A} (es : list (res (option Z) * A)) : forall pl r,
  (forall o x, In (o, x) es -> exists p, o = Ok p) ->
  (forall es1 z x es2 o' x' es3, es = es1 ++ (Ok (Some z), x) :: es2 ++ (o', x') :: es3 -> o' <> Ok (Some z)) ->
  (forall z x, In (Ok (Some z), x) es -> ~ In z (map fst pl)) ->
  exists l, in_order es pl r = Ok l /\ Permutation l (map snd es ++ map snd pl ++ r).
Proof.
  induction es as [|[o x] es IH]; intros pl r Ho Hd Hp; [exists (map snd pl ++ r); split; reflexivity|].
  destruct (Ho o x (or_introl eq_refl)) as (p & ->).
  assert (Ho' : forall o x, In (o, x) es -> exists p, o = Ok p) by (intros o1 x1 H1; exact (Ho o1 x1 (or_intror H1))).
  assert (Hd' : forall es1 z x es2 o' x' es3, es = es1 ++ (Ok (Some z), x) :: es2 ++ (o', x') :: es3 -> o' <> Ok (Some z)).
  { intros es1 z y es2 o' x' es3 E. apply (Hd ((Ok p, x) :: es1) z y es2 o' x' es3). cbn [app]. congruence. }
  cbn [in_order bind map snd app]. destruct p as [z|].
  - destruct (IH (put_order z x pl) r Ho' Hd') as (l & E & P).
    { intros z' y Hy Hz. apply put_order_fst in Hz. destruct Hz as [->|Hz]; [|exact (Hp z' y (or_intror Hy) Hz)].
      apply in_split in Hy. destruct Hy as (e1 & e2 & ->). exact (Hd [] z x e1 _ y e2 eq_refl eq_refl). }
    exists l. split; [exact E|]. rewrite P, put_order_perm by exact (Hp z x (or_introl eq_refl)). cbn [app]. symmetry. apply Permutation_middle.
  - destruct (IH pl (x :: r) Ho' Hd') as (l & E & P); [intros z y Hy; apply (Hp z y); now right|]. exists l. split; [exact E|]. rewrite P.
    rewrite <- !Permutation_middle. reflexivity.
Qed.
Lemma in_order_map {A B} (f : A -> B) (es : list (res (option Z) * A)) l : in_order es [] [] = Ok l ->
  in_order (map (fun p => (fst p, f (snd p))) es) [] [] = Ok (map f l).
Proof.
  intros H. assert (F : Forall2 (fun p p' => fst p = fst p' /\ snd p' = f (snd p)) es (map (fun p => (fst p, f (snd p))) es))
    by (clear H; induction es as [|[o a] es IH]; constructor; [split; reflexivity|exact IH]).
  pose proof (in_order_rel (fun a b => b = f a) es (map (fun p => (fst p, f (snd p))) es) F [] [] [] [] (Forall2_nil _) (Forall2_nil _)) as R.
  rewrite H in R. destruct (in_order (map (fun p => (fst p, f (snd p))) es) [] []) as [l'|e]; [|contradiction R].
  f_equal. clear H F. induction R; cbn; congruence.
Qed.

Section S.
Context (O : oracle) (uid : list (pyval * obj) -> str) (top : list schema) (skip : bool).
Context (good : list obj -> Prop) (asked : list pstep -> Prop) (HL : lawful good asked O top) (Hnm : python_names top).
Notation run_op := (run_op O top).
Notation load := (load O uid top).
Notation load_kid := (load_kid O uid top false skip).
Notation load_member := (load_member O uid top false skip).
Notation changes := (changes good asked).
Notation sh := (l_shape _ _ _ _ HL _).
Notation valid := (json_valid O skip).
Notation tells := (tells O).

Definition accepted (s : schema) : Prop := forall q j m x, good m -> ends_kid q -> schema_at top q = Some s -> at_path m q = Some x -> valid false s j -> (forall r w, tells false s j r w -> asked (q ++ r)) ->
  exists m', load_kid s q j m = (m', Ok tt) /\ changes q m m' /\ forall r w, tells false s j r w -> exists y, at_path m' (q ++ r) = Some y /\ so w y.

Lemma aside_dec od key : {set_aside od key} + {~ set_aside od key}.
Proof. unfold set_aside. destruct od; [|right; intros [H _]; discriminate]. destruct (list_eq_dec N.eq_dec key (lit "__yang_order")) as [E|E]; [left; auto|right; tauto]. Qed.
Lemma aside_true od key : set_aside od key -> (od && str_eqb key order_key)%bool = true.
Proof. intros [-> ->]. apply str_eqb_refl. Qed.
Lemma aside_false od key : ~ set_aside od key -> (od && str_eqb key order_key)%bool = false.
Proof. intros H. destruct od; [|reflexivity]. destruct (str_eqb key order_key) eqn:E; [|reflexivity]. destruct H. split; [reflexivity|now apply str_eqb_eq in E]. Qed.

(** Members of an object. *)
Lemma members_accepted od cs : Forall accepted cs -> forall p i pr, schema_at top p = Some (SCont i pr cs) -> forall ms, once_each od cs ms ->
  (forall key j, In (key, j) ms ->
       set_aside od key \/ (exists n s, spelt cs key n s /\ valid false s j) \/ (skip = true /\ foreign cs key)) ->
  (forall key j n s r w, In (key, j) ms -> ~ set_aside od key -> spelt cs key n s -> tells false s j r w -> asked (p ++ Kid n :: r)) ->
  forall m c ps kids, good m -> at_path m p = Some (OCont c ps kids) ->
  exists m', for_each (load_member od cs p) ms m = (m', Ok tt) /\ changes p m m' /\ kept (at_path m p) (at_path m' p) /\
    (forall n, (forall key j s, In (key, j) ms -> ~ set_aside od key -> ~ spelt cs key n s) -> forall r, asked (p ++ Kid n :: r) -> at_path m' (p ++ Kid n :: r) = at_path m (p ++ Kid n :: r)) /\
    (forall key j n s r w, In (key, j) ms -> ~ set_aside od key -> spelt cs key n s -> tells false s j r w -> exists y, at_path m' (p ++ Kid n :: r) = Some y /\ so w y).
Proof.
  intros HP p i pr Hp. pose proof (Accept_proofs.names_differ top Hnm _ _ _ _ Hp) as Hd. induction ms as [|[key j] ms IH]; intros Ho Hv Has m c ps kids Hs Hx.
  - exists m. split; [reflexivity|]. split; [now apply changes_refl|]. split; [apply kept_refl|]. split; [reflexivity|]. intros key j n s r w [].
  - assert (Ho' : once_each od cs ms).
    { destruct Ho as [Hn Ho]. split; [now inversion Hn|]. intros ms1 k1 j1 ms2 k2 j2 ms3 E. apply (Ho ((key, j) :: ms1) k1 j1 ms2 k2 j2 ms3). now rewrite E. }
    assert (Hv' : forall key j, In (key, j) ms -> set_aside od key \/ (exists n s, spelt cs key n s /\ valid false s j) \/ (skip = true /\ foreign cs key))
      by (intros k0 j0 Hi; apply Hv; now right).
    specialize (IH Ho' Hv' (fun k0 j0 n0 s0 r0 w0 Hi => Has k0 j0 n0 s0 r0 w0 (or_intror Hi))).
    match goal with |- ?G => assert (Hskip : (forall n s, ~ set_aside od key -> ~ spelt cs key n s) -> load_member od cs p (key, j) m = (m, Ok tt) -> G) end.
    { intros Hno E. destruct (IH m c ps kids Hs Hx) as (m' & E' & Hu & Hk & Hr & Hsay). exists m'. cbn [for_each]. rewrite E. cbn [andthen].
      split; [exact E'|]. split; [exact Hu|]. split; [exact Hk|]. split.
      - intros n Hn. apply Hr. intros k0 j0 s0 Hi. apply (Hn k0 j0 s0). now right.
      - intros k0 j0 n s r w [Ei|Hi] H1 H2 H3; [injection Ei as <- <-; destruct (Hno n s H1 H2)|exact (Hsay k0 j0 n s r w Hi H1 H2 H3)]. }
    destruct (aside_dec od key) as [Hat|Hat].
    { apply Hskip; [intros n s Hc; contradiction|]. unfold Load_proofs.load_member. cbn [fst]. now rewrite (aside_true _ _ Hat). }
    destruct (Hv key j (or_introl eq_refl)) as [Ha|[(n & s & Hsp & Hval)|(Hsk & Hf)]]; [contradiction| |].
    + clear Hskip. destruct (Accept_proofs.kid_at top m p i pr cs c ps kids n s Hp (sh Hs) Hx (proj1 Hsp)) as (x & Hxn).
      rewrite Forall_forall in HP. destruct (HP s (nth_error_In _ _ (proj1 Hsp)) (p ++ [Kid n]) j m x Hs (ends_kid_app p n)) as (m1 & E1 & Hu1 & Hs1); [now rewrite (schema_kid top p i pr cs n Hp), (proj1 Hsp)|exact Hxn|exact Hval|intros r w Hw; rewrite <- app_assoc; exact (Has key j n s r w (or_introl eq_refl) Hat Hsp Hw)|].
      pose proof (changes_above good asked p (Kid n) m m1 Hu1) as Hk1. rewrite Hx in Hk1. cbn in Hk1. destruct (at_path m1 p) as [[| |c1 ps1 kids1|]|] eqn:Hx1; try discriminate Hk1.
      destruct (IH m1 c1 ps1 kids1 (c_good _ _ _ _ _ Hu1) Hx1) as (m' & E' & Hu & Hk & Hr & Hsay).
      exists m'. split.
      { cbn [for_each]. unfold Load_proofs.load_member at 1. cbn [fst snd]. rewrite (aside_false _ _ Hat), (Accept_proofs.found_spelt _ _ _ _ Hd Hsp), E1. cbn [andthen]. exact E'. }
      split; [eapply changes_trans; [eapply changes_below; exact Hu1|exact Hu]|]. split; [eapply kept_trans; [|exact Hk]; now rewrite Hx, Hx1|]. split.
      * intros n' Hn' r Hask. rewrite Hr by (first [exact Hask|intros k0 j0 s0 Hi; apply (Hn' k0 j0 s0); now right]). apply (c_apart _ _ _ _ _ Hu1); [exact Hask|]. apply Accept_proofs.apart_kids_r.
        intros <-. exact (Hn' key j s (or_introl eq_refl) Hat Hsp).
      * intros k0 j0 n0 s0 r w [Ei|Hi] H1 H2 H3; [|exact (Hsay k0 j0 n0 s0 r w Hi H1 H2 H3)]. injection Ei as <- <-.
        destruct (Accept_proofs.spelt_one _ _ _ _ _ _ Hd Hsp H2) as [<- <-]. destruct (Hs1 r w H3) as (y & Hy & Hm). exists y. split; [|exact Hm].
        rewrite <- app_assoc in Hy. cbn [app] in Hy. rewrite Hr; [exact Hy| |exact (Has key j n s r w (or_introl eq_refl) Hat Hsp H3)]. intros k1 j1 s1 Hi1 Hk1' Hsp1. apply in_split in Hi1. destruct Hi1 as (ms1 & ms2 & ->).
        exact (proj2 Ho [] key j ms1 k1 j1 ms2 eq_refl Hat Hk1' n s s1 Hsp Hsp1).
    + apply Hskip; [intros n s _; apply Hf|]. unfold Load_proofs.load_member. cbn [fst snd]. rewrite (aside_false _ _ Hat), (found_none _ _ Hf), Hsk. reflexivity.
Qed.

(** The name of an entry. *)
Lemma name_parts cs keys t : NoDup (map (fun s => e_py (s_info s)) cs) -> entry_name O cs keys t -> keys <> [] /\ exists kd, key_dict keys (VStr t) = Ok kd /\
    Forall (fun nv => exists a i lt d yt v, kid_index (fst nv) cs = Some a /\ nth_error cs a = Some (SLeaf i lt d yt true) /\ d_out (leaf_assign O lt (snd nv)) = Ok v /\
                      exists j, scalar j /\ snd nv = jval j) kd.
Proof.
  intros Hd H.
  assert (G : forall name part, part_taken O cs name part -> exists a i lt d yt v, kid_index name cs = Some a /\ nth_error cs a = Some (SLeaf i lt d yt true) /\ d_out (leaf_assign O lt (VStr part)) = Ok v /\
                      exists j, scalar j /\ VStr part = jval j).
  { intros name part (n & i & lt & dd & yt & v & Hn & Hp & Hv). exists n, i, lt, dd, yt, v. split; [rewrite <- Hp; exact (kid_index_nth cs Hd n _ Hn)|]. split; [exact Hn|]. split; [exact Hv|]. exists (JStr part). split; [exact I|reflexivity]. }
  destruct H as [(name & -> & Hne & Hp)|(Hl & parts & -> & Hsp & Hps)].
  - split; [discriminate|]. exists [(name, VStr t)]. split; [unfold key_dict; destruct t; congruence|]. constructor; [|constructor]. exact (G name t Hp).
  - destruct keys as [|k1 [|k2 keys]]; cbn in Hl; try lia. split; [discriminate|].
    assert (Hlen : length parts = length (k1 :: k2 :: keys)) by (clear - Hps; induction Hps; cbn; congruence).
    exists (combine (k1 :: k2 :: keys) (map VStr parts)). split.
    + unfold key_dict. change (lit " ") with [32%N]. rewrite split_join; [|destruct parts; discriminate|exact Hsp]. cbv zeta. now rewrite Hlen, Nat.eqb_refl.
    + clear Hlen Hl Hsp. induction Hps as [|name part keys' parts' Hp Hps IH]; [constructor|]. cbn [map combine]. constructor; [exact (G name part Hp)|exact IH].
Qed.
Lemma entry_added i keys od cs t q m c es : entry_name O cs keys t -> good m -> asked q -> schema_at top q = Some (SList i keys od cs) -> ends_kid q -> at_path m q = Some (OList c es) ->
  exists m1 c1 es1 x, (forall act, load_entry O uid top q t act m = act m1) /\ changes q m m1 /\ at_path m1 q = Some (OList c1 es1) /\ mget (VStr t) es1 = Some x /\
    forall k', py_eq (VStr t) k' = false -> mget k' es1 = mget k' es.
Proof.
  intros Hn Hs Hask Hsc He Hat. pose proof (Accept_proofs.names_differ top Hnm _ _ _ _ (schema_entry top q i keys od cs VNone Hsc)) as Hd.
  destruct (name_parts cs keys t Hd Hn) as (Hne & kd & Ekd & Hkd). destruct (Accept_proofs.fill_ok O cs kd (map (fresh O) cs) Hkd) as (k0 & evs & Hfill).
  assert (Hmk : mk_entry O cs kd = (evs, Ok (OCont (mark evs false) false k0))) by (unfold mk_entry; now rewrite Hfill).
  set (e0 := OCont (mark evs false) false k0) in *. destruct (mhas (VStr t) es) eqn:Eh.
  - destruct (mget (VStr t) es) as [x|] eqn:Eg; [|apply mget_none in Eg; now apply mhas_key in Eh]. exists m, c, es, x. split.
    { intros act. unfold load_entry, entries. cbv zeta. rewrite Hat, Eh. cbn [andthen]. now rewrite Hat, Eh. }
    split; [now apply changes_refl|]. auto.
  - assert (E2 : list_op O keys cs (uid es) es (YAdd (VStr t)) = (mput (VStr t) e0 es, evs, Ok tt)).
    { unfold list_op, yl_op, yl_add. cbn [hashable negb]. rewrite Eh. destruct keys as [|k1 ks]; [congruence|]. rewrite Ekd, Hmk. reflexivity. }
    destruct (l_op _ _ _ _ HL m q (AList (uid es) (YAdd (VStr t))) _ _ Hs He Hask I Hsc Hat) as (Hu & Ho & Hp); [intros; intros [=]; congruence|].
    destruct (run_op m q (AList (uid es) (YAdd (VStr t)))) as [m1 r] eqn:Er. cbn [fst snd] in *. unfold put in Hp. cbn [apply] in Ho, Hp. rewrite E2 in Ho, Hp. cbn in Ho, Hp. subst r.
    exists m1. eexists _, _, e0. split.
    { intros act. unfold load_entry, entries. cbv zeta. rewrite Hat, Eh, Er. cbn [andthen]. rewrite Hp. assert (mhas (VStr t) (mput (VStr t) e0 es) = true) as ->; [|reflexivity].
      unfold mhas. now rewrite mget_mput_same. }
    split; [exact Hu|]. split; [exact Hp|]. split; [apply mget_mput_same|]. intros k' Hk'. apply mget_mput_other. rewrite py_eq_sym. exact Hk'.
Qed.
Lemma text_eq a b : py_eq (VStr a) (VStr b) = false <-> a <> b.
Proof. cbn. split; [intros H ->; rewrite str_eqb_refl in H; discriminate|apply Accept_proofs.str_neqb]. Qed.

Definition entry_act (od : bool) (q : list pstep) (cs : list schema) (te : str * json) : list obj -> step :=
  load_entry O uid top q (fst te) (load false skip od cs (Some q) (q ++ [Ent (VStr (fst te))]) (snd te)).
Lemma entries_accepted i keys od cs : Forall accepted cs -> forall q, schema_at top q = Some (SList i keys od cs) -> ends_kid q -> forall es,
  NoDup (map fst es) -> (forall t e, In (t, e) es -> entry_name O cs keys t /\ valid od (entry_schema cs) e) ->
  (forall t e r w, In (t, e) es -> r = [] \/ tells od (entry_schema cs) e r w -> asked (q ++ Ent (VStr t) :: r)) ->
  forall m c es0, good m -> at_path m q = Some (OList c es0) ->
  exists m', for_each (fun f m => f m) (map (entry_act od q cs) es) m = (m', Ok tt) /\ changes q m m' /\
    (forall k, (forall t e, In (t, e) es -> py_eq (VStr t) k = false) -> forall r, asked (q ++ Ent k :: r) -> at_path m' (q ++ Ent k :: r) = at_path m (q ++ Ent k :: r)) /\
    (forall t e r w, In (t, e) es -> r = [] /\ w = ToldEntry \/ tells od (entry_schema cs) e r w -> exists y, at_path m' (q ++ Ent (VStr t) :: r) = Some y /\ so w y).
Proof.
  intros HP q Hsc He. pose proof (fun k => schema_entry top q i keys od cs k Hsc) as Hse.
  induction es as [|[t e] es IH]; intros Hnd Hv Has m c es0 Hs Hat.
  - exists m. split; [reflexivity|]. split; [now apply changes_refl|]. split; [reflexivity|]. intros t e r w [].
  - cbn [map fst] in Hnd. inversion Hnd as [|? ? Hnot Hnd']; subst. destruct (Hv t e (or_introl eq_refl)) as [Hname Hval]. inversion Hval as [| |? ? ? ? ms Ho Hms|]; subst.
    assert (Hask : asked q) by (apply (l_down _ _ _ _ HL q [Ent (VStr t)]); apply (Has t (JObj ms) [] ToldEntry (or_introl eq_refl)); now left).
    destruct (entry_added i keys od cs t q m c es0 Hname Hs Hask Hsc He Hat) as (m1 & c1 & es1 & x & E1 & Hu1 & Hat1 & Hg1 & Hoth).
    assert (Hx : at_path m1 (q ++ [Ent (VStr t)]) = Some x) by now rewrite (at_entry m1 q _ _ _ Hat1).
    destruct (at_path_conf top m1 _ x (sh (c_good _ _ _ _ _ Hu1)) Hx) as (s' & Hs' & Hc). rewrite Hse in Hs'. injection Hs' as <-. inversion Hc as [| |? ? ? ec eps ekids Hck|]; subst.
    destruct (members_accepted od cs HP _ _ _ (Hse (VStr t)) ms Ho Hms) with (m := m1) (c := ec) (ps := eps) (kids := ekids) as (m2 & E2 & Hu2 & Hk2 & _ & Hsay2);
      [intros key j n s r w Hi1 Hn1 Hsp1 Hs1; rewrite <- app_assoc; apply (Has t (JObj ms) (Kid n :: r) w (or_introl eq_refl)); right; econstructor; eauto|exact (c_good _ _ _ _ _ Hu1)|exact Hx|].
    destruct (changes_entry good asked q (VStr t) m1 m2 c1 es1 Hu2 Hat1) as (c2 & es2 & Hat2 & _).
    destruct (IH Hnd') with (m := m2) (c := c2) (es0 := es2) as (m' & E3 & Hu3 & Hr3 & Hsay3); [intros t0 e0 Hi; apply Hv; now right|intros t0 e0 r0 w0 Hi; apply (Has t0 e0 r0 w0); now right|exact (c_good _ _ _ _ _ Hu2)|exact Hat2|].
    exists m'. split.
    { cbn [map for_each]. unfold entry_act at 1. cbn [fst snd]. rewrite E1, load_obj, E2. exact E3. }
    split; [eapply changes_trans; [exact Hu1|]; eapply changes_trans; [eapply changes_below; exact Hu2|exact Hu3]|]. split.
    + intros k' Hk' r Hak. rewrite Hr3 by (first [exact Hak|intros t0 e0 Hi; apply (Hk' t0 e0); now right]). pose proof (Hk' _ _ (or_introl eq_refl)) as Hkk.
      rewrite (c_apart _ _ _ _ _ Hu2) by (first [exact Hak|now apply Accept_proofs.apart_ents_r]). rewrite (Accept_proofs.below_entry m1 q _ _ k' r Hat1), (Accept_proofs.below_entry m q _ _ k' r Hat). now rewrite (Hoth k' Hkk).
    + intros t0 e0 r w [Ei|Hi] Hw; [|exact (Hsay3 t0 e0 r w Hi Hw)]. injection Ei as <- <-.
      rewrite Hr3.
      2:{ intros t1 e1 Hi1. apply text_eq. intros ->. apply Hnot. change t with (fst (t, e1)). now apply in_map. }
      2:{ apply (Has t (JObj ms) r w (or_introl eq_refl)). destruct Hw as [[-> _]|Hw]; auto. }
      destruct Hw as [[-> ->]|Hw].
      * pose proof Hk2 as Hk2'. rewrite Hx in Hk2'. destruct (at_path m2 (q ++ [Ent (VStr t)])) as [y|]; [|discriminate Hk2']. exists y. split; [reflexivity|exact I].
      * inversion Hw as [| | |? ? ? ? ? key j n s r' w' Hi1 Hn1 Hsp1 Hs1| | |]; subst. destruct (Hsay2 key j n s r' w Hi1 Hn1 Hsp1 Hs1) as (y & Hy & Hmt). exists y. split; [|exact Hmt].
        rewrite <- app_assoc in Hy. exact Hy.
Qed.

(** Members of leaf-lists. *)
Lemma equal_py v l : equal_in v l <-> py_in v l = true.
Proof. rewrite py_in_has. unfold has. rewrite Exists_exists. unfold equal_in. split; intros (w & Hw & E); exists w; (split; [exact Hw|first [exact E|rewrite py_eq_sym; exact E]]). Qed.
Lemma append_taken i ts yt q js : (forall j, In j js -> as_it_is O ts j) -> forall m c l, good m -> asked q -> schema_at top q = Some (SLeafList i ts yt) -> ends_kid q -> at_path m q = Some (OLeafList c l) ->
  exists m' c' l', append_missing O top q js m = (m', Ok tt) /\ changes q m m' /\ at_path m' q = Some (OLeafList c' l') /\
    (forall v, In v l -> In v l') /\ (forall j, In j js -> equal_in (jval j) l').
Proof.
  unfold append_missing. induction js as [|j js IH]; intros Hj m c l Hs Hask Hsc He Hat.
  - exists m, c, l. split; [reflexivity|]. split; [now apply changes_refl|]. split; [exact Hat|]. split; [auto|intros j []].
  - assert (G : exists m1 c1 l1, @eq step (if py_in (jval j) (members m q) then (m, Ok tt) else run_op m q (ALeafList (LAppend (jval j)))) (m1, Ok tt) /\ changes q m m1 /\ at_path m1 q = Some (OLeafList c1 l1) /\
       (forall v, In v l -> In v l1) /\ equal_in (jval j) l1).
    { unfold members. rewrite Hat. destruct (py_in (jval j) l) eqn:Ein.
      - exists m, c, l. split; [reflexivity|]. split; [now apply changes_refl|]. split; [exact Hat|]. split; [auto|now apply equal_py].
      - destruct (Hj j (or_introl eq_refl)) as (v & Hv & Heq). cbn [jval map tl_init tl_build py_in existsb andb] in Hv. unfold tl_check in Hv. cbn [py_in existsb andb] in Hv.
        destruct (member_value O ts (jval j)) as [w|] eqn:Em; [|discriminate]. cbn in Hv. injection Hv as ->.
        destruct (l_op _ _ _ _ HL m q (ALeafList (LAppend (jval j))) _ _ Hs He Hask I Hsc Hat) as (Hu & Ho & Hp); [discriminate|].
        destruct (run_op m q (ALeafList (LAppend (jval j)))) as [m1 r]. cbn [fst snd] in *. unfold put in Hp. cbn [apply tl_op] in Ho, Hp. unfold tl_append, tl_check in Ho, Hp.
        rewrite Ein in Ho, Hp. cbn [andb] in Ho, Hp. rewrite Em in Ho, Hp. cbn in Ho, Hp. subst r. exists m1. eexists _, _. split; [reflexivity|]. split; [exact Hu|]. split; [exact Hp|].
        split; [intros w Hw; apply in_or_app; now left|]. exists v. split; [apply in_or_app; right; now left|now rewrite py_eq_sym]. }
    destruct G as (m1 & c1 & l1 & E1 & Hu1 & Hat1 & Hi1 & Hj1). destruct (IH (fun j0 H => Hj j0 (or_intror H)) m1 c1 l1 (c_good _ _ _ _ _ Hu1) Hask Hsc He Hat1) as (m' & c' & l' & E' & Hu' & Hat' & Hi' & Hj').
    exists m', c', l'. cbn [for_each]. rewrite E1. cbn [andthen]. split; [exact E'|]. split; [eapply changes_trans; eauto|]. split; [exact Hat'|]. split; [auto|].
    intros j0 [<-|Hi]; [|auto]. destruct Hj1 as (w & Hw & Ew). exists w. auto.
Qed.
Lemma find_first v a b : (forall w, In w a -> py_eq w v = false) -> find_eq v (a ++ v :: b) = Some (length a).
Proof. induction a as [|w a IH]; intros H; cbn; [now rewrite py_eq_refl|]. rewrite (H w (or_introl eq_refl)), IH; auto. intros; apply H; now right. Qed.
Lemma delete_mid {A} (a : list A) v b : list_delete (length a) (a ++ v :: b) = a ++ b.
Proof. unfold list_delete. rewrite firstn_app, firstn_all, Nat.sub_diag. cbn [firstn]. rewrite app_nil_r. f_equal. rewrite skipn_app. rewrite skipn_all2 by lia. replace (S (length a) - length a) with 1 by lia. reflexivity. Qed.
Lemma remove_rest i ts yt q vs : forall rest m c pre, (forall w, In w pre -> equal_in w vs) -> good m -> asked q -> schema_at top q = Some (SLeafList i ts yt) -> ends_kid q -> at_path m q = Some (OLeafList c (pre ++ rest)) ->
  exists m' c' l', for_each (fun e m => if py_in e vs then (m, Ok tt) else run_op m q (ALeafList (LRemove e))) rest m = (m', Ok tt) /\ changes q m m' /\ at_path m' q = Some (OLeafList c' l') /\
    (forall v, In v l' -> equal_in v vs) /\ (forall v, In v (pre ++ rest) -> equal_in v vs -> In v l').
Proof.
  induction rest as [|e rest IH]; intros m c pre Hpre Hs Hask Hsc He Hat.
  - exists m, c, pre. rewrite app_nil_r in *. split; [reflexivity|]. split; [now apply changes_refl|]. split; [exact Hat|]. split; auto.
  - cbn [for_each]. destruct (py_in e vs) eqn:Ein.
    + cbn [andthen]. destruct (IH m c (pre ++ [e])) as (m' & c' & l' & E & Hu & Hat' & H1 & H2); auto.
      { intros w Hw. apply in_app_iff in Hw. destruct Hw as [Hw|[<-|[]]]; [auto|now apply equal_py]. }
      { now rewrite <- app_assoc. }
      exists m', c', l'. split; [exact E|]. split; [exact Hu|]. split; [exact Hat'|]. split; [exact H1|]. intros v Hv. apply H2. now rewrite <- app_assoc.
    + assert (Hne : forall w, In w pre -> py_eq w e = false).
      { intros w Hw. destruct (py_eq w e) eqn:Ew; [|reflexivity]. destruct (Hpre w Hw) as (z & Hz & Ez). assert (py_in e vs = true); [|congruence]. apply equal_py. exists z. split; [exact Hz|].
        apply py_eq_trans with w; [now rewrite py_eq_sym|exact Ez]. }
      destruct (l_op _ _ _ _ HL m q (ALeafList (LRemove e)) _ _ Hs He Hask I Hsc Hat) as (Hu & Ho & Hp); [discriminate|].
      destruct (run_op m q (ALeafList (LRemove e))) as [m1 r]. cbn [fst snd] in *. unfold put in Hp. cbn [apply tl_op] in Ho, Hp. rewrite (find_first e pre rest Hne) in Ho, Hp. cbn in Ho, Hp. rewrite delete_mid in Hp. subst r. cbn [andthen].
      destruct (IH m1 _ pre Hpre (c_good _ _ _ _ _ Hu) Hask Hsc He Hp) as (m' & c' & l' & E & Hu' & Hat' & H1 & H2). exists m', c', l'. split; [exact E|]. split; [eapply changes_trans; eauto|]. split; [exact Hat'|]. split; [exact H1|].
      intros v Hv Hin. apply H2; [|exact Hin]. apply in_app_iff in Hv. apply in_app_iff. destruct Hv as [Hv|[<-|Hv]]; auto. apply equal_py in Hin. congruence.
Qed.

Lemma all_accepted s : accepted s.
Proof.
  induction s as [i lt d yt k|i ts yt|i pr cs IH|i keys od cs IH] using schema_ind'; intros q j m x Hs He Hsc Hx Hv Has.
  - inversion Hv as [? ? ? ? ? ? ? v Ha| | |]; subst. cbn [Load_proofs.load_kid].
    assert (Hask : asked q) by (rewrite <- (app_nil_r q); eapply Has; econstructor; eauto).
    destruct (l_op _ _ _ _ HL m q (ASet (Priv true) (AVal (jval j))) _ _ Hs He Hask I Hsc Hx) as (Hu & Ho & Hp); [discriminate|].
    destruct (run_op m q (ASet (Priv true) (AVal (jval j)))) as [m' r]. cbn [fst snd] in *. unfold put in Hp. cbn [apply assign negb] in Ho, Hp. rewrite andb_false_r in Ho, Hp. cbn [set_any] in Ho, Hp. unfold set_leaf in Ho, Hp. rewrite Ha in Ho, Hp. cbn in Ho, Hp. subst r.
    exists m'. split; [reflexivity|]. split; [exact Hu|]. intros r w Hw. inversion Hw as [? ? ? ? ? ? ? v1 Ha1| | | | | |]; subst. rewrite app_nil_r. exists (OLeaf true v). split; [exact Hp|].
    rewrite Ha in Ha1. injection Ha1 as <-. reflexivity.
  - inversion Hv as [|? ? ? ? l Hall| |]; subst. cbn [Load_proofs.load_kid load_members]. destruct (at_path_conf top m q x (sh Hs) Hx) as (s' & Hs' & Hc). rewrite Hsc in Hs'. injection Hs' as <-. inversion Hc as [|? ? ? c0 l0| |]; subst.
    assert (Hask : asked q) by (rewrite <- (app_nil_r q); eapply Has; econstructor).
    destruct (append_taken i ts yt q l Hall m _ _ Hs Hask Hsc He Hx) as (m1 & c1 & l1 & E1 & Hu1 & Hat1 & _ & Hj1). rewrite E1. cbn [andthen]. unfold members. rewrite Hat1.
    destruct (remove_rest i ts yt q (map jval l) l1 m1 c1 []) as (m' & c' & l' & E' & Hu' & Hat' & H1 & H2); [intros w []|exact (c_good _ _ _ _ _ Hu1)|exact Hask|exact Hsc|exact He|exact Hat1|].
    exists m'. split; [exact E'|]. split; [eapply changes_trans; eauto|]. intros r w Hw. inversion Hw; subst. rewrite app_nil_r. eexists. split; [exact Hat'|]. cbn [so]. exists c', l'. split; [reflexivity|]. split; [|exact H1].
    intros v Hin. apply in_map_iff in Hin. destruct Hin as (j & <- & Hj). destruct (Hj1 j Hj) as (z & Hz & Ez). exists z. split; [|exact Ez]. apply H2; [exact Hz|]. exists (jval j). split; [now apply in_map|now rewrite py_eq_sym].
  - inversion Hv as [| |? ? ? ? ms Ho Hms|]; subst. cbn [Load_proofs.load_kid].
    assert (Hpre : exists m1 c ps kids, (if pr then run_op m q (APresent true) else (m, Ok tt)) = (m1, Ok tt) /\ changes q m m1 /\ at_path m1 q = Some (OCont c ps kids) /\ (pr = true -> ps = true)).
    { destruct (at_path_conf top m q x (sh Hs) Hx) as (s' & Hs' & Hc). rewrite Hsc in Hs'. injection Hs' as <-. inversion Hc as [| |? ? ? ec eps ekids Hck|]; subst.
      destruct pr; [|exists m, ec, eps, ekids; split; [reflexivity|]; split; [now apply changes_refl|]; split; [exact Hx|discriminate]].
      assert (Hask : asked q) by (rewrite <- (app_nil_r q); eapply Has; econstructor).
      destruct (l_op _ _ _ _ HL m q (APresent true) _ _ Hs He Hask I Hsc Hx) as (Hu & Ho1 & Hp); [discriminate|].
      destruct (run_op m q (APresent true)) as [m1 r]. cbn [fst snd] in *. unfold put in Hp. cbn in Ho1, Hp. subst r. exists m1. eexists _, _, _. split; [reflexivity|]. split; [exact Hu|]. split; [exact Hp|]. reflexivity. }
    destruct Hpre as (m1 & c & ps & kids & -> & Hu1 & Hx1 & Hps). cbn [andthen]. rewrite load_obj.
    destruct (members_accepted false cs IH q i pr Hsc ms Ho Hms (fun key j n s r w Hi1 Hn1 Hsp1 Hs1 => Has (Kid n :: r) w (TellsIn O false i pr cs ms key j n s r w Hi1 Hn1 Hsp1 Hs1)) m1 c ps kids (c_good _ _ _ _ _ Hu1) Hx1) as (m' & E & Hu & Hk & _ & Hsay).
    exists m'. split; [exact E|]. split; [eapply changes_trans; eauto|]. intros r w Hw. inversion Hw as [| | |? ? ? ? ? key j n s r' w' Hi1 Hn1 Hsp1 Hs1| | |]; subst.
    + rewrite app_nil_r. rewrite Hx1 in Hk. cbn in Hk. destruct (at_path m' q) as [[| |c' ps' kids'|]|]; try discriminate Hk. exists (OCont c' ps' kids'). split; [reflexivity|]. cbn [so]. rewrite (Hps eq_refl) in Hk. exists c', kids'. now rewrite (Hk eq_refl).
    + exact (Hsay key j n s r' w Hi1 Hn1 Hsp1 Hs1).
  - inversion Hv as [| | |? ? ? ? ? es Hnd Hel Hpos]; subst. destruct (at_path_conf top m q x (sh Hs) Hx) as (s' & Hs' & Hc). rewrite Hsc in Hs'. injection Hs' as <-. inversion Hc as [| | |? ? ? ? c0 es0]; subst.
    assert (Hord : exists es', Permutation es' es /\ (if od then in_order (map (fun kj => (order_of (snd kj), entry_act od q cs kj)) es) [] [] else Ok (map snd (map (fun kj => (order_of (snd kj), entry_act od q cs kj)) es))) = Ok (map (entry_act od q cs) es')).
    { destruct od; [|exists es; split; [reflexivity|]; now rewrite map_map].
      destruct (Hpos eq_refl) as [Hint Hdif].
      assert (Horder : forall t e, In (t, e) es -> exists p, order_of e = Ok p /\ (p = None -> position e = None) /\ forall z, p = Some z -> position e = Some (JInt z)).
      { intros t e Hi. destruct (Hel t e Hi) as [_ Hve]. inversion Hve as [| |? ? ? ? ms Ho Hms|]; subst. pose proof (Hint t (JObj ms)) as Hz. cbn [position order_of] in *. fold order_key in Hz |- *. destruct (assoc order_key ms) as [jp|] eqn:Ea.
        - destruct (Hz jp Hi eq_refl) as (z & ->). exists (Some z). split; [reflexivity|]. split; [discriminate|congruence].
        - exists None. split; [reflexivity|]. split; [reflexivity|discriminate]. }
      destruct (in_order_perm (map (fun kj : str * json => (order_of (snd kj), kj)) es) [] []) as (es' & E & P).
      { intros o [t e] Hi. apply in_map_iff in Hi. destruct Hi as ([t' e'] & Ei & Hi). injection Ei as <- <- <-. destruct (Horder t' e' Hi) as (p & Hp & _). eauto. }
      { intros es1 z [t e] es2 o' [t' e'] es3 Em Eo.
        apply map_eq_app in Em. destruct Em as (a1 & b1 & -> & _ & Eb). destruct b1 as [|[t1 e1] b1]; [discriminate|]. cbn [map] in Eb. injection Eb as E1 E2 E3 Eb.
        apply map_eq_app in Eb. destruct Eb as (a2 & b2 & -> & _ & Ec). destruct b2 as [|[t2 e2] b2]; [discriminate|]. cbn [map] in Ec. injection Ec as F1 F2 F3 _.
        cbn [snd] in *. rewrite Eo in F1.
        assert (I1 : In (t1, e1) (a1 ++ (t1, e1) :: a2 ++ (t2, e2) :: b2)) by (apply in_or_app; right; now left).
        assert (I2 : In (t2, e2) (a1 ++ (t1, e1) :: a2 ++ (t2, e2) :: b2)) by (apply in_or_app; right; right; apply in_or_app; right; now left).
        destruct (Horder _ _ I1) as (p1 & Hp1 & _ & Hz1). destruct (Horder _ _ I2) as (p2 & Hp2 & _ & Hz2). rewrite E1 in Hp1. injection Hp1 as <-. rewrite F1 in Hp2. injection Hp2 as <-.
        specialize (Hz1 z eq_refl). specialize (Hz2 z eq_refl). apply (Hdif a1 t1 e1 a2 t2 e2 b2 eq_refl); congruence. }
      { intros z y _ []. }
      exists es'. split; [rewrite P, map_map; cbn [snd map app]; rewrite map_id, app_nil_r; reflexivity|].
      pose proof (in_order_map (entry_act true q cs) _ _ E) as E'. rewrite map_map in E'. exact E'. }
    destruct Hord as (es' & P & Eo).
    destruct (entries_accepted i keys od cs IH q Hsc He es') with (m := m) (c := c0) (es0 := es0) as (m1 & E1 & Hu1 & _ & Hsay).
    { eapply Permutation_NoDup; [apply Permutation_map; symmetry; exact P|exact Hnd]. }
    { intros t e Hi. apply Hel. eapply Permutation_in; eauto. }
    { intros t e r w Hi [->|Hw1]; eapply Has; [eapply TellsEntry|eapply TellsInEntry; [|exact Hw1]]; eapply Permutation_in; eauto. }
    { exact Hs. } { exact Hx. }
    cbn [Load_proofs.load_kid]. cbv zeta. change (fun kj : str * json => (order_of (snd kj), load_entry O uid top q (fst kj) (load false skip od cs (Some q) (q ++ [Ent (VStr (fst kj))]) (snd kj)))) with (fun kj => (order_of (snd kj), entry_act od q cs kj)).
    rewrite Eo, E1. cbn [andthen]. destruct es as [|te es].
    + apply Permutation_sym, Permutation_nil in P. subst es'. injection E1 as <-.
      assert (Hask : asked q) by (rewrite <- (app_nil_r q); eapply Has; econstructor).
      destruct (l_op _ _ _ _ HL m q (ASet (Priv true) (AVal (VDict []))) _ _ Hs He Hask I Hsc Hx) as (Hu & Ho & Hp); [discriminate|].
      destruct (run_op m q (ASet (Priv true) (AVal (VDict [])))) as [m' r]. cbn [fst snd] in *. unfold put in Hp. cbn in Ho, Hp. subst r.
      exists m'. split; [reflexivity|]. split; [exact Hu|]. intros r w Hw. inversion Hw as [| | | |? ? ? ? ? ? t e Hi1|? ? ? ? ? ? t e r' w' Hi1 Hw1|]; subst; try contradiction. rewrite app_nil_r. eexists. split; [exact Hp|]. cbn [so]. eauto.
    + exists m1. split; [reflexivity|]. split; [exact Hu1|]. intros r w Hw. inversion Hw as [| | | |? ? ? ? ? ? t e Hi1|? ? ? ? ? ? t e r' w' Hi1 Hw1|]; subst.
      * apply (Hsay t e [] ToldEntry); [|now left]. eapply Permutation_in; [symmetry; exact P|exact Hi1].
      * apply (Hsay t e r' w); [|now right]. eapply Permutation_in; [symmetry; exact P|exact Hi1].
Qed.
Theorem json_accepted_in m ms : good m -> valid false (entry_schema top) (JObj ms) -> (forall r w, tells false (entry_schema top) (JObj ms) r w -> asked r) ->
  exists m', load_json O uid top false skip (JObj ms) m = (m', Ok tt) /\ forall r w, tells false (entry_schema top) (JObj ms) r w -> exists y, at_path m' r = Some y /\ so w y.
Proof.
  intros Hs Hv Has. inversion Hv as [| |? ? ? ? ms' Ho Hms|]; subst.
  destruct (members_accepted false top) with (p := @nil pstep) (i := plain) (pr := false) (ms := ms) (m := m) (c := false) (ps := false) (kids := m) as (m' & E & _ & _ & _ & Hsay); auto.
  { apply Forall_forall. intros s _. apply all_accepted. }
  { intros key j n s r w Hi1 Hn1 Hsp1 Hs1. exact (Has (Kid n :: r) w (TellsIn O false plain false top ms key j n s r w Hi1 Hn1 Hsp1 Hs1)). }
  exists m'. split; [unfold load_json; rewrite load_obj; exact E|]. intros r w Hw. inversion Hw as [| | |? ? ? ? ? key j n s r' w' Hi1 Hn1 Hsp1 Hs1| | |]; subst. exact (Hsay key j n s r' w Hi1 Hn1 Hsp1 Hs1).
Qed.
End S.
Theorem json_accepted O uid top skip : choice_free top -> python_names top -> forall m ms, shaped top m -> json_valid O skip false (entry_schema top) (JObj ms) ->
  exists m', load_json O uid top false skip (JObj ms) m = (m', Ok tt) /\ forall r w, tells O false (entry_schema top) (JObj ms) r w -> exists y, at_path m' r = Some y /\ so w y.
Proof. intros Hcf Hnm m ms Hs Hv. apply (json_accepted_in O uid top skip _ _ (free_lawful O top Hcf) Hnm m ms Hs Hv). auto. Qed.

(** For concrete documents. *)
Lemma once_by od cs ms : NoDup (map (fun m => safe_name (fst m)) ms) -> once_each od cs ms.
Proof.
  intros H. split.
  - apply (NoDup_map_inv (fun k => safe_name k)). now rewrite map_map.
  - intros ms1 key j ms2 key' j' ms3 -> _ _ n s s' [Hn Hp] [Hn' Hp']. rewrite Hn in Hn'. injection Hn' as <-. rewrite !map_app in H. cbn [map fst] in H.
    apply NoDup_remove_2 in H. apply H. apply in_or_app. right. rewrite map_app. apply in_or_app. right. left. cbn [fst]. congruence.
Qed.
