(** Loading with overwrite. *)
From Coq Require Import Lia.
From Verif Require Import PyStr PyStr_facts PyVal Restricted Spec_Lists TypedList TypedList_proofs YList YList_proofs SafeName
  Tree Spec_Tree Tree_proofs Tree_frame Tree_main Tree_hist Tree_dump Serialise Spec_Serialise Load_proofs Unknown_proofs.
Local Open Scope Z_scope.

Section W.
Context (O : oracle) (uid : list (pyval * obj) -> str) (top : list schema).
Context (Hcf : choice_free top) (Hnm : python_names top).
Local Notation load := (load O uid top).
Local Notation load_kid := (load_kid O uid top).
Local Notation load_member := (load_member O uid top).
Local Notation run_op := (run_op O top).
Local Notation upd := (upd top).

(* ------------------------------------------------------------------ where loading acts *)
Lemma each_upd {A} p (f : A -> list obj -> step) l : (forall a m, In a l -> shaped top m -> upd p m (fst (f a m))) ->
  forall m, shaped top m -> upd p m (fst (for_each f l m)).
Proof.
  induction l as [|a l IH]; intros H m Hs; cbn [for_each]; [now apply upd_refl|].
  pose proof (H a m (or_introl eq_refl) Hs) as H1. destruct (f a m) as [m1 [[]|e]]; cbn [andthen fst] in *; [|assumption].
  eapply upd_trans; [exact H1|]. apply IH; [|apply H1]. intros b m0 Hb. apply H. now right.
Qed.
Lemma then_upd p r k m : upd p m (fst r) -> (forall m1, shaped top m1 -> upd p m1 (fst (k m1))) -> upd p m (fst (andthen r k)).
Proof.
  intros H1 H2. destruct r as [m1 [[]|e]]; cbn [andthen fst] in *; [|assumption].
  eapply upd_trans; [exact H1|]. apply H2, H1.
Qed.
Lemma some_upd (b : bool) p r m : shaped top m -> (b = true -> upd p m (fst r)) -> upd p m (fst (if b then r else (m, Ok tt))).
Proof. intros Hs H. destruct b; [auto|now apply upd_refl]. Qed.

Definition stays (s : schema) : Prop := forall ov skip q j m, shaped top m -> ends_kid q -> upd q m (fst (load_kid ov skip s q j m)).

Lemma stays_obj cs : Forall stays cs -> forall ov skip strip self p ms m, shaped top m ->
  upd p m (fst (load ov skip strip cs self p (JObj ms) m)).
Proof.
  intros HP ov skip strip self p ms m Hs. rewrite load_obj. apply each_upd; auto. clear m Hs. intros kj m _ Hs.
  unfold Load_proofs.load_member. destruct (strip && _); [now apply upd_refl|].
  pose proof (find_node (fst kj) cs) as Hf. destruct (find_kid (fst kj) cs) as [[k s]|]; [|destruct skip; now apply upd_refl].
  destruct Hf as [_ Hn]. rewrite Forall_forall in HP. apply (upd_below top p [Kid k]).
  apply (HP s); auto using ends_kid_app. eapply nth_error_In; eassumption.
Qed.
Lemma stays_doc cs : Forall stays cs -> forall ov skip strip q r d m, shaped top m -> ends_kid q ->
  upd q m (fst (load ov skip strip cs (Some q) (q ++ r) d m)).
Proof.
  intros HP ov skip strip q r d m Hs He. destruct d as [| | | | | |ms]; try (cbn; now apply op_upd).
  eapply upd_below. now apply stays_obj.
Qed.
Lemma prune_upd q names ks : ends_kid q -> forall m, shaped top m -> upd q m (fst (prune O top q names ks m)).
Proof.
  intros He. induction ks as [|k ks IH]; intros m Hs; cbn [prune]; [now apply upd_refl|].
  destruct (match k with VStr s => _ | _ => _ end); [now apply IH|].
  apply then_upd; [now apply op_upd|]. intros m1 Hs1. destruct ks; now apply upd_refl.
Qed.
Lemma in_todo {A} (es : list (res (option Z) * A)) : forall pl r l x, in_order es pl r = Ok l -> In x l ->
  In x (map snd es) \/ In x (map snd pl) \/ In x r.
Proof.
  induction es as [|[o y] es IH]; intros pl r l x H Hx; cbn in H.
  - injection H as <-. apply in_app_iff in Hx. tauto.
  - destruct o as [[z|]|e]; cbn in H; [| |discriminate]; destruct (IH _ _ _ _ H Hx) as [H1|[H1|H1]]; cbn; auto.
    + apply in_map_iff in H1 as ([z' y'] & <- & H1).
      assert (G : forall l, In (z', y') (put_order z y l) -> (z', y') = (z, y) \/ In (z', y') l).
      { induction l0 as [|[a b] l0 IHl]; cbn; [intros [E|[]]; auto|]. destruct (z =? a); [cbn; intuition|].
        destruct (z <? a); cbn; [intuition|]. intros [E|E]; auto. destruct (IHl E); auto. }
      destruct (G _ H1) as [E|E]; [injection E as -> ->; auto|]. right. left. apply in_map_iff. now exists (z', y').
    + destruct H1 as [->|H1]; auto.
Qed.

Lemma all_stay s : stays s.
Proof.
  induction s as [i lt d yt k|i ts yt|i pr cs IH|i keys od cs IH] using schema_ind'; intros ov skip q j m Hs He.
  - now apply op_upd.
  - cbn [Load_proofs.load_kid]. destruct ov; [now apply op_upd|]. destruct j; try now apply upd_refl; cbn [load_members].
    all: apply then_upd;
      [unfold append_missing; apply each_upd; auto; intros j m0 _ Hs0; destruct (py_in _ _); [now apply upd_refl|now apply op_upd]|].
    all: intros m1 Hs1; apply each_upd; auto; intros e m0 _ Hs0; try (destruct (py_in _ _); [now apply upd_refl|now apply op_upd]).
    destruct e; try now apply upd_refl. destruct (infix _ _); [now apply upd_refl|now apply op_upd].
  - cbn [Load_proofs.load_kid]. apply then_upd; [apply some_upd; auto; intros _; now apply op_upd|]. intros m1 Hs1.
    apply then_upd.
    + apply some_upd; auto. intros _. unfold unset_kids. apply each_upd; auto. intros k m0 _ Hs0.
      eapply upd_below. apply op_upd; auto using ends_kid_app.
    + intros m2 Hs2. rewrite <- (app_nil_r q) at 3. apply stays_doc; auto.
  - destruct j as [| | | | | |es]; try now apply upd_refl. cbn [Load_proofs.load_kid].
    set (act := fun kj : str * json => load_entry O uid top q (fst kj)
                  (load false skip od cs (Some q) (q ++ [Ent (VStr (fst kj))]) (snd kj))).
    assert (Hact : forall kj m, shaped top m -> upd q m (fst (act kj m))).
    { intros kj m0 Hs0. unfold act, load_entry. apply then_upd.
      - destruct (mhas _ _); [now apply upd_refl|now apply op_upd].
      - intros m1 Hs1. destruct (mhas _ _); [|now apply upd_refl]. now apply stays_doc. }
    change (map (fun kj => (order_of (snd kj), load_entry O uid top q (fst kj)
                  (load false skip od cs (Some q) (q ++ [Ent (VStr (fst kj))]) (snd kj)))) es)
      with (map (fun kj => (order_of (snd kj), act kj)) es).
    destruct (if od then in_order _ [] [] else _) as [todo|e] eqn:E; [|now apply upd_refl].
    assert (Htodo : forall a, In a todo -> exists kj, a = act kj).
    { intros a Ha. assert (H : In a (map snd (map (fun kj => (order_of (snd kj), act kj)) es))).
      { destruct od; [|injection E as <-; exact Ha]. destruct (in_todo _ _ _ _ a E Ha) as [H|[[]|[]]]. exact H. }
      rewrite map_map in H. apply in_map_iff in H as (kj & <- & _). now exists kj. }
    apply then_upd; [apply each_upd; auto; intros a m0 Ha Hs0; destruct (Htodo a Ha) as [kj ->]; now apply Hact|].
    intros m1 Hs1. apply then_upd; [apply some_upd; auto; intros _; now apply prune_upd|].
    intros m2 Hs2. destruct es; [now apply op_upd|now apply upd_refl].
Qed.

(* ------------------------------------------------------------------ keys of a list *)
Lemma str_key_eq t k : py_eq (VStr t) k = true -> k = VStr t.
Proof. destruct k; cbn; try discriminate. intros H. apply str_eqb_eq in H. now subst. Qed.
Lemma key_str_eq t k : py_eq k (VStr t) = true -> k = VStr t.
Proof. rewrite py_eq_sym. apply str_key_eq. Qed.
Lemma mhas_str {A} t (es : list (pyval * A)) : mhas (VStr t) es = true <-> In (VStr t) (map fst es).
Proof.
  rewrite mhas_key. split.
  - intros (k & a & Hi & He). apply str_key_eq in He. subst k. apply in_map_iff. now exists (VStr t, a).
  - intros H. apply in_map_iff in H as ([k a] & E & Hi). cbn in E. subst k. exists (VStr t), a. split; auto. apply py_eq_refl.
Qed.

Lemma entry_keys i keys od cs q t d m m' c es skip strip : shaped top m -> ends_kid q -> schema_at top q = Some (SList i keys od cs) ->
  keys <> [] -> at_path m q = Some (OList c es) ->
  load_entry O uid top q t (load false skip strip cs (Some q) (q ++ [Ent (VStr t)]) (JObj d)) m = (m', Ok tt) ->
  exists c' es', at_path m' q = Some (OList c' es') /\ (forall k, In k (map fst es') <-> In k (map fst es) \/ k = VStr t).
Proof.
  intros Hs He Hsc Hk Hat H. unfold load_entry, entries in H. rewrite Hat in H. cbv iota in H.
  match type of H with andthen ?x _ = _ => set (r := x) in H end.
  assert (Hr : snd r = Ok tt -> shaped top (fst r) /\ exists c1 es1, at_path (fst r) q = Some (OList c1 es1) /\
              (forall k, In k (map fst es1) <-> In k (map fst es) \/ k = VStr t)).
  { unfold r. destruct (mhas (VStr t) es) eqn:Em.
    - intros _. split; [exact Hs|]. exists c, es. split; [exact Hat|]. apply mhas_str in Em. intros k. split; [auto|].
      intros [Hi| ->]; auto.
    - intros Hok. destruct (op_at O top Hcf m q (AList (uid es) (YAdd (VStr t))) _ _ Hs He Hsc Hat) as [Ho Hp].
      pose proof (op_upd O top Hcf m q (AList (uid es) (YAdd (VStr t))) Hs He) as Hu.
      split; [apply Hu|]. rewrite Ho in Hok. cbn [apply] in Hok, Hp. unfold put in Hp. cbn [apply] in Hp.
      destruct (list_op O keys cs (uid es) es (YAdd (VStr t))) as [[es1 ev] r1] eqn:El. cbn in Hok, Hp. subst r1.
      eexists _, es1. split; [exact Hp|]. unfold list_op, yl_op, yl_add in El. cbn [hashable negb] in El. rewrite Em in El.
      destruct keys as [|n ks]; [congruence|]. destruct (key_dict (n :: ks) (VStr t)) as [kd|]; [|discriminate].
      unfold store in El. destruct (mk_entry O cs kd) as [e1 [x|e2]]; [|discriminate El]. injection El as E1 E2. subst es1.
      rewrite mput_add by now apply mhas_not. intros k. rewrite map_app, in_app_iff. cbn. intuition. }
  clearbody r. destruct r as [m1 [[]|e]]; cbn [andthen] in H; [|discriminate]. destruct (Hr eq_refl) as (Hs1 & c1 & es1 & Hat1 & Hk1).
  cbn [fst snd] in *. unfold entries in H. rewrite Hat1 in H. cbv iota in H. destruct (mhas (VStr t) es1); [|discriminate].
  pose proof (stays_obj cs ltac:(apply Forall_forall; intros; apply all_stay) false skip strip (Some q) (q ++ [Ent (VStr t)]) d m1 Hs1) as Hu.
  rewrite H in Hu. cbn [fst] in Hu. destruct (upd_entry top q (VStr t) m1 m' c1 es1 Hu Hat1) as (c' & es' & Hat' & Hke & _).
  exists c', es'. split; auto. now rewrite Hke.
Qed.

Lemma each_ok_app {A} (f : A -> list obj -> step) l1 a l2 m m' : for_each f (l1 ++ a :: l2) m = (m', Ok tt) ->
  exists m1 m2, for_each f l1 m = (m1, Ok tt) /\ f a m1 = (m2, Ok tt) /\ for_each f l2 m2 = (m', Ok tt).
Proof.
  rewrite for_each_app. destruct (for_each f l1 m) as [m1 [[]|e]]; cbn [andthen]; [|discriminate]. cbn [for_each].
  destruct (f a m1) as [m2 [[]|e]] eqn:E; cbn [andthen]; [|discriminate]. intros H. exists m1, m2. auto.
Qed.

Lemma prune_keys i keys od cs q names : ends_kid q -> schema_at top q = Some (SList i keys od cs) ->
  forall ks2 ks1 m m' c es, shaped top m -> at_path m q = Some (OList c es) -> map fst es = ks1 ++ ks2 ->
  (forall k, In k ks1 -> exists t, k = VStr t /\ In t names) ->
  prune O top q names ks2 m = (m', Ok tt) ->
  exists c' es', at_path m' q = Some (OList c' es') /\
    (forall k, In k (map fst es') <-> In k (map fst es) /\ exists t, k = VStr t /\ In t names).
Proof.
  intros He Hsc. induction ks2 as [|k ks2 IH]; intros ks1 m m' c es Hs Hat Hks H1 H; cbn [prune] in H.
  - injection H as <-. exists c, es. split; auto. rewrite Hks, app_nil_r. intros k. split; [auto|tauto].
  - destruct (match k with VStr s => str_in s names | _ => false end) eqn:Ek.
    + apply (IH (ks1 ++ [k]) m m' c es); auto; [now rewrite <- app_assoc|]. intros k0 Hk0. apply in_app_iff in Hk0 as [Hk0|[<-|[]]]; auto.
      destruct k; try discriminate. exists s. split; auto. apply existsb_exists in Ek as (x & Hx & E). apply str_eqb_eq in E. now subst.
    + destruct (op_at O top Hcf m q (AList [] (YDelete k)) _ _ Hs He Hsc Hat) as [Ho Hp].
      destruct (run_op m q (AList [] (YDelete k))) as [m1 [[]|e]] eqn:Er; cbn [andthen] in H; [|discriminate].
      destruct ks2 as [|k2 ks2]; [|discriminate]. injection H as <-. cbn [fst snd] in *.
      unfold put in Hp. cbn [apply] in Ho, Hp. unfold list_op, yl_op, yl_delete in Ho, Hp.
      destruct (negb (hashable k)); [discriminate|]. destruct (mhas k es) eqn:Em; [|discriminate]. cbn in Hp.
      eexists _, _. split; [exact Hp|].
      assert (Hstale : forall t, k = VStr t -> ~ In t names).
      { intros t -> Hi. assert (str_in t names = true); [|congruence]. apply existsb_exists. exists t. split; auto. apply str_eqb_refl. }
      assert (Hdel : map fst (mdel k es) = ks1).
      { clear -Hks H1 Hstale. revert ks1 Hks H1. induction es as [|[k0 a0] es IH]; intros ks1 Hks H1; [destruct ks1; discriminate|].
        cbn [map fst] in Hks. cbn [mdel]. destruct ks1 as [|k1 ks1]; cbn [app] in Hks.
        - injection Hks as -> E. destruct es; [|discriminate]. now rewrite py_eq_refl.
        - injection Hks as -> Hks. destruct (H1 k1 (or_introl eq_refl)) as (t & -> & Ht).
          destruct (py_eq k (VStr t)) eqn:E; [exfalso; apply key_str_eq in E; now apply (Hstale t)|].
          cbn [map fst]. f_equal. apply IH; auto. intros k' Hk'. apply H1. now right. }
      rewrite Hdel, Hks. intros k0. rewrite in_app_iff. split; [auto|]. intros [[Hi|[<-|[]]] (t & -> & Ht)]; auto.
      exfalso. now apply (Hstale t).
Qed.

Lemma list_keys i keys od cs q ov skip ds m m' c es : shaped top m -> ends_kid q -> schema_at top q = Some (SList i keys od cs) ->
  keys <> [] -> Forall (fun e => exists ms, snd e = JObj ms) ds ->
  (od = true -> forall es1 e es2, ds = es1 ++ e :: es2 -> position (snd e) <> None ->
       Forall (fun e' => position (snd e') <> position (snd e)) es2) ->
  at_path m q = Some (OList c es) -> ov = true \/ es = [] ->
  load_kid ov skip (SList i keys od cs) q (JObj ds) m = (m', Ok tt) ->
  exists c' es', at_path m' q = Some (OList c' es') /\ (forall k, In k (map fst es') <-> exists t, k = VStr t /\ In t (map fst ds)).
Proof.
  intros Hs He Hsc Hk Hds Hpos Hat Hov H. cbn [Load_proofs.load_kid] in H.
  set (act := fun kj : str * json => load_entry O uid top q (fst kj)
                  (load false skip od cs (Some q) (q ++ [Ent (VStr (fst kj))]) (snd kj))) in H.
  change (map (fun kj => (order_of (snd kj), load_entry O uid top q (fst kj)
                  (load false skip od cs (Some q) (q ++ [Ent (VStr (fst kj))]) (snd kj)))) ds)
      with (map (fun kj => (order_of (snd kj), act kj)) ds) in H.
  destruct (if od then in_order _ [] [] else _) as [todo|e] eqn:E; [|discriminate].
  assert (Htodo : forall a, In a todo -> exists kj, In kj ds /\ a = act kj).
  { intros a Ha. assert (H0 : In a (map snd (map (fun kj => (order_of (snd kj), act kj)) ds))).
    { destruct od; [|injection E as <-; exact Ha]. destruct (in_todo _ _ _ _ a E Ha) as [H0|[[]|[]]]. exact H0. }
    rewrite map_map in H0. apply in_map_iff in H0 as (kj & <- & Hkj). now exists kj. }
  assert (Hall : forall kj, In kj ds -> In (act kj) todo).
  { intros kj Hi. destruct od.
    - apply in_split in Hi as (ds1 & ds2 & ->). rewrite map_app in E. cbn [map] in E. eapply in_order_keeps; [|exact E].
      intros z Hz. apply position_of in Hz. specialize (Hpos eq_refl ds1 kj ds2 eq_refl). rewrite Hz in Hpos.
      specialize (Hpos ltac:(discriminate)). apply Forall_map. eapply Forall_impl; [|exact Hpos]. cbn [fst]. intros e He' Hz'.
      apply position_of in Hz'. congruence.
    - injection E as <-. rewrite map_map. cbn [snd]. now apply in_map. }
  destruct (for_each (fun act m => act m) todo m) as [m1 [[]|e]] eqn:Ef; cbn [andthen] in H; [|discriminate].
  assert (G : forall l m m1 c es, (forall a, In a l -> exists kj, In kj ds /\ a = act kj) -> shaped top m -> at_path m q = Some (OList c es) ->
              for_each (fun act m => act m) l m = (m1, Ok tt) -> shaped top m1 /\ exists c1 es1, at_path m1 q = Some (OList c1 es1) /\
              (forall k, In k (map fst es) -> In k (map fst es1)) /\
              (forall k, In k (map fst es1) -> In k (map fst es) \/ exists t, k = VStr t /\ In t (map fst ds)) /\
              (forall kj, In (act kj) l -> In kj ds -> In (VStr (fst kj)) (map fst es1))).
  { clear -Hcf Hk Hsc He Hds. induction l as [|a l IH]; intros m m1 c es Hl Hs Hat H; cbn [for_each] in H.
    - injection H as <-. split; auto. exists c, es. repeat split; auto. intros kj [].
    - destruct (a m) as [m0 [[]|e]] eqn:Ea; cbn [andthen] in H; [|discriminate].
      destruct (Hl a (or_introl eq_refl)) as (kj & Hkj & Eact). pose proof Ea as Ea2. rewrite Eact in Ea. unfold act in Ea.
      rewrite Forall_forall in Hds. destruct (Hds kj Hkj) as (d & Ed).
      assert (Hs0 : shaped top m0).
      { assert (Hu : upd q m (fst (load_entry O uid top q (fst kj) (load false skip od cs (Some q) (q ++ [Ent (VStr (fst kj))]) (snd kj)) m))).
        { unfold load_entry. apply then_upd.
          - destruct (mhas _ _); [now apply upd_refl|now apply op_upd].
          - intros m2 Hs1. destruct (mhas _ _); [|now apply upd_refl]. apply stays_doc; auto. apply Forall_forall. intros; apply all_stay. }
        rewrite Ea in Hu. apply Hu. }
      rewrite Ed in Ea. destruct (entry_keys i keys od cs q (fst kj) d m m0 c es skip od Hs He Hsc Hk Hat Ea) as (c0 & es0 & Hat0 & Hk0).
      destruct (IH m0 m1 c0 es0 ltac:(intros b Hb; apply Hl; now right) Hs0 Hat0 H) as (Hs1 & c1 & es1 & Hat1 & Hm & Hle & Hge).
      split; auto. exists c1, es1. split; auto. repeat split.
      + intros k Hi. apply Hm, Hk0. now left.
      + intros k Hi. apply Hle in Hi as [Hi|Hi]; auto. apply Hk0 in Hi as [Hi| ->]; auto.
        right. exists (fst kj). split; auto. apply in_map. exact Hkj.
      + intros kj' [Hi|Hi] Hin; [|now apply Hge]. apply Hm. rewrite Hi in Ea2. unfold act in Ea2.
        destruct (Hds kj' Hin) as (d' & Ed').
        rewrite Ed' in Ea2.
        destruct (entry_keys i keys od cs q (fst kj') d' m m0 c es skip od Hs He Hsc Hk Hat Ea2) as (c2 & es2 & Hat2 & Hk2).
        rewrite Hat2 in Hat0. injection Hat0 as -> ->. apply Hk2. now right. }
  destruct (G todo m m1 c es Htodo Hs Hat Ef) as (Hs1 & c1 & es1 & Hat1 & Hm & Hle & Hge).
  assert (Hins : forall t, In t (map fst ds) -> In (VStr t) (map fst es1)).
  { intros t Ht. apply in_map_iff in Ht as (kj & <- & Hkj). apply Hge; auto. }
  assert (H2 : exists m2 c2 es2, shaped top m2 /\ (match ds with [] => run_op m2 q (ASet (Priv true) (AVal (VDict []))) | _ => (m2, Ok tt) end) = (m', Ok tt) /\
     at_path m2 q = Some (OList c2 es2) /\ (forall k, In k (map fst es2) <-> exists t, k = VStr t /\ In t (map fst ds))).
  { destruct ov.
    - unfold entries in H. rewrite Hat1 in H. destruct (prune O top q (map fst ds) (map fst es1) m1) as [m2 [[]|e]] eqn:Ep; cbn [andthen] in H; [|discriminate].
      destruct (prune_keys i keys od cs q (map fst ds) He Hsc (map fst es1) [] m1 m2 c1 es1 Hs1 Hat1 eq_refl ltac:(intros k []) Ep) as (c2 & es2 & Hat2 & Hk2).
      exists m2, c2, es2. split; [|split; [exact H|split; [exact Hat2|]]].
      + pose proof (prune_upd q (map fst ds) (map fst es1) He m1 Hs1) as Hu. rewrite Ep in Hu. apply Hu.
      + intros k. rewrite Hk2. split; [tauto|]. intros (t & -> & Ht). split; [auto|]. now exists t.
    - cbn [andthen] in H. exists m1, c1, es1. split; [exact Hs1|split; [exact H|split; [exact Hat1|]]]. destruct Hov as [Hov|Hov]; [discriminate|]. subst es.
      intros k. split; [|intros (t & -> & Ht); auto]. intros Hi. destruct (Hle k Hi) as [[]|Hd]. exact Hd. }
  destruct H2 as (m2 & c2 & es2 & Hs2 & Hlast & Hat2 & Hk2). destruct ds as [|kj ds].
  - destruct (op_at O top Hcf m2 q (ASet (Priv true) (AVal (VDict []))) _ _ Hs2 He Hsc Hat2) as [Ho Hp]. rewrite Hlast in Hp. cbn [fst] in Hp.
    unfold put in Hp. cbn [apply] in Hp. eexists _, _. split; [exact Hp|]. cbn. intros k. split; [intros []|intros (t & _ & [])].
  - injection Hlast as <-. now exists c2, es2.
Qed.

(* ------------------------------------------------------------------ lists below containers *)
Lemma conf_at r : kid_path r -> forall s x t, conf s x -> sub s r = Some t -> exists y, node x r = Some y /\ conf t y.
Proof.
  intros Hr. induction Hr as [|a r [n ->] Hr IH]; intros s x t Hc Hsub.
  - injection Hsub as <-. now exists x.
  - inversion Hc; subst; try discriminate. cbn in Hsub |- *. destruct (nth_error cs n) as [s'|] eqn:En; [|discriminate].
    destruct (Forall2_nth _ _ _ n s' H En) as (y & Ey & Hy). rewrite Ey. now apply (IH s').
Qed.
Lemma doc_path cs d r ds : list_doc cs d r ds -> kid_path r /\ forall i pr, exists i' keys od cs', sub (SCont i pr cs) r = Some (SList i' keys od cs').
Proof.
  intros H. induction H as [cs ms n k i keys od cs' es Hn Hin Hk He Hks Ho Hp|cs ms n k i pr cs' j p es Hn Hin Hk He Hld [IH1 IH2]].
  - split; [constructor; [now exists k|constructor]|]. intros i0 pr. cbn. rewrite Hk. now exists i, keys, od, cs'.
  - split; [constructor; [now exists k|assumption]|]. intros i0 pr0. cbn. rewrite Hk. apply IH2.
Qed.

Lemma at_app m p r : at_path m (p ++ r) = match at_path m p with Some y => node y r | None => None end.
Proof. apply node_app. Qed.

Lemma apart_more p q r : apart p q -> apart p (q ++ r).
Proof. revert q. induction p as [|a p IH]; intros [|b q]; cbn; try contradiction. intros [H|H]; auto. Qed.

Lemma others cs p k s ov skip l : nth_error cs k = Some s -> (forall kj, In kj l -> safe_name (fst kj) <> e_py (s_info s)) ->
  forall m m', shaped top m -> for_each (load_member ov skip false cs p) l m = (m', Ok tt) ->
  shaped top m' /\ forall r, at_path m' (p ++ Kid k :: r) = at_path m (p ++ Kid k :: r).
Proof.
  intros Hk. induction l as [|kj l IH]; intros Hl m m' Hs H; cbn [for_each] in H; [injection H as <-; auto|].
  destruct (load_member ov skip false cs p kj m) as [m1 [[]|e]] eqn:Ea; cbn [andthen] in H; [|discriminate].
  assert (Hc : shaped top m1 /\ forall r, at_path m1 (p ++ Kid k :: r) = at_path m (p ++ Kid k :: r)).
  2:{ destruct Hc as [Hs1 Hr1]. destruct (IH ltac:(intros x Hx; apply Hl; now right) m1 m' Hs1 H) as [Hs2 Hr2].
      split; [assumption|]. intros r. now rewrite Hr2. }
  unfold Load_proofs.load_member in Ea. cbn [andb] in Ea. pose proof (find_node (fst kj) cs) as Hf.
  destruct (find_kid (fst kj) cs) as [[k0 s0]|]; [|destruct skip; [injection Ea as <-; auto|discriminate]].
  destruct Hf as [Hnf Hnk]. assert (Hne : k0 <> k).
  { intros ->. unfold node_for in Hnf. apply find_some in Hnf as [_ Hnf]. apply str_eqb_eq in Hnf.
    rewrite Hk in Hnk. injection Hnk as <-. apply (Hl kj (or_introl eq_refl)). congruence. }
  pose proof (all_stay s0 ov skip (p ++ [Kid k0]) (snd kj) m Hs (ends_kid_app _ _)) as Hu. rewrite Ea in Hu. cbn [fst] in Hu.
  split; [apply Hu|]. intros r. apply (u_apart _ _ _ _ Hu).
  change (Kid k :: r) with ([Kid k] ++ r). rewrite app_assoc. now apply apart_more, apart_kids.
Qed.

Lemma unset_clear q i pr cs : schema_at top q = Some (SCont i pr cs) -> ends_kid q -> kid_path q -> forall m m', shaped top m ->
  unset_kids O top q (length cs) m = (m', Ok tt) -> shaped top m' /\
  forall k s, nth_error cs k = Some s -> at_path m' (q ++ [Kid k]) = Some (fresh O s).
Proof.
  intros Hsc He Hq m m' Hs H. unfold unset_kids in H.
  assert (G : forall l m m', shaped top m -> for_each (fun k m => run_op m (q ++ [Kid k]) AUnset) l m = (m', Ok tt) ->
    shaped top m' /\ forall k s, nth_error cs k = Some s -> (In k l \/ at_path m (q ++ [Kid k]) = Some (fresh O s)) ->
      at_path m' (q ++ [Kid k]) = Some (fresh O s)).
  { clear m m' Hs H. induction l as [|k l IH]; intros m m' Hs H; cbn [for_each] in H.
    - injection H as <-. split; auto. intros k s Hn [[]|H]; auto.
    - destruct (run_op m (q ++ [Kid k]) AUnset) as [m1 [[]|e]] eqn:E; cbn [andthen] in H; [|discriminate].
      pose proof (op_upd O top Hcf m (q ++ [Kid k]) AUnset Hs (ends_kid_app _ _)) as Hu. rewrite E in Hu. cbn [fst] in Hu.
      destruct (IH m1 m' (u_shape _ _ _ _ Hu) H) as [Hs' Hr]. split; auto. intros k' s Hn Hor. apply Hr; auto.
      destruct (Nat.eq_dec k k') as [<-|Hne].
      + right. assert (Hsk : schema_at top (q ++ [Kid k]) = Some s) by (rewrite (schema_kid top _ _ _ _ _ Hsc); exact Hn).
        assert (Hx : exists x, at_path m (q ++ [Kid k]) = Some x).
        { destruct (conf_at (q ++ [Kid k])) with (s := entry_schema top) (x := OCont false false m) (t := s) as (y & Hy & _); eauto.
          - apply Forall_app. split; auto. constructor; [now exists k|constructor].
          - now constructor. }
        destruct Hx as [x Hx]. destruct (op_at O top Hcf m (q ++ [Kid k]) AUnset s x Hs (ends_kid_app _ _) Hsk Hx) as [_ Hp].
        rewrite E in Hp. cbn [fst] in Hp. rewrite Hp. reflexivity.
      + destruct Hor as [[->|Hi]|Ha]; [congruence|auto|]. right. rewrite <- Ha. apply (u_apart _ _ _ _ Hu). now apply apart_kids. }
  destruct (G _ _ _ Hs H) as [Hs' Hr]. split; auto. intros k s Hn. apply Hr; auto. left. apply in_seq. split; [lia|].
  apply nth_error_Some. congruence.
Qed.

Lemma member_at cs p ip pr k s n j ms ov skip m m' : shaped top m -> schema_at top p = Some (SCont ip pr cs) ->
  nth_error cs k = Some s -> e_py (s_info s) = safe_name n -> NoDup (map (fun m => safe_name (fst m)) ms) -> In (n, j) ms ->
  for_each (load_member ov skip false cs p) ms m = (m', Ok tt) ->
  exists m1 m2, shaped top m1 /\ (forall r, at_path m1 (p ++ Kid k :: r) = at_path m (p ++ Kid k :: r)) /\
    load_kid ov skip s (p ++ [Kid k]) j m1 = (m2, Ok tt) /\ (forall r, at_path m' (p ++ Kid k :: r) = at_path m2 (p ++ Kid k :: r)).
Proof.
  intros Hs Hsc Hk Hpy Hn Hin H. apply in_split in Hin as (ms1 & ms2 & ->). apply each_ok_app in H as (m1 & m2 & H1 & H2 & H3).
  assert (Hdist : forall kj, In kj (ms1 ++ ms2) -> safe_name (fst kj) <> e_py (s_info s)).
  { rewrite map_app in Hn; cbn [map fst] in Hn; apply NoDup_remove_2 in Hn; rewrite <- map_app in Hn; intros kj Hkj E; apply Hn;
            rewrite <- Hpy, <- E; now apply (in_map (fun m => safe_name (fst m))). }
  destruct (others cs p k _ ov skip ms1 Hk ltac:(intros kj Hkj; apply Hdist, in_app_iff; now left) m m1 Hs H1) as [Hs1 Hr1].
  assert (Hfk : find_kid n cs = Some (k, s)).
  { destruct (Hnm p ip pr cs Hsc) as [Hd _]; unfold find_kid. rewrite <- Hpy, (kid_index_nth cs Hd k s Hk), Hk. reflexivity. }
  unfold Load_proofs.load_member in H2. cbn [andb fst snd] in H2. rewrite Hfk in H2.
  pose proof (all_stay s ov skip (p ++ [Kid k]) j m1 Hs1 (ends_kid_app _ _)) as Hu. rewrite H2 in Hu. cbn [fst] in Hu.
  destruct (others cs p k _ ov skip ms2 Hk ltac:(intros kj Hkj; apply Hdist, in_app_iff; now right) m2 m' (u_shape _ _ _ _ Hu) H3) as [Hs3 Hr3].
  exists m1, m2. auto.
Qed.

Lemma doc_keys cs d r ds : list_doc cs d r ds -> forall ov skip self p m m' ip pr c es, shaped top m -> kid_path p ->
  schema_at top p = Some (SCont ip pr cs) -> at_path m (p ++ r) = Some (OList c es) -> ov = true \/ es = [] ->
  load ov skip false cs self p d m = (m', Ok tt) ->
  exists c' es', at_path m' (p ++ r) = Some (OList c' es') /\ (forall k, In k (map fst es') <-> exists t, k = VStr t /\ In t (map fst ds)).
Proof.
  intros H. induction H as [cs ms n k i keys od cs' es0 Hn Hin Hk Hpy Hks Ho Hp|cs ms n k i prr cs' j r ds Hn Hin Hk Hpy Hld IH];
    intros ov skip self p m m' ip pr c es Hs Hkp Hsc Hat Hov H; rewrite load_obj in H;
    destruct (member_at cs p ip pr k _ n _ ms ov skip m m' Hs Hsc Hk Hpy Hn Hin H) as (m1 & m2 & Hs1 & Hr1 & H2 & Hr3);
    rewrite Hr3; rewrite <- Hr1 in Hat.
  - eapply list_keys; [exact Hs1|apply ends_kid_app| |exact Hks|exact Ho|exact Hp|exact Hat|exact Hov|exact H2].
    now rewrite (schema_kid top _ _ _ _ _ Hsc).
  - cbn [Load_proofs.load_kid] in H2. set (q := p ++ [Kid k]) in *.
    assert (Hq : forall a, at_path a (p ++ Kid k :: r) = at_path a (q ++ r)).
    { intros a. unfold q. now rewrite <- app_assoc. }
    rewrite Hq in *.
    assert (Hkq : kid_path q) by (apply Forall_app; split; auto; constructor; [now exists k|constructor]).
    assert (Hsq : schema_at top q = Some (SCont i prr cs')) by (unfold q; now rewrite (schema_kid top _ _ _ _ _ Hsc)).
    assert (Heq : ends_kid q) by apply ends_kid_app.
    assert (Ha : exists ma c1, shaped top ma /\ at_path ma (q ++ r) = Some (OList c1 es) /\
       andthen (if ov then unset_kids O top q (length cs') ma else (ma, Ok tt)) (fun m => load false skip false cs' (Some q) q j m) = (m2, Ok tt)).
    { destruct prr; [|exists m1, c; auto].
      destruct (run_op m1 q (APresent true)) as [ma [[]|e]] eqn:Ep; cbn [andthen] in H2; [|discriminate].
      pose proof (op_upd O top Hcf m1 q (APresent true) Hs1 Heq) as Hup. rewrite Ep in Hup. cbn [fst] in Hup.
      rewrite at_app in Hat. destruct (at_path m1 q) as [x|] eqn:Hx; [|discriminate].
      destruct (op_at O top Hcf m1 q (APresent true) _ x Hs1 Heq Hsq Hx) as [_ Hpt]. rewrite Ep in Hpt. cbn [fst] in Hpt.
      exists ma, c. split; [apply Hup|split; [|exact H2]]. rewrite at_app, Hpt.
      destruct (doc_path _ _ _ _ Hld) as [Hkr _].
      assert (Hx' : exists ch ps ks, x = OCont ch ps ks).
      { destruct (at_path_conf top m1 q x Hs1 Hx) as (s' & Hs' & Hc'). rewrite Hsq in Hs'. injection Hs' as <-.
        inversion Hc'; subst. eauto. }
      destruct Hx' as (ch & ps & ks & ->). unfold put. cbn.
      destruct r as [|[k'|k'] r]; [discriminate|exact Hat|discriminate]. }
    destruct Ha as (ma & c1 & Hsa & Hata & H4).
    assert (Hb : exists mb c2, shaped top mb /\ at_path mb (q ++ r) = Some (OList c2 []) /\
       load false skip false cs' (Some q) q j mb = (m2, Ok tt)).
    { destruct ov.
      - destruct (unset_kids O top q (length cs') ma) as [mb [[]|e]] eqn:Eu; cbn [andthen] in H4; [|discriminate].
        destruct (unset_clear q _ _ _ Hsq Heq Hkq ma mb Hsa Eu) as [Hsb Hfr]. exists mb.
        destruct (doc_path _ _ _ _ Hld) as [Hkr Hsub]. destruct (Hsub i prr) as (i' & keys & od & cs2 & Hsub').
        destruct r as [|a r]; [discriminate|]. inversion Hkr as [|? ? [k' ->] Hkr']; subst. cbn in Hsub'.
        destruct (nth_error cs' k') as [s'|] eqn:Hk'; [|discriminate].
        exists false. split; auto. split; auto.
        change (Kid k' :: r) with ([Kid k'] ++ r). rewrite app_assoc, at_app, (Hfr k' s' Hk').
        rewrite (fresh_node O r Hkr' s' _ Hsub'). reflexivity.
      - destruct Hov as [Hov|Hov]; [discriminate|]. subst es. exists ma, c1. auto. }
    destruct Hb as (mb & c2 & Hsb & Hatb & H5). eapply IH; eauto.
Qed.

Theorem overwrite_keys skip d p ds m m' : shaped top m -> list_doc top d p ds ->
  load_json O uid top true skip d m = (m', Ok tt) ->
  exists c es, at_path m' p = Some (OList c es) /\ (forall k, In k (map fst es) <-> exists t, k = VStr t /\ In t (map fst ds)).
Proof.
  intros Hs Hd H. destruct (doc_path _ _ _ _ Hd) as [Hp Hsub]. destruct (Hsub plain false) as (i & keys & od & cs & Hsc).
  destruct (conf_at p Hp (entry_schema top) (OCont false false m) (SList i keys od cs)) as (y & Hy & Hc); auto; [now constructor|].
  inversion Hc; subst. eapply (doc_keys top d p ds Hd true skip None [] m m' plain false); eauto; constructor.
Qed.
End W.
