(** Trees built by proper operations survive being written as XML and read. *)
From Verif Require Import PyStr PyStr_facts PyVal Restricted Spec_Types Spec_Lists IntTypes StrTypes MemberTypes Bits Bits_proofs
  Range_proofs Restricted_proofs StrTypes_proofs Scalars_proofs Types_main
  Member_proofs TypedList TypedList_proofs YList YList_proofs Tree Spec_Tree Tree_proofs Tree_main Serialise Spec_Serialise Serialise_proofs Load_proofs
  ValuesTypes_proofs Spec_Stored Stored_proofs Xml Spec_Xml XmlRound_proofs Spec_StoredXml.
From Verif Require Rival_proofs Tree_case.
From Coq Require Import Lia.
Import ListNotations.
Local Open Scope Z_scope.

Section T.
Context (O : oracle) (ft : str -> option pyval) (im ins : einfo -> str -> option str).
Notation xst := (xstorable O ft im ins).
Notation xpr := (xproper O ft im ins).

(* ------------------------------------------------------------------ values *)
Lemma own_xleaf i w yt a v x : xleaf_ok O im ins i w yt v -> own_text w a v -> d_out (leaf_assign O (ltype_of w) a) = Ok x -> x = v.
Proof.
  intros Hv Ha H. destruct w as [t|al| |ts]; cbn [xleaf_ok own_text ltype_of] in *.
  - subst a. destruct Hv as [Hwf [[Hval Hok] _]]. rewrite (assign_own O t v Hwf Hval) in H; [now injection H|].
    destruct t; try exact I. destruct v; try exact I. now destruct Hok.
  - destruct Hv as (l & -> & Hne & Hl & Hw & Hs & _). eapply (own_leaf O Ietf (WBits al) yt a (VBits l) x); [|exact Ha|exact H].
    exists l. auto.
  - subst a. destruct Hv as (s & -> & _). cbn in H. now injection H.
  - subst a. destruct Hv as (t & s & Hi & Hp & _ & Hwf & [Hval Hok] & _). unfold leaf_assign in H. cbn [dyn_ltype] in H. rewrite Hp in H.
    rewrite (dyn_leaf_call O (pty_of t) v v) in H; [now injection H|]. apply call_own; auto. destruct t; try exact I. destruct v; try exact I. now destruct Hok.
Qed.
Lemma xkey_nonempty t yt v p : type_name (WVal t) yt -> xkey_part O ft t v p -> yt <> lit "empty".
Proof.
  intros Hty (_ & Hp) ->. destruct Hty as [H|H]; [|apply H; cbn [known_names wide_names narrow_names map app In]; tauto].
  destruct t; try contradiction; cbn in H; repeat (destruct H as [H|H]; [vm_compute in H; discriminate|]); contradiction.
Qed.
Lemma xkey_is_ok t yt v p : type_name (WVal t) yt -> yt <> lit "identityref" -> xkey_part O ft t v p -> xkey_ok (WVal t) yt v.
Proof.
  intros Hn Hi Hp. pose proof (xkey_nonempty t yt v p Hn Hp) as He. exists t, p. split; [reflexivity|]. destruct Hp as [Hx Hp]. split; [|auto].
  destruct t; try contradiction; cbn [text_of].
  - destruct Hp as (z & -> & ->). reflexivity.
  - destruct Hp as (_ & -> & _). reflexivity.
  - destruct Hp as (-> & _). reflexivity.
  - destruct Hp as (-> & _). reflexivity.
Qed.
Lemma xmember_member t yt v : xmember_ok O ft t yt v -> member_ok O Ietf t yt v.
Proof. intros (Hv & Hi & _ & Hm). split; [exact Hv|]. destruct t; auto; contradiction. Qed.
Lemma same_xvalue t t' yt v : mtype_wf t -> mtype_wf t' -> pty_of t = pty_of t' -> xmember_ok O ft t' yt v -> xmember_ok O ft t yt v.
Proof.
  intros Hw Hw' E H. destruct (same_value O Ietf t t' yt v Hw Hw' E (xmember_member _ _ _ H)) as [Hv _]. assert (K := same_kind t t' Hw Hw' E).
  destruct H as (_ & Hi & Hx & Hm). split; [exact Hv|]. split; [exact Hi|]. split; [exact Hx|].
  destruct t, t'; try contradiction K; exact Hm.
Qed.
Lemma xgiven_members t yt a w : mtype_wf t -> xgiven_member O ft t yt a -> member_value O [pty_of t] a = Some w -> xmember_ok O ft t yt w.
Proof.
  intros Hw [Hs Hok] H. assert (Ew : w = a) by exact (spelled_canon O t a Hw Hs w H). subst w.
  apply Hok. cbn in H. destruct (member_try O (pty_of t) a) eqn:E; [|discriminate]. injection H as ->.
  eapply member_is_value; [exact Hw| |exact E].
  destruct t as [[|? [|]]|[|? [|]]| | | | |]; try exact I; destruct Hs as (? & ->); try exact I; discriminate.
Qed.

(* ------------------------------------------------------------------ fresh objects *)
Lemma fresh_xst s : suited s -> xst s (fresh O s).
Proof.
  induction s as [i lt d yt k|i ts yt|i pr cs HF|i ks od cs HF] using schema_ind'; intros H; inversion H; subst; cbn [fresh].
  - constructor. discriminate.
  - constructor; auto; try discriminate. intros n m x y Hx. now destruct n.
  - constructor.
    + clear H. match goal with [H : Forall suited _ |- _] => revert H end. induction HF; cbn; intros H'; inversion H'; subst; constructor; auto.
    + intros _. right. apply fresh_untoucheds.
  - constructor; auto. intros n m x y Hx. now destruct n.
Qed.
Lemma fresh_xsts cs : Forall suited cs -> Forall2 xst cs (map (fresh O) cs).
Proof. induction 1; constructor; auto using fresh_xst. Qed.
Lemma clear_xst cs kids ev : Forall suited cs -> Forall2 xst cs kids -> Forall2 xst cs (clear O cs kids ev).
Proof. intros Hs H. revert Hs. induction H; cbn; intros Hs; inversion Hs; subst; constructor; auto. destruct (other_case ev x); auto using fresh_xst. Qed.
Lemma clears_xst cs evs : Forall suited cs -> forall kids, Forall2 xst cs kids -> Forall2 xst cs (clears O cs kids evs).
Proof. intros Hs. unfold clears. induction evs; cbn; intros; auto using clear_xst. Qed.
Lemma absorb_xst live cs kids n e s : Forall suited cs ->
  Forall2 xst cs kids -> nth_error cs n = Some s -> (forall x, f_new e = Some x -> xst s x) ->
  Forall2 xst cs (absorb O live cs kids n e).
Proof.
  intros Hs H Hn Hf. rewrite absorb_eq.
  assert (St : forall ks evs, Forall2 xst cs ks -> Forall2 xst cs (stepc O live cs ks evs))
    by (intros; destruct live; cbn; auto using clears_xst).
  apply St. destruct (f_new e); [|auto]. eapply Forall2_set_nth; eauto.
Qed.

(* ------------------------------------------------------------------ key leaves stay *)
Lemma xproper_values s o : xpr s o -> on_values o.
Proof. intros H. now inversion H. Qed.
Lemma exec_xkey tg live cs kids p o j i lt d yt v : nth_error cs j = Some (SLeaf i lt d yt true) ->
  e_choice i = None \/ e_choice i = tg -> (tg <> None -> one_tag tg cs) ->
  length kids = length cs ->
  nth_error kids j = Some v -> (forall s, schema_at cs p = Some s -> xpr s o) ->
  nth_error (fst (fst (exec O live cs kids p o))) j = Some v.
Proof.
  intros Hj Hc Htg Hlen Hv Hp. destruct p as [|[n|k0] p]; [exact Hv| |exact Hv].
  destruct (nth_error cs n) as [s|] eqn:En; [|cbn; rewrite En; exact Hv].
  destruct (nth_error kids n) as [x|] eqn:Ex; [|cbn; rewrite En, Ex; exact Hv].
  rewrite (exec_kid O live cs kids n p o s x En Ex). cbn [fst].
  destruct (Nat.eq_dec n j) as [->|Hn].
  - assert (s = SLeaf i lt d yt true) by congruence. subst s. assert (x = v) by congruence. subst x.
    assert (Hd : f_new (down O (SLeaf i lt d yt true) v p o) = None /\ f_pre (down O (SLeaf i lt d yt true) v p o) = [] /\ f_post (down O (SLeaf i lt d yt true) v p o) = []).
    { destruct p as [|[m|k1] p]; cbn [down]; [|now auto|now auto].
      assert (Hpr : xpr (SLeaf i lt d yt true) o) by (apply Hp; cbn; now rewrite En).
      assert (Ha : forall w a, w <> Priv true -> let e := assign O (SLeaf i lt d yt true) w a in f_new e = None /\ f_pre e = [] /\ f_post e = []).
      { intros w a Hw. destruct w as [|[|]]; [|congruence|]; cbn; [destruct (e_rw i); cbn; auto|auto]. }
      inversion Hpr; subst; cbn [apply].
      - apply Ha. auto.
      - discriminate. }
    destruct Hd as (D1 & D2 & D3). rewrite absorb_eq, D1, D2, D3, !stepc_nil. exact Hv.
  - rewrite (absorb_other O live cs kids n j _ _ _ Hn Hj Hv). destruct live; [|reflexivity].
    destruct (hit (f_pre (down O s x p o) ++ f_post (down O s x p o)) (SLeaf i lt d yt true)) eqn:Eh; [|reflexivity].
    destruct (hit_ex _ _ Eh) as (c & k1 & k2 & Hin & Ht & Hne). unfold s_tag in Ht. cbn [s_info] in Ht.
    rewrite Ht in Hc. destruct Hc as [Hc|Hc]; [discriminate|]. assert (Ho : one_tag tg cs) by (apply Htg; congruence).
    destruct (exec_tags O tg _ (Kid n :: p) true cs kids o (Some (c, k1)) (le_n _) Ho (fun t Ht => xproper_values t o (Hp t Ht))) as [X|X]; [|discriminate|congruence].
    rewrite (exec_kid O true cs kids n p o s x En Ex). exact Hin.
Qed.

(* ------------------------------------------------------------------ new entries *)
Definition xkey_is (cs : list schema) (n p : str) : Prop :=
  key_arg O Ietf cs n (VStr p) (fun t yt v => yt <> lit "identityref" /\ xkey_part O ft t v p).
Lemma fill_xspec tg cs K : NoDup (map (fun s => e_py (s_info s)) cs) ->
  (forall s, In s cs -> In (e_py (s_info s)) K -> s_tag s = None \/ s_tag s = tg) ->
  forall keys parts kids k e, incl keys K -> NoDup keys -> Forall2 (xkey_is cs) keys parts ->
  Forall2 xst cs kids -> kept_apart O tg cs kids ->
  fill_keys O cs kids (combine keys (map VStr parts)) = (k, e, Ok tt) ->
  Forall2 xst cs k /\
  (forall j s, nth_error cs j = Some s -> ~ In (e_py (s_info s)) keys -> nth_error k j = nth_error kids j) /\
  Forall2 (fun n p => exists t yt v, key_leaf O Ietf cs k n t yt v /\ type_name (WVal t) yt /\ yt <> lit "identityref" /\ xkey_part O ft t v p) keys parts.
Proof.
  intros Hnd Htag. induction keys as [|n keys IH]; intros parts kids k e HK Hk HF Hst Hun H; inversion HF as [|? p ? parts' Ha HF']; subst; cbn [map combine fill_keys] in H.
  { injection H as <- _. auto. }
  destruct Ha as (j & i & t & d & yt & v & Hj & Hi & Hg & Hid & HR). inversion Hk as [|? ? Hni Hk']; subst.
  assert (Hx := kid_index_nth cs Hnd j _ Hj). cbn [s_info] in Hx. rewrite Hx, Hj in H. cbn [set_any] in H.
  assert (Hc : e_choice i = None \/ e_choice i = tg) by (apply (Htag _ (nth_error_In _ _ Hj)), HK; now left).
  rewrite (set_key_leaf O tg cs kids j i _ d yt true (VStr p) Hj Hc Hun) in H. unfold set_leaf in H.
  destruct (d_out (leaf_assign O (LOne (pty_of t)) (VStr p))) as [w|ex] eqn:Ew; cbn [bind setter f_out f_pre f_post] in H; [|discriminate].
  destruct (given_leaf O Ietf t yt (VStr p) v w Hg Ew) as [-> Hv].
  destruct (fill_keys O cs (set_nth j (OLeaf true v) kids) (combine keys (map VStr parts'))) as [[k1 e1] r1] eqn:E1. injection H as <- _ ->.
  assert (Hst1 : Forall2 xst cs (set_nth j (OLeaf true v) kids)).
  { eapply Forall2_set_nth; eauto. refine (XsLeaf O ft im ins i (WVal t) d yt true true v _). intros _. split; [apply Hg|]. eapply xkey_is_ok; eauto. apply Hg. }
  assert (Hlj : (j < length kids)%nat).
  { rewrite <- (Forall2_len _ _ _ Hst). apply nth_error_Some. congruence. }
  destruct (IH parts' (set_nth j (OLeaf true v) kids) k1 e1 (fun y Hy => HK y (or_intror Hy)) Hk' HF' Hst1 (kept_set O tg cs kids j _ _ Hun Hj (own_case tg (SLeaf i _ d yt true) Hc)) E1) as (A & B & C). split; [exact A|]. split.
  - intros m s Hm Hn. rewrite (B m s Hm) by (intros X; apply Hn; now right). apply set_nth_other. intros <-. apply Hn. left.
    rewrite Hj in Hm. injection Hm as <-. reflexivity.
  - constructor; [|exact C]. exists t, yt, v. split; [|split; [apply Hg|split; [exact Hid|exact HR]]]. exists j, i, d, true. split; [exact Hj|]. split; [reflexivity|].
    split; [|split; [apply Hg|exact Hv]]. rewrite (B j _ Hj) by (exact Hni). now apply set_nth_same.
Qed.

Definition xentry_ok (keys : list str) (cs : list schema) (e : pyval * obj) : Prop :=
  exists c ps kids, snd e = OCont c ps kids /\ Forall2 xst cs kids /\ xml_key O ft keys cs kids (fst e).
Lemma xtexts_entry keys cs parts ev x : list_ready keys cs -> xkey_texts O ft keys cs parts ->
  mk_entry O cs (combine keys (map VStr parts)) = (ev, Ok x) -> xentry_ok keys cs (VStr (join [32%N] parts), x).
Proof.
  intros (H1 & H2 & [tg H3] & H4) Ht H. unfold mk_entry in H.
  destruct (fill_keys O cs (map (fresh O) cs) (combine keys (map VStr parts))) as [[k e] r] eqn:E. destruct r as [[]|]; cbn [bind] in H; [|discriminate].
  injection H as _ <-. do 3 eexists. split; [reflexivity|].
  destruct (fill_xspec tg cs keys H1 H3 keys parts _ k e (incl_refl _) H2 Ht (fresh_xsts cs H4) (kept_fresh O tg cs) E) as (A & _ & B). split; [exact A|]. exists parts. split; [reflexivity|exact B].
Qed.
Lemma xtexts_dict keys cs parts kd : keys <> [] -> match parts with [_] => True | _ => Forall no_space parts end ->
  xkey_texts O ft keys cs parts -> key_dict keys (VStr (join [32%N] parts)) = Ok kd ->
  kd = combine keys (map VStr parts).
Proof.
  intros Hk Hsp Ht H. assert (Hl := Forall2_len _ _ _ Ht). destruct keys as [|n [|n' keys]]; [congruence| |].
  - destruct parts as [|p [|]]; try discriminate. unfold key_dict in H. cbn [join] in H. destruct p; [discriminate|]. now injection H as <-.
  - assert (Hsp' : Forall no_space parts) by (destruct parts as [|p [|]]; try discriminate; exact Hsp).
    cbn [key_dict] in H. rewrite split_join in H.
    + rewrite <- Hl, Nat.eqb_refl in H. now injection H as <-.
    + intros ->. discriminate.
    + exact Hsp'.
Qed.

Lemma xlist_storable keys cs uid es yo i od : list_ready keys cs -> keys <> [] -> xpr (SList i keys od cs) (AList uid yo) ->
  Forall (xentry_ok keys cs) es -> all_distinct (map fst es) ->
  Forall (xentry_ok keys cs) (fst (fst (list_op O keys cs uid es yo))) /\ all_distinct (map fst (fst (fst (list_op O keys cs uid es yo)))).
Proof.
  intros HL Hk Hp He Hd. split.
  2: { apply all_distinct_iff. apply all_distinct_iff in Hd. destruct (list_op O keys cs uid es yo) as [[es' ev] r] eqn:E.
       unfold list_op in E. cbn [fst]. eapply effect_kdist; [eapply op_effect; exact E|exact Hd]. }
  assert (Hstore : forall k kd, (forall ev x, mk_entry O cs kd = (ev, Ok x) -> xentry_ok keys cs (k, x)) -> ~ has_key es k ->
     Forall (xentry_ok keys cs) (fst (fst (store k es (mk_entry O cs kd))))).
  { intros k kd Hm Hn. destruct (mk_entry O cs kd) as [ev [x|e]] eqn:E; cbn; [|exact He]. rewrite mput_add by exact Hn.
    apply Forall_app. split; [exact He|]. constructor; [|constructor]. eapply Hm; reflexivity. }
  assert (Hdel : forall k, Forall (xentry_ok keys cs) (fst (fst (yl_delete (E:=event) es k)))).
  { intros k. unfold yl_delete. destruct (negb _); [exact He|]. destruct (mhas k es) eqn:Eh; [|exact He]. cbn [fst].
    destruct (mdel_remove es k) as [l1 k' a' l2 _]; [now apply mhas_key|].
    apply Forall_app in He as [He1 He2]. inversion He2; subst. apply Forall_app. auto. }
  unfold list_op. inversion Hp as [| | | | | | | |? ? ? ? ? parts Hsp Ht|? ? ? ? ? kw parts Hkw Ht|? ? ? ? ? k|? ? ? ? ? kw]; subst; cbn [yl_op].
  - unfold yl_add. cbn [hashable negb]. destruct (mhas (VStr (join [32%N] parts)) es) eqn:Eh; [exact He|]. apply mhas_not in Eh.
    destruct keys as [|n0 ks] eqn:Ek; [congruence|]. rewrite <- Ek in *.
    destruct (key_dict keys (VStr (join [32%N] parts))) as [kd|ex] eqn:Ed; [|exact He].
    apply Hstore; [|exact Eh]. intros ev x Hm. rewrite (xtexts_dict keys cs parts kd Hk Hsp Ht Ed) in Hm. eapply xtexts_entry; eauto.
  - destruct kw as [|nv kw].
    { destruct keys; [congruence|]. inversion Hkw as [|? ? ? ? X]; subst. discriminate X. }
    unfold yl_add_kw. rewrite (kw_texts _ _ _ Hkw).
    rewrite (key_text_combine O keys parts (Forall2_len _ _ _ Hkw)).
    destruct keys as [|n0 ks] eqn:Ek; [congruence|]. rewrite <- Ek in *.
    destruct (mhas (VStr (join [32%N] parts)) es) eqn:Eh; [exact He|]. apply mhas_not in Eh.
    apply Hstore; [|exact Eh]. intros ev x Hm. eapply xtexts_entry; eauto.
  - apply Hdel.
  - destruct kw as [|nv kw]; [apply Hdel|]. destruct keys as [|n0 ks] eqn:Ek; [congruence|].
    destruct (kw_keys (n0 :: ks) (nv :: kw)); [apply Hdel|exact He].
Qed.

Lemma apply_xst s x o y : suited s -> (forall i keys od cs, s = SList i keys od cs -> list_ready keys cs) ->
  xst s x -> xpr s o -> f_new (apply O s x o) = Some y -> xst s y.
Proof.
  intros Hs HL Hx Hp Hy.
  assert (Op : forall i keys od cs uid yo, s = SList i keys od cs -> o = AList uid yo -> xst (SList i keys od cs) y).
  { intros i keys od cs uid yo -> ->. inversion Hx as [| | |? ? ? ? ch es Hk Hd He]; subst. cbn [apply] in Hy.
    destruct (xlist_storable keys cs uid es yo i od (HL _ _ _ _ eq_refl) Hk Hp He Hd) as [A B].
    destruct (list_op O keys cs uid es yo) as [[es' evs] r]. injection Hy as <-. constructor; auto. }
  inversion Hp; subst; cbn [apply] in Hy.
  - apply assign_new in Hy. cbn [set_any] in Hy. apply setter_new in Hy.
    destruct (d_out (leaf_assign O (LOne (pty_of t)) a)) as [w'|] eqn:E; cbn in Hy; [injection Hy as <-|discriminate].
    destruct H as (A & B & C & D & F). destruct (meant_leaf O t a v w' A B D E) as [-> Hv]. refine (XsLeaf O ft im ins i (WVal t) d yt false true v _). intros _. split; [exact C|auto].
  - apply assign_new in Hy. cbn [set_any] in Hy. apply setter_new in Hy.
    destruct (d_out (leaf_assign O (ltype_of t) a)) as [w'|] eqn:E; cbn in Hy; [injection Hy as <-|discriminate].
    rewrite (own_xleaf i t yt a v w' H0 H1 E). constructor. auto.
  - exfalso. destruct w as [|[|]]; [|congruence|]; cbn in Hy; try discriminate. destruct (e_rw i); discriminate.
  - injection Hy as <-. now apply fresh_xst.
  - apply assign_new in Hy. cbn [set_any] in Hy. unfold set_leaf_list in Hy. apply setter_new in Hy.
    destruct (tl_init O [pty_of t] true a) as [l|] eqn:E; cbn [bind] in Hy; [injection Hy as <-|discriminate].
    apply (XsLeafList O ft im ins i t yt); auto; try discriminate.
    2: { apply (unique_init O t a l); auto. eapply Forall_impl; [|eassumption]. intros v Hv. apply Hv. }
    assert (P : forall v w, xgiven_member O ft t yt v -> member_value O [pty_of t] v = Some w -> xmember_ok O ft t yt w) by (intros; eapply xgiven_members; eauto).
    assert (One : forall a, xgiven_member O ft t yt a -> (w <- tl_check O [pty_of t] true [] a ;; Ok [w]) = Ok l -> Forall (xmember_ok O ft t yt) l).
    { intros b Hb Eb. destruct (tl_check O [pty_of t] true [] b) as [w'|] eqn:Ew; cbn in Eb; [|discriminate]. injection Eb as <-.
      constructor; [|constructor]. eapply (check_safe O [pty_of t] true _ _ P); eauto. }
    destruct a; cbn [tl_init] in E; try (eapply One; [|exact E]; now inversion H1).
    eapply (build_safe O [pty_of t] true _ _ P); [exact H1|constructor|exact E].
  - inversion Hx; subst. destruct (tl_op O [pty_of t] true l lo) as [l' r] eqn:E. injection Hy as <-.
    assert (El : l' = fst (tl_op O [pty_of t] true l lo)) by now rewrite E.
    subst l'.
    match goal with [Ht : pty_of ?t0 = pty_of t |- _] => rewrite ?Ht end. apply (XsLeafList O ft im ins i t yt); auto.
    + apply (op_safe O [pty_of t] true (xmember_ok O ft t yt) (xgiven_member O ft t yt)); [intros; eapply xgiven_members; eauto|assumption|].
      match goal with [Ht : pty_of ?t0 = pty_of t, Hm : Forall (xmember_ok O ft ?t0 yt) l |- _] =>
        eapply Forall_impl; [|exact Hm]; intros v; apply same_xvalue; auto end.
    + change (fst (tl_op O [pty_of t] true l lo)) with (tl_run O [pty_of t] true l [lo]). apply unique_spelled; auto.
      constructor; [|constructor]. eapply Forall_impl; [|eassumption]. intros v Hv. apply Hv.
    + intros Hch. apply orb_false_elim in Hch as [-> Hn].
      match goal with [Hl : false = false -> l = [] |- _] => rewrite (Hl eq_refl) end. now apply tl_op_nil.
  - inversion Hx; subst. injection Hy as <-. constructor; auto.
  - apply assign_new in Hy. cbn [set_any] in Hy. apply setter_new in Hy. injection Hy as <-. inversion Hs; subst. constructor; auto using all_distinct_nil.
  - now eapply Op.
  - now eapply Op.
  - now eapply Op.
  - now eapply Op.
Qed.

Lemma xkey_same keys cs kids kids' k : (forall n j i lt d yt k, In n keys -> nth_error cs j = Some (SLeaf i lt d yt k) -> e_py i = n ->
    forall x, nth_error kids j = Some x -> nth_error kids' j = Some x) ->
  xml_key O ft keys cs kids k -> xml_key O ft keys cs kids' k.
Proof.
  intros H. assert (F2 : forall (R R' : str -> str -> Prop) parts, (forall n p, In n keys -> R n p -> R' n p) -> Forall2 R keys parts -> Forall2 R' keys parts).
  { clear. intros R R' parts HR HF. induction HF as [|n p keys parts Hr _ IH]; constructor; [apply HR; [now left|exact Hr]|]. apply IH. intros. apply HR; [now right|assumption]. }
  intros (parts & A & C). exists parts. split; [exact A|]. eapply F2; [|exact C].
  intros n p Hn (t & yt & v & D & E). exists t, yt, v. split; [|exact E]. eapply key_leaf_same; [|exact D]. intros; eapply H; eauto.
Qed.

Lemma exec_xst N : forall p live cs kids o, (length p <= N)%nat -> Forall suited cs -> lists_ok cs -> Forall2 xst cs kids ->
  (forall s, schema_at cs p = Some s -> xpr s o) -> Forall2 xst cs (fst (fst (exec O live cs kids p o))).
Proof.
  induction N as [|N IH]; intros p live cs kids o Hl Hs HL Hst Hp; (destruct p as [|[n|v] p]; [exact Hst| |exact Hst]); [cbn in Hl; lia|].
  destruct (nth_error cs n) as [s|] eqn:En; [|cbn; rewrite En; exact Hst].
  destruct (Forall2_nth _ _ _ _ _ Hst En) as (x & Ex & Hx).
  rewrite (exec_kid O live cs kids n p o s x En Ex). cbn [fst].
  assert (Hss : suited s) by (rewrite Forall_forall in Hs; eapply Hs, nth_error_In; eauto).
  eapply absorb_xst; eauto. intros y Hy.
  destruct p as [|[m|v] p]; cbn [down] in Hy.
  - eapply apply_xst; eauto.
    + intros i keys od cs' ->. assert (A : schema_at cs [Kid n] = Some (SList i keys od cs')) by (cbn; now rewrite En).
      destruct (HL _ _ _ _ _ A) as [B (tg & C & _)]. inversion Hss; subst. split; [auto|]. split; [auto|]. split; [now exists tg|auto].
    + apply Hp. cbn. now rewrite En.
  - destruct s as [| |i pr cs'|]; try discriminate. inversion Hx; subst.
    destruct (exec O true cs' kids0 (Kid m :: p) o) as [[k' e'] r'] eqn:Ee. cbn [f_new] in Hy. injection Hy as <-.
    inversion Hss; subst. constructor.
    + specialize (IH (Kid m :: p) true cs' kids0 o). rewrite Ee in IH. apply IH; auto.
      * cbn in Hl |- *. lia.
      * eapply lists_cont; eauto.
      * intros s Hm. apply Hp. cbn. rewrite En. exact Hm.
    + intros Hpr. match goal with [H : pr = true -> pres = true \/ _ |- _] => destruct (H Hpr) as [->|Hu] end.
      { left. destruct e'; reflexivity. }
      destruct e' as [|ev e']; [|left; cbn; rewrite Hpr; apply orb_true_r].
      right. eapply (exec_quiet O (length (Kid m :: p))); [| | |exact Ee]; auto.
  - destruct s as [| | |i keys od cs']; try discriminate. inversion Hx as [| | |? ? ? ? ch es Hk Hd He]; subst.
    destruct (mget v es) as [e|] eqn:Ev; [|discriminate]. destruct e as [| |ech epres ekids|]; try discriminate.
    destruct (exec O true cs' ekids p o) as [[k' e'] r'] eqn:Ee. cbn [f_new] in Hy. injection Hy as <-.
    inversion Hss; subst.
    assert (HL' : lists_ok cs') by (eapply lists_entry; eauto).
    destruct (mget_split _ _ _ Ev) as (l1 & k1 & l2 & El & Ek).
    assert (Hput : map fst (mput v (OCont (mark e' ech) epres k') es) = map fst es) by (eapply mput_keys; eauto).
    constructor; auto; [now rewrite Hput|].
    assert (Hpp : forall s, schema_at cs' p = Some s -> xpr s o).
    { intros s Hm. apply Hp. cbn. rewrite En. exact Hm. }
    assert (Hmp : forall k0, xentry_ok keys cs' (k0, OCont ech epres ekids) -> xentry_ok keys cs' (k0, OCont (mark e' ech) epres k')).
    { intros k0 (c & ps & ks & E1 & E2 & E3). cbn [snd fst] in *. injection E1 as <- <- <-. exists (mark e' ech), epres, k'. split; [reflexivity|].
      assert (Hk' : k' = fst (fst (exec O true cs' ekids p o))) by now rewrite Ee.
      split.
      - rewrite Hk'. apply IH; auto. cbn in Hl. lia.
      - eapply xkey_same; [|exact E3]. intros nm j i' lt d yt k2 Hn Hj Hi y Hy. rewrite Hk'.
        assert (HLn : schema_at cs [Kid n] = Some (SList i keys od cs')) by (cbn; now rewrite En).
        assert (Hkey : k2 = true).
        { match goal with [H : forall s, In s cs' -> In (e_py (s_info s)) keys -> is_key s = true |- _] =>
            apply (H (SLeaf i' lt d yt k2)) end; [eapply nth_error_In; eauto|]. cbn. now subst nm. }
        subst k2. destruct (HL _ _ _ _ _ HLn) as [_ (tg & Ht & Hto)]. apply (exec_xkey tg true cs' ekids p o j i' lt d yt); auto.
        + apply (Ht (SLeaf i' lt d yt true)); [eapply nth_error_In; eauto|]. cbn. now subst nm.
        + symmetry. exact (Forall2_len _ _ _ E2). }
    clear - He Ev Hmp. revert Ev. change (Forall (xentry_ok keys cs') es) in He.
    induction es as [|[k1 a1] es IH]; cbn [mget mput]; [discriminate|]. inversion He; subst. destruct (py_eq v k1).
    + intros E. injection E as ->. constructor; [|assumption]. now apply Hmp.
    + intros E. constructor; auto.
Qed.

Lemma xprogram_storable cs os : Forall suited cs -> lists_ok cs -> xprogram O ft im ins cs os ->
  Forall2 xst cs (module_run O cs (module_new O cs) os).
Proof.
  intros Hs HL Hp. assert (H : Forall2 xst cs (module_new O cs)) by now apply fresh_xsts.
  revert H. generalize (module_new O cs). induction Hp as [|[p o] os Hpo _ IH]; intros kids H; [exact H|]. cbn [module_run]. apply IH.
  unfold module_exec. assert (Hpo' : forall s, schema_at cs p = Some s -> xpr s o).
  { intros s Es. destruct Hpo as (s' & Es' & Hp'). cbn [fst snd] in *. now replace s with s' by congruence. }
  assert (E := exec_xst (length p) p false cs kids o (le_n _) Hs HL H Hpo').
  destruct (exec O false cs kids p o) as [[k e] r]. exact E.
Qed.
Lemma xst_conf s : forall x, xst s x -> conf s x.
Proof.
  induction s as [i lt d yt k|i ts yt|i pr cs IH|i keys od cs IH] using schema_ind'; intros x H; inversion H; subst; constructor.
  - match goal with H : Forall2 xst _ _ |- _ => rename H into Hk end. clear -IH Hk.
    revert IH; induction Hk as [|a b la lb Hab Hl IHl]; intros IH; constructor; inversion IH; subst; auto.
  - match goal with H : Forall (fun e => exists c ps kids, _) _ |- _ => rename H into Hf end.
    eapply Forall_impl; [|exact Hf]. intros e (c & ps & kids & -> & Hk & _). constructor.
    clear - IH Hk. revert IH. induction Hk as [|a b la lb Hab Hl IHl]; intros IH; constructor; inversion IH; subst; auto.
Qed.
Lemma xsts_shaped cs kids : Forall2 xst cs kids -> shaped cs kids.
Proof. intros H. unfold shaped. induction H; constructor; eauto using xst_conf. Qed.
Lemma xprogram_case cs os : Forall suited cs -> xprogram O ft im ins cs os -> Forall (fun po => case_op cs (fst po) (snd po)) os.
Proof.
  intros Hs. apply Forall_impl. intros [p o] (s & Es & Hp). cbn [fst snd] in *.
  assert (Hss : suited s) by (eapply (suited_at p (entry_schema cs)); [now constructor|exact Es]).
  inversion Hp; subst; (split; [exact I|]); try exact I; intros i' keys' od' cs' E; rewrite Es in E; injection E as <- <- <- <-; now inversion Hss.
Qed.
Theorem xml_programs uid ns name cs os : Forall suited cs -> leaf_keys cs -> uniform cs -> own_choices cs -> python_names cs -> key_leaves cs ->
  xprogram O ft im ins cs os ->
  exists e m', encode O im ins true ns name cs (module_run O cs (module_new O cs) os) = Ok e /\ decode O ft uid cs e = (m', Ok tt) /\
    get_kids true cs m' = get_kids true cs (module_run O cs (module_new O cs) os).
Proof.
  intros Hs Hlk Hu Ho Hn Hkl Hp. assert (Hk := leaf_plain cs Hlk). assert (Hst := xprogram_storable cs os Hs (names_lists cs Hk Hu Hn) Hp).
  apply xml_round_trip; auto. apply Rival_proofs.one_case_unrivalled; auto; [exact (xsts_shaped cs _ Hst)|].
  apply Tree_case.one_case_past; auto. eapply xprogram_case; eauto.
Qed.
End T.
