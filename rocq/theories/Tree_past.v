(** Flags and histories, with choices and list entries. *)
From Verif Require Import PyStr PyStr_facts PyVal Restricted Spec_Lists TypedList TypedList_proofs YList YList_proofs
  Tree Spec_Tree Tree_proofs Tree_frame Tree_main Tree_hist Tree_tell.
From Coq Require Import Lia.
Import ListNotations.

(* ------------------------------------------------------------------ one entry per key *)
Inductive tidy : obj -> Prop :=
| TidyLeaf ch v : tidy (OLeaf ch v)
| TidyLeafList ch l : tidy (OLeafList ch l)
| TidyCont ch pres kids : Forall tidy kids -> tidy (OCont ch pres kids)
| TidyList ch es : kdist es -> Forall (fun e => tidy (snd e)) es -> tidy (OList ch es).

Lemma mdel_other {A} k k1 (es : list (pyval * A)) : py_eq k1 k = false -> mget k1 (mdel k es) = mget k1 es.
Proof.
  intros H. induction es as [|[k' a'] es IH]; cbn; auto. destruct (py_eq k k') eqn:E; cbn.
  - destruct (py_eq k1 k') eqn:E1; auto. rewrite py_eq_sym in E. rewrite (py_eq_trans _ _ _ E1 E) in H. discriminate.
  - destruct (py_eq k1 k'); auto.
Qed.
Lemma mdel_gone {A} k k1 (es : list (pyval * A)) : kdist es -> mhas k es = true -> py_eq k1 k = true -> mget k1 (mdel k es) = None.
Proof.
  intros Hd Hh He. rewrite (mget_eq k k1) by auto. apply mget_none. apply mhas_key in Hh.
  eapply removed_gone; [exact Hd|]. now apply mdel_remove.
Qed.

Section T.
Context (O : oracle).

Lemma tidy_fresh s : tidy (fresh O s).
Proof.
  induction s as [i lt d yt k|i ts yt|i pr cs IH|i keys od cs IH] using schema_ind'; cbn [fresh]; constructor; try constructor.
  induction IH; cbn; constructor; auto.
Qed.
Lemma tidy_clear cs : forall kids ev, Forall tidy kids -> Forall tidy (clear O cs kids ev).
Proof.
  induction cs as [|s cs IH]; intros [|x kids] ev H; cbn; auto. inversion H; subst. constructor; auto.
  destruct (other_case ev s); auto using tidy_fresh.
Qed.
Lemma tidy_clears cs evs : forall kids, Forall tidy kids -> Forall tidy (clears O cs kids evs).
Proof. unfold clears. induction evs; cbn; intros; auto using tidy_clear. Qed.
Lemma tidy_set_nth n x : forall kids, tidy x -> Forall tidy kids -> Forall tidy (set_nth n x kids).
Proof. induction n; intros [|y kids] Hx H; cbn; auto; inversion H; subst; constructor; auto. Qed.
Lemma tidy_absorb live cs kids n f : Forall tidy kids -> (forall y, f_new f = Some y -> tidy y) ->
  Forall tidy (absorb O live cs kids n f).
Proof.
  intros H Hf. unfold absorb. assert (A : forall evs k, Forall tidy k -> Forall tidy (if live then clears O cs k evs else k)).
  { intros. destruct live; auto using tidy_clears. }
  apply A. destruct (f_new f) eqn:E; auto. apply tidy_set_nth; auto.
Qed.
Lemma tidy_val s v y : f_new (set_any O s (AVal v)) = Some y -> tidy y.
Proof.
  destruct s as [i lt d yt k|i ts yt|i pr cs|i keys od cs]; cbn [set_any].
  - unfold set_leaf. intros H. apply setter_new in H. destruct (d_out _); cbn in H; [injection H as <-; constructor|discriminate].
  - unfold set_leaf_list. intros H. apply setter_new in H. destruct (tl_init _ _ _ _); cbn in H; [injection H as <-; constructor|discriminate].
  - destruct cs; cbn; intros H; [injection H as <-; repeat constructor|discriminate].
  - cbn. intros H. injection H as <-. repeat constructor.
Qed.
Lemma tidy_fill cs kd : forall kids, Forall tidy kids -> Forall tidy (fst (fst (fill_keys O cs kids kd))).
Proof.
  induction kd as [|[n v] kd IH]; intros kids H; [exact H|]. cbn [fill_keys].
  destruct (kid_index n cs) as [j|]; [|exact H]. destruct (nth_error cs j) as [s|]; [|exact H].
  assert (H1 : Forall tidy (absorb O true cs kids j (set_any O s (AVal v)))) by (apply tidy_absorb; auto; apply tidy_val).
  destruct (f_out _); [|exact H1]. specialize (IH _ H1). destruct (fill_keys O cs _ kd) as [[k e] r]. exact IH.
Qed.
Lemma tidy_new cs : Forall tidy (map (fresh O) cs).
Proof. induction cs; cbn; constructor; auto using tidy_fresh. Qed.
Lemma tidy_mk cs kd ev a : mk_entry O cs kd = (ev, Ok a) -> tidy a.
Proof.
  unfold mk_entry. pose proof (tidy_fill cs kd _ (tidy_new cs)) as H. destruct (fill_keys O cs _ kd) as [[k e] [[]|]]; cbn; intros E; [|discriminate].
  injection E as <- <-. now constructor.
Qed.

(** A list, operation by operation: what becomes of the entry for [k]. *)
Definition young (keys : list str) (cs : list schema) (a : obj) : Prop :=
  exists b kk, a = OCont b false kk /\
    forall j s, nth_error cs j = Some s -> ~ In (e_py (s_info s)) keys -> nth_error kk j = Some (fresh O s).

Definition plain_list_op (yo : yop obj) : Prop := match yo with YSet _ _ | YAppend _ => False | _ => True end.

Lemma kid_index_py n cs : forall j, kid_index n cs = Some j -> exists s, nth_error cs j = Some s /\ e_py (s_info s) = n.
Proof.
  induction cs as [|s cs IH]; intros j H; [discriminate|]. cbn in H. destruct (str_eqb n (e_py (s_info s))) eqn:E.
  - injection H as <-. exists s. split; [reflexivity|]. symmetry. now apply str_eqb_eq.
  - destruct (kid_index n cs) as [j'|]; [|discriminate]. injection H as <-. now apply IH.
Qed.
Lemma hit_nones evs s tg : (forall ev, In ev evs -> ev = None \/ ev = tg) -> (tg <> None -> s_tag s = None \/ s_tag s = tg) ->
  hit evs s = false.
Proof.
  intros H Ht. unfold hit. destruct (existsb (fun ev => other_case ev s) evs) eqn:E; [|reflexivity].
  apply existsb_exists in E as (ev & Hi & E). destruct (H ev Hi) as [->| ->]; [discriminate|].
  destruct tg as [[c k]|]; [|discriminate]. unfold other_case in E. destruct Ht as [Ht|Ht]; [discriminate| |]; rewrite Ht in E; [discriminate|].
  rewrite !str_eqb_refl in E. discriminate.
Qed.
Lemma val_events s v : own_tags s (f_pre (set_any O s (AVal v)) ++ f_post (set_any O s (AVal v))).
Proof.
  intros ev Hin.
  assert (Hset : forall evs r, (forall ev, In ev evs -> ev = s_tag s) -> In ev (f_pre (setter evs r) ++ f_post (setter evs r)) -> ev = None \/ ev = s_tag s).
  { intros evs r He H. unfold setter in H. destruct r; cbn in H; apply in_app_or in H as [H|H]; auto; [destruct H as [H|[]]; auto|contradiction]. }
  destruct s as [i lt d yt k|i ts yt|i pr [|c cs]|i keys od cs]; cbn [set_any] in Hin;
    unfold set_leaf, set_leaf_list in Hin; (eapply Hset; [|exact Hin]).
  - destruct (d_notified _); intros e He; [destruct He as [<-|[]]; reflexivity|contradiction].
  - intros e [<-|[]]; reflexivity.
  - intros e [<-|[]]; reflexivity.
  - intros e [<-|[]]; reflexivity.
  - intros e [<-|[]]; reflexivity.
Qed.

Lemma val_ok_tag s v : f_out (set_any O s (AVal v)) = Ok tt -> In (s_tag s) (f_pre (set_any O s (AVal v)) ++ f_post (set_any O s (AVal v))).
Proof.
  assert (Hset : forall evs r, In (s_tag s) evs -> In (s_tag s) (f_pre (setter evs r) ++ f_post (setter evs r))).
  { intros evs r H. unfold setter. destruct r; cbn; apply in_or_app; now left. }
  destruct s as [i lt d yt k|i ts yt|i pr [|c cs]|i keys od cs]; cbn [set_any]; unfold set_leaf, set_leaf_list; try (intros _; apply Hset; now left).
  intros H. apply Hset. destruct (d_out (leaf_assign O lt v)) as [u|] eqn:E; [|discriminate].
  rewrite (leaf_ok_notified O _ _ _ E). now left.
Qed.
Lemma key_dict_in keys k kd : keys <> [] -> key_dict keys k = Ok kd -> forall n, In n (map fst kd) -> In n keys.
Proof.
  intros Hk H n Hn. unfold key_dict in H. destruct keys as [|n1 [|n2 ks]]; [congruence| |].
  - destruct k as [| | | |[|]| | | | |]; try discriminate; injection H as <-; exact Hn.
  - destruct k as [| | | |t| | | | |]; try discriminate. destruct (Nat.eqb _ _) eqn:E; [|discriminate].
    injection H as <-. apply in_map_iff in Hn as ([a b] & <- & Hn). exact (in_combine_l (n1 :: n2 :: ks) (map VStr (split_on 32 t)) a b Hn).
Qed.

Section L.
Context (keys : list str) (cs : list schema) (tg : event).
Context (Hpk : forall n s, nth_error cs n = Some s -> In (e_py (s_info s)) keys -> s_tag s = tg).
Context (Hkk : forall n s, nth_error cs n = Some s -> tg <> None -> s_tag s = None \/ s_tag s = tg).

Lemma fill_quiet kd : (forall n, In n (map fst kd) -> In n keys) -> forall kids, length kids = length cs ->
  let '(k, e, r) := fill_keys O cs kids kd in
  (forall ev, In ev e -> ev = None \/ ev = tg) /\ (kd <> [] -> r = Ok tt -> In tg e) /\ length k = length cs /\
  (forall j s, nth_error cs j = Some s -> ~ In (e_py (s_info s)) keys -> nth_error k j = nth_error kids j).
Proof.
  induction kd as [|[n v] kd IH]; intros Hkd kids Hlen; [now cbn|]. cbn [fill_keys].
  destruct (kid_index n cs) as [j|] eqn:Ej; [|cbn; repeat split; auto; try discriminate; now intros ev []]. destruct (kid_index_py n cs j Ej) as (s & Hs & Hn). rewrite Hs.
  assert (Ht : s_tag s = tg) by (apply (Hpk j s Hs); rewrite Hn; apply Hkd; now left).
  pose proof (val_ok_tag s v) as Hok. rewrite Ht in Hok.
  set (f := set_any O s (AVal v)) in *.
  assert (Hev : forall ev, In ev (f_pre f ++ f_post f) -> ev = None \/ ev = tg).
  { intros ev Hin. destruct (val_events s v ev Hin); [left|right]; congruence. }
  assert (Hl : length (absorb O true cs kids j f) = length cs) by now rewrite absorb_length.
  assert (Hk : forall j' s', nth_error cs j' = Some s' -> ~ In (e_py (s_info s')) keys -> nth_error (absorb O true cs kids j f) j' = nth_error kids j').
  { intros j' s' Hs' Hno. assert (Hne : j <> j').
    { intros <-. rewrite Hs in Hs'. injection Hs' as <-. apply Hno. rewrite Hn. apply Hkd. now left. }
    destruct (nth_error kids j') as [x|] eqn:Ex.
    - rewrite (absorb_other O true cs kids j j' f s' x Hne Hs' Ex). now rewrite (hit_nones _ s' tg Hev (Hkk j' s' Hs')).
    - apply nth_error_None. rewrite Hl. apply nth_error_None in Ex. lia. }
  destruct (f_out f) as [[]|]; [|repeat split; auto; discriminate].
  specialize (IH (fun m Hm => Hkd m (or_intror Hm)) _ Hl).
  destruct (fill_keys O cs (absorb O true cs kids j f) kd) as [[k1 e1] r1]. destruct IH as (I1 & _ & I2 & I3).
  split; [|split; [|split; [exact I2|]]].
  - intros ev Hin. rewrite app_assoc in Hin. apply in_app_or in Hin as [Hin|Hin]; auto.
  - intros _ _. rewrite app_assoc. apply in_or_app. left. now apply Hok.
  - intros j' s' Hs' Hno. rewrite (I3 j' s' Hs' Hno). now apply Hk with s'.
Qed.
Lemma mk_quiet kd ev r : (forall n, In n (map fst kd) -> In n keys) -> mk_entry O cs kd = (ev, r) ->
  (forall e, In e ev -> e = None \/ e = tg) /\ (forall a, r = Ok a -> kd <> [] -> In tg ev) /\ (forall a, r = Ok a -> young keys cs a).
Proof.
  intros Hkd. unfold mk_entry. assert (Hl : length (map (fresh O) cs) = length cs) by apply map_length.
  pose proof (fill_quiet kd Hkd _ Hl) as H. destruct (fill_keys O cs _ kd) as [[k e] r0]. destruct H as (H1 & H2 & _ & H3).
  intros E. injection E as <- <-. split; [exact H1|]. split.
  { intros a Ha Hn. apply H2; [exact Hn|]. now destruct r0 as [[]|]. }
  intros a Ha. destruct r0 as [[]|]; [|discriminate]. cbn in Ha. injection Ha as <-.
  eexists _, _. split; [reflexivity|]. intros j s Hs Hno. rewrite (H3 j s Hs Hno). rewrite nth_fresh. now rewrite Hs.
Qed.

(** The three things that can happen to the entry for [k0]. *)
Definition entry_fate (es es' : list (pyval * obj)) : Prop := forall k0,
  mget k0 es' = mget k0 es \/ mget k0 es' = None \/
  (mget k0 es = None /\ exists a, mget k0 es' = Some a /\ young keys cs a).

Lemma put_fate es k a : mhas k es = false -> young keys cs a -> entry_fate es (mput k a es).
Proof.
  intros Hh Hy k0. destruct (py_eq k0 k) eqn:E.
  - right. right. split; [|exists a; split; [now apply mget_mput_eq|exact Hy]].
    rewrite (mget_eq k k0) by auto. unfold mhas in Hh. destruct (mget k es); [discriminate|reflexivity].
  - left. now apply mget_mput_other.
Qed.
Lemma young0 : young keys cs (OCont false false (map (fresh O) cs)).
Proof. eexists _, _. split; [reflexivity|]. intros j s Hs _. rewrite nth_fresh, Hs. reflexivity. Qed.

End L.

Lemma add_fate keys cs tg uid es k es' evs r : (forall n s, nth_error cs n = Some s -> In (e_py (s_info s)) keys -> s_tag s = tg) ->
  (forall n s, nth_error cs n = Some s -> tg <> None -> s_tag s = None \/ s_tag s = tg) ->
  (keys = [] -> mhas (VStr uid) es = false) ->
  yl_add keys (mk_entry O cs) (OCont false false (map (fresh O) cs)) uid es k = (es', evs, r) ->
  entry_fate keys cs es es' /\ (forall e, In e evs -> e = None \/ e = tg) /\ (keys <> [] -> r = Ok tt -> In tg evs) /\ (evs <> [] -> keys <> [] /\ k <> VNone).
Proof.
  intros Hpk Hkk Hu H. unfold yl_add in H.
  assert (Triv : (es', evs) = (es, []) -> r <> Ok tt -> entry_fate keys cs es es' /\ (forall e, In e evs -> e = None \/ e = tg) /\ (keys <> [] -> r = Ok tt -> In tg evs) /\ (evs <> [] -> keys <> [] /\ k <> VNone)).
  { intros E Hr. injection E as -> ->. split; [intros k0; now left|]. split; [intros e []|]. split; [intros; now contradiction Hr|congruence]. }
  destruct (negb (hashable k)); [injection H as <- <- <-; apply Triv; [reflexivity|discriminate]|].
  destruct (mhas k es) eqn:Eh; [injection H as <- <- <-; apply Triv; [reflexivity|discriminate]|].
  destruct (list_eq_dec (list_eq_dec N.eq_dec) keys []) as [Ek|Ek].
  { rewrite Ek in H. injection H as <- <- <-. split; [|split; [intros e []|split; [intros Hn; now contradiction Hn|congruence]]]. apply put_fate; [auto|apply young0]. }
  assert (H' : k = VNone /\ ((es', evs) = (es, []) /\ r <> Ok tt) \/ k <> VNone /\
    match key_dict keys k with Raise e => (es, [], Raise e) | Ok kd => store k es (mk_entry O cs kd) end = (es', evs, r)).
  { destruct keys as [|n ns]; [now contradiction Ek|]. destruct k; try (right; split; [discriminate|exact H]). left. split; [reflexivity|]. injection H as <- <- <-. split; [reflexivity|discriminate]. }
  destruct H' as [[-> [H' Hr]]|[Hk H']]; [now apply Triv|].
  destruct (key_dict keys k) as [kd|] eqn:Ed; [|injection H' as <- <- <-; apply Triv; [reflexivity|discriminate]].
  assert (Hin : forall m, In m (map fst kd) -> In m keys).
  { intros m Hm. eapply key_dict_in; eauto. }
  unfold store in H'. destruct (mk_entry O cs kd) as [ev [a|e]] eqn:Em; destruct (mk_quiet _ _ _ Hpk Hkk kd ev _ Hin Em) as (Q1 & Q3 & Q2); injection H' as <- <- <-.
  - split; [apply put_fate; auto|]. split; [exact Q1|]. split; [intros Hn _; apply (Q3 a eq_refl), (key_dict_some _ _ _ Hn Ed)|]. intros _. split; [exact Ek|exact Hk].
  - split; [intros k0; now left|]. split; [exact Q1|]. split; [discriminate|]. intros _. split; [exact Ek|exact Hk].
Qed.

Lemma del_fate keys cs es k es' (evs : list event) r : kdist es -> yl_delete es k = (es', evs, r) -> entry_fate keys cs es es' /\ evs = [].
Proof.
  intros Hd. unfold yl_delete. intros H.
  destruct (negb _); [injection H as <- <- <-; split; [intros k0; now left|reflexivity]|].
  destruct (mhas k es) eqn:Eh; injection H as <- <- <-; (split; [|reflexivity]); intros k0; [|now left].
  destruct (py_eq k0 k) eqn:E; [right; left; now apply mdel_gone|left; now apply mdel_other].
Qed.

Lemma op_fate keys cs tg uid es yo es' evs r : (forall n s, nth_error cs n = Some s -> In (e_py (s_info s)) keys -> s_tag s = tg) ->
  (forall n s, nth_error cs n = Some s -> tg <> None -> s_tag s = None \/ s_tag s = tg) ->
  plain_list_op yo -> kdist es -> (keys = [] -> adds yo -> mhas (VStr uid) es = false) ->
  list_op O keys cs uid es yo = (es', evs, r) ->
  entry_fate keys cs es es' /\ (forall e, In e evs -> e = None \/ e = tg) /\ (keys <> [] -> r = Ok tt -> match yo with YDelete _ | YDeleteKw _ => False | _ => True end -> In tg evs) /\ (evs <> [] -> creating keys yo).
Proof.
  intros Hpk Hkk Hp Hd Hu H. unfold list_op in H.
  destruct yo as [k| |kw|k a|a|k|kw]; try contradiction; cbn [yl_op] in H; cbn [adds] in Hu; try (pose proof (fun E => Hu E I) as Hu'; clear Hu; rename Hu' into Hu).
  - destruct (add_fate _ _ _ _ _ _ _ _ _ Hpk Hkk Hu H) as (A & B & B' & C). split; [exact A|]. split; [exact B|]. split; [auto|]. intros Hn. exact (proj1 (C Hn)).
  - destruct (add_fate _ _ _ _ _ _ _ _ _ Hpk Hkk Hu H) as (A & B & B' & C). split; [exact A|]. split; [exact B|]. split; [auto|].
    intros Hn. destruct (C Hn) as [_ C1]. now destruct C1.
  - destruct kw as [|nv kw].
    + destruct (add_fate _ _ _ _ _ _ _ _ _ Hpk Hkk Hu H) as (A & B & B' & C). split; [exact A|]. split; [exact B|]. split; [auto|]. intros Hn. exact (proj1 (C Hn)).
    + unfold yl_add_kw in H.
      assert (Triv : (es', evs) = (es, []) -> r <> Ok tt -> entry_fate keys cs es es' /\ (forall e, In e evs -> e = None \/ e = tg) /\ (keys <> [] -> r = Ok tt -> True -> In tg evs) /\ (evs <> [] -> creating keys (YAddKw (nv :: kw)))).
      { intros E Hr. injection E as -> ->. split; [intros k0; now left|]. split; [intros e []|]. split; [intros; now contradiction Hr|congruence]. }
      destruct (list_eq_dec (list_eq_dec N.eq_dec) keys []) as [Ek|Ek]; [rewrite Ek in H; injection H as <- <- <-; apply Triv; [reflexivity|discriminate]|].
      assert (Hm : forall A (a b : A), match keys with [] => a | _ => b end = b) by (destruct keys; [now contradiction Ek|reflexivity]). rewrite Hm in H.
      assert (Hne : keys <> []) by exact Ek.
      destruct (kw_keys keys (nv :: kw)) as [kd|] eqn:Ed; [|injection H as <- <- <-; apply Triv; [reflexivity|discriminate]].
      destruct (mhas (VStr (key_text O kd)) es) eqn:Eh; [injection H as <- <- <-; apply Triv; [reflexivity|discriminate]|].
      assert (Hin : forall m, In m (map fst kd) -> In m keys).
      { intros m Hm1. now rewrite (kw_keys_names _ _ _ Ed) in Hm1. }
      unfold store in H. destruct (mk_entry O cs kd) as [ev [a|e]] eqn:Em; destruct (mk_quiet _ _ _ Hpk Hkk kd ev _ Hin Em) as (Q1 & Q3 & Q2); injection H as <- <- <-.
      * split; [apply put_fate; auto|]. split; [exact Q1|]. split; [intros Hn _ _; apply (Q3 a eq_refl), (kw_keys_some _ _ _ Hn Ed)|]. intros _. exact Hne.
      * split; [intros k0; now left|]. split; [exact Q1|]. split; [discriminate|]. intros _. exact Hne.
  - destruct (del_fate keys cs _ _ _ _ _ Hd H) as (A & ->). split; [exact A|]. split; [intros e []|]. split; [intros _ _ []|congruence].
  - destruct kw as [|nv kw].
    + destruct (del_fate keys cs _ _ _ _ _ Hd H) as (A & ->). split; [exact A|]. split; [intros e []|]. split; [intros _ _ []|congruence].
    + assert (Triv : (es', evs) = (es, []) -> r <> Ok tt -> entry_fate keys cs es es' /\ (forall e, In e evs -> e = None \/ e = tg) /\ (keys <> [] -> r = Ok tt -> False -> In tg evs) /\ (evs <> [] -> creating keys (YDeleteKw (nv :: kw)))).
      { intros E Hr. injection E as -> ->. split; [intros k0; now left|]. split; [intros e []|]. split; [intros; now contradiction Hr|congruence]. }
      destruct (list_eq_dec (list_eq_dec N.eq_dec) keys []) as [Ek|Ek]; [rewrite Ek in H; injection H as <- <- <-; apply Triv; [reflexivity|discriminate]|].
      assert (Hm : forall A (a b : A), match keys with [] => a | _ => b end = b) by (destruct keys; [now contradiction Ek|reflexivity]). rewrite Hm in H.
      destruct (kw_keys keys (nv :: kw)) as [kd|] eqn:Ed; [|injection H as <- <- <-; apply Triv; [reflexivity|discriminate]].
      destruct (del_fate keys cs _ _ _ _ _ Hd H) as (A & ->). split; [exact A|]. split; [intros e []|]. split; [intros _ _ []|congruence].
Qed.

(** Operations keep trees tidy. *)
Lemma tidy_list_op keys cs uid es yo es' evs r : plain_list_op yo -> list_op O keys cs uid es yo = (es', evs, r) ->
  kdist es -> Forall (fun e => tidy (snd e)) es -> kdist es' /\ Forall (fun e => tidy (snd e)) es'.
Proof.
  intros Hp H Hd Hf. split.
  { unfold list_op in H. eapply effect_kdist; [|exact Hd]. eapply op_effect. exact H. }
  unfold list_op in H.
  assert (S : forall k kd es1 e1 r1, store k es (mk_entry O cs kd) = (es1, e1, r1) -> Forall (fun e => tidy (snd e)) es1).
  { intros k kd es1 e1 r1. unfold store. destruct (mk_entry O cs kd) as [ev [a|e]] eqn:Em; intros E; injection E as <- <- <-; auto.
    apply mput_conf; auto. eapply tidy_mk; eauto. }
  assert (A : forall k es1 e1 r1, yl_add keys (mk_entry O cs) (OCont false false (map (fresh O) cs)) uid es k = (es1, e1, r1) -> Forall (fun e => tidy (snd e)) es1).
  { intros k es1 e1 r1. unfold yl_add. destruct (negb _); [intros E; injection E as <- <- <-; auto|].
    destruct (mhas k es); [intros E; injection E as <- <- <-; auto|].
    destruct keys as [|n ns]; [intros E; injection E as <- <- <-; apply mput_conf; auto; constructor; apply tidy_new|].
    destruct k; try (intros E; injection E as <- <- <-; auto; fail);
      (destruct (key_dict _ _); [apply S|intros E; injection E as <- <- <-; auto]). }
  assert (D : forall k es1 (e1 : list event) r1, yl_delete es k = (es1, e1, r1) -> Forall (fun e => tidy (snd e)) es1).
  { intros k es1 e1 r1. unfold yl_delete. destruct (negb _); [intros E; injection E as <- <- <-; auto|].
    destruct (mhas k es); intros E; injection E as <- <- <-; auto. now apply mdel_conf. }
  destruct yo as [k| |kw|k a|a|k|kw]; try contradiction; cbn [yl_op] in H; eauto.
  - destruct kw as [|nv kw]; [eauto|]. unfold yl_add_kw in H. destruct keys as [|n ns]; [injection H as <- <- <-; auto|].
    destruct (kw_keys _ _); [|injection H as <- <- <-; auto]. destruct (mhas _ es); [injection H as <- <- <-; auto|]. eauto.
  - destruct kw as [|nv kw]; [eauto|]. destruct keys as [|n ns]; [injection H as <- <- <-; auto|].
    destruct (kw_keys _ _); [|injection H as <- <- <-; auto]. eauto.
Qed.

Lemma assign_new s w v y : f_new (assign O s w (AVal v)) = Some y -> f_new (set_any O s (AVal v)) = Some y /\ assign O s w (AVal v) = set_any O s (AVal v).
Proof.
  unfold assign. destruct w as [|b]; [destruct (e_rw _)|]; try destruct (is_key s && _); try discriminate; auto.
Qed.
Lemma tidy_apply s x o y : plain_op o -> conf s x -> tidy x -> f_new (apply O s x o) = Some y -> tidy y.
Proof.
  intros Hp Hc Ht. destruct o as [w [v|z]| |b|lo|uid yo]; try contradiction; cbn [apply].
  - intros H. apply assign_new in H as [H _]. eapply tidy_val; eauto.
  - intros H. injection H as <-. apply tidy_fresh.
  - destruct Hc; try discriminate. inversion Ht; subst. destruct b; cbn; intros E; injection E as <-; now constructor.
  - destruct Hc; try discriminate. destruct (tl_op O ts true l lo) as [l' r]. cbn. intros E; injection E as <-; constructor.
  - destruct Hc; try discriminate. inversion Ht; subst. destruct (list_op O keys cs uid es yo) as [[es' e] r] eqn:E. cbn.
    intros E1. injection E1 as <-. assert (Hpl : plain_list_op yo) by (destruct yo; try contradiction; exact I).
    destruct (tidy_list_op keys cs uid es yo es' e r Hpl E) as [A B]; auto. now constructor.
Qed.
Lemma tidy_run o s0 x0 live cs kids p kids' evs r : run_at O o s0 x0 live cs kids p kids' evs r ->
  plain_op o -> shaped cs kids -> Forall tidy kids -> Forall tidy kids'.
Proof.
  induction 1; intros Hp Hk Ht.
  - apply tidy_absorb; auto. intros y Hy. destruct (Forall2_nth _ _ _ _ _ Hk H) as (x & Hx & Hc).
    rewrite H0 in Hx. injection Hx as <-. eapply tidy_apply; eauto. rewrite Forall_forall in Ht. apply Ht. eapply nth_error_In; eauto.
  - apply tidy_absorb; auto. cbn. intros y Hy. injection Hy as <-. constructor. apply IHrun_at; auto.
    rewrite Forall_forall in Ht. specialize (Ht _ (nth_error_In _ _ H0)). now inversion Ht.
  - apply tidy_absorb; auto. cbn. intros y Hy. injection Hy as <-.
    rewrite Forall_forall in Ht. specialize (Ht _ (nth_error_In _ _ H0)). inversion Ht as [| | |? ? Hd Hf]; subst.
    pose proof (mget_conf _ _ _ _ Hf H1) as He. inversion He; subst.
    constructor.
    + unfold kdist. now rewrite (mput_keys k _ _ es H1).
    + apply mput_conf; auto. constructor. apply IHrun_at; auto.
Qed.
Lemma tidy_exec cs kids p o : plain_op o -> shaped cs kids -> Forall tidy kids -> Forall tidy (fst (module_exec O cs kids p o)).
Proof.
  intros Hp Hs Ht. destruct (at_path kids p) as [x|] eqn:Hx.
  2:{ destruct (module_exec_missing O cs kids p o Hs (or_intror Hx)) as (e & E). now rewrite E. }
  destruct (at_path_conf cs kids p x Hs Hx) as (s & Hsc & Hcx).
  destruct (existing_dec O cs kids p o s Hs Hsc) as [(e & E)|(He & _)]; [now rewrite E|].
  destruct (module_exec_ok O cs kids p o s x Hs He Hsc Hx) as (evs & R). eapply tidy_run; eauto.
Qed.
Lemma tidy_history cs os : Forall (fun po => plain_op (snd po)) os -> Forall tidy (module_run O cs (module_new O cs) os).
Proof.
  induction os as [|[p o] os IH] using rev_ind; intros H; [apply tidy_new|].
  apply Forall_app in H as [H1 H2]. inversion H2; subst. rewrite run_app. cbn [module_run]. apply tidy_exec; auto.
  apply module_run_shaped, fresh_shaped.
Qed.
Lemma tidy_at kids p x : Forall tidy kids -> at_path kids p = Some x -> tidy x.
Proof.
  intros Ht. unfold at_path. assert (H : tidy (OCont false false kids)) by now constructor. revert H.
  generalize (OCont false false kids). clear. induction p as [|[n|k] p IH]; intros y Hy H.
  - now injection H as <-.
  - cbn in H. destruct y; try discriminate. destruct (nth_error kids n) as [z|] eqn:E; [|discriminate]. inversion Hy as [| |? ? ? Hf|]; subst.
    apply (IH z); auto. rewrite Forall_forall in Hf. apply Hf. eapply nth_error_In; eauto.
  - cbn in H. destruct y; try discriminate. destruct (mget k es) as [z|] eqn:E; [|discriminate]. inversion Hy as [| | |? ? _ Hf]; subst.
    apply (IH z); auto. eapply mget_conf; eauto.
Qed.

(* ------------------------------------------------------------------ what the target sends *)
Definition names_new (kids : list obj) (p : list pstep) (s : schema) (o : op) : Prop :=
  forall uid yo i od cs', o = AList uid yo -> adds yo -> s = SList i [] od cs' -> at_path kids (p ++ [Ent (VStr uid)]) = None.
Lemma assign_either s w v : assign O s w (AVal v) = set_any O s (AVal v) \/ assign O s w (AVal v) = no_effect (Raise AttributeError).
Proof. unfold assign. destruct w as [|b]; [destruct (e_rw _)|]; try destruct (is_key s && _); auto. Qed.

Lemma entry_tags cs p i keys od cs' : uniform cs -> schema_at cs p = Some (SList i keys od cs') ->
  forall n s, nth_error cs' n = Some s -> e_choice i <> None -> s_tag s = None \/ s_tag s = e_choice i.
Proof.
  intros Hu Hp n s Hn He. destruct (s_tag s) as [tg|] eqn:Et; [right|now left].
  destruct (e_choice i) as [tg'|] eqn:Ei; [|congruence]. f_equal.
  apply (Hu p [Ent VNone; Kid n] (SList i keys od cs') s tg' tg); auto.
  unfold schema_at in *. rewrite sub_app, Hp. cbn. now rewrite Hn.
Qed.

Lemma plain_base cs kids p s x o : uniform cs -> Forall tidy kids -> even_keys cs -> schema_at cs p = Some s ->
  at_path kids p = Some x -> conf s x -> plain_op o -> names_new kids p s o ->
  own_tags s (base_events O s x o) /\ (base_events O s x o <> [] -> writes cs p o) /\
  (writes cs p o -> f_out (apply O s x o) = Ok tt ->
     In (s_tag s) (base_events O s x o)).
Proof.
  intros Hun Ht Hpk Hsc Hx Hc Hp Hnn. unfold base_events.
  assert (Quiet : forall e, apply O s x o = no_effect (Raise e) ->
    own_tags s (f_pre (apply O s x o) ++ f_post (apply O s x o)) /\ (f_pre (apply O s x o) ++ f_post (apply O s x o) <> [] -> writes cs p o) /\
    (writes cs p o -> f_out (apply O s x o) = Ok tt -> In (s_tag s) (f_pre (apply O s x o) ++ f_post (apply O s x o)))).
  { intros e E. rewrite E. cbn. split; [intros ev []|]. split; [congruence|]. discriminate. }
  destruct o as [w [v|z]| |b|lo|uid yo]; try contradiction.
  - cbn [apply] in *. destruct (assign_either s w v) as [E|E]; [|now apply (Quiet AttributeError)]. clear Quiet. rewrite E.
    split; [apply val_events|]. split; [intros _; exact I|].
    intros _ Ho. exact (val_ok_tag s v Ho).
  - cbn. split; [intros ev []|]. split; [congruence|]. contradiction.
  - destruct Hc as [| |i pr cs' ch pres kids0 Hf|]; try (now apply (Quiet AttributeError)). clear Quiet. cbn [apply].
    destruct b; cbn [f_pre f_post f_out app].
    + split; [intros ev [<-|[]]; now right|]. split; [intros _; exact I|]. intros _ _. now left.
    + split; [intros ev []|]. split; [congruence|]. intros [].
  - destruct Hc as [|i ts y ch l| |]; try (now apply (Quiet AttributeError)). clear Quiet. cbn [apply].
    destruct (tl_op O ts true l lo) as [l' r]. cbn [f_pre f_post f_out app].
    destruct (tl_notifies lo) eqn:En.
    + split; [intros ev [<-|[]]; now right|]. split; [intros _ n ->; discriminate|]. intros _ _. now left.
    + split; [intros ev []|]. split; [congruence|]. intros Hw. exfalso. destruct lo; try discriminate. now apply (Hw i0).
  - destruct Hc as [| | |i keys od cs' ch es Hes]; try (now apply (Quiet AttributeError)). clear Quiet. cbn [apply].
    destruct (list_op O keys cs' uid es yo) as [[es' evs] r] eqn:El.
    assert (Hpl : plain_list_op yo) by (destruct yo; try contradiction; exact I).
    assert (Hy : yl_notifies yo = false) by (destruct yo; try contradiction; reflexivity). rewrite Hy. cbn [f_pre f_post f_out app].
    assert (Hd : kdist es) by (pose proof (tidy_at kids p _ Ht Hx) as H; now inversion H).
    assert (Hu : keys = [] -> adds yo -> mhas (VStr uid) es = false).
    { intros -> Ha. specialize (Hnn uid yo i od cs' eq_refl Ha eq_refl). unfold at_path in *. rewrite node_app, Hx in Hnn. cbn in Hnn.
      unfold mhas. destruct (mget (VStr uid) es); [discriminate|reflexivity]. }
    destruct (op_fate keys cs' (e_choice i) uid es yo es' evs r (fun n s0 H => Hpk p i keys od cs' n s0 Hsc H)
      (entry_tags cs p i keys od cs' Hun Hsc) Hpl Hd Hu El) as (_ & Hnone & Hok & Hcr).
    split; [exact Hnone|]. split.
    { intros Hne. cbn. exists i, keys, od, cs'. auto. }
    intros (i2 & keys2 & od2 & cs2 & Hs2 & Hcr2) Ho. rewrite Hsc in Hs2. injection Hs2 as <- <- <- <-. subst r.
    apply Hok; [|reflexivity|]; destruct yo; try contradiction; try exact Hcr2; exact I.
Qed.

(* ------------------------------------------------------------------ one step, anywhere *)
Lemma steps_prefix a b r : Forall2 step_eq a b -> prefix r a -> Forall2 step_eq r (firstn (length r) b).
Proof.
  intros H. revert r. induction H as [|x y a b Hxy H IH]; intros r [z Hz].
  - destruct r; [constructor|discriminate].
  - destruct r as [|u r]; [constructor|]. injection Hz as <- Hz. cbn. constructor; [exact Hxy|]. apply IH. now exists z.
Qed.
Lemma steps_len a b : Forall2 step_eq a b -> length a = length b.
Proof. induction 1; cbn; auto. Qed.
Lemma firstn_prefix {A} n (l : list A) : exists z, l = firstn n l ++ z.
Proof. exists (skipn n l). now rewrite firstn_skipn. Qed.

Lemma ousts_off cs p o r0 : uniform cs -> ousts cs p o r0 -> ~ Forall2 step_eq r0 (firstn (length r0) p).
Proof.
  intros Hu (_ & s & c & k' & t & st & k & H2 & _ & Hs & Hts & Ht & Hl & Hst & Htt & Hne & _) Hf.
  apply Hne. rewrite (schema_eq cs _ _ Hf) in Hs.
  assert (Hp : prefix (firstn (length r0) p) p) by apply firstn_prefix.
  pose proof (uniform_path cs p _ t s st _ _ Hu Hp Ht Hs Hts Hst Htt) as E. congruence.
Qed.
Lemma ousts_len cs p o r0 : ousts cs p o r0 -> (length r0 <= length p)%nat.
Proof. intros (_ & s & c & k' & t & st & k & _ & _ & _ & _ & Ht & Hl & _). apply prefix_len in Ht. lia. Qed.
Lemma ousts_below cs p o r0 p' q' : uniform cs -> ousts cs p o r0 -> Forall2 step_eq p p' -> ~ prefix r0 (p' ++ q').
Proof.
  intros Hu Ho He Hp. apply (ousts_off cs p o r0 Hu Ho). pose proof (ousts_len _ _ _ _ Ho) as Hl.
  apply (steps_prefix p' p); [now apply steps_sym|]. eapply prefix_app_inv; [exact Hp|]. rewrite <- (steps_len _ _ He). exact Hl.
Qed.
Lemma ousts_above cs p o r0 q q0 p' : uniform cs -> ousts cs p o r0 -> p = q0 ++ p' -> Forall2 step_eq q q0 -> ~ prefix r0 q.
Proof.
  intros Hu Ho -> He Hp. apply (ousts_off cs _ o r0 Hu Ho).
  pose proof (steps_prefix _ _ _ He Hp) as H. apply prefix_len in Hp. rewrite (steps_len _ _ He) in Hp.
  rewrite firstn_app. replace (length r0 - length q0)%nat with 0%nat by lia. cbn. now rewrite app_nil_r.
Qed.

Lemma fresh_below q : forall s y, node (fresh O s) q = Some y -> exists t, sub s q = Some t /\ y = fresh O t.
Proof.
  induction q as [|[n|k] q IH]; intros s y H.
  - injection H as <-. now exists s.
  - cbn [node] in H. destruct s; try discriminate. cbn [fresh] in H. rewrite nth_fresh in H. cbn [sub].
    destruct (nth_error cs n) as [u|]; [|discriminate]. cbn in H. now apply IH.
  - cbn [node] in H. destruct s; try discriminate.
Qed.
Lemma fresh_at cs kids r0 q s sq y : prefix r0 q -> schema_at cs r0 = Some s -> at_path kids r0 = Some (fresh O s) ->
  schema_at cs q = Some sq -> at_path kids q = Some y -> y = fresh O sq.
Proof.
  intros [z ->] Hs Hx Hq Hy. unfold schema_at, at_path in *. rewrite sub_app, Hs in Hq. rewrite node_app, Hx in Hy.
  destruct (fresh_below _ _ _ Hy) as (t & Ht & ->). congruence.
Qed.
Lemma at_prefix kids r0 q y : prefix r0 q -> at_path kids q = Some y -> at_path kids r0 <> None.
Proof. intros [z ->] H E. unfold at_path in *. rewrite node_app, E in H. discriminate. Qed.

Inductive fate (cs : list schema) (kids : list obj) (p : list pstep) (o : op) (kids' : list obj) (r : res unit)
  (q : list pstep) (sq : schema) : Prop :=
| FSame : at_path kids' q = at_path kids q ->
    (r = Ok tt -> reasons cs p o q -> forall y, at_path kids q = Some y -> y = fresh O sq) ->
    (r = Ok tt -> forall q0 p', p = q0 ++ p' -> Forall2 step_eq q q0 -> False) -> fate cs kids p o kids' r q sq
| FFresh : at_path kids' q = Some (fresh O sq) -> (r = Ok tt /\ reasons cs p o q) \/ at_path kids q = None ->
    fate cs kids p o kids' r q sq
| FAt x : Forall2 step_eq p q -> at_path kids q = Some x -> conf sq x -> at_path kids' q = Some (put O sq x o) ->
    r = f_out (apply O sq x o) -> o <> AUnset -> fate cs kids p o kids' r q sq
| FAbove s x q0 p' : p = q0 ++ p' -> p' <> [] -> Forall2 step_eq q q0 -> schema_at cs p = Some s -> at_path kids p = Some x ->
    conf s x -> marked (base_events O s x o) (at_path kids q) (at_path kids' q) (Some sq) ->
    r = f_out (apply O s x o) -> (base_events O s x o <> [] -> writes cs p o) ->
    (writes cs p o -> r = Ok tt -> base_events O s x o <> []) -> fate cs kids p o kids' r q sq
| FGone : at_path kids' q = None -> (forall q0 p', p = q0 ++ p' -> Forall2 step_eq q q0 -> False) ->
    fate cs kids p o kids' r q sq.

Lemma leaf_on_way cs t p st s : schema_at cs t = Some st -> prefix t p -> schema_at cs p = Some s ->
  match st with SLeaf _ _ _ _ _ | SLeafList _ _ _ => True | _ => False end -> t = p.
Proof.
  intros Ht [z ->] Hp Hst. unfold schema_at in *. rewrite sub_app, Ht in Hp.
  destruct z as [|[n|k] z]; [now rewrite app_nil_r| |]; destruct st; try contradiction; discriminate.
Qed.
Lemma prefix_full (t p : list pstep) : prefix t p -> t = p \/ (length t < length p)%nat.
Proof. intros [z ->]. destruct z; [left; now rewrite app_nil_r|right]. rewrite app_length. cbn. lia. Qed.

Lemma settle cs kids p o q sq : uniform cs -> even_keys cs -> shaped cs kids -> Forall tidy kids ->
  plain_op o -> (forall s, schema_at cs p = Some s -> names_new kids p s o) ->
  schema_at cs q = Some sq -> ends_kid q -> off_keys cs q ->
  (forall r0, prefix r0 q -> ousts cs p o r0 ->
     snd (module_exec O cs kids p o) = Ok tt \/ fst (module_exec O cs kids p o) = kids) ->
  fate cs kids p o (fst (module_exec O cs kids p o)) (snd (module_exec O cs kids p o)) q sq.
Proof.
  intros Hu Hpk Hs Htd Hpo Hnn Hsq Heq Hoff Hord.
  destruct (at_path kids p) as [x|] eqn:Hx.
  2:{ destruct (module_exec_missing O cs kids p o Hs (or_intror Hx)) as (e & E). rewrite E. apply FSame; [reflexivity|discriminate|discriminate]. }
  destruct (at_path_conf cs kids p x Hs Hx) as (s & Hsc & Hcx).
  destruct (existing_dec O cs kids p o s Hs Hsc) as [(e & E)|(He & _)].
  { rewrite E. apply FSame; [reflexivity|discriminate|discriminate]. }
  destruct (module_exec_ok O cs kids p o s x Hs He Hsc Hx) as (evs & R).
  destruct (plain_base cs kids p s x o Hu Htd Hpk Hsc Hx Hcx Hpo (Hnn s Hsc)) as (B1 & B2 & B4).
  pose proof (uniform_clash false cs p s _ Hu Hsc B1) as Hcf.
  pose proof (run_out O _ _ _ _ _ _ _ _ _ _ R) as Hr.
  destruct (module_exec O cs kids p o) as [kids' r] eqn:Em. cbn [fst snd] in *.
  (* success clears *)
  assert (Hclear : forall r0 y, r = Ok tt -> prefix r0 q -> ousts cs p o r0 -> at_path kids q = Some y ->
            exists s0, schema_at cs r0 = Some s0 /\ at_path kids' r0 = Some (fresh O s0)).
  { intros r0 y Hok Hp0 (Hw & s0 & c & k' & t & st & k & H2 & Hf & Hs0 & Hts & Ht & Hl & Hst & Htt & Hne & Hkind) Hy.
    rewrite Hok in Hr. pose proof (B4 Hw (eq_sym Hr)) as Hbin. assert (Hbne : base_events O s x o <> []) by (intros Eb; now rewrite Eb in Hbin). exists s0. split; [exact Hs0|].
    eapply (run_resets O _ _ _ _ _ _ _ _ _ _ R Hs Hu B1 Hbne r0 s0 t st c k k'); eauto.
    - destruct (prefix_full t p Ht) as [->|Hlt].
      + rewrite Hsc in Hst. injection Hst as <-. right. now rewrite <- Htt.
      + assert (Htp : t <> p) by (intros ->; lia). destruct st as [| |i pr cs'|]; try (now left).
        * exfalso. apply Htp. eapply leaf_on_way; eauto; exact I.
        * exfalso. apply Htp. eapply leaf_on_way; eauto; exact I.
    - eapply at_prefix; eauto. }
  destruct (paths_lie p q) as [Ha|[(p' & q' & -> & Hpp)|(q0 & p' & -> & Hp' & Hqq)]].
  - (* apart *)
    assert (Hnu : ~ (o = AUnset /\ reaches p q)).
    { intros (_ & p' & H1 & [z ->]). exact (apart_not _ _ _ H1 Ha). }
    assert (Hnm : forall q0 p', p = q0 ++ p' -> Forall2 step_eq q q0 -> False).
    { intros q0 p' -> H. apply (apart_not' q0 q p'); [now apply steps_sym|exact Ha]. }
    destruct (run_frame O _ _ _ _ _ _ _ _ _ _ R Hs q Ha) as [E|(r0 & Hp0 & Hreset)].
    + apply FSame; [exact E| |intros _; exact Hnm].
      intros Hok [Hun|(r0 & Hp0 & Hou)] y Hy; [contradiction|].
      destruct (Hclear r0 y Hok Hp0 Hou Hy) as (s0 & Hs0 & Hfr).
      eapply (fresh_at cs kids' r0 q); eauto. congruence.
    + assert (Hou : ousts cs p o r0 /\ exists s0, schema_at cs r0 = Some s0 /\ at_path kids' r0 = Some (fresh O s0)).
      { destruct Hreset as (s0 & c & k & k' & (H2 & Hl) & Hf & Hs0 & Hts & Hne & Hfr & Hsrc). split; [|now exists s0].
        split.
        { apply B2. destruct Hsrc as [Hin|(t & st & _ & _ & _ & _ & Hb & _)]; [|exact Hb]. intros E. rewrite E in Hin. exact Hin. }
        destruct Hsrc as [Hin|(t & st & T1 & T2 & T3 & T4 & _ & i & pr & cs' & T5)].
        - exists s0, c, k', p, s, k. split; [auto|]. split; [exact Hf|]. split; [exact Hs0|]. split; [exact Hts|].
          split; [exists []; now rewrite app_nil_r|]. split; [exact Hl|]. split; [exact Hsc|].
          split; [exact (own_tags_in _ _ B1 _ _ Hin)|]. split; [exact Hne|]. destruct s; auto.
        - exists s0, c, k', t, st, k. split; [auto|]. split; [exact Hf|]. split; [exact Hs0|]. split; [exact Hts|].
          split; [exact T1|]. split; [exact T2|]. split; [exact T3|]. split; [exact T4|]. split; [exact Hne|]. now rewrite T5. }
      destruct Hou as (Hou & s0 & Hs0 & Hfr).
      destruct (at_path kids' q) as [y|] eqn:Hy; [|apply FGone; [exact Hy|exact Hnm]].
      pose proof (fresh_at cs kids' r0 q s0 sq y Hp0 Hs0 Hfr Hsq Hy) as ->.
      destruct (Hord r0 Hp0 Hou) as [Hok|Hk].
      * apply FFresh; [exact Hy|]. left. split; [exact Hok|]. right. now exists r0.
      * destruct r as [[]|e].
        -- apply FFresh; [exact Hy|]. left. split; [reflexivity|]. right. now exists r0.
        -- apply FSame; [now rewrite Hk|discriminate|discriminate].
  - (* at or below the target *)
    assert (Hno : forall r0, prefix r0 (p' ++ q') -> ~ ousts cs p o r0).
    { intros r0 H1 H2. exact (ousts_below cs p o r0 p' q' Hu H2 Hpp H1). }
    assert (Hat : at_path kids' (p' ++ q') = node (put O s x o) q').
    { pose proof (run_put O _ _ _ _ _ _ _ _ _ _ R Hs Hcf) as Hp. rewrite (at_eq kids' _ _ Hpp) in Hp.
      unfold at_path in *. now rewrite node_app, Hp. }
    assert (Hat0 : at_path kids (p' ++ q') = node x q').
    { rewrite (at_eq kids _ _ Hpp) in Hx. unfold at_path in *. now rewrite node_app, Hx. }
    assert (Hsub : sub s q' = Some sq).
    { rewrite (schema_eq cs _ _ Hpp) in Hsc. unfold schema_at in *. now rewrite sub_app, Hsc in Hsq. }
    assert (Hd : o = AUnset \/ o <> AUnset) by (destruct o; auto; right; discriminate).
    destruct Hd as [->|Hd].
    { rewrite unset_put in Hat. cbn [apply f_out] in Hr. destruct (node (fresh O s) q') as [y|] eqn:Hy.
      - destruct (fresh_below _ _ _ Hy) as (t & Ht & ->). rewrite Hsub in Ht. injection Ht as <-.
        apply FFresh; [exact Hat|]. left. split; [exact Hr|]. left. split; [reflexivity|]. exists p'. split; [exact Hpp|]. now exists q'.
      - apply FGone; [exact Hat|]. intros q0 p1 -> Hq0. destruct q' as [|a q']; [discriminate|].
        apply steps_len in Hq0. apply steps_len in Hpp. rewrite app_length in *. cbn in Hq0. lia. }
    destruct q' as [|a q'].
    { cbn in Hsub. injection Hsub as <-. rewrite app_nil_r in *. apply (FAt _ _ _ _ _ _ _ _ x); auto. }
    assert (Hlong : forall q0 p1, p = q0 ++ p1 -> Forall2 step_eq (p' ++ a :: q') q0 -> False).
    { intros q0 p1 Hp1 Hq0. apply steps_len in Hq0. apply steps_len in Hpp. subst p. rewrite app_length in *. cbn in Hq0. lia. }
    assert (Same : node (put O s x o) (a :: q') = node x (a :: q') -> fate cs kids p o kids' r (p' ++ a :: q') sq).
    { intros E. apply FSame; [now rewrite Hat, Hat0| |].
      - intros _ [(H1 & _)|(r0 & H1 & H2)]; [contradiction|]. exfalso. exact (Hno r0 H1 H2).
      - intros _. exact Hlong. }
    destruct a as [n|k].
    { apply Same. apply (below_put O s x o n q' sq); auto. destruct o as [w [v|z]| | | |]; auto; exact I. }
    cbn [sub] in Hsub. destruct s as [| | |i keys od cs']; try discriminate.
    assert (Hxl : exists ch es, x = OList ch es) by (inversion Hcx; eauto). destruct Hxl as (ch & es & ->).
    destruct o as [w [v|z]| |b|lo|uid yo]; try contradiction; try (apply Same; reflexivity).
    + unfold put in Hat, Same. cbn [apply] in Hat, Same. destruct (assign_either (SList i keys od cs') w v) as [E|E]; rewrite E in Hat, Same.
      * apply FGone; [exact Hat|exact Hlong].
      * apply Same. reflexivity.
    + unfold put in Hat, Same. cbn [apply] in Hat, Same. destruct (list_op O keys cs' uid es yo) as [[es' evs'] r'] eqn:El. cbn [f_new] in Hat, Same.
      assert (Hpl : plain_list_op yo) by (destruct yo; try contradiction; exact I).
      assert (Hkd : kdist es) by (pose proof (tidy_at kids p _ Htd Hx) as H; now inversion H).
      assert (Huid : keys = [] -> adds yo -> mhas (VStr uid) es = false).
      { intros -> Ha. specialize (Hnn _ Hsc uid yo i od cs' eq_refl Ha eq_refl). unfold at_path in *. rewrite node_app, Hx in Hnn. cbn in Hnn.
        unfold mhas. destruct (mget (VStr uid) es); [discriminate|reflexivity]. }
      destruct (op_fate keys cs' (e_choice i) uid es yo es' evs' r' (fun n s0 H => Hpk p i keys od cs' n s0 Hsc H)
        (entry_tags cs p i keys od cs' Hu Hsc) Hpl Hkd Huid El) as (Hfate & _).
      cbn [node] in Hat, Hat0, Same. destruct (Hfate k) as [E|[E|(E & a & Ea & Hy)]].
      * apply Same. now rewrite E.
      * apply FGone; [now rewrite Hat, E|exact Hlong].
      * rewrite Ea in Hat. rewrite E in Hat0. destruct Hy as (b & kk & -> & Hy).
        destruct q' as [|[n|k1] q'].
        -- exfalso. destruct Heq as (p0 & n & Heq). apply app_inj_tail in Heq as [_ Heq]. discriminate.
        -- unfold entry_schema in Hsub. cbn [sub] in Hsub. cbn [node] in Hat.
           destruct (nth_error cs' n) as [sn|] eqn:En; [|discriminate].
           rewrite (Hy n sn En) in Hat.
           2:{ rewrite (schema_eq cs _ _ Hpp) in Hsc. exact (Hoff p' k n q' i keys od cs' sn eq_refl Hsc En). }
           destruct (node (fresh O sn) q') as [y|] eqn:Hny; [|now apply FGone].
           destruct (fresh_below _ _ _ Hny) as (t & Ht & ->). rewrite Hsub in Ht. injection Ht as <-.
           apply FFresh; [exact Hat|]. now right.
        -- discriminate.
  - (* above *)
    apply (FAbove _ _ _ _ _ _ _ _ s x q0 p'); auto; [|intros Hw Hok Eb; rewrite Hok in Hr; pose proof (B4 Hw (eq_sym Hr)) as Hbin; now rewrite Eb in Hbin].
    assert (Hne : q0 <> []).
    { intros ->. inversion Hqq; subst. destruct Heq as (p0 & n & E). now destruct p0. }
    assert (Hpre : prefix q0 (q0 ++ p')) by now exists p'.
    assert (Hnp : q0 <> q0 ++ p') by (intros E; apply Hp'; rewrite <- (app_nil_r q0) in E at 1; now apply app_inv_head in E).
    pose proof (run_above O _ _ _ _ _ _ _ _ _ _ R Hs Hcf q0 Hpre Hne Hnp) as Hm.
    now rewrite <- (at_eq kids _ _ Hqq), <- (at_eq kids' _ _ Hqq), <- (schema_eq cs _ _ Hqq), Hsq in Hm.
Qed.

(* ------------------------------------------------------------------ the past of a node *)
Lemma past cs q (g : obj -> bool) (M D : list obj -> list pstep -> op -> Prop) os :
  (forall x, at_path (module_new O cs) q = Some x -> g x = false) ->
  (forall os1 p o os2, os = os1 ++ (p, o) :: os2 ->
     let kids := module_run O cs (module_new O cs) os1 in let kids' := fst (module_exec O cs kids p o) in
     (forall x', at_path kids' q = Some x' ->
        (g x' = true <-> M kids p o \/ ((exists x, at_path kids q = Some x /\ g x = true) /\ ~ D kids p o))) /\
     (at_path kids' q = None -> D kids p o /\ ~ M kids p o)) ->
  ((exists x, at_path (module_run O cs (module_new O cs) os) q = Some x /\ g x = true) <->
   exists os1 p o os2, os = os1 ++ (p, o) :: os2 /\ M (module_run O cs (module_new O cs) os1) p o /\
     forall os3 p' o' os4, os2 = os3 ++ (p', o') :: os4 ->
       ~ D (module_run O cs (module_new O cs) ((os1 ++ [(p, o)]) ++ os3)) p' o').
Proof.
  intros Hi. induction os as [|[p o] os IH] using rev_ind; intros Hst.
  - split; [intros (x & Hx & Hg); rewrite (Hi x Hx) in Hg; discriminate|]. intros (os1 & p & o & os2 & H & _). destruct os1; discriminate.
  - assert (IH' := IH (fun os1 p1 o1 os2 E => Hst os1 p1 o1 (os2 ++ [(p, o)])
       (eq_trans (f_equal (fun l => l ++ [(p, o)]) E) (eq_sym (app_assoc os1 ((p1, o1) :: os2) [(p, o)]))))).
    destruct (Hst os p o [] eq_refl) as (Hs1 & Hs2). clear IH Hst. rewrite run_app. cbn [module_run].
    assert (Hdec : (exists os1 p0 o0 os2, os ++ [(p, o)] = os1 ++ (p0, o0) :: os2 /\ M (module_run O cs (module_new O cs) os1) p0 o0 /\
        forall os3 p' o' os4, os2 = os3 ++ (p', o') :: os4 ->
          ~ D (module_run O cs (module_new O cs) ((os1 ++ [(p0, o0)]) ++ os3)) p' o') <->
      M (module_run O cs (module_new O cs) os) p o \/
      ((exists x, at_path (module_run O cs (module_new O cs) os) q = Some x /\ g x = true) /\ ~ D (module_run O cs (module_new O cs) os) p o)).
    { rewrite IH'. split.
      - intros (os1 & p0 & o0 & os2 & E & HM & HD).
        destruct os2 as [|po os2] using rev_ind.
        + apply app_inj_tail in E as [<- [= <- <-]]. now left.
        + clear IHos2. rewrite app_comm_cons, app_assoc in E. apply app_inj_tail in E as [-> <-]. right. split.
          * exists os1, p0, o0, os2. split; [reflexivity|]. split; [exact HM|]. intros os3 p' o' os4 ->.
            apply (HD os3 p' o' (os4 ++ [(p, o)])). now rewrite app_comm_cons, app_assoc.
          * specialize (HD os2 p o [] eq_refl). now rewrite <- app_assoc in HD.
      - intros [HM|((os1 & p0 & o0 & os2 & -> & HM & HD) & Hn)].
        + exists os, p, o, []. split; [reflexivity|]. split; [exact HM|]. intros os3 p' o' os4 E. destruct os3; discriminate.
        + exists os1, p0, o0, (os2 ++ [(p, o)]). split; [now rewrite <- app_assoc|]. split; [exact HM|].
          intros os3 p' o' os4 E. destruct os4 as [|po os4] using rev_ind.
          * apply app_inj_tail in E as [<- [= <- <-]]. now rewrite <- app_assoc.
          * clear IHos4. rewrite app_comm_cons, app_assoc in E. apply app_inj_tail in E as [-> <-]. eapply HD. reflexivity. }
    rewrite Hdec. clear Hdec.
    destruct (at_path (fst (module_exec O cs (module_run O cs (module_new O cs) os) p o)) q) as [x'|] eqn:Hx'.
    + rewrite <- (Hs1 x' eq_refl). split; [intros (x & [= <-] & H); exact H|eauto].
    + destruct (Hs2 eq_refl) as (HD & HM). split; [intros (x & H & _); discriminate|]. intros [H|(_ & H)]; contradiction.
Qed.

(** A node of the schema that does not exist is missing because of an entry. *)
Lemma gone_entry q : forall s x sq, conf s x -> sub s q = Some sq -> node x q = None ->
  exists q1 k q2, q = q1 ++ Ent k :: q2 /\ node x (q1 ++ [Ent k]) = None.
Proof.
  induction q as [|[n|k] q IH]; intros s x sq Hc Hs Hn; [discriminate| |].
  - cbn [sub node] in *. destruct s as [| |i pr cs|]; try discriminate. inversion Hc as [| |? ? ? ch pres kids Hf|]; subst.
    destruct (nth_error cs n) as [u|] eqn:En; [|discriminate].
    destruct (Forall2_nth _ _ _ _ _ Hf En) as (z & Hz & Hcz). rewrite Hz in Hn.
    destruct (IH u z sq Hcz Hs Hn) as (q1 & k & q2 & -> & H). exists (Kid n :: q1), k, q2. split; [reflexivity|].
    cbn [app node]. now rewrite Hz.
  - cbn [sub node] in *. destruct s as [| | |i keys od cs]; try discriminate. inversion Hc as [| | |? ? ? ? ch es Hf]; subst.
    destruct (mget k es) as [z|] eqn:Ek.
    + assert (Hcz : conf (entry_schema cs) z).
      { clear - Hf Ek. induction es as [|[k0 a] es IH]; [discriminate|]. inversion Hf; subst. cbn in Ek.
        destruct (py_eq k k0); [injection Ek as <-; assumption|auto]. }
      destruct (IH _ z sq Hcz Hs Hn) as (q1 & k1 & q2 & -> & H). exists (Ent k :: q1), k1, q2. split; [reflexivity|].
      cbn [app node]. now rewrite Ek.
    + exists [], k, q. split; [reflexivity|]. cbn. now rewrite Ek.
Qed.

Lemma no_gone kids q x : at_path kids q = Some x -> forall q1 k q2, q = q1 ++ Ent k :: q2 -> at_path kids (q1 ++ [Ent k]) = None -> False.
Proof.
  intros H q1 k q2 -> E. apply (at_prefix kids (q1 ++ [Ent k]) (q1 ++ Ent k :: q2) x); [|exact H|exact E].
  exists q2. now rewrite <- app_assoc.
Qed.

(** The situation before one operation of a history. *)
Lemma settle_at cs os os1 p o os2 q sq : uniform cs -> even_keys cs -> Forall (fun po => plain_op (snd po)) os ->
  new_uids O cs os -> orderly O cs os q -> os = os1 ++ (p, o) :: os2 ->
  schema_at cs q = Some sq -> ends_kid q -> off_keys cs q ->
  let kids := module_run O cs (module_new O cs) os1 in
  shaped cs kids /\ plain_op o /\ fate cs kids p o (fst (module_exec O cs kids p o)) (snd (module_exec O cs kids p o)) q sq.
Proof.
  intros Hu Hpk Hpl Hnu Hord E Hsq Heq Hoff kids.
  assert (Hs : shaped cs kids) by (apply module_run_shaped, fresh_shaped). split; [exact Hs|].
  assert (Hpo : plain_op o) by (rewrite E in Hpl; apply Forall_app in Hpl as [_ Hpl]; now inversion Hpl). split; [exact Hpo|].
  apply settle; auto.
  - apply tidy_history. rewrite E in Hpl. now apply Forall_app in Hpl as [Hpl _].
  - intros s Hsp uid yo i od cs' -> Ha ->. eapply Hnu; eauto.
  - intros r0 Hr Ho. exact (Hord os1 p o os2 r0 E Hr Ho).
Qed.

Lemma exec_there cs kids p o : shaped cs kids -> snd (module_exec O cs kids p o) = Ok tt -> at_path kids p <> None.
Proof.
  intros Hs Hr H. destruct (module_exec_missing O cs kids p o Hs (or_intror H)) as (e & E). rewrite E in Hr. discriminate.
Qed.
Lemma new_fresh cs q sq x : schema_at cs q = Some sq -> at_path (module_new O cs) q = Some x -> x = fresh O sq.
Proof.
  intros Hs Hx. change (at_path (module_new O cs) q) with (node (fresh O (entry_schema cs)) q) in Hx.
  destruct (fresh_below _ _ _ Hx) as (t & Ht & ->). unfold schema_at in Hs. congruence.
Qed.
Lemma drop_gone cs kids p o q sq : shaped cs kids -> schema_at cs q = Some sq ->
  at_path (fst (module_exec O cs kids p o)) q = None -> drops O cs kids p o q.
Proof.
  intros Hs Hsq H. right. eapply gone_entry; [|exact Hsq|exact H]. constructor. exact (module_run_shaped O cs [(p, o)] kids Hs).
Qed.

Theorem leaf_past cs q i lt d y k os :
  uniform cs -> even_keys cs -> off_keys cs q -> ends_kid q -> schema_at cs q = Some (SLeaf i lt d y k) ->
  Forall (fun po => plain_op (snd po)) os -> new_uids O cs os -> orderly O cs os q ->
  ((exists x, at_path (module_run O cs (module_new O cs) os) q = Some x /\ o_changed x = true) <->
   exists os1 p w a os2, os = os1 ++ (p, ASet w (AVal a)) :: os2 /\ Forall2 step_eq p q /\
     snd (module_exec O cs (module_run O cs (module_new O cs) os1) p (ASet w (AVal a))) = Ok tt /\
     lasting O cs (os1 ++ [(p, ASet w (AVal a))]) os2 q).
Proof.
  intros Hu Hpk Hoff Heq Hsq Hpl Hnu Hord.
  assert (HP := past cs q o_changed
    (fun kids p o => Forall2 step_eq p q /\ snd (module_exec O cs kids p o) = Ok tt /\ exists w a, o = ASet w (AVal a))
    (fun kids p o => drops O cs kids p o q) os).
  rewrite HP.
  - clear HP. split.
    + intros (os1 & p & o & os2 & E & (Hp & Hok & w & a & ->) & HD). exists os1, p, w, a, os2. split; [exact E|]. split; [exact Hp|]. split; [exact Hok|exact HD].
    + intros (os1 & p & w & a & os2 & E & Hp & Hok & HD). exists os1, p, (ASet w (AVal a)), os2. split; [exact E|]. split; [|exact HD].
      split; [exact Hp|]. split; [exact Hok|]. now exists w, a.
  - intros x Hx. now rewrite (new_fresh cs q _ x Hsq Hx).
  - clear HP. intros os1 p o os2 E kids kids'.
    destruct (settle_at cs os os1 p o os2 q _ Hu Hpk Hpl Hnu Hord E Hsq Heq Hoff) as (Hs & Hpo & Hf).
    fold kids in Hs, Hf. fold kids' in Hf.
    split.
    + intros x' Hx'. assert (Hng := no_gone kids' q x' Hx').
      destruct Hf as [Es Hr Hno|Es Hwhy|x Hp Hx Hc Es Hr Hd|s x q0 p' Ep Hp' Hq Hsp Hxp Hcx Hm Hr _ _|Es _].
      * split.
        -- intros Hg. right. rewrite Es in Hx'. split; [now exists x'|]. intros [(Hok & Hre)|(q1 & k1 & q2 & H1 & H2)]; [|now apply (Hng q1 k1 q2)].
           rewrite (Hr Hok Hre x' Hx') in Hg. discriminate.
        -- intros [(Hp & Hok & _)|((x & Hx & Hg) & _)]; [|congruence].
           exfalso. apply (Hno Hok p []); [now rewrite app_nil_r|now apply steps_sym].
      * rewrite Es in Hx'. injection Hx' as <-. split; [discriminate|]. intros H. exfalso. destruct H as [(Hp & Hok & w & a & ->)|((x & Hx & Hg) & HD)].
        -- destruct Hwhy as [(_ & [(H & _)|(r0 & H1 & H2)])|Hn]; [discriminate| |].
           ++ apply (ousts_below cs p _ r0 q [] Hu H2 Hp). now rewrite app_nil_r.
           ++ apply (exec_there cs kids p _ Hs Hok). now rewrite (at_eq kids _ _ Hp).
        -- destruct Hwhy as [Hre|Hn]; [|congruence]. apply HD. now left.
      * assert (HnD : ~ drops O cs kids p o q).
        { intros [(_ & [(H & _)|(r0 & H1 & H2)])|(q1 & k1 & q2 & H1 & H2)]; [contradiction| |now apply (Hng q1 k1 q2)].
          apply (ousts_below cs p _ r0 q [] Hu H2 Hp). now rewrite app_nil_r. }
        rewrite Es in Hx'. injection Hx' as <-. inversion Hc as [? ? ? ? ? ch v| | |]; subst x.
        destruct o as [w [a|z]| |b|lo|uid yo]; try contradiction.
        -- destruct (snd (module_exec O cs kids p (ASet w (AVal a)))) as [u|e] eqn:Er0.
           ++ destruct u. destruct (leaf_set_ok O i lt d y k (OLeaf ch v) w a (eq_sym Hr)) as (u & _ & Ha).
              unfold put. rewrite Ha. cbn. split; [|reflexivity]. intros _. left. split; [exact Hp|]. split; [reflexivity|]. now exists w, a.
           ++ assert (Hnone : put O (SLeaf i lt d y k) (OLeaf ch v) (ASet w (AVal a)) = OLeaf ch v).
              { unfold put. cbn [apply] in *. unfold assign in *.
                assert (Hno : forall e', f_out (set_any O (SLeaf i lt d y k) (AVal a)) = Raise e' ->
                              f_new (set_any O (SLeaf i lt d y k) (AVal a)) = None).
                { intros e'. cbn [set_any]. unfold set_leaf. destruct (d_out (leaf_assign O lt a)); [discriminate|reflexivity]. }
                destruct w as [|[|]]; cbn [s_info is_key negb andb] in *; try destruct (e_rw i); try destruct k; cbn [andb] in *;
                  try reflexivity; now rewrite (Hno e (eq_sym Hr)). }
              rewrite Hnone. split; [intros Hg; right; split; [now exists (OLeaf ch v)|exact HnD]|].
              intros [(_ & Hbad & _)|((x0 & Hx2 & Hg) & _)]; [discriminate|]. assert (Hxx : x0 = OLeaf ch v) by congruence. rewrite Hxx in Hg. exact Hg.
        -- rewrite Hr. unfold put. cbn [apply no_effect f_out f_new]. split; [intros Hg; right; split; [now exists (OLeaf ch v)|exact HnD]|].
           intros [(_ & Hbad & _)|((x0 & Hx2 & Hg) & _)]; [discriminate|]. assert (Hxx : x0 = OLeaf ch v) by congruence. rewrite Hxx in Hg. exact Hg.
        -- rewrite Hr. unfold put. cbn [apply no_effect f_out f_new]. split; [intros Hg; right; split; [now exists (OLeaf ch v)|exact HnD]|].
           intros [(_ & Hbad & _)|((x0 & Hx2 & Hg) & _)]; [discriminate|]. assert (Hxx : x0 = OLeaf ch v) by congruence. rewrite Hxx in Hg. exact Hg.
        -- rewrite Hr. unfold put. cbn [apply no_effect f_out f_new]. split; [intros Hg; right; split; [now exists (OLeaf ch v)|exact HnD]|].
           intros [(_ & Hbad & _)|((x0 & Hx2 & Hg) & _)]; [discriminate|]. assert (Hxx : x0 = OLeaf ch v) by congruence. rewrite Hxx in Hg. exact Hg.
      * exfalso. unfold marked in Hm. destruct (at_path kids q) as [[]|]; try contradiction; rewrite Hx' in Hm; destruct x'; contradiction.
      * congruence.
    + intros Hn. split; [now apply (drop_gone cs kids p o q _ Hs Hsq)|].
      intros (Hp & Hok & _).
      destruct Hf as [Es _ Hno|Es _|x _ _ _ Es _ _|s x q0 p' Ep Hp' Hq _ _ _ _ _ _ _|_ Hno]; try congruence.
      * apply (Hno Hok p []); [now rewrite app_nil_r|now apply steps_sym].
      * apply steps_len in Hp. apply steps_len in Hq. subst p. rewrite app_length in Hp. destruct p'; [congruence|]. cbn in Hp. lia.
      * apply (Hno p []); [now rewrite app_nil_r|now apply steps_sym].
Qed.

Theorem presence_past cs q i cs' os :
  uniform cs -> even_keys cs -> off_keys cs q -> ends_kid q -> schema_at cs q = Some (SCont i true cs') ->
  Forall (fun po => plain_op (snd po)) os -> new_uids O cs os -> clean_refusals O cs os ->
  ((exists ch kk, at_path (module_run O cs (module_new O cs) os) q = Some (OCont ch true kk)) <->
   exists os1 p o os2, os = os1 ++ (p, o) :: os2 /\ writes cs p o /\ reaches q p /\
     snd (module_exec O cs (module_run O cs (module_new O cs) os1) p o) = Ok tt /\
     lasting O cs (os1 ++ [(p, o)]) os2 q /\ kept_present O cs (os1 ++ [(p, o)]) os2 q).
Proof.
  intros Hu Hpk Hoff Heq Hsq Hpl Hnu Hcr.
  assert (Hord : orderly O cs os q).
  { intros os1 p o os2 r E _ _. exact (Hcr os1 p o os2 E). }
  set (g := fun x => match x with OCont _ pres _ => pres | _ => false end).
  assert (HP := past cs q g
    (fun kids p o => writes cs p o /\ reaches q p /\ snd (module_exec O cs kids p o) = Ok tt)
    (fun kids p o => drops O cs kids p o q \/ hides O cs kids p o q) os).
  assert (Hg : (exists ch kk, at_path (module_run O cs (module_new O cs) os) q = Some (OCont ch true kk)) <->
               (exists x, at_path (module_run O cs (module_new O cs) os) q = Some x /\ g x = true)).
  { split; [intros (ch & kk & H); rewrite H; eauto|]. intros (x & H & Hx). rewrite H. destruct x; try discriminate. cbn in Hx. subst. eauto. }
  rewrite Hg, HP.
  - clear HP Hg. split.
    + intros (os1 & p & o & os2 & E & (Hw & Hr & Hok) & HD). exists os1, p, o, os2.
      split; [exact E|]. split; [exact Hw|]. split; [exact Hr|]. split; [exact Hok|].
      split; intros os3 p' o' os4 E' H; apply (HD os3 p' o' os4 E'); auto.
    + intros (os1 & p & o & os2 & E & Hw & Hr & Hok & HL & HK). exists os1, p, o, os2. split; [exact E|]. split; [auto|].
      intros os3 p' o' os4 E' [H|H]; [exact (HL os3 p' o' os4 E' H)|exact (HK os3 p' o' os4 E' H)].
  - intros x Hx. now rewrite (new_fresh cs q _ x Hsq Hx).
  - clear HP Hg. intros os1 p o os2 E kids kids'.
    destruct (settle_at cs os os1 p o os2 q _ Hu Hpk Hpl Hnu Hord E Hsq Heq Hoff) as (Hs & Hpo & Hf).
    specialize (Hcr os1 p o os2 E). cbv zeta in Hcr. fold kids in Hs, Hf, Hcr. fold kids' in Hf, Hcr.
    destruct (snd (module_exec O cs kids p o)) as [[]|e] eqn:Er.
    2:{ destruct Hcr as [Hcr|Hcr]; [discriminate|]. split.
        - intros x' Hx'. rewrite Hcr in Hx'. split.
          + intros Hx. right. split; [now exists x'|]. intros [[(H & _)|(q1 & k1 & q2 & H1 & H2)]|(H & _)]; [congruence| |congruence].
            fold kids' in H2. rewrite Hcr in H2. exact (no_gone kids q x' Hx' q1 k1 q2 H1 H2).
          + intros [(_ & _ & H)|((x & Hx & Hgx) & _)]; congruence.
        - intros Hn. split; [left; now apply (drop_gone cs kids p o q _ Hs Hsq)|]. intros (_ & _ & H). congruence. }
    clear Hcr. split.
    + intros x' Hx'. assert (Hng := no_gone kids' q x' Hx').
      destruct Hf as [Es Hr Hno|Es Hwhy|x Hp Hx Hc Es Hr Hd|s x q0 p' Ep Hp' Hq Hsp Hxp Hcx Hm Hr HB2 HB4|Es _].
      * rewrite Es in Hx'. split.
        -- intros Hgx. right. split; [now exists x'|]. intros [[(_ & Hre)|(q1 & k1 & q2 & H1 & H2)]|(_ & H & Hh)].
           ++ rewrite (Hr eq_refl Hre x' Hx') in Hgx. discriminate.
           ++ now apply (Hng q1 k1 q2).
           ++ apply (Hno eq_refl p []); [now rewrite app_nil_r|now apply steps_sym].
        -- intros [(_ & (q0 & Hq0 & [z Hz]) & _)|((x & Hx & Hgx) & _)]; [|congruence].
           exfalso. apply (Hno eq_refl q0 z); auto.
      * rewrite Es in Hx'. injection Hx' as <-. split; [discriminate|]. intros H. exfalso.
        destruct H as [(Hw & (q0 & Hq0 & [z Hz]) & _)|((x & Hx & Hgx) & HD)].
        -- destruct Hwhy as [(_ & [(-> & _)|(r0 & H1 & H2)])|Hn]; [contradiction| |].
           ++ exact (ousts_above cs p o r0 q q0 z Hu H2 Hz Hq0 H1).
           ++ apply (exec_there cs kids p o Hs Er). rewrite Hz. unfold at_path. rewrite node_app. fold (at_path kids q0).
              now rewrite <- (at_eq kids _ _ Hq0), Hn.
        -- destruct Hwhy as [Hre|Hn]; [|congruence]. apply HD. left. left. now rewrite Er.
      * assert (HnD : ~ drops O cs kids p o q).
        { intros [(_ & [(H & _)|(r0 & H1 & H2)])|(q1 & k1 & q2 & H1 & H2)]; [contradiction| |now apply (Hng q1 k1 q2)].
          apply (ousts_below cs p _ r0 q [] Hu H2 Hp). now rewrite app_nil_r. }
        assert (Hre : reaches q p).
        { exists p. split; [now apply steps_sym|]. exists []. now rewrite app_nil_r. }
        rewrite Es in Hx'. injection Hx' as <-. inversion Hc as [| |? ? ? ch pres kk _|]; subst x.
        destruct o as [w [a|z]| |[]|lo|uid yo]; try contradiction.
        -- destruct cs' as [|c cs'].
           2:{ exfalso. apply (cont_val_fail O i true (c :: cs') (OCont ch pres kk) w a 0); [discriminate|now symmetry]. }
           assert (Hput : g (put O (SCont i true []) (OCont ch pres kk) (ASet w (AVal a))) = true).
           { unfold put. cbn [apply] in *. unfold assign in *. cbn [s_info is_key andb] in *.
             destruct w; [destruct (e_rw i)|]; try discriminate; reflexivity. }
           rewrite Hput. split; [|reflexivity]. intros _. left. split; [exact I|]. auto.
        -- cbn. split; [|reflexivity]. intros _. left. split; [exact I|]. auto.
        -- cbn. split; [discriminate|]. intros [(Hb & _)|(_ & Hb)]; [contradiction|]. exfalso. apply Hb. right. split; auto.
        -- discriminate.
        -- discriminate.
      * assert (HnD : ~ (drops O cs kids p o q \/ hides O cs kids p o q)).
        { intros [[(_ & [(H & p1 & H1 & [z H2])|(r0 & H1 & H2)])|(q1 & k1 & q2 & H1 & H2)]|(_ & H & _)].
          - apply steps_len in H1. apply steps_len in Hq. rewrite H2, app_length in Hq. rewrite Ep, app_length in H1.
            destruct p'; [congruence|]. cbn in H1. lia.
          - exact (ousts_above cs p o r0 q q0 p' Hu H2 Ep Hq H1).
          - now apply (Hng q1 k1 q2).
          - apply steps_len in H. apply steps_len in Hq. rewrite Ep, app_length in H. destruct p'; [congruence|]. cbn in H. lia. }
        unfold marked in Hm. destruct (at_path kids q) as [[]|] eqn:Hxq; try contradiction; rewrite Hx' in Hm; destruct x'; try contradiction.
        destruct Hm as [_ Hpres]. cbn [g].
        destruct (base_events O s x o) as [|ev evs] eqn:Hb.
        -- cbn in Hpres. subst. split.
           ++ intros Hgx. right. split; [|exact HnD]. eexists. split; [reflexivity|exact Hgx].
           ++ intros [(Hw & _)|((x0 & [= <-] & Hgx) & _)]; [|exact Hgx]. exfalso. now apply (HB4 Hw eq_refl).
        -- cbn in Hpres. rewrite orb_true_r in Hpres. subst. split; [|reflexivity]. intros _. left.
           split; [apply HB2; discriminate|]. split; [|reflexivity]. exists q0. split; [exact Hq|]. now exists p'.
      * congruence.
    + intros Hn. split; [left; now apply (drop_gone cs kids p o q _ Hs Hsq)|].
      intros (_ & (q1 & Hq1 & [z Hz]) & _).
      destruct Hf as [Es _ Hno|Es _|x _ _ _ Es _ _|s x q0 p' Ep Hp' Hq Hsp Hxp Hcx Hm _ _ _|_ Hno]; try congruence.
      * apply (Hno eq_refl q1 z); auto.
      * unfold marked in Hm. rewrite Hn in Hm. destruct (at_path kids q) as [[]|]; contradiction.
      * apply (Hno q1 z); auto.
Qed.

(** What one operation of a history does to everything else. *)
Theorem op_effect cs os p o kids' r : uniform cs -> even_keys cs ->
  Forall (fun po => plain_op (snd po)) (os ++ [(p, o)]) -> new_uids O cs (os ++ [(p, o)]) ->
  let kids := module_run O cs (module_new O cs) os in
  module_exec O cs kids p o = (kids', r) ->
  (forall q, apart p q -> at_path kids' q = at_path kids q \/
     exists t s, prefix t q /\ ousts cs p o t /\ schema_at cs t = Some s /\ at_path kids' t = Some (fresh O s)) /\
  (forall q, prefix q p -> q <> [] -> q <> p -> at_path kids p <> None ->
     (writes cs p o -> r = Ok tt -> on_the_way (at_path kids q) (at_path kids' q)) /\
     (~ writes cs p o -> flags_kept (at_path kids q) (at_path kids' q))) /\
  (forall t s, r = Ok tt -> ousts cs p o t -> schema_at cs t = Some s -> at_path kids t <> None -> at_path kids' t = Some (fresh O s)).
Proof.
  intros Hu Hpk Hpl Hnu kids Hex.
  assert (Hs : shaped cs kids) by (apply module_run_shaped, fresh_shaped).
  assert (Hpl2 := Hpl). apply Forall_app in Hpl2 as [Hpl1 Hpo]. inversion Hpo as [|? ? Hpo' _]; subst. cbn [snd] in Hpo'.
  assert (Htd : Forall tidy kids) by now apply tidy_history.
  assert (Hmiss : forall e, module_exec O cs kids p o = (kids, Raise e) -> kids' = kids /\ r = Raise e) by (intros e E; rewrite E in Hex; now injection Hex).
  assert (Hq : forall q, prefix q p -> q <> [] -> at_path kids p <> None -> q <> p -> flags_kept (at_path kids q) (at_path kids q)).
  { intros q [z Hz] _ Hp Hqp. unfold at_path in *. rewrite Hz, node_app in Hp.
    destruct (node (OCont false false kids) q) as [x|] eqn:Hn; [|congruence].
    destruct z as [|a z]; [exfalso; apply Hqp; now rewrite Hz, app_nil_r|].
    destruct x; cbn; auto; destruct a; cbn in Hp; congruence. }
  destruct (at_path kids p) as [x|] eqn:Hx.
  2:{ destruct (module_exec_missing O cs kids p o Hs (or_intror Hx)) as (e & E). destruct (Hmiss e E) as [-> ->].
      split; [auto|]. split; [intros q _ _ _ H; congruence|discriminate]. }
  destruct (at_path_conf cs kids p x Hs Hx) as (s & Hsc & Hcx).
  destruct (existing_dec O cs kids p o s Hs Hsc) as [(e & E)|(He & _)].
  { destruct (Hmiss e E) as [-> ->]. split; [auto|]. split; [|discriminate]. intros q H1 H2 H3 H4. split; [discriminate|]. intros _. now apply Hq. }
  destruct (module_exec_ok O cs kids p o s x Hs He Hsc Hx) as (evs & R). rewrite Hex in R. cbn [fst snd] in R.
  assert (Hnn : names_new kids p s o).
  { intros uid yo i od cs' -> Ha ->. eapply Hnu; [reflexivity|exact Ha|exact Hsc]. }
  destruct (plain_base cs kids p s x o Hu Htd Hpk Hsc Hx Hcx Hpo' Hnn) as (B1 & B2 & B4).
  pose proof (uniform_clash false cs p s _ Hu Hsc B1) as Hcf.
  pose proof (run_out O _ _ _ _ _ _ _ _ _ _ R) as Hr.
  split; [|split].
  - intros q Ha. destruct (run_frame O _ _ _ _ _ _ _ _ _ _ R Hs q Ha) as [E|(r0 & Hp0 & Hreset)]; [now left|right].
    destruct Hreset as (s0 & c & k & k' & (H2 & Hl) & Hf & Hs0 & Hts & Hne & Hfr & Hsrc). exists r0, s0. split; [exact Hp0|].
    split; [|auto]. split.
    { apply B2. destruct Hsrc as [Hin|(t & st & _ & _ & _ & _ & Hb & _)]; [|exact Hb]. intros E. rewrite E in Hin. exact Hin. }
    destruct Hsrc as [Hin|(t & st & T1 & T2 & T3 & T4 & _ & i & pr & cs' & T5)].
    + exists s0, c, k', p, s, k. split; [auto|]. split; [exact Hf|]. split; [exact Hs0|]. split; [exact Hts|].
      split; [exists []; now rewrite app_nil_r|]. split; [exact Hl|]. split; [exact Hsc|].
      split; [exact (own_tags_in _ _ B1 _ _ Hin)|]. split; [exact Hne|]. destruct s; auto.
    + exists s0, c, k', t, st, k. split; [auto|]. split; [exact Hf|]. split; [exact Hs0|]. split; [exact Hts|].
      split; [exact T1|]. split; [exact T2|]. split; [exact T3|]. split; [exact T4|]. split; [exact Hne|]. now rewrite T5.
  - intros q H1 H2 H3 _. pose proof (run_above O _ _ _ _ _ _ _ _ _ _ R Hs Hcf q H1 H2 H3) as Hm. split.
    + intros Hw Hok. eapply way_marked; [|exact Hm]. intros Eb. rewrite Hok in Hr. pose proof (B4 Hw (eq_sym Hr)) as Hbin. now rewrite Eb in Hbin.
    + intros Hnw. destruct (base_events O s x o) as [|ev l] eqn:Hb; [|exfalso; apply Hnw, B2; discriminate].
      unfold marked in Hm. destruct (at_path kids q) as [[]|]; try contradiction; destruct (at_path kids' q) as [[]|]; try contradiction;
        destruct (schema_at cs q) as [[]|]; try contradiction; destruct Hm as [-> Hm]; cbn in *; auto.
  - intros r0 s0 Hok (Hw & s1 & c & k' & t & st & k & H2 & Hf & Hs1 & Hts & Ht & Hl & Hst & Htt & Hne & Hkind) Hs0 Hy.
    rewrite Hs1 in Hs0. injection Hs0 as ->.
    rewrite Hok in Hr. pose proof (B4 Hw (eq_sym Hr)) as Hbin. assert (Hbne : base_events O s x o <> []) by (intros Eb; now rewrite Eb in Hbin).
    eapply (run_resets O _ _ _ _ _ _ _ _ _ _ R Hs Hu B1 Hbne r0 s0 t st c k k'); eauto.
    destruct (prefix_full t p Ht) as [->|Hlt].
    + rewrite Hsc in Hst. injection Hst as <-. right. now rewrite <- Htt.
    + assert (Htp : t <> p) by (intros ->; lia). destruct st as [| |i pr cs'|]; try (now left).
      * exfalso. apply Htp. eapply leaf_on_way; eauto; exact I.
      * exfalso. apply Htp. eapply leaf_on_way; eauto; exact I.
Qed.
End T.
