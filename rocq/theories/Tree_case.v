(** At most one case of a choice holds data: histories with list operations. *)
From Verif Require Import PyStr PyStr_facts PyVal Restricted Spec_Lists TypedList TypedList_proofs YList YList_proofs
  Tree Spec_Tree Tree_proofs Tree_frame Tree_main Tree_dump Tree_hist Tree_tell Tree_choice Tree_past.
From Coq Require Import Lia.
Import ListNotations.

Section T.
Context (O : oracle).

Lemma del_op_fate keys cs uid es yo es' evs r : match yo with YDelete _ | YDeleteKw _ => True | _ => False end -> kdist es ->
  list_op O keys cs uid es yo = (es', evs, r) -> entry_fate O keys cs es es' /\ evs = [].
Proof.
  intros Hp Hd H. unfold list_op in H. destruct yo as [k| |kw|k a|a|k|kw]; try contradiction; cbn [yl_op] in H.
  - exact (del_fate O keys cs _ _ _ _ _ Hd H).
  - destruct kw as [|nv kw]; [exact (del_fate O keys cs _ _ _ _ _ Hd H)|].
    assert (Triv : (es', evs) = (es, []) -> entry_fate O keys cs es es' /\ evs = []).
    { intros E. injection E as -> ->. split; [intros k0; now left|reflexivity]. }
    destruct (list_eq_dec (list_eq_dec N.eq_dec) keys []) as [Ek|Ek]; [rewrite Ek in H; injection H as <- <- <-; now apply Triv|].
    assert (Hm : forall A (a b : A), match keys with [] => a | _ => b end = b) by (destruct keys; [now contradiction Ek|reflexivity]). rewrite Hm in H.
    destruct (kw_keys keys (nv :: kw)) as [kd|] eqn:Ed; [|injection H as <- <- <-; now apply Triv].
    exact (del_fate O keys cs _ _ _ _ _ Hd H).
Qed.

(** Without events nothing is added. *)
Lemma store_quiet k es (r0 : list event * res obj) es' evs r : store k es r0 = (es', evs, r) ->
  es' = es \/ exists a, r0 = (evs, Ok a) /\ r = Ok tt.
Proof. destruct r0 as [ev [a|e]]; cbn; intros H; injection H as <- <- <-; eauto. Qed.
Lemma add_raise keys cs uid es yo es' evs e : match yo with YAdd _ | YAddNone | YAddKw _ => True | _ => False end -> keys <> [] ->
  list_op O keys cs uid es yo = (es', evs, Raise e) -> es' = es.
Proof.
  intros Hp Hk H. unfold list_op in H.
  assert (Hadd : forall k, yl_add keys (mk_entry O cs) (OCont false false (map (fresh O) cs)) uid es k = (es', evs, Raise e) -> es' = es).
  { intros k. unfold yl_add. destruct (negb _); [now intros [= <- _ _]|]. destruct (mhas k es); [now intros [= <- _ _]|].
    destruct keys as [|n ns]; [now contradiction Hk|]. destruct k; try (now intros [= <- _ _]);
      (destruct (key_dict _ _); [|now intros [= <- _ _]]); intros H1; destruct (store_quiet _ _ _ _ _ _ H1) as [|(a0 & _ & H2)]; auto; discriminate. }
  destruct yo as [k| |kw|k a|a|k|kw]; try contradiction; cbn [yl_op] in H; eauto.
  destruct kw as [|nv kw]; eauto. unfold yl_add_kw in H. destruct keys as [|n ns]; [now contradiction Hk|].
  destruct (kw_keys _ _); [|now injection H as <- _ _]. destruct (mhas _ es); [now injection H as <- _ _|].
  destruct (store_quiet _ _ _ _ _ _ H) as [|(a0 & _ & H2)]; auto; discriminate.
Qed.
Lemma add_quiet keys cs uid es yo es' evs r : match yo with YAdd _ | YAddNone | YAddKw _ => True | _ => False end -> keys <> [] ->
  list_op O keys cs uid es yo = (es', evs, r) -> evs = [] -> es' = es.
Proof.
  intros Hp Hk H E.
  assert (Hc : r = Ok tt -> creating keys yo -> False).
  { intros -> Hc. apply (add_events O keys cs uid es yo es' evs); auto. destruct yo; try contradiction; exact Hc. }
  destruct r as [[]|e]; [|now apply (add_raise keys cs uid es yo es' evs e)].
  destruct yo as [k| |kw|k a|a|k|kw]; try contradiction; try (exfalso; apply Hc; [reflexivity|exact Hk]).
  exfalso. unfold list_op in H. cbn [yl_op] in H. unfold yl_add in H. destruct (negb _); [discriminate|]. destruct (mhas _ es); [discriminate|].
  destruct keys as [|n ns]; [now contradiction Hk|]. discriminate.
Qed.

Lemma mget_some (es : list (pyval * obj)) : kdist es -> es <> [] -> exists k a, mget k es = Some a.
Proof.
  intros _. destruct es as [|[k a] es]; [congruence|]. intros _. exists k, a. cbn. now rewrite py_eq_refl.
Qed.

Lemma young_excl keys cs tg a : (forall n s, nth_error cs n = Some s -> In (e_py (s_info s)) keys ->
    exists i' lt d y k, s = SLeaf i' lt d y k /\ e_choice i' = tg) ->
  (forall n s, nth_error cs n = Some s -> tg <> None -> s_tag s = None \/ s_tag s = tg) ->
  young O keys cs a -> conf (entry_schema cs) a -> excl (entry_schema cs) a.
Proof.
  intros Hlk Hkk (b & kk & -> & Hy) Hc. inversion Hc as [| |? ? ? ? ? ? Hf|]; subst. unfold entry_schema. constructor.
  - intros m n s1 s2 x1 x2 c k1 k2 H1 H2 H3 H4 T1 T2 Hne (D1 & _).
    assert (Hn : ~ In (e_py (s_info s1)) keys).
    { intros Hin. destruct (Hlk m s1 H1 Hin) as (i' & lt & d & y & k & -> & E). unfold s_tag in T1. cbn in T1. rewrite E in T1.
      destruct (Hkk n s2 H2) as [T|T]; congruence. }
    rewrite (Hy m s1 H1 Hn) in H3. injection H3 as <-. apply D1, fresh_nodata.
  - apply Forall2_of_nth; [clear - Hf; induction Hf; cbn; auto|]. intros n s x Hs Hx.
    destruct (in_dec (list_eq_dec N.eq_dec) (e_py (s_info s)) keys) as [Hin|Hn].
    + destruct (Hlk n s Hs Hin) as (i' & lt & d & y & k & -> & E).
      destruct (Forall2_nth _ _ _ _ _ Hf Hs) as (z & Hz & Hcz). rewrite Hx in Hz. injection Hz as <-. inversion Hcz; subst. constructor.
    + rewrite (Hy n s Hs Hn) in Hx. injection Hx as <-. apply fresh_excl.
Qed.

Lemma list_choice cs kids p i keys od cs' x uid yo : uniform cs -> leaf_keys cs -> Forall tidy kids ->
  schema_at cs p = Some (SList i keys od cs') -> at_path kids p = Some x -> case_op cs p (AList uid yo) ->
  conf (SList i keys od cs') x -> excl (SList i keys od cs') x ->
  let s := SList i keys od cs' in let o := AList uid yo in
  (forall y, f_new (apply O s x o) = Some y -> excl s y) /\
  ((forall tg, s_tag s = Some tg -> In (Some tg) (base_events O s x o) \/
      (forall y, f_new (apply O s x o) = Some y -> has_data s y -> has_data s x)) /\
   (base_events O s x o = [] -> forall y, f_new (apply O s x o) = Some y -> has_data s y -> has_data s x)) /\
  (forall c k, In (Some (c, k)) (base_events O s x o) -> s_tag s = Some (c, k)).
Proof.
  intros Hun Hlk Ht Hsc Hx (Hpo & Hco) Hc He. cbv zeta. inversion Hc as [| | |? ? ? ? ch es Hes]; subst.
  inversion He as [| | |? ? ? ? ? ? Hent]; subst.
  assert (Hd : kdist es) by (pose proof (tidy_at kids p _ Ht Hx) as H; now inversion H).
  assert (Hlk' : forall n s, nth_error cs' n = Some s -> In (e_py (s_info s)) keys ->
      exists i' lt d y k, s = SLeaf i' lt d y k /\ e_choice i' = e_choice i) by (intros n s; exact (Hlk p i keys od cs' n s Hsc)).
  assert (Hpk : forall n s, nth_error cs' n = Some s -> In (e_py (s_info s)) keys -> s_tag s = e_choice i).
  { intros n s H1 H2. destruct (Hlk' n s H1 H2) as (i' & lt & d & y & k & -> & E). exact E. }
  unfold base_events. cbn [apply]. pose proof (list_op_conf O keys cs' uid es yo Hes) as Hes'.
  destruct (list_op O keys cs' uid es yo) as [[es' evs] r] eqn:El. cbn [fst] in Hes'.
  assert (Hy : yl_notifies yo = false) by (destruct yo; try contradiction; reflexivity). rewrite Hy.
  cbn [f_pre f_post f_new app].
  assert (Hkk := entry_tags cs p i keys od cs' Hun Hsc).
  assert (Hfate : entry_fate O keys cs' es es' /\ (forall e, In e evs -> e = None \/ e = e_choice i) /\
    match yo with YDelete _ | YDeleteKw _ => True | _ => r = Ok tt -> In (e_choice i) evs end).
  { destruct yo as [k| |kw|k a|a|k|kw]; try contradiction.
    1-3: pose proof (Hco i keys od cs' Hsc) as Hk;
      match type of El with list_op _ _ _ _ _ ?yo = _ =>
        destruct (op_fate O keys cs' (e_choice i) uid es yo es' evs r Hpk Hkk I Hd (fun E => match Hk E with end) El) as (A & B & C & _) end; auto.
    1-2: match type of El with list_op _ _ _ _ _ ?yo = _ =>
        destruct (del_op_fate keys cs' uid es yo es' evs r I Hd El) as (A & ->) end; split; [exact A|split; [intros e []|exact I]]. }
  destruct Hfate as (Hfate & Hnone & Hin).
  split; [|split; [split|]].
  - intros y Hy1. injection Hy1 as <-. constructor. intros k z Hz.
    destruct (Hfate k) as [E|[E|(E & a & Ea & Hyo)]]; [rewrite E in Hz; eauto|congruence|].
    rewrite Hz in Ea. injection Ea as <-. apply (young_excl keys cs' (e_choice i)); auto.
    exact (mget_conf (conf (entry_schema cs')) k z es' Hes' Hz).
  - intros tg Htg. unfold s_tag in Htg. cbn in Htg.
    assert (Hq : In (Some tg) evs \/ (es = [] -> es' = [])).
    { destruct yo as [k| |kw|k a|a|k|kw]; try contradiction.
      1-3: destruct r as [[]|e]; [left; rewrite <- Htg; now apply Hin|right; intros ->];
        match type of El with list_op _ _ _ _ _ ?yo = _ =>
          exact (add_raise keys cs' uid [] yo es' evs e I (Hco i keys od cs' Hsc) El) end.
      all: right; intros ->; clear - El; unfold list_op in El; cbn [yl_op] in El.
      - unfold yl_delete in El. destruct (negb _); now injection El as <- _ _.
      - destruct kw as [|nv kw]; [unfold yl_delete in El; destruct (negb _); now injection El as <- _ _|].
        destruct keys; [now injection El as <- _ _|]. destruct (kw_keys _ _); [|now injection El as <- _ _].
        unfold yl_delete in El. destruct (negb _); now injection El as <- _ _. }
    destruct Hq as [Hq|Hq]; [left; exact Hq|right]. intros y Hy1. injection Hy1 as <-. unfold has_data. rewrite !get_list.
    intros D1. destruct es as [|e0 es0]; [|discriminate]. now rewrite (Hq eq_refl) in D1.
  - intros E. intros y Hy1. injection Hy1 as <-. unfold has_data. rewrite !get_list.
    intros D1. destruct es as [|e0 es0]; [|discriminate].
    assert (E' : es' = []).
    { destruct yo as [k| |kw|k a|a|k|kw]; try contradiction.
      1-3: pose proof (Hco i keys od cs' Hsc) as Hk; eapply add_quiet; eauto; exact I.
      all: clear - El; unfold list_op in El; cbn [yl_op] in El.
      - unfold yl_delete in El. destruct (negb _); now injection El as <- _ _.
      - destruct kw as [|nv kw]; [unfold yl_delete in El; destruct (negb _); now injection El as <- _ _|].
        destruct keys; [now injection El as <- _ _|]. destruct (kw_keys _ _); [|now injection El as <- _ _].
        unfold yl_delete in El. destruct (negb _); now injection El as <- _ _. }
    now subst.
  - intros c k Hi. destruct (Hnone _ Hi) as [E|E]; [discriminate|now rewrite E].
Qed.

Theorem one_case_past cs os : uniform cs -> leaf_keys cs -> Forall (fun po => case_op cs (fst po) (snd po)) os ->
  one_case cs (module_run O cs (module_new O cs) os).
Proof.
  intros Hu Hlk. induction os as [|[p o] os IH] using rev_ind; intros Ho; [apply new_one_case|].
  apply Forall_app in Ho as [Ho1 Ho2]. inversion Ho2 as [|? ? Hco _]; subst. cbn [fst snd] in Hco.
  specialize (IH Ho1). rewrite run_app. cbn [module_run].
  assert (Hpl : Forall (fun po => plain_op (snd po)) os).
  { eapply Forall_impl; [|exact Ho1]. intros po H. exact (proj1 H). }
  assert (Ht := tidy_history O cs os Hpl).
  assert (Hs : shaped cs (module_run O cs (module_new O cs) os)) by (apply module_run_shaped, fresh_shaped).
  remember (module_run O cs (module_new O cs) os) as kids. clear Heqkids.
  destruct (at_path kids p) as [x|] eqn:Hx.
  2:{ destruct (module_exec_missing O cs kids p o Hs (or_intror Hx)) as (e & ->). exact IH. }
  destruct (at_path_conf cs kids p x Hs Hx) as (s & Hsc & _).
  destruct (existing_dec O cs kids p o s Hs Hsc) as [(e & ->)|(He & _)]; [exact IH|].
  destruct (module_exec_ok O cs kids p o s x Hs He Hsc Hx) as (evs & R).
  apply excl_one_case. refine (proj1 (run_excl O _ _ _ _ _ _ _ _ _ _ R _ Hu Hs (one_case_all cs kids Hs IH) _)); [|discriminate].
  intros Hc Hex. destruct o as [w [v|z]| |b|lo|uid yo]; try (apply apply_choice'; auto; exact I).
  - exfalso. exact (proj1 Hco).
  - destruct s as [i lt d y k|i ts y|i pr cs'|i keys od cs'].
    4:{ exact (list_choice cs kids p i keys od cs' x uid yo Hu Hlk Ht Hsc Hx Hco Hc Hex). }
    all: inversion Hc; subst; unfold base_events; cbn [apply no_effect f_new f_pre f_post app];
      (split; [discriminate|]); (split; [|intros c0 k0 []]); (split; [right; discriminate|discriminate]).
Qed.
End T.
