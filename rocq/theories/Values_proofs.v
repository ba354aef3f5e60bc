(** Every value in a tree came out of the type of its node. *)
From Verif Require Import PyStr PyStr_facts PyVal Restricted Spec_Lists TypedList TypedList_proofs YList YList_proofs Tree Spec_Tree Tree_proofs.
From Coq Require Import Lia.
Import ListNotations.

Section T.
Context (O : oracle).

Inductive grown : schema -> obj -> Prop :=
| GrLeaf i lt d y k v : (exists a, d_out (leaf_assign O lt a) = Ok v) -> grown (SLeaf i lt d y k) (OLeaf true v)
| GrBlank i lt d y k : grown (SLeaf i lt d y k) (fresh O (SLeaf i lt d y k))
| GrLeafList i ts y ch l : Forall (fun w => exists a, member_value O ts a = Some w) l -> grown (SLeafList i ts y) (OLeafList ch l)
| GrCont i pr cs ch pres kids : Forall2 grown cs kids -> grown (SCont i pr cs) (OCont ch pres kids)
| GrList i keys od cs ch es :
    Forall (fun e => grown (entry_schema cs) (snd e)) es -> grown (SList i keys od cs) (OList ch es).

Lemma fresh_grown s : grown s (fresh O s).
Proof.
  induction s using schema_ind'; cbn [fresh].
  - apply GrBlank.
  - constructor. constructor.
  - constructor. induction H; cbn; constructor; auto.
  - constructor. constructor.
Qed.
Lemma fresh_growns cs : Forall2 grown cs (map (fresh O) cs).
Proof. induction cs; constructor; auto using fresh_grown. Qed.
Lemma clear_grown cs kids ev : Forall2 grown cs kids -> Forall2 grown cs (clear O cs kids ev).
Proof. induction 1; cbn; constructor; auto. destruct (other_case ev x); auto using fresh_grown. Qed.
Lemma clears_grown cs evs : forall kids, Forall2 grown cs kids -> Forall2 grown cs (clears O cs kids evs).
Proof. unfold clears. induction evs; cbn; intros; auto using clear_grown. Qed.
Lemma stepc_grown live cs kids evs : Forall2 grown cs kids -> Forall2 grown cs (stepc O live cs kids evs).
Proof. destruct live; cbn; auto using clears_grown. Qed.
Lemma absorb_grown live cs kids n f s :
  Forall2 grown cs kids -> nth_error cs n = Some s -> (forall x, f_new f = Some x -> grown s x) ->
  Forall2 grown cs (absorb O live cs kids n f).
Proof.
  intros H Hn Hf. rewrite absorb_eq. apply stepc_grown.
  destruct (f_new f); [|auto using stepc_grown].
  eapply Forall2_set_nth; eauto. apply stepc_grown; auto.
Qed.

(* ------------------------------------------------------------------ leaf-lists *)
Definition from (ts : list pty) (w : pyval) : Prop := exists a, member_value O ts a = Some w.
Lemma check_from ts u l v w : tl_check O ts u l v = Ok w -> from ts w.
Proof.
  unfold tl_check. destruct (u && py_in v l); [discriminate|]. destruct (member_value O ts v) as [w'|] eqn:E; [|discriminate].
  intros H. injection H as <-. exists v. exact E.
Qed.
Lemma build_from ts u : forall vs tmp l, Forall (from ts) tmp -> tl_build O ts u tmp vs = Ok l -> Forall (from ts) l.
Proof.
  induction vs as [|v vs IH]; cbn; intros tmp l H E; [injection E as <-; exact H|].
  destruct (u && py_in v tmp); [eauto|]. destruct (tl_check O ts u [] v) as [w|] eqn:Ew; cbn in E; [|discriminate].
  eapply IH; [|exact E]. apply Forall_app. split; [exact H|]. constructor; [|constructor]. eapply check_from; eauto.
Qed.
Lemma init_from ts u v l : tl_init O ts u v = Ok l -> Forall (from ts) l.
Proof.
  unfold tl_init. assert (One : forall v, (w <- tl_check O ts u [] v ;; Ok [w]) = Ok l -> Forall (from ts) l).
  { intros v0 H. destruct (tl_check O ts u [] v0) as [w|] eqn:Ew; cbn in H; [|discriminate]. injection H as <-.
    constructor; [|constructor]. eapply check_from; eauto. }
  destruct v; try apply One. apply build_from. constructor.
Qed.
Lemma append_from ts u l v : Forall (from ts) l -> Forall (from ts) (fst (tl_append O ts u l v)).
Proof.
  unfold tl_append. destruct (u && py_in v l); [auto|]. intros H. destruct (tl_check O ts u l v) as [w|] eqn:Ew; cbn; [|exact H].
  apply Forall_app. split; [exact H|]. constructor; [|constructor]. eapply check_from; eauto.
Qed.
Lemma extend_from ts u vs : forall l, Forall (from ts) l -> Forall (from ts) (fst (tl_extend O ts u l vs)).
Proof.
  induction vs as [|v vs IH]; cbn; intros l H; [exact H|]. assert (H1 := append_from ts u l v H).
  destruct (tl_append O ts u l v) as [l' [[]|e]]; cbn in *; auto.
Qed.
Lemma skipn_Forall {A} (P : A -> Prop) n : forall l, Forall P l -> Forall P (skipn n l).
Proof. induction n; intros [|x l] H; cbn; auto. inversion H; auto. Qed.
Lemma firstn_Forall {A} (P : A -> Prop) n : forall l, Forall P l -> Forall P (firstn n l).
Proof. induction n; intros [|x l] H; cbn; auto. inversion H; subst. constructor; auto. Qed.
Lemma delete_Forall {A} (P : A -> Prop) n l : Forall P l -> Forall P (list_delete n l).
Proof. intros H. apply Forall_app. split; [now apply firstn_Forall|now apply skipn_Forall]. Qed.
Lemma op_from ts u l o : Forall (from ts) l -> Forall (from ts) (fst (tl_op O ts u l o)).
Proof.
  intros H. assert (Ins : forall i v, Forall (from ts) (fst (tl_insert O ts u l i v))).
  { intros i v. unfold tl_insert. destruct (tl_check O ts u l v) as [w|] eqn:Ew; cbn; [|exact H].
    apply Forall_app. split; [now apply firstn_Forall|]. constructor; [eapply check_from; eauto|now apply skipn_Forall]. }
  destruct o; cbn [tl_op]; auto using append_from, extend_from.
  - destruct (index_pos _ _); cbn; auto using delete_Forall.
  - destruct (index_pos _ _); cbn; auto using delete_Forall.
  - destruct (find_eq _ _); cbn; auto using delete_Forall.
  - constructor.
Qed.

(* ------------------------------------------------------------------ setters *)
Lemma set_leaf_grown i lt d y k v x : f_new (set_leaf O i lt v) = Some x -> grown (SLeaf i lt d y k) x.
Proof. unfold set_leaf. intros H. apply setter_new in H.
  destruct (d_out (leaf_assign O lt v)) eqn:E; cbn in H; [injection H as <-|discriminate]. constructor. eauto. Qed.

Lemma copy_grown cs : Forall (fun s => forall x y, f_new (set_obj O s x) = Some y -> grown s y) cs ->
  forall cs' pre src kids, cs = pre ++ cs' -> Forall2 grown cs kids ->
  Forall2 grown cs (fst (fst (copy_kids O cs (length pre) cs' src kids))).
Proof.
  intros HF. induction cs' as [|s cs' IH]; intros pre src kids Hcs Hk; [destruct src; auto|].
  assert (Hpre : cs = (pre ++ [s]) ++ cs') by (rewrite <- app_assoc; auto).
  assert (Hlen : S (length pre) = length (pre ++ [s])) by (rewrite app_length; cbn; lia).
  destruct src as [|x src]; auto. cbn [copy_kids].
  destruct (o_changed x).
  - set (f := set_obj O s x). set (kids1 := absorb O true cs kids (length pre) f).
    assert (Hn : nth_error cs (length pre) = Some s).
    { rewrite Hcs, nth_error_app2, Nat.sub_diag by lia. reflexivity. }
    assert (Hk1 : Forall2 grown cs kids1).
    { eapply absorb_grown; eauto. intros y Hy. rewrite Forall_forall in HF. eapply HF; eauto.
      rewrite Hcs. apply in_or_app; right; left; auto. }
    destruct (f_out f); auto.
    specialize (IH (pre ++ [s]) src kids1 Hpre Hk1). rewrite <- Hlen in IH.
    fold (copy_kids O cs) in *. destruct (copy_kids O cs (S (length pre)) cs' src kids1) as [[k e] r]. exact IH.
  - specialize (IH (pre ++ [s]) src kids Hpre Hk). rewrite <- Hlen in IH. exact IH.
Qed.

Lemma set_obj_grown s : forall x y, f_new (set_obj O s x) = Some y -> grown s y.
Proof.
  induction s as [i lt d yt k|i ts yt|i pr cs HF|i ks od cs HF] using schema_ind'; intros x y H.
  - destruct x; cbn in H; try discriminate. eapply set_leaf_grown; eauto.
  - destruct x; cbn [set_obj no_effect f_new] in H; try discriminate. apply setter_new in H.
    destruct (tl_check O ts true [] (VList l)) eqn:E; cbn [bind] in H; [injection H as <-|discriminate]. constructor.
    constructor; [|constructor]. eapply check_from; eauto.
  - assert (Hc := copy_grown cs HF cs []).
    destruct x as [? ?|? ?|ch ps src|? ?].
    1,2,4: destruct cs; cbn [set_obj] in H; apply setter_new in H; try discriminate; inversion H; subst; constructor; constructor.
    rewrite set_obj_cont in H. specialize (Hc src (map (fresh O) cs) eq_refl (fresh_growns cs)). cbn [length] in Hc.
    destruct (copy_kids O cs 0 cs src (map (fresh O) cs)) as [[kk e] r]. apply setter_new in H.
    destruct r; cbn in H; [injection H as <-|discriminate]. constructor. exact Hc.
  - destruct x; cbn [set_obj] in H; apply setter_new in H; inversion H; subst; constructor; constructor.
Qed.

Lemma set_any_grown s a y : f_new (set_any O s a) = Some y -> grown s y.
Proof.
  destruct a as [v|x].
  - destruct s as [i lt d yt k|i ts yt|i pr cs|i ks od cs]; cbn [set_any]; intros H.
    + eapply set_leaf_grown; eauto.
    + apply setter_new in H. destruct (tl_init O ts true v) eqn:E; cbn [bind] in H; [injection H as <-|discriminate]. constructor.
      eapply init_from; eauto.
    + destruct cs; apply setter_new in H; [injection H as <-|discriminate]. constructor; constructor.
    + apply setter_new in H. injection H as <-. constructor; constructor.
  - destruct s; [| |destruct cs|]; apply set_obj_grown.
Qed.

Lemma assign_grown s w a y : f_new (assign O s w a) = Some y -> grown s y.
Proof. unfold assign. destruct w; [destruct (e_rw (s_info s))|]; try destruct (is_key s && _); cbn; try discriminate; apply set_any_grown. Qed.

Lemma fill_grown cs kd : forall kids, Forall2 grown cs kids -> Forall2 grown cs (fst (fst (fill_keys O cs kids kd))).
Proof.
  induction kd as [|[n v] kd IH]; cbn; intros kids H; auto.
  destruct (kid_index n cs) as [j|]; auto. destruct (nth_error cs j) as [s|] eqn:Es; auto.
  assert (H1 : Forall2 grown cs (absorb O true cs kids j (set_any O s (AVal v)))).
  { eapply absorb_grown; eauto. intros; eapply set_any_grown; eauto. }
  destruct (f_out (set_any O s (AVal v))); auto.
  specialize (IH _ H1). destruct (fill_keys O cs _ kd) as [[k e] r]. auto.
Qed.
Lemma mk_entry_grown cs kd x : snd (mk_entry O cs kd) = Ok x -> grown (entry_schema cs) x.
Proof.
  unfold mk_entry. assert (H := fill_grown cs kd (map (fresh O) cs) (fresh_growns cs)).
  destruct (fill_keys O cs (map (fresh O) cs) kd) as [[k e] r]. cbn. destruct r; cbn; [|discriminate].
  intros E. injection E as <-. constructor. auto.
Qed.
Lemma set_objs_grown cs : Forall (fun s => forall x y, f_new (set_obj O s x) = Some y -> grown s y) cs.
Proof. apply Forall_forall. intros. eapply set_obj_grown; eauto. Qed.
Lemma copy_entry_grown cs a kd x : snd (copy_entry O cs a kd) = Ok x -> grown (entry_schema cs) x.
Proof.
  unfold copy_entry. destruct a as [? ?|? ?|ch ps src|? ?]; try discriminate.
  assert (Hc := copy_grown cs (set_objs_grown cs) cs [] src (map (fresh O) cs) eq_refl (fresh_growns cs)). cbn [length] in Hc.
  destruct (copy_kids O cs 0 cs src (map (fresh O) cs)) as [[k0 e0] r0]. destruct r0; [|discriminate].
  assert (H := fill_grown cs kd k0 Hc).
  destruct (fill_keys O cs k0 kd) as [[k e] r]. cbn. destruct r; cbn; [|discriminate].
  intros E. injection E as <-. constructor. auto.
Qed.
Lemma entry0_grown cs : grown (entry_schema cs) (OCont false false (map (fresh O) cs)).
Proof. constructor. apply fresh_growns. Qed.

Lemma list_op_grown keys cs uid es yo :
  Forall (fun e => grown (entry_schema cs) (snd e)) es ->
  Forall (fun e => grown (entry_schema cs) (snd e)) (fst (fst (list_op O keys cs uid es yo))).
Proof.
  intros H. unfold list_op.
  assert (Hst : forall k r, (forall x, snd r = Ok x -> grown (entry_schema cs) x) ->
    Forall (fun e => grown (entry_schema cs) (snd e)) (fst (fst (store (E:=event) k es r)))).
  { intros k [ev [x|e]] Hr; cbn; auto. apply mput_conf; auto. }
  assert (Hadd : forall k, Forall (fun e => grown (entry_schema cs) (snd e))
     (fst (fst (yl_add keys (mk_entry O cs) (OCont false false (map (fresh O) cs)) uid es k)))).
  { intros k. unfold yl_add. destruct (hashable k); cbn [negb]; auto. destruct (mhas k es); auto.
    destruct keys as [|k0 ks] eqn:Ek; try rewrite <- Ek in *; [cbn; apply mput_conf; auto using entry0_grown|].
    destruct k; auto; match goal with |- context [key_dict ?a ?b] => destruct (key_dict a b) end; auto;
      apply Hst; intros; eapply mk_entry_grown; eauto. }
  assert (Hset : forall k a, Forall (fun e => grown (entry_schema cs) (snd e))
     (fst (fst (yl_set keys (copy_entry O cs) (OCont false false (map (fresh O) cs)) uid es k a)))).
  { intros k a. unfold yl_set.
    assert (Hk : forall k', Forall (fun e => grown (entry_schema cs) (snd e))
      (fst (fst (if negb (hashable k') then (es, @nil event, Raise TypeError)
        else match key_dict keys k' with Raise e => (es, [], Raise e) | Ok kd => store k' es (copy_entry O cs a kd) end)))).
    { intros k'. destruct (hashable k'); cbn [negb]; auto. destruct (key_dict keys k'); auto.
      apply Hst. intros; eapply copy_entry_grown; eauto. }
    destruct keys as [|k0 ks] eqn:Ek; try rewrite <- Ek in *.
    - destruct k; try (match goal with |- context [hashable ?a] => destruct (hashable a) end); cbn; auto; apply mput_conf; auto using entry0_grown.
    - destruct k; auto; apply Hk. }
  destruct yo as [k| |[|? ?]|k a|a|k|[|? ?]]; cbn [yl_op]; auto.
  - unfold yl_add_kw. destruct keys as [|k0 ks] eqn:Ek; try rewrite <- Ek in *; auto.
    destruct (kw_keys keys _); auto. destruct (mhas _ es); auto. apply Hst; intros; eapply mk_entry_grown; eauto.
  - destruct keys as [|k0 ks] eqn:Ek; try rewrite <- Ek in *; auto. destruct (extract_key O cs keys a); auto.
  - unfold yl_delete. destruct (hashable k); cbn [negb]; auto. destruct (mhas k es); cbn; auto using mdel_conf.
  - unfold yl_delete. cbn [hashable negb]. destruct (mhas _ es); cbn; auto using mdel_conf.
  - destruct keys as [|k0 ks] eqn:Ek; try rewrite <- Ek in *; auto. destruct (kw_keys keys _); auto.
    unfold yl_delete. cbn [hashable negb]. destruct (mhas _ es); cbn; auto using mdel_conf.
Qed.

Lemma apply_grown s x o y : grown s x -> f_new (apply O s x o) = Some y -> grown s y.
Proof.
  intros Hx. destruct o as [w a| |b|lo|uid yo]; cbn [apply].
  - apply assign_grown.
  - cbn. intros E. injection E as <-. apply fresh_grown.
  - destruct Hx; cbn; try discriminate. destruct b; cbn; intros E; injection E as <-; constructor; auto.
  - destruct Hx; cbn; try discriminate. assert (Hl := op_from ts true l lo H). destruct (tl_op O ts true l lo). cbn. intros E; injection E as <-.
    constructor. exact Hl.
  - destruct Hx; cbn; try discriminate. assert (Hc := list_op_grown keys cs uid es yo H).
    destruct (list_op O keys cs uid es yo) as [[es' evs] r]. cbn. intros E; injection E as <-. constructor. auto.
Qed.

Lemma exec_grown_len N : forall p live cs kids o, (length p <= N)%nat ->
  Forall2 grown cs kids -> Forall2 grown cs (fst (fst (exec O live cs kids p o))).
Proof.
  induction N as [|N IH]; intros p live cs kids o HN Hk.
  - destruct p; [exact Hk|cbn in HN; lia].
  - destruct p as [|[n|k] p']; [exact Hk| |exact Hk].
    destruct (nth_error cs n) as [s|] eqn:Es; [|cbn; rewrite Es; exact Hk].
    destruct (Forall2_nth _ _ _ _ _ Hk Es) as (x & Ex & Hx).
    rewrite (exec_kid O live cs kids n p' o s x Es Ex). cbn [fst].
    eapply absorb_grown; eauto. intros y Hy. cbn in HN.
    destruct p' as [|[m|k] p'']; cbn [down] in Hy.
    + eapply apply_grown; eauto.
    + destruct Hx; try discriminate.
      assert (H1 := IH (Kid m :: p'') true cs0 kids0 o ltac:(lia) H).
      destruct (exec O true cs0 kids0 (Kid m :: p'') o) as [[k' e] r]. cbn in Hy. injection Hy as <-. constructor; auto.
    + destruct Hx; try discriminate. destruct (mget k es) as [ent|] eqn:Em; [|discriminate].
      assert (Hent := mget_conf _ _ _ _ H Em). cbn in Hent.
      inversion Hent as [| | |? ? ? ? ? kids0 Hkids E1 E2|]; subst.
      assert (H1 := IH p'' true cs0 kids0 o ltac:(cbn in HN; lia) Hkids).
      destruct (exec O true cs0 kids0 p'' o) as [[k' e] r]. cbn in Hy. injection Hy as <-. constructor.
      apply mput_conf; auto. constructor. auto.
Qed.
Lemma run_grown cs os : forall kids, Forall2 grown cs kids -> Forall2 grown cs (module_run O cs kids os).
Proof. induction os as [|[p o] os IH]; cbn; intros kids H; auto. apply IH.
  unfold module_exec. assert (H1 := exec_grown_len (length p) p false cs kids o (le_n _) H).
  destruct (exec O false cs kids p o) as [[k e] r]. auto. Qed.

(** At a path. *)
Lemma grown_node p : forall s x t y, grown s x -> sub s p = Some t -> node x p = Some y -> grown t y.
Proof.
  induction p as [|[n|k] p IH]; intros s x t y H Hs Hn.
  - cbn in *. congruence.
  - destruct H; cbn in Hs, Hn; try discriminate.
    destruct (nth_error cs n) as [s'|] eqn:Es; [|discriminate]. destruct (Forall2_nth _ _ _ _ _ H Es) as (x' & Ex & Hx).
    rewrite Ex in Hn. eauto.
  - destruct H; cbn in Hs, Hn; try discriminate.
    destruct (mget k es) as [e|] eqn:Em; [|discriminate]. assert (He := mget_conf _ _ _ _ H Em). eauto.
Qed.
End T.
