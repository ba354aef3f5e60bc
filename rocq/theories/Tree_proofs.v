(** Lemmas about the object tree. *)
From Verif Require Import PyStr PyStr_facts PyVal Restricted Spec_Lists TypedList TypedList_proofs YList YList_proofs Tree Spec_Tree.
From Coq Require Import Lia.
Import ListNotations.

(* ------------------------------------------------------------------ induction over schemas *)
Section SchemaInd.
Context (P : schema -> Prop).
Context (Hleaf : forall i lt d y k, P (SLeaf i lt d y k)) (Hll : forall i ts y, P (SLeafList i ts y))
        (Hcont : forall i pr cs, Forall P cs -> P (SCont i pr cs))
        (Hlist : forall i ks od cs, Forall P cs -> P (SList i ks od cs)).
Fixpoint schema_ind' (s : schema) : P s :=
  let all := (fix all (l : list schema) : Forall P l :=
                match l with [] => Forall_nil _ | x :: l' => Forall_cons _ (schema_ind' x) (all l') end) in
  match s with
  | SLeaf i lt d y k => Hleaf i lt d y k
  | SLeafList i ts y => Hll i ts y
  | SCont i pr cs => Hcont i pr cs (all cs)
  | SList i ks od cs => Hlist i ks od cs (all cs)
  end.
End SchemaInd.

Section T.
Context (O : oracle).

(* ------------------------------------------------------------------ lists *)
Lemma set_nth_length {A} n (x : A) l : length (set_nth n x l) = length l.
Proof. revert n; induction l; destruct n; cbn; auto. Qed.
Lemma set_nth_same {A} n (x : A) l : (n < length l)%nat -> nth_error (set_nth n x l) n = Some x.
Proof. revert n; induction l; destruct n; cbn; intros; try lia; auto. apply IHl; lia. Qed.
Lemma set_nth_other {A} n m (x : A) l : n <> m -> nth_error (set_nth n x l) m = nth_error l m.
Proof. revert n m; induction l; destruct n, m; cbn; intros; auto; try congruence. Qed.
Lemma set_nth_id {A} n (x : A) l : nth_error l n = Some x -> set_nth n x l = l.
Proof. revert n; induction l; destruct n; cbn; intros; try congruence. f_equal; auto. Qed.
Lemma Forall2_nth {A B} (R : A -> B -> Prop) l l' n a :
  Forall2 R l l' -> nth_error l n = Some a -> exists b, nth_error l' n = Some b /\ R a b.
Proof. intros H; revert n; induction H; destruct n; cbn; intros; try discriminate; eauto.
  injection H1 as <-; eauto. Qed.
Lemma Forall2_nth' {A B} (R : A -> B -> Prop) l l' n b :
  Forall2 R l l' -> nth_error l' n = Some b -> exists a, nth_error l n = Some a /\ R a b.
Proof. intros H; revert n; induction H; destruct n; cbn; intros; try discriminate; eauto.
  injection H1 as <-; eauto. Qed.
Lemma Forall2_set_nth {A B} (R : A -> B -> Prop) l l' n a b :
  Forall2 R l l' -> nth_error l n = Some a -> R a b -> Forall2 R l (set_nth n b l').
Proof. intros H; revert n; induction H; destruct n; cbn; intros; try discriminate; constructor; auto.
  injection H1 as <-; auto. Qed.

(* ------------------------------------------------------------------ clearing *)
Definition hit (evs : list event) (s : schema) : bool := existsb (fun ev => other_case ev s) evs.

Lemma hit_app a b s : hit (a ++ b) s = hit a s || hit b s.
Proof. apply existsb_app. Qed.

Lemma clear_nth cs : forall kids ev n s x,
  nth_error cs n = Some s -> nth_error kids n = Some x ->
  nth_error (clear O cs kids ev) n = Some (if other_case ev s then fresh O s else x).
Proof. induction cs; intros [|y kids] ev [|n] s x; cbn; intros H1 H2; try discriminate.
  - injection H1 as ->. injection H2 as ->. reflexivity.
  - eauto. Qed.
Lemma clear_length cs : forall kids ev, length (clear O cs kids ev) = length kids.
Proof. induction cs; destruct kids; cbn; auto. Qed.
Lemma clears_length cs evs : forall kids, length (clears O cs kids evs) = length kids.
Proof. unfold clears. induction evs; cbn; intros; auto. rewrite IHevs, clear_length; auto. Qed.
Lemma clears_nth cs evs : forall kids n s x,
  nth_error cs n = Some s -> nth_error kids n = Some x ->
  nth_error (clears O cs kids evs) n = Some (if hit evs s then fresh O s else x).
Proof. unfold clears. induction evs as [|e evs IH]; cbn; intros kids n s x H1 H2; auto.
  erewrite IH; [|eassumption|eapply clear_nth; eassumption].
  unfold hit. destruct (other_case e s), (existsb (fun ev => other_case ev s) evs); reflexivity. Qed.
Lemma clears_beyond cs evs : forall kids n, nth_error kids n = None -> nth_error (clears O cs kids evs) n = None.
Proof. intros. apply nth_error_None. rewrite clears_length. apply nth_error_None; auto. Qed.
Lemma clears_nil cs kids : clears O cs kids [] = kids.
Proof. reflexivity. Qed.

Lemma hit_none_tag evs s : s_tag s = None -> hit evs s = false.
Proof. intros H. unfold hit. induction evs; cbn [existsb]; auto. rewrite IHevs. unfold other_case. rewrite H.
  destruct a as [[]|]; auto. Qed.
Lemma hit_ex evs s : hit evs s = true -> exists c k k', In (Some (c, k)) evs /\ s_tag s = Some (c, k') /\ k <> k'.
Proof. intros H. apply existsb_exists in H as (ev & Hin & H). unfold other_case in H.
  destruct ev as [[c k]|]; [|discriminate]. destruct (s_tag s) as [[c' k']|]; [|discriminate].
  apply andb_true_iff in H as [H1 H2]. apply str_eqb_eq in H1 as ->.
  exists c', k, k'. repeat split; auto. intros ->. rewrite str_eqb_refl in H2. discriminate. Qed.
Lemma hit_own s : hit [s_tag s] s = false.
Proof. unfold hit. cbn. unfold other_case. destruct (s_tag s) as [[c k]|]; auto.
  rewrite !str_eqb_refl. reflexivity. Qed.
Lemma hit_none s : hit [None] s = false.
Proof. reflexivity. Qed.

Definition stepc (live : bool) cs kids evs := if live then clears O cs kids evs else kids.
Lemma absorb_eq live cs kids n f :
  absorb O live cs kids n f =
  stepc live cs (match f_new f with Some x => set_nth n x (stepc live cs kids (f_pre f))
                 | None => stepc live cs kids (f_pre f) end) (f_post f).
Proof. reflexivity. Qed.
Lemma stepc_length live cs kids evs : length (stepc live cs kids evs) = length kids.
Proof. destruct live; cbn; auto using clears_length. Qed.
Lemma stepc_nth live cs kids evs n s x :
  nth_error cs n = Some s -> nth_error kids n = Some x ->
  nth_error (stepc live cs kids evs) n = Some (if live && hit evs s then fresh O s else x).
Proof. destruct live; cbn; auto using clears_nth. Qed.
Lemma absorb_length live cs kids n f : length (absorb O live cs kids n f) = length kids.
Proof. rewrite absorb_eq, stepc_length. destruct (f_new f); rewrite ?set_nth_length, stepc_length; auto. Qed.

Lemma absorb_other live cs kids n m f s x : n <> m ->
  nth_error cs m = Some s -> nth_error kids m = Some x ->
  nth_error (absorb O live cs kids n f) m = Some (if live && hit (f_pre f ++ f_post f) s then fresh O s else x).
Proof.
  intros Hn H1 H2. rewrite absorb_eq.
  assert (A : nth_error (stepc live cs kids (f_pre f)) m = Some (if live && hit (f_pre f) s then fresh O s else x))
    by (apply stepc_nth; auto).
  assert (B : nth_error (match f_new f with Some y => set_nth n y (stepc live cs kids (f_pre f))
                 | None => stepc live cs kids (f_pre f) end) m = Some (if live && hit (f_pre f) s then fresh O s else x)).
  { destruct (f_new f); auto. rewrite set_nth_other; auto. }
  rewrite (stepc_nth _ _ _ _ _ _ _ H1 B), hit_app.
  destruct live, (hit (f_pre f) s), (hit (f_post f) s); reflexivity.
Qed.
Lemma absorb_same live cs kids n f s x y :
  nth_error cs n = Some s -> nth_error kids n = Some x -> f_new f = Some y ->
  nth_error (absorb O live cs kids n f) n = Some (if live && hit (f_post f) s then fresh O s else y).
Proof.
  intros H1 H2 Hy. rewrite absorb_eq, Hy. apply stepc_nth; auto.
  apply set_nth_same. rewrite stepc_length. apply nth_error_Some. congruence.
Qed.
Lemma absorb_same_none live cs kids n f s x :
  nth_error cs n = Some s -> nth_error kids n = Some x -> f_new f = None ->
  nth_error (absorb O live cs kids n f) n = Some (if live && hit (f_pre f ++ f_post f) s then fresh O s else x).
Proof.
  intros H1 H2 Hy. rewrite absorb_eq, Hy.
  erewrite stepc_nth; [|eassumption|eapply stepc_nth; eassumption]. rewrite hit_app.
  destruct live, (hit (f_pre f) s), (hit (f_post f) s); reflexivity.
Qed.
Lemma absorb_nothing live cs kids n f :
  f_pre f = [] -> f_post f = [] -> (forall y, f_new f = Some y -> nth_error kids n = Some y) ->
  absorb O live cs kids n f = kids.
Proof.
  intros H1 H2 H3. rewrite absorb_eq, H1, H2. unfold stepc.
  destruct (f_new f) eqn:E; destruct live; rewrite ?clears_nil; auto; apply set_nth_id; auto.
Qed.

(* ------------------------------------------------------------------ shapes *)
Lemma fresh_conf s : conf s (fresh O s).
Proof.
  induction s using schema_ind'; cbn; try constructor; auto.
  induction H; cbn; constructor; auto.
Qed.
Lemma fresh_shaped cs : shaped cs (map (fresh O) cs).
Proof. induction cs; constructor; auto using fresh_conf. Qed.
Lemma clear_shaped cs kids ev : shaped cs kids -> shaped cs (clear O cs kids ev).
Proof. unfold shaped. induction 1; cbn; constructor; auto. destruct (other_case ev x); auto using fresh_conf. Qed.
Lemma clears_shaped cs evs : forall kids, shaped cs kids -> shaped cs (clears O cs kids evs).
Proof. unfold clears. induction evs; cbn; intros; auto using clear_shaped. Qed.
Lemma stepc_shaped live cs kids evs : shaped cs kids -> shaped cs (stepc live cs kids evs).
Proof. destruct live; cbn; auto using clears_shaped. Qed.
Lemma absorb_shaped live cs kids n f s :
  shaped cs kids -> nth_error cs n = Some s -> (forall x, f_new f = Some x -> conf s x) ->
  shaped cs (absorb O live cs kids n f).
Proof.
  intros H Hn Hf. rewrite absorb_eq. apply stepc_shaped.
  destruct (f_new f); [|auto using stepc_shaped].
  eapply Forall2_set_nth; eauto. apply stepc_shaped; auto.
Qed.

(** The step of [exec] below one child. *)
Definition down (s : schema) (x : obj) (p' : list pstep) (o : op) : effect :=
  match p' with
  | [] => apply O s x o
  | Ent k :: p'' =>
      match s, x with
      | SList _ _ _ cs', OList ch es =>
          match mget k es with
          | Some (OCont ech epres ekids) =>
              let '(ekids', evs, r) := exec O true cs' ekids p'' o in
              {| f_pre := []; f_new := Some (OList ch (mput k (OCont (mark evs ech) epres ekids') es));
                 f_post := evs; f_out := r |}
          | _ => no_effect (Raise KeyError)
          end
      | _, _ => no_effect (Raise TypeError)
      end
  | Kid _ :: _ =>
      match s, x with
      | SCont i presence cs', OCont ch pres kids' =>
          let '(kids'', evs, r) := exec O true cs' kids' p' o in
          {| f_pre := []; f_new := Some (OCont (mark evs ch) (mark_present presence evs pres) kids'');
             f_post := map (forward (e_choice i)) evs; f_out := r |}
      | _, _ => no_effect (Raise AttributeError)
      end
  end.
Lemma exec_kid live cs kids n p' o s x :
  nth_error cs n = Some s -> nth_error kids n = Some x ->
  exec O live cs kids (Kid n :: p') o =
  let f := down s x p' o in (absorb O live cs kids n f, f_pre f ++ f_post f, f_out f).
Proof. intros H1 H2. cbn. rewrite H1, H2. destruct p' as [|[m|k] p'']; reflexivity. Qed.

(* ------------------------------------------------------------------ entries by key *)
Lemma mget_mput_same {A} k (a : A) es : mget k (mput k a es) = Some a.
Proof. induction es as [|[k' a'] es IH]; cbn; [rewrite py_eq_refl; auto|].
  destruct (py_eq k k') eqn:E; cbn; rewrite E; auto. Qed.
Lemma mget_mput_eq {A} k k1 (a : A) es : py_eq k1 k = true -> mget k1 (mput k a es) = Some a.
Proof. intros H. induction es as [|[k' a'] es IH]; cbn; [rewrite H; auto|].
  destruct (py_eq k k') eqn:E; cbn.
  - rewrite (py_eq_trans _ _ _ H E). auto.
  - destruct (py_eq k1 k') eqn:E1; auto. rewrite py_eq_sym in H. rewrite (py_eq_trans _ _ _ H E1) in E. discriminate. Qed.
Lemma mget_mput_other {A} k k1 (a : A) es : py_eq k1 k = false -> mget k1 (mput k a es) = mget k1 es.
Proof. intros H. induction es as [|[k' a'] es IH]; cbn; [rewrite H; auto|].
  destruct (py_eq k k') eqn:E; cbn.
  - destruct (py_eq k1 k') eqn:E1; auto. rewrite py_eq_sym in E. rewrite (py_eq_trans _ _ _ E1 E) in H. discriminate.
  - destruct (py_eq k1 k'); auto. Qed.
Lemma mput_keys {A} k (a b : A) es : mget k es = Some b -> map fst (mput k a es) = map fst es.
Proof. induction es as [|[k' c] es IH]; cbn; [discriminate|]. destruct (py_eq k k'); cbn; [reflexivity|]. intros H. now rewrite IH. Qed.
Lemma mput_id {A} k (a : A) es : mget k es = Some a -> mput k a es = es.
Proof. induction es as [|[k' a'] es IH]; cbn; [discriminate|].
  destruct (py_eq k k'); intros H; [injection H as ->; auto|f_equal; auto]. Qed.
Lemma mget_conf {A} (P : A -> Prop) k a es : Forall (fun e => P (snd e)) es -> mget k es = Some a -> P a.
Proof. induction 1 as [|[k' a'] es' Hp Hf IH]; cbn; [discriminate|]. destruct (py_eq k k'); auto.
  intros H. injection H as <-. auto. Qed.
Lemma mput_conf {A} (P : A -> Prop) k a es : Forall (fun e => P (snd e)) es -> P a -> Forall (fun e => P (snd e)) (mput k a es).
Proof. induction 1 as [|[k' a'] es' Hp Hf IH]; cbn; intros; [constructor; auto|]. destruct (py_eq k k'); constructor; auto. Qed.
Lemma mdel_conf {A} (P : A -> Prop) k es : Forall (fun e => P (snd e)) es -> Forall (fun e => P (snd e)) (mdel (A:=A) k es).
Proof. induction 1 as [|[k' a'] es' Hp Hf IH]; cbn; intros; [constructor; auto|]. destruct (py_eq k k'); auto. Qed.

(* ------------------------------------------------------------------ operations keep the shape *)
Lemma setter_new evs r x : f_new (setter evs r) = Some x -> r = Ok x.
Proof. destruct r; cbn; congruence. Qed.
Lemma set_obj_cont i pr cs ch ps src :
  set_obj O (SCont i pr cs) (OCont ch ps src) =
  let '(kids, evs, r) := copy_kids O cs 0 cs src (map (fresh O) cs) in
  setter (e_choice i :: map (forward (e_choice i)) evs) (_ <- r ;; Ok (OCont true pr kids)).
Proof. destruct cs; reflexivity. Qed.

Lemma set_leaf_conf i lt d y k v x : f_new (set_leaf O i lt v) = Some x -> conf (SLeaf i lt d y k) x.
Proof. unfold set_leaf. intros H. apply setter_new in H.
  destruct (d_out (leaf_assign O lt v)); cbn in H; [injection H as <-|discriminate]. constructor. Qed.

Lemma copy_shaped cs : Forall (fun s => forall x y, f_new (set_obj O s x) = Some y -> conf s y) cs ->
  forall cs' pre src kids, cs = pre ++ cs' -> shaped cs kids ->
  shaped cs (fst (fst (copy_kids O cs (length pre) cs' src kids))).
Proof.
  intros HF. induction cs' as [|s cs' IH]; intros pre src kids Hcs Hk; [destruct src; auto|].
  assert (Hpre : cs = (pre ++ [s]) ++ cs') by (rewrite <- app_assoc; auto).
  assert (Hlen : S (length pre) = length (pre ++ [s])) by (rewrite app_length; cbn; lia).
  destruct src as [|x src]; auto. cbn [copy_kids].
  destruct (o_changed x).
  - set (f := set_obj O s x). set (kids1 := absorb O true cs kids (length pre) f).
    assert (Hn : nth_error cs (length pre) = Some s).
    { rewrite Hcs, nth_error_app2, Nat.sub_diag by lia. reflexivity. }
    assert (Hk1 : shaped cs kids1).
    { eapply absorb_shaped; eauto. intros y Hy. rewrite Forall_forall in HF. eapply HF; eauto.
      rewrite Hcs. apply in_or_app; right; left; auto. }
    destruct (f_out f); auto.
    specialize (IH (pre ++ [s]) src kids1 Hpre Hk1). rewrite <- Hlen in IH.
    fold (copy_kids O cs) in *. destruct (copy_kids O cs (S (length pre)) cs' src kids1) as [[k e] r]. exact IH.
  - specialize (IH (pre ++ [s]) src kids Hpre Hk). rewrite <- Hlen in IH. exact IH.
Qed.

Lemma set_obj_conf s : forall x y, f_new (set_obj O s x) = Some y -> conf s y.
Proof.
  induction s as [i lt d yt k|i ts yt|i pr cs HF|i ks od cs HF] using schema_ind'; intros x y H.
  - destruct x; cbn in H; try discriminate. eapply set_leaf_conf; eauto.
  - destruct x; cbn [set_obj no_effect f_new] in H; try discriminate. apply setter_new in H.
    destruct (tl_check O ts true [] (VList l)); cbn [bind] in H; [injection H as <-|discriminate]. constructor.
  - assert (Hc := copy_shaped cs HF cs []).
    destruct x as [? ?|? ?|ch ps src|? ?].
    1,2,4: destruct cs; cbn [set_obj] in H; apply setter_new in H; try discriminate; inversion H; subst; constructor; constructor.
    rewrite set_obj_cont in H. specialize (Hc src (map (fresh O) cs) eq_refl (fresh_shaped cs)). cbn [length] in Hc.
    destruct (copy_kids O cs 0 cs src (map (fresh O) cs)) as [[kk e] r]. apply setter_new in H.
    destruct r; cbn in H; [injection H as <-|discriminate]. constructor. exact Hc.
  - destruct x; cbn [set_obj] in H; apply setter_new in H; inversion H; subst; constructor; constructor.
Qed.

Lemma set_any_conf s a y : f_new (set_any O s a) = Some y -> conf s y.
Proof.
  destruct a as [v|x].
  - destruct s as [i lt d yt k|i ts yt|i pr cs|i ks od cs]; cbn [set_any]; intros H.
    + eapply set_leaf_conf; eauto.
    + apply setter_new in H. destruct (tl_init O ts true v); cbn [bind] in H; [injection H as <-|discriminate]. constructor.
    + destruct cs; apply setter_new in H; [injection H as <-|discriminate]. constructor; constructor.
    + apply setter_new in H. injection H as <-. constructor; constructor.
  - destruct s; [| |destruct cs|]; apply set_obj_conf.
Qed.

Lemma assign_conf s w a y : f_new (assign O s w a) = Some y -> conf s y.
Proof. unfold assign. destruct w; [destruct (e_rw (s_info s))|]; try destruct (is_key s && _); cbn; try discriminate; apply set_any_conf. Qed.

Lemma fill_shaped cs kd : forall kids, shaped cs kids -> shaped cs (fst (fst (fill_keys O cs kids kd))).
Proof.
  induction kd as [|[n v] kd IH]; cbn; intros kids H; auto.
  destruct (kid_index n cs) as [j|]; auto. destruct (nth_error cs j) as [s|] eqn:Es; auto.
  assert (H1 : shaped cs (absorb O true cs kids j (set_any O s (AVal v)))).
  { eapply absorb_shaped; eauto. intros; eapply set_any_conf; eauto. }
  destruct (f_out (set_any O s (AVal v))); auto.
  specialize (IH _ H1). destruct (fill_keys O cs _ kd) as [[k e] r]. auto.
Qed.
Lemma mk_entry_conf cs kd x : snd (mk_entry O cs kd) = Ok x -> conf (entry_schema cs) x.
Proof.
  unfold mk_entry. assert (H := fill_shaped cs kd (map (fresh O) cs) (fresh_shaped cs)).
  destruct (fill_keys O cs (map (fresh O) cs) kd) as [[k e] r]. cbn. destruct r; cbn; [|discriminate].
  intros E. injection E as <-. constructor. auto.
Qed.
Lemma set_objs_conf cs : Forall (fun s => forall x y, f_new (set_obj O s x) = Some y -> conf s y) cs.
Proof. apply Forall_forall. intros. eapply set_obj_conf; eauto. Qed.
Lemma copy_entry_conf cs a kd x : snd (copy_entry O cs a kd) = Ok x -> conf (entry_schema cs) x.
Proof.
  unfold copy_entry. destruct a as [? ?|? ?|ch ps src|? ?]; try discriminate.
  assert (Hc := copy_shaped cs (set_objs_conf cs) cs [] src (map (fresh O) cs) eq_refl (fresh_shaped cs)). cbn [length] in Hc.
  destruct (copy_kids O cs 0 cs src (map (fresh O) cs)) as [[k0 e0] r0]. destruct r0; [|discriminate].
  assert (H := fill_shaped cs kd k0 Hc).
  destruct (fill_keys O cs k0 kd) as [[k e] r]. cbn. destruct r; cbn; [|discriminate].
  intros E. injection E as <-. constructor. auto.
Qed.
Lemma entry0_conf cs : conf (entry_schema cs) (OCont false false (map (fresh O) cs)).
Proof. constructor. apply fresh_shaped. Qed.

Lemma list_op_conf keys cs uid es yo :
  Forall (fun e => conf (entry_schema cs) (snd e)) es ->
  Forall (fun e => conf (entry_schema cs) (snd e)) (fst (fst (list_op O keys cs uid es yo))).
Proof.
  intros H. unfold list_op.
  assert (Hst : forall k r, (forall x, snd r = Ok x -> conf (entry_schema cs) x) ->
    Forall (fun e => conf (entry_schema cs) (snd e)) (fst (fst (store (E:=event) k es r)))).
  { intros k [ev [x|e]] Hr; cbn; auto. apply mput_conf; auto. }
  assert (Hadd : forall k, Forall (fun e => conf (entry_schema cs) (snd e))
     (fst (fst (yl_add keys (mk_entry O cs) (OCont false false (map (fresh O) cs)) uid es k)))).
  { intros k. unfold yl_add. destruct (hashable k); cbn [negb]; auto. destruct (mhas k es); auto.
    destruct keys as [|k0 ks] eqn:Ek; try rewrite <- Ek in *; [cbn; apply mput_conf; auto using entry0_conf|].
    destruct k; auto; match goal with |- context [key_dict ?a ?b] => destruct (key_dict a b) end; auto;
      apply Hst; intros; eapply mk_entry_conf; eauto. }
  assert (Hset : forall k a, Forall (fun e => conf (entry_schema cs) (snd e))
     (fst (fst (yl_set keys (copy_entry O cs) (OCont false false (map (fresh O) cs)) uid es k a)))).
  { intros k a. unfold yl_set.
    assert (Hk : forall k', Forall (fun e => conf (entry_schema cs) (snd e))
      (fst (fst (if negb (hashable k') then (es, @nil event, Raise TypeError)
        else match key_dict keys k' with Raise e => (es, [], Raise e) | Ok kd => store k' es (copy_entry O cs a kd) end)))).
    { intros k'. destruct (hashable k'); cbn [negb]; auto. destruct (key_dict keys k'); auto.
      apply Hst. intros; eapply copy_entry_conf; eauto. }
    destruct keys as [|k0 ks] eqn:Ek; try rewrite <- Ek in *.
    - destruct k; try (match goal with |- context [hashable ?a] => destruct (hashable a) end); cbn; auto; apply mput_conf; auto using entry0_conf.
    - destruct k; auto; apply Hk. }
  destruct yo as [k| |[|? ?]|k a|a|k|[|? ?]]; cbn [yl_op]; auto.
  - unfold yl_add_kw. destruct keys as [|k0 ks] eqn:Ek; try rewrite <- Ek in *; auto.
    destruct (kw_keys keys _); auto. destruct (mhas _ es); auto. apply Hst; intros; eapply mk_entry_conf; eauto.
  - destruct keys as [|k0 ks] eqn:Ek; try rewrite <- Ek in *; auto. destruct (extract_key O cs keys a); auto.
  - unfold yl_delete. destruct (hashable k); cbn [negb]; auto. destruct (mhas k es); cbn; auto using mdel_conf.
  - unfold yl_delete. cbn [hashable negb]. destruct (mhas _ es); cbn; auto using mdel_conf.
  - destruct keys as [|k0 ks] eqn:Ek; try rewrite <- Ek in *; auto. destruct (kw_keys keys _); auto.
    unfold yl_delete. cbn [hashable negb]. destruct (mhas _ es); cbn; auto using mdel_conf.
Qed.

Lemma apply_conf s x o y : conf s x -> f_new (apply O s x o) = Some y -> conf s y.
Proof.
  intros Hx. destruct o as [w a| |b|lo|uid yo]; cbn [apply].
  - apply assign_conf.
  - cbn. intros E. injection E as <-. apply fresh_conf.
  - destruct Hx; cbn; try discriminate. destruct b; cbn; intros E; injection E as <-; constructor; auto.
  - destruct Hx; cbn; try discriminate. destruct (tl_op O ts true l lo). cbn. intros E; injection E as <-. constructor.
  - destruct Hx; cbn; try discriminate. assert (Hc := list_op_conf keys cs uid es yo H).
    destruct (list_op O keys cs uid es yo) as [[es' evs] r]. cbn. intros E; injection E as <-. constructor. auto.
Qed.

Lemma exec_shaped_len N : forall p live cs kids o, (length p <= N)%nat ->
  shaped cs kids -> shaped cs (fst (fst (exec O live cs kids p o))).
Proof.
  induction N as [|N IH]; intros p live cs kids o HN Hk.
  - destruct p; [exact Hk|cbn in HN; lia].
  - destruct p as [|[n|k] p']; [exact Hk| |exact Hk].
    destruct (nth_error cs n) as [s|] eqn:Es; [|cbn; rewrite Es; exact Hk].
    destruct (Forall2_nth _ _ _ _ _ Hk Es) as (x & Ex & Hx).
    rewrite (exec_kid live cs kids n p' o s x Es Ex). cbn [fst].
    eapply absorb_shaped; eauto. intros y Hy. cbn in HN.
    destruct p' as [|[m|k] p'']; cbn [down] in Hy.
    + eapply apply_conf; eauto.
    + destruct Hx; try discriminate.
      assert (H1 := IH (Kid m :: p'') true cs0 kids0 o ltac:(lia) H).
      destruct (exec O true cs0 kids0 (Kid m :: p'') o) as [[k' e] r]. cbn in Hy. injection Hy as <-. constructor; auto.
    + destruct Hx; try discriminate. destruct (mget k es) as [ent|] eqn:Em; [|discriminate].
      assert (Hent := mget_conf _ _ _ _ H Em). cbn in Hent.
      inversion Hent as [| |? ? ? ? ? kids0 Hkids E1 E2|]; subst.
      assert (H1 := IH p'' true cs0 kids0 o ltac:(cbn in HN; lia) Hkids).
      destruct (exec O true cs0 kids0 p'' o) as [[k' e] r]. cbn in Hy. injection Hy as <-. constructor.
      apply mput_conf; auto. constructor. auto.
Qed.
Lemma exec_shaped p live cs kids o : shaped cs kids -> shaped cs (fst (fst (exec O live cs kids p o))).
Proof. eapply exec_shaped_len; eauto. Qed.
Lemma module_run_shaped cs os : forall kids, shaped cs kids -> shaped cs (module_run O cs kids os).
Proof. induction os as [|[p o] os IH]; cbn; intros kids H; auto. apply IH.
  unfold module_exec. assert (H1 := exec_shaped p false cs kids o H).
  destruct (exec O false cs kids p o) as [[k e] r]. auto. Qed.
End T.
