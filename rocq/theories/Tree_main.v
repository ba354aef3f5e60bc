(** Final forms of the tree lemmas: assignment, rejection, unset, presence. *)
From Verif Require Import PyStr PyStr_facts PyVal Restricted Spec_Lists TypedList TypedList_proofs YList YList_proofs
  IntTypes Spec_Types Range_proofs Restricted_proofs StrTypes StrTypes_proofs Tree Spec_Tree Tree_proofs Tree_frame.
From Coq Require Import Lia.
Import ListNotations.

Section T.
Context (O : oracle).

Lemma last_step (p : list pstep) : p <> [] -> exists p0 a, p = p0 ++ [a].
Proof. intros H. destruct (exists_last H) as (p0 & a & E). now exists p0, a. Qed.

Lemma sub_app p q : forall s, sub s (p ++ q) = match sub s p with Some t => sub t q | None => None end.
Proof.
  induction p as [|[n|k] p IH]; intros s; [reflexivity| |]; cbn [app sub]; destruct s; try reflexivity.
  - destruct (nth_error cs n); [apply IH|reflexivity].
  - apply IH.
Qed.

(** A path that ends in an entry leads to an entry, which is a container in no choice. *)
Lemma schema_ends cs p s : schema_at cs p = Some s -> (forall cs', s <> entry_schema cs') -> ends_kid p.
Proof.
  intros H Hs. destruct p as [|a p]; [injection H as <-; now destruct (Hs cs)|].
  destruct (last_step (a :: p)) as (p0 & b & E); [discriminate|]. rewrite E in *. clear E a p.
  destruct b as [n|k]; [now exists p0, n|].
  unfold schema_at in H. rewrite sub_app in H. destruct (sub (entry_schema cs) p0) as [t|]; [|discriminate].
  cbn [sub] in H. destruct t; try discriminate. injection H as <-. now destruct (Hs cs0).
Qed.

Lemma module_exec_ok cs kids p o s x : shaped cs kids -> ends_kid p -> schema_at cs p = Some s ->
  at_path kids p = Some x ->
  exists evs, run_at O o s x false cs kids p (fst (module_exec O cs kids p o)) evs (snd (module_exec O cs kids p o)).
Proof.
  intros Hs He Hsc Hx. pose proof (exec_run O p false cs kids o s x Hs He Hsc Hx) as H.
  unfold module_exec. destruct (exec O false cs kids p o) as [[k e] r]. now exists e.
Qed.

Lemma module_exec_missing cs kids p o : shaped cs kids -> (~ ends_kid p \/ at_path kids p = None) ->
  exists e, module_exec O cs kids p o = (kids, Raise e).
Proof.
  intros Hs H. destruct (exec_missing O p false cs kids o Hs H) as (e & E). exists e. unfold module_exec. now rewrite E.
Qed.

(* ------------------------------------------------------------------ C27 *)
Lemma ok_notified t v u : d_out (dyn_leaf O t v) = Ok u -> d_notified (dyn_leaf O t v) = true.
Proof.
  unfold dyn_leaf. destruct (match ty_new O t (Some v) with Raise TypeError => _ | r => r end); [reflexivity|discriminate].
Qed.
Lemma leaf_ok_notified lt v u : d_out (leaf_assign O lt v) = Ok u -> d_notified (leaf_assign O lt v) = true.
Proof.
  unfold leaf_assign. cbn [d_out d_notified]. destruct lt as [t|ts]; cbn [dyn_ltype].
  - destruct (d_out (dyn_leaf O t v)) eqn:E; [intros _; exact (ok_notified _ _ _ E)|discriminate].
  - destruct (union_pick O ts v) as [t|]; [|discriminate].
    destruct (d_out (dyn_leaf O t v)) eqn:E; [intros _; exact (ok_notified _ _ _ E)|discriminate].
Qed.

Lemma leaf_set_ok i lt d y k x w v :
  f_out (apply O (SLeaf i lt d y k) x (ASet w (AVal v))) = Ok tt ->
  exists u, d_out (leaf_assign O lt v) = Ok u /\
    apply O (SLeaf i lt d y k) x (ASet w (AVal v)) =
    {| f_pre := [e_choice i]; f_new := Some (OLeaf true u); f_post := [None]; f_out := Ok tt |}.
Proof.
  cbn [apply]. unfold assign. intros H.
  assert (H' : f_out (set_any O (SLeaf i lt d y k) (AVal v)) = Ok tt /\
    assign O (SLeaf i lt d y k) w (AVal v) = set_any O (SLeaf i lt d y k) (AVal v)).
  { unfold assign. destruct w as [|b]; cbn [negb] in *.
    - destruct (e_rw _); [|discriminate]. destruct (is_key _ && _); [discriminate|auto].
    - destruct (is_key _ && _); [discriminate|auto]. }
  destruct H' as [H1 H2]. unfold assign in H2. rewrite H2. clear H H2.
  cbn [set_any] in *. unfold set_leaf in *.
  destruct (d_out (leaf_assign O lt v)) as [u|e] eqn:E; [|discriminate].
  exists u. split; [reflexivity|]. rewrite (leaf_ok_notified _ _ _ E). reflexivity.
Qed.

(** When all notifications at the target carry its own tag, what [src] describes is a rival. *)
Lemma src_tag cs p base s0 : schema_at cs p = Some s0 ->
  (forall c k, In (Some (c, k)) base -> s_tag s0 = Some (c, k)) ->
  forall len c k, (len <= length p)%nat -> src cs p base len c k ->
  exists t st, prefix t p /\ (len <= length t)%nat /\ schema_at cs t = Some st /\ s_tag st = Some (c, k).
Proof.
  intros Hs Hb len c k Hl [H|(t & st & T1 & T2 & T3 & T4 & _)]; [|now exists t, st].
  exists p, s0. split; [exists []; now rewrite app_nil_r|]. split; [exact Hl|]. split; [exact Hs|]. exact (Hb c k H).
Qed.

Lemma reset_is_rival cs kids' p base s0 r : schema_at cs p = Some s0 ->
  (forall c k, In (Some (c, k)) base -> s_tag s0 = Some (c, k)) ->
  reset O false cs kids' p base r -> reset_rival O cs p kids' r.
Proof.
  intros Hs Hb (s & c & k & k' & (H2 & Hl) & Hf & Hsc & Ht & Hk & Ha & Hsrc). split.
  - destruct (src_tag cs p base s0 Hs Hb _ _ _ Hl Hsrc) as (t & st & T1 & T2 & T3 & T4).
    exists s, c, k', t, st, k. repeat (split; [auto; fail|]). auto.
  - now exists s.
Qed.

Lemma step_eq_refl a : step_eq a a.
Proof. destruct a; constructor. apply py_eq_refl. Qed.
Lemma steps_refl p : Forall2 step_eq p p.
Proof. induction p; constructor; auto using step_eq_refl. Qed.
Lemma removelast_prefix (r p : list pstep) : prefix r p -> r <> [] -> removelast r = firstn (length r - 1) p.
Proof.
  intros [q ->] Hr. destruct (last_step r Hr) as (r0 & a & ->).
  rewrite removelast_last, app_length. cbn [length]. replace (length r0 + 1 - 1)%nat with (length r0) by lia.
  rewrite <- app_assoc, firstn_app, firstn_all, Nat.sub_diag. cbn. now rewrite app_nil_r.
Qed.

Lemma prefix_len (r p : list pstep) : prefix r p -> (length r <= length p)%nat.
Proof. intros [q ->]. rewrite app_length. lia. Qed.

Lemma no_rival_clash_free cs p base s0 : schema_at cs p = Some s0 ->
  (forall c k, In (Some (c, k)) base -> s_tag s0 = Some (c, k)) ->
  (forall r, prefix r p -> ~ rival cs p r) -> clash_free false cs p base.
Proof.
  intros Hs Hb Hr r s c k k' Hp Hlen Hsc Ht Hsrc.
  destruct (src_tag cs p base s0 Hs Hb _ _ _ (prefix_len _ _ Hp) Hsrc) as (t & st & T1 & T2 & T3 & T4).
  destruct (list_eq_dec N.eq_dec k k') as [|Hne]; [assumption|exfalso].
  apply (Hr r Hp). exists s, c, k', t, st, k.
  specialize (Hlen eq_refl).
  split; [exact Hlen|]. split.
  { rewrite (removelast_prefix r p Hp); [apply steps_refl|]. intros ->. cbn in Hlen. lia. }
  repeat (split; [assumption|]). assumption.
Qed.

Lemma out_existing cs kids p o s kids' u : shaped cs kids -> schema_at cs p = Some s ->
  module_exec O cs kids p o = (kids', Ok u) -> ends_kid p /\ exists x, at_path kids p = Some x.
Proof.
  intros Hs Hsc H.
  assert (Hd : (~ ends_kid p \/ at_path kids p = None) -> False).
  { intros Hm. destruct (module_exec_missing cs kids p o Hs Hm) as (e & E). rewrite E in H. discriminate. }
  destruct (at_path kids p) as [x|] eqn:Ex; [|exfalso; auto].
  split; [|now exists x].
  destruct p as [|a p].
  - exfalso. apply Hd. left. intros (p0 & n & E). now destruct p0.
  - destruct (last_step (a :: p)) as (p0 & b & E); [discriminate|]. rewrite E in *.
    destruct b as [n|k]; [now exists p0, n|].
    exfalso. apply Hd. left. intros (p1 & n & E'). apply app_inj_tail in E'. destruct E'. discriminate.
Qed.

Theorem set_leaf_effect cs kids p w v i lt d y k kids' :
  shaped cs kids -> schema_at cs p = Some (SLeaf i lt d y k) ->
  (forall r, prefix r p -> ~ rival cs p r) ->
  module_exec O cs kids p (ASet w (AVal v)) = (kids', Ok tt) ->
  (exists u, d_out (leaf_assign O lt v) = Ok u /\ at_path kids' p = Some (OLeaf true u)) /\
  (forall q, prefix q p -> q <> [] -> q <> p -> on_the_way (at_path kids q) (at_path kids' q)) /\
  (forall q, apart p q -> at_path kids' q = at_path kids q \/
             exists r, prefix r q /\ reset_rival O cs p kids' r).
Proof.
  intros Hs Hsc Hr H. destruct (out_existing _ _ _ _ _ _ _ Hs Hsc H) as (He & x & Hx).
  destruct (module_exec_ok cs kids p (ASet w (AVal v)) _ x Hs He Hsc Hx) as (evs & R).
  rewrite H in R. cbn [fst snd] in R. pose proof (run_out _ _ _ _ _ _ _ _ _ _ _ R) as Ho.
  destruct (leaf_set_ok i lt d y k x w v (eq_sym Ho)) as (u & Hu & Ha).
  assert (Hb : forall c k0, In (Some (c, k0)) (base_events O (SLeaf i lt d y k) x (ASet w (AVal v))) ->
                s_tag (SLeaf i lt d y k) = Some (c, k0)).
  { unfold base_events. rewrite Ha. cbn [f_pre f_post app]. intros c k0 [Hc|[Hc|[]]]; [exact Hc|discriminate]. }
  pose proof (no_rival_clash_free _ _ _ _ Hsc Hb Hr) as Hcf.
  split; [|split].
  - exists u. split; [exact Hu|]. eapply run_target; [exact R|exact Hs|exact Hcf|]. now rewrite Ha.
  - intros q Hq Hq0 Hqp. pose proof (run_above _ _ _ _ _ _ _ _ _ _ _ R Hs Hcf q Hq Hq0 Hqp) as Hm.
    unfold marked in Hm. unfold on_the_way. unfold base_events in Hm. rewrite Ha in Hm. cbn [f_pre f_post app mark] in Hm.
    destruct (at_path kids q) as [[]|]; try contradiction; destruct (at_path kids' q) as [[]|]; try contradiction;
      destruct (schema_at cs q) as [[]|]; try contradiction; exact (proj1 Hm).
  - intros q Hq. destruct (run_frame _ _ _ _ _ _ _ _ _ _ _ R Hs q Hq) as [E|(r & Hr1 & Hr2)]; [left; exact E|right].
    exists r. split; [exact Hr1|]. eapply reset_is_rival; eassumption.
Qed.

(* ------------------------------------------------------------------ without choices *)
Lemma existing_dec cs kids p o s : shaped cs kids -> schema_at cs p = Some s ->
  (exists e, module_exec O cs kids p o = (kids, Raise e)) \/ (ends_kid p /\ exists x, at_path kids p = Some x).
Proof.
  intros Hs Hsc. destruct (at_path kids p) as [x|] eqn:Ex; [|left; apply module_exec_missing; auto].
  destruct p as [|a p].
  - left. apply module_exec_missing; auto. left. intros (p0 & n & E). now destruct p0.
  - destruct (last_step (a :: p)) as (p0 & b & E); [discriminate|]. rewrite E in *.
    destruct b as [n|k]; [right; split; [now exists p0, n|now exists x]|].
    left. apply module_exec_missing; auto. left. intros (p1 & n & E'). apply app_inj_tail in E'. destruct E'. discriminate.
Qed.

Lemma cf_clash cs p base : choice_free cs -> clash_free false cs p base.
Proof. intros Hc r s c k k' _ _ Hs Ht _. rewrite (Hc r s Hs) in Ht. discriminate. Qed.

Lemma node_app p q : forall x, node x (p ++ q) = match node x p with Some y => node y q | None => None end.
Proof.
  induction p as [|[n|k] p IH]; intros x; [reflexivity| |]; cbn [app node]; destruct x; try reflexivity.
  - destruct (nth_error kids n); [apply IH|reflexivity].
  - destruct (mget k es); [apply IH|reflexivity].
Qed.

Lemma trichotomy q : kid_path q -> forall p, apart p q \/ prefix p q \/ (prefix q p /\ p <> q).
Proof.
  induction 1 as [|a q [n ->] Hq IH]; intros p.
  - destruct p as [|b p]; [right; left; apply prefix_nil|]. right. right. split; [apply prefix_nil|discriminate].
  - destruct p as [|b p]; [right; left; apply prefix_nil|].
    destruct b as [m|k].
    + destruct (Nat.eq_dec m n) as [->|Hne].
      * destruct (IH p) as [H|[H|[H1 H2]]]; [left; right; exact H|right; left; now apply prefix_cons|].
        right. right. split; [now apply prefix_cons|congruence].
      * left. left. intros Hs. inversion Hs. contradiction.
    + left. left. intros Hs. inversion Hs.
Qed.

(** One step, seen at a path of children. *)
Inductive seen (cs : list schema) (kids : list obj) (p : list pstep) (o : op) (kids' : list obj) (r : res unit)
               (q : list pstep) : Prop :=
| SeenNot e : kids' = kids -> r = Raise e -> seen cs kids p o kids' r q
| SeenApart : apart p q -> at_path kids' q = at_path kids q -> seen cs kids p o kids' r q
| SeenBelow s x q' : q = p ++ q' -> schema_at cs p = Some s -> at_path kids p = Some x -> conf s x ->
    at_path kids' q = node (put O s x o) q' -> r = f_out (apply O s x o) -> seen cs kids p o kids' r q
| SeenAbove s x : prefix q p -> p <> q -> schema_at cs p = Some s -> at_path kids p = Some x -> conf s x ->
    marked (base_events O s x o) (at_path kids q) (at_path kids' q) (schema_at cs q) ->
    r = f_out (apply O s x o) -> seen cs kids p o kids' r q.

Lemma conf_node p : forall s x, conf s x -> forall y, node x p = Some y -> exists t, sub s p = Some t /\ conf t y.
Proof.
  induction p as [|[n|k] p IH]; intros s x Hc y Hy; [injection Hy as <-; now exists s| |].
  - cbn [node] in Hy. destruct x; try discriminate. inversion Hc as [| |? ? ? ? ? ? Hf|]; subst. cbn [sub].
    destruct (nth_error kids n) as [z|] eqn:E; [|discriminate].
    destruct (Forall2_nth' _ _ _ _ _ Hf E) as (t & Ht & Hct). rewrite Ht. exact (IH t z Hct y Hy).
  - cbn [node] in Hy. destruct x; try discriminate. inversion Hc as [| | |? ? ? ? ? ? Hf]; subst. cbn [sub].
    destruct (mget k es) as [z|] eqn:E; [|discriminate].
    pose proof (mget_conf (conf (entry_schema cs)) k z es Hf E) as Hz. exact (IH _ z Hz y Hy).
Qed.
Lemma at_path_conf cs kids p x : shaped cs kids -> at_path kids p = Some x ->
  exists s, schema_at cs p = Some s /\ conf s x.
Proof. intros Hs. apply conf_node. now constructor. Qed.

(* ------------------------------------------------------------------ lists and leaf-lists *)
Lemma way_marked base old new so : base <> [] -> marked base old new so -> on_the_way old new.
Proof.
  unfold marked, on_the_way. intros Hb H. destruct base as [|b base]; [congruence|]. cbn [mark] in H.
  destruct old as [[]|]; try contradiction; destruct new as [[]|]; try contradiction;
    destruct so as [[]|]; try contradiction; exact (proj1 H).
Qed.

Theorem leaf_list_effect cs kids p lo i ts y kids' r :
  shaped cs kids -> schema_at cs p = Some (SLeafList i ts y) -> ends_kid p -> at_path kids p <> None ->
  (forall r, prefix r p -> ~ rival cs p r) -> (forall n, lo <> LDelItem n) ->
  module_exec O cs kids p (ALeafList lo) = (kids', r) ->
  (exists l, at_path kids' p = Some (OLeafList true l)) /\
  (forall q, prefix q p -> q <> [] -> q <> p -> on_the_way (at_path kids q) (at_path kids' q)) /\
  (forall q, apart p q -> at_path kids' q = at_path kids q \/
             exists r, prefix r q /\ reset_rival O cs p kids' r).
Proof.
  intros Hs Hsc He Hx0 Hr Hlo H. destruct (at_path kids p) as [x|] eqn:Hx; [|congruence].
  destruct (module_exec_ok cs kids p (ALeafList lo) _ x Hs He Hsc Hx) as (evs & R).
  rewrite H in R. cbn [fst snd] in R.
  assert (Hc : conf (SLeafList i ts y) x).
  { destruct (at_path_conf cs kids p x Hs Hx) as (t & Ht & Hc). rewrite Hsc in Ht. now injection Ht as <-. }
  inversion Hc as [|? ? ? ch l| |]; subst.
  assert (Hnt : tl_notifies lo = true) by (destruct lo; try reflexivity; exfalso; eapply Hlo; reflexivity).
  assert (Ha : exists l' r', apply O (SLeafList i ts y) (OLeafList ch l) (ALeafList lo) =
             {| f_pre := []; f_new := Some (OLeafList true l'); f_post := [e_choice i]; f_out := r' |}).
  { cbn [apply]. destruct (tl_op O ts true l lo) as [l' r']. rewrite Hnt, orb_true_r. now exists l', r'. }
  destruct Ha as (l' & r' & Ha).
  assert (Hb : forall c k0, In (Some (c, k0)) (base_events O (SLeafList i ts y) (OLeafList ch l) (ALeafList lo)) ->
                s_tag (SLeafList i ts y) = Some (c, k0)).
  { unfold base_events. rewrite Ha. cbn [f_pre f_post app]. intros c k0 [Hc0|[]]. exact Hc0. }
  pose proof (no_rival_clash_free _ _ _ _ Hsc Hb Hr) as Hcf.
  split; [|split].
  - exists l'. eapply run_target; [exact R|exact Hs|exact Hcf|]. now rewrite Ha.
  - intros q Hq Hq0 Hqp. pose proof (run_above _ _ _ _ _ _ _ _ _ _ _ R Hs Hcf q Hq Hq0 Hqp) as Hm.
    eapply way_marked; [|exact Hm]. unfold base_events. rewrite Ha. discriminate.
  - intros q Hq. destruct (run_frame _ _ _ _ _ _ _ _ _ _ _ R Hs q Hq) as [E|(r0 & Hr1 & Hr2)]; [left; exact E|right].
    exists r0. split; [exact Hr1|]. eapply reset_is_rival; eassumption.
Qed.

Lemma set_any_posts s v : f_out (set_any O s (AVal v)) = Ok tt -> f_post (set_any O s (AVal v)) <> [].
Proof.
  destruct s; cbn [set_any]; unfold set_leaf, set_leaf_list; try (destruct (bind _ _); cbn; congruence).
  all: try (destruct cs; cbn; congruence); cbn; congruence.
Qed.
Lemma fill_events cs kd : kd <> [] -> forall kids k e, fill_keys O cs kids kd = (k, e, Ok tt) -> e <> [].
Proof.
  destruct kd as [|[n v] kd]; [congruence|]. intros _ kids k e H. cbn [fill_keys] in H.
  destruct (kid_index n cs); [|discriminate]. destruct (nth_error cs n0) as [s|]; [|discriminate].
  pose proof (set_any_posts s v) as Hp. destruct (f_out (set_any O s (AVal v))) as [[]|]; [|discriminate].
  destruct (fill_keys O cs _ kd) as [[k1 e1] r1]. injection H as _ <- _. specialize (Hp eq_refl).
  intros E. apply app_eq_nil in E as [_ E]. now apply app_eq_nil in E as [E _].
Qed.
Lemma mk_events cs kd x e : kd <> [] -> mk_entry O cs kd = (e, Ok x) -> e <> [].
Proof.
  intros Hk. unfold mk_entry. destruct (fill_keys O cs _ kd) as [[k1 e1] [[]|]] eqn:E; cbn; intros H; [|discriminate].
  injection H as <- _. exact (fill_events cs kd Hk _ _ _ E).
Qed.
Lemma key_dict_some keys k kd : keys <> [] -> key_dict keys k = Ok kd -> kd <> [].
Proof.
  intros Hk. unfold key_dict. destruct keys as [|n [|n' ns]]; [congruence| |].
  - intros H. destruct k; try (injection H as <-; discriminate). destruct s; [discriminate|injection H as <-; discriminate].
  - destruct k; try discriminate. destruct (Nat.eqb _ _) eqn:E; [|discriminate]. intros H. injection H as <-.
    apply Nat.eqb_eq in E. destruct (split_on 32 s); discriminate.
Qed.
Lemma kw_keys_some keys kw kd : keys <> [] -> kw_keys keys kw = Ok kd -> kd <> [].
Proof.
  intros Hk. destruct keys as [|n ns]; [congruence|]. cbn. destruct (kw_get n kw); [|discriminate].
  destruct (kw_keys ns kw); [|discriminate]. cbn. intros H. injection H as <-. discriminate.
Qed.
Lemma add_events keys cs uid es o es' evs : (match o with YAdd _ | YAddKw _ => keys <> [] | _ => False end) ->
  list_op O keys cs uid es o = (es', evs, Ok tt) -> evs <> [].
Proof.
  unfold list_op. intros Hk.
  assert (A : forall k, yl_add keys (mk_entry O cs) (OCont false false (map (fresh O) cs)) uid es k = (es', evs, Ok tt) -> keys <> [] -> evs <> []).
  { intros k H Hk'. unfold yl_add in H. destruct (negb (hashable k)); [discriminate|]. destruct (mhas k es); [discriminate|].
    destruct keys as [|n ns]; [congruence|].
    assert (H' : match key_dict (n :: ns) k with Raise e => (es, [], Raise e) | Ok kd => store k es (mk_entry O cs kd) end = (es', evs, Ok tt)).
    { destruct k; try exact H. discriminate. }
    destruct (key_dict (n :: ns) k) as [kd|] eqn:E; [|discriminate]. unfold store in H'.
    destruct (mk_entry O cs kd) as [e [x|]] eqn:Em; [|discriminate]. injection H' as _ <-.
    exact (mk_events cs kd x e (key_dict_some _ _ _ Hk' E) Em). }
  destruct o as [k| |kw|k a|a|k|kw]; try contradiction; cbn [yl_op].
  - intros H. exact (A k H Hk).
  - destruct kw as [|nv kw]; [intros H; exact (A VNone H Hk)|]. unfold yl_add_kw. destruct keys as [|n ns]; [congruence|].
    destruct (kw_keys (n :: ns) (nv :: kw)) as [kd|] eqn:E; [|discriminate]. destruct (mhas _ es); [discriminate|]. unfold store.
    destruct (mk_entry O cs kd) as [e [x|]] eqn:Em; [|discriminate]. intros H. injection H as _ <-.
    exact (mk_events cs kd x e (kw_keys_some _ _ _ Hk E) Em).
Qed.

Theorem list_effect cs kids p uid yo i keys od cs' kids' :
  shaped cs kids -> choice_free cs -> schema_at cs p = Some (SList i keys od cs') -> creating keys yo ->
  module_exec O cs kids p (AList uid yo) = (kids', Ok tt) ->
  (exists ch es, at_path kids' p = Some (OList ch es) /\ (item_assign yo -> ch = true)) /\
  (forall q, prefix q p -> q <> [] -> q <> p -> on_the_way (at_path kids q) (at_path kids' q)) /\
  (forall q, apart p q -> at_path kids' q = at_path kids q).
Proof.
  intros Hs Hc0 Hsc Hcr H. destruct (out_existing _ _ _ _ _ _ _ Hs Hsc H) as (He & x & Hx).
  destruct (module_exec_ok cs kids p (AList uid yo) _ x Hs He Hsc Hx) as (evs & R).
  rewrite H in R. cbn [fst snd] in R. pose proof (run_out _ _ _ _ _ _ _ _ _ _ _ R) as Ho.
  assert (Hc : conf (SList i keys od cs') x).
  { destruct (at_path_conf cs kids p x Hs Hx) as (t & Ht & Hc). rewrite Hsc in Ht. now injection Ht as <-. }
  inversion Hc as [| | |? ? ? ? ch es Hes]; subst.
  pose proof (cf_clash cs p (base_events O (SList i keys od cs') (OList ch es) (AList uid yo)) Hc0) as Hcf.
  cbn [apply] in Ho. destruct (list_op O keys cs' uid es yo) as [[es' evs'] r'] eqn:El. cbn [f_out] in Ho. subst r'.
  assert (Ha : apply O (SList i keys od cs') (OList ch es) (AList uid yo) =
     {| f_pre := []; f_new := Some (OList (ch || yl_notifies yo) es');
        f_post := (if yl_notifies yo then [e_choice i] else []) ++ evs'; f_out := Ok tt |}).
  { cbn [apply]. now rewrite El. }
  split; [|split].
  - exists (ch || yl_notifies yo), es'. split.
    + eapply run_target; [exact R|exact Hs|exact Hcf|]. now rewrite Ha.
    + destruct yo; try contradiction; intros _; apply orb_true_r.
  - intros q Hq Hq0 Hqp. pose proof (run_above _ _ _ _ _ _ _ _ _ _ _ R Hs Hcf q Hq Hq0 Hqp) as Hm.
    eapply way_marked; [|exact Hm]. unfold base_events. rewrite Ha. cbn [f_pre f_post app].
    destruct yo; cbn [creating] in Hcr; try contradiction; cbn [yl_notifies app]; try discriminate.
    + exact (add_events keys cs' uid es (YAdd k) _ _ Hcr El).
    + exact (add_events keys cs' uid es (YAddKw kw) _ _ Hcr El).
  - intros q Hq. destruct (run_frame _ _ _ _ _ _ _ _ _ _ _ R Hs q Hq) as [E|(r0 & _ & Hr2)]; [exact E|exfalso].
    destruct Hr2 as (s & c & k & k' & _ & _ & Hsr & Ht & _). rewrite (Hc0 _ _ Hsr) in Ht. discriminate.
Qed.

Lemma seen_step cs kids p o q : choice_free cs -> shaped cs kids -> kid_path q -> q <> [] ->
  seen cs kids p o (fst (module_exec O cs kids p o)) (snd (module_exec O cs kids p o)) q.
Proof.
  intros Hc Hs Hq Hq0.
  destruct (at_path kids p) as [x|] eqn:Hx.
  2:{ destruct (module_exec_missing cs kids p o Hs (or_intror Hx)) as (e & E). rewrite E. now apply (SeenNot _ _ _ _ _ _ _ e). }
  destruct (at_path_conf cs kids p x Hs Hx) as (s & Hsc & Hcx).
  destruct (existing_dec cs kids p o s Hs Hsc) as [(e & E)|(He & _)].
  { rewrite E. now apply (SeenNot _ _ _ _ _ _ _ e). }
  destruct (module_exec_ok cs kids p o s x Hs He Hsc Hx) as (evs & R).
  pose proof (cf_clash cs p (base_events O s x o) Hc) as Hcf.
  destruct (trichotomy q Hq p) as [H|[H|[H1 H2]]].
  - apply SeenApart; [exact H|].
    destruct (run_frame _ _ _ _ _ _ _ _ _ _ _ R Hs q H) as [E|(r & _ & s1 & c1 & k1 & k2 & _ & _ & Hr1 & Hr2 & _)]; [exact E|].
    exfalso. rewrite (Hc _ _ Hr1) in Hr2. discriminate.
  - destruct H as [q' ->]. eapply (SeenBelow _ _ _ _ _ _ _ s x q'); auto.
    + pose proof (run_put _ _ _ _ _ _ _ _ _ _ _ R Hs Hcf) as Hp.
      unfold at_path in *. rewrite node_app, Hp. reflexivity.
    + exact (run_out _ _ _ _ _ _ _ _ _ _ _ R).
  - eapply (SeenAbove _ _ _ _ _ _ _ s x); auto.
    + eapply run_above; eauto.
    + exact (run_out _ _ _ _ _ _ _ _ _ _ _ R).
Qed.

(* ------------------------------------------------------------------ C31 *)
Theorem unset_effect cs kids p s x :
  shaped cs kids -> ends_kid p -> schema_at cs p = Some s -> at_path kids p = Some x ->
  exists kids', module_exec O cs kids p AUnset = (kids', Ok tt) /\
    OCont false false kids' = graft (OCont false false kids) p (fresh O s).
Proof.
  intros Hs He Hsc Hx. destruct (module_exec_ok cs kids p AUnset s x Hs He Hsc Hx) as (evs & R).
  destruct (module_exec O cs kids p AUnset) as [kids' r] eqn:E. cbn [fst snd] in R.
  pose proof (run_out _ _ _ _ _ _ _ _ _ _ _ R) as Ho. cbn in Ho. subst r.
  exists kids'. split; [reflexivity|]. eapply run_silent; [exact R|reflexivity|reflexivity].
Qed.

(* ------------------------------------------------------------------ C11 *)
Lemma plain_init t o v : match t with TRestr _ _ | TBits _ => False | _ => True end -> exists o', ty_init O t o v = Ok o'.
Proof. destruct t; intros H; try contradiction; eexists; reflexivity. Qed.

Lemma dyn_leaf_early t v e : ty_new O t (Some v) = Raise e -> e <> TypeError ->
  dyn_leaf O t v = {| d_notified := false; d_out := Raise e |}.
Proof. intros H He. unfold dyn_leaf. rewrite H. destruct e; congruence. Qed.

Lemma checked_first_quiet lt v e : checked_first lt v -> d_out (leaf_assign O lt v) = Raise e ->
  d_notified (leaf_assign O lt v) = false.
Proof.
  intros H Hr. unfold leaf_assign in *. cbn [d_notified d_out] in *. destruct H.
  - cbn [dyn_ltype] in *. destruct (union_pick O ts v) as [t|] eqn:E; [|reflexivity].
    apply (proj1 (union_pick_spec O ts v)) in E. destruct E as (_ & _ & _ & [w Hw] & _).
    rewrite (dyn_leaf_call O _ _ _ Hw) in Hr. discriminate.
  - cbn [dyn_ltype] in *. unfold dyn_leaf in *.
    destruct (match ty_new O t (Some v) with Raise TypeError => _ | r => r end) as [o|]; [|reflexivity].
    cbn [d_out] in Hr. destruct (plain_init t o v H) as [o' Ho]. rewrite Ho in Hr. discriminate.
  - cbn [dyn_ltype] in *.
    assert (Hd : in_levels z (l :: ls) \/ ~ in_levels z (l :: ls)).
    { destruct (in_levelsb z (l :: ls)) eqn:E; [left; now apply in_levelsb_iff|right].
      intros Hc. apply in_levelsb_iff in Hc. congruence. }
    destruct Hd as [Hi|Hi].
    + exfalso. assert (Hc : ty_call O (int_chain (l :: ls)) (VInt z) = Ok (VInt z)).
      { apply chain_call_ok; auto. destruct z; [right|left|left]; reflexivity. }
      rewrite (dyn_leaf_call O _ _ _ Hc) in Hr. discriminate.
    + destruct (Z.eq_dec z 0) as [->|Hz].
      * rewrite (dyn_leaf_early _ _ ValueError); [reflexivity| |discriminate]. now apply chain_zero_fail.
      * destruct H0 as [H0|H0]; [contradiction|].
        rewrite (dyn_leaf_early _ _ ValueError); [reflexivity| |discriminate].
        rewrite (chain_new_fail O l ls (VInt z) z); auto.
        -- apply in_levelsb_iff in H0. now rewrite H0.
        -- cbn [truthy]. destruct z; [contradiction|reflexivity|reflexivity].
  - pose proof (str_assign O levels s H) as Ha. unfold leaf_assign in Ha. cbn [dyn_ltype] in *. injection Ha as Hn Ho.
    rewrite Hn. rewrite Ho in Hr. destruct (accepted O levels s) eqn:E; [discriminate|].
    destruct (some_each O levels s) eqn:E2; [|reflexivity]. exfalso.
    unfold accepted in E. rewrite E2 in E. cbn [andb] in E.
    destruct levels as [|l ls]; [discriminate|].
    assert (Hin : In (last (l :: ls) []) (l :: ls)).
    { destruct (exists_last (l := l :: ls)) as (a & b & ->); [discriminate|]. rewrite last_last.
      apply in_or_app. right. now left. }
    unfold some_each in E2. rewrite forallb_forall in E2. specialize (E2 _ Hin).
    rewrite Forall_forall in H0. specialize (H0 _ Hin). unfold all_last in E.
    destruct (last (l :: ls) []) as [|r [|]]; try discriminate.
    cbn [existsb forallb] in *. rewrite orb_false_r in E2. rewrite E2 in E. discriminate.
  - pose proof (enum_assign O names (VStr s)) as Ha. unfold leaf_assign in Ha. cbn [dyn_ltype] in *. injection Ha as Hn Ho.
    rewrite Hn. rewrite Ho in Hr. cbn [is_False orb]. destruct (str_in _ _); [discriminate|reflexivity].
Qed.

Theorem quiet_rejection cs kids p o s x e :
  shaped cs kids -> ends_kid p -> schema_at cs p = Some s -> at_path kids p = Some x ->
  apply O s x o = no_effect (Raise e) -> module_exec O cs kids p o = (kids, Raise e).
Proof.
  intros Hs He Hsc Hx Ha. destruct (module_exec_ok cs kids p o s x Hs He Hsc Hx) as (evs & R).
  destruct (module_exec O cs kids p o) as [kids' r] eqn:E. cbn [fst snd] in R.
  pose proof (run_out _ _ _ _ _ _ _ _ _ _ _ R) as Ho. rewrite Ha in Ho. cbn in Ho. subst r.
  f_equal. eapply run_quiet; [exact R| |]; unfold base_events; rewrite Ha; [reflexivity|discriminate].
Qed.

Theorem rejection_main cs kids p w v i lt d y k kids' e :
  shaped cs kids -> schema_at cs p = Some (SLeaf i lt d y k) ->
  module_exec O cs kids p (ASet w (AVal v)) = (kids', Raise e) ->
  checked_first lt v \/ (k = true /\ w <> Priv true) \/ (w = Attr /\ e_rw i = false) ->
  kids' = kids.
Proof.
  intros Hs Hsc H Hc.
  destruct (existing_dec cs kids p (ASet w (AVal v)) _ Hs Hsc) as [(e' & E)|(He & x & Hx)].
  { rewrite E in H. injection H as <- _. reflexivity. }
  assert (Ha : exists e', apply O (SLeaf i lt d y k) x (ASet w (AVal v)) = no_effect (Raise e')).
  { pose proof (exec_run O p false cs kids (ASet w (AVal v)) _ x Hs He Hsc Hx) as R.
    unfold module_exec in H. destruct (exec O false cs kids p _) as [[k1 e1] r1] eqn:E. injection H as -> ->.
    pose proof (run_out _ _ _ _ _ _ _ _ _ _ _ R) as Ho. cbn [apply] in *.
    assert (Hcase : (exists e', assign O (SLeaf i lt d y k) w (AVal v) = no_effect (Raise e')) \/
                    assign O (SLeaf i lt d y k) w (AVal v) = set_leaf O i lt v /\
                    (k = true -> w = Priv true) /\ (w = Attr -> e_rw i = true)).
    { unfold assign. cbn [s_info is_key set_any]. destruct w as [|[|]]; destruct (e_rw i), k; cbn [andb negb];
        try (left; eexists; reflexivity); right; (split; [reflexivity|split; congruence]). }
    destruct Hcase as [Hq|(Hq & Hk & Hw)]; [exact Hq|]. rewrite Hq in *.
    destruct Hc as [Hc|[[Hc1 Hc2]|[Hc1 Hc2]]]; [|exfalso; auto|rewrite (Hw Hc1) in Hc2; discriminate].
    unfold set_leaf in *. destruct (d_out (leaf_assign O lt v)) as [u|e2] eqn:E2; [discriminate|].
    rewrite (checked_first_quiet lt v e2 Hc E2). eexists. reflexivity. }
  destruct Ha as [e' Ha]. rewrite (quiet_rejection cs kids p _ _ x e' Hs He Hsc Hx Ha) in H. now injection H as <- _.
Qed.
End T.
