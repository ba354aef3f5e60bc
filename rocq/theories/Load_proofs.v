(** The default JSON decoder, step by step. *)
From Verif Require Import PyStr PyVal PyStr_facts Base64 Restricted Restricted_proofs Bits Spec_Lists TypedList TypedList_proofs YList YList_proofs SafeName
  Tree Spec_Tree Tree_proofs Tree_frame Tree_main Tree_hist Tree_dump Tree_choice Tree_copy Serialise.
From Coq Require Import Lia.

Section L.
Context (O : oracle) (uid : list (pyval * obj) -> str) (top : list schema).
Context (Hcf : choice_free top).
Notation run_op := (run_op O top).

(** Flags above a change. *)
Definition kept (old new : option obj) : Prop :=
  match old, new with
  | Some (OCont _ pres _), Some (OCont _ pres' _) => pres = true -> pres' = true
  | Some (OList _ es), Some (OList _ es') => map fst es' = map fst es
  | a, b => a = b
  end.
Lemma kept_refl a : kept a a.
Proof. destruct a as [[]|]; cbn; auto. Qed.
Lemma kept_trans a b c : kept a b -> kept b c -> kept a c.
Proof. destruct a as [[]|], b as [[]|]; cbn; try congruence; destruct c as [[]|]; cbn; try congruence; auto. Qed.

(** Everything that happened between [m] and [m'] happened at or below [p]. *)
Record upd (p : list pstep) (m m' : list obj) : Prop := {
  u_shape : shaped top m';
  u_apart : forall q, apart p q -> at_path m' q = at_path m q;
  u_above : forall q, prefix q p -> q <> p -> kept (at_path m q) (at_path m' q)
}.

Lemma upd_refl p m : shaped top m -> upd p m m.
Proof. intros H. constructor; auto using kept_refl. Qed.
Lemma upd_trans p m1 m2 m3 : upd p m1 m2 -> upd p m2 m3 -> upd p m1 m3.
Proof.
  intros [A1 B1 C1] [A2 B2 C2]. constructor; auto.
  - intros q Hq. rewrite B2, B1; auto.
  - intros q Hq Hn. eapply kept_trans; eauto.
Qed.
Lemma apart_app p r : forall q, apart p q -> apart (p ++ r) q.
Proof. induction p as [|a p IH]; intros [|b q]; cbn; try contradiction; intros [H|H]; auto. Qed.
Lemma prefix_app (q p r : list pstep) : prefix q p -> prefix q (p ++ r).
Proof. intros [t ->]. exists (t ++ r). now rewrite app_assoc. Qed.
Lemma prefix_self_len (q p : list pstep) r : prefix q p -> q = p ++ r -> r = [].
Proof. intros [t ->] E. apply (f_equal (@length _)) in E. rewrite !app_length in E. destruct r; auto; cbn in E; lia. Qed.
Lemma upd_below p r m m' : upd (p ++ r) m m' -> upd p m m'.
Proof.
  intros [A B C]. constructor; auto.
  - intros q Hq. apply B. now apply apart_app.
  - intros q Hq Hn. apply C; [now apply prefix_app|]. intros E.
    pose proof (prefix_self_len q p r Hq E). subst r. rewrite app_nil_r in E. auto.
Qed.
Lemma apart_kids p a b : a <> b -> apart (p ++ [Kid a]) (p ++ [Kid b]).
Proof. intros H. induction p as [|c p IH]; cbn; [left; intros E; inversion E; congruence|now right]. Qed.
Lemma apart_ents p a b : py_eq a b = false -> apart (p ++ [Ent a]) (p ++ [Ent b]).
Proof. intros H. induction p as [|c p IH]; cbn; [left; intros E; inversion E; congruence|now right]. Qed.
Lemma upd_above_one p a m m' : upd (p ++ [a]) m m' -> kept (at_path m p) (at_path m' p).
Proof.
  intros [_ _ C]. apply C; [now exists [a]|]. intros E. apply (f_equal (@length _)) in E.
  rewrite app_length in E. cbn in E. lia.
Qed.

Lemma at_nil (m : list obj) : at_path m [] = Some (OCont false false m).
Proof. reflexivity. Qed.

(** One operation. *)
Lemma op_upd m q o : shaped top m -> ends_kid q -> upd q m (fst (run_op m q o)).
Proof.
  intros Hs He. unfold Serialise.run_op.
  destruct (at_path m q) as [x|] eqn:Hx.
  2:{ destruct (module_exec_missing O top m q o Hs (or_intror Hx)) as (e & E). rewrite E. now apply upd_refl. }
  destruct (at_path_conf top m q x Hs Hx) as (s & Hsc & Hcx).
  destruct (module_exec_ok O top m q o s x Hs He Hsc Hx) as (evs & R).
  pose proof (cf_clash top q (base_events O s x o) Hcf) as Hcl.
  constructor.
  - exact (module_run_shaped O top [(q, o)] m Hs).
  - intros r Hr. destruct (run_frame _ _ _ _ _ _ _ _ _ _ _ R Hs r Hr) as [E|(r' & _ & s1 & c1 & k1 & k2 & _ & _ & Hr1 & Hr2 & _)]; [exact E|].
    exfalso. rewrite (Hcf _ _ Hr1) in Hr2. discriminate.
  - intros r Hr Hn. destruct r as [|a r]; [rewrite !at_nil; cbn; discriminate|].
    pose proof (run_above _ _ _ _ _ _ _ _ _ _ _ R Hs Hcl (a :: r) Hr ltac:(discriminate) Hn) as Hm.
    unfold marked in Hm. destruct (at_path m (a :: r)) as [[]|]; try contradiction;
      destruct (at_path _ (a :: r)) as [[]|]; try contradiction; destruct (schema_at top (a :: r)) as [[]|]; try contradiction; cbn.
    + destruct Hm as [_ ->]. unfold mark_present. destruct (base_events _ _ _ _); auto. now intros ->.
    + now destruct Hm.
Qed.
Lemma op_at m q o s x : shaped top m -> ends_kid q -> schema_at top q = Some s -> at_path m q = Some x ->
  snd (run_op m q o) = f_out (apply O s x o) /\ at_path (fst (run_op m q o)) q = Some (put O s x o).
Proof.
  intros Hs He Hsc Hx. unfold Serialise.run_op.
  destruct (module_exec_ok O top m q o s x Hs He Hsc Hx) as (evs & R).
  pose proof (cf_clash top q (base_events O s x o) Hcf) as Hcl.
  split; [exact (run_out _ _ _ _ _ _ _ _ _ _ _ R)|]. eapply run_put; eauto.
Qed.
(** ** Choices *)
Lemma schema_steps p q : Forall2 step_eq p q -> forall s, sub s p = sub s q.
Proof.
  induction 1 as [|a b p q Hab Hpq IH]; intros s; [reflexivity|]. destruct Hab as [n|k k' Hk]; cbn [sub].
  - destruct s; auto. destruct (nth_error _ n); auto.
  - destruct s; auto.
Qed.
Lemma node_steps p q : Forall2 step_eq p q -> forall x, node x p = node x q.
Proof.
  induction 1 as [|a b p q Hab Hpq IH]; intros x; [reflexivity|]. destruct Hab as [n|k k' Hk]; cbn [node].
  - destruct x; auto. destruct (nth_error _ n); auto.
  - destruct x; auto. rewrite (mget_eq k' k es Hk). destruct (mget k' es); auto.
Qed.
Lemma steps_trans_firstn (r q : list pstep) a : (length r <= length q)%nat ->
  firstn (length r) (q ++ a) = firstn (length r) q.
Proof. intros H. rewrite firstn_app. replace (length r - length q)%nat with 0%nat by lia. cbn. now rewrite app_nil_r. Qed.

(** The choices that the data of an object notify. *)
Inductive emits : schema -> obj -> str * str -> Prop :=
| EmOwn s x tg : has_data s x -> s_tag s = Some tg -> emits s x tg
| EmKid i pr cs ch ps kids n s x tg : nth_error cs n = Some s -> nth_error kids n = Some x -> emits s x tg ->
    emits (SCont i pr cs) (OCont ch ps kids) tg
| EmEnt i keys od cs ch es k e tg : mget k es = Some e -> emits (entry_schema cs) e tg ->
    emits (SList i keys od cs) (OList ch es) tg.
Definition kids_settled (cs : list schema) (kids : list obj) : Prop :=
  forall n1 n2 s1 s2 x1 x2 c k1 k2, nth_error cs n1 = Some s1 -> nth_error cs n2 = Some s2 ->
    nth_error kids n1 = Some x1 -> nth_error kids n2 = Some x2 ->
    emits s1 x1 (c, k1) -> s_tag s2 = Some (c, k2) -> k1 <> k2 -> ~ has_data s2 x2.
Inductive settled : schema -> obj -> Prop :=
| StLeaf i lt d yt k x : settled (SLeaf i lt d yt k) x
| StLeafList i ts yt x : settled (SLeafList i ts yt) x
| StCont i pr cs ch ps kids : kids_settled cs kids -> Forall2 settled cs kids -> settled (SCont i pr cs) (OCont ch ps kids)
| StList i keys od cs ch es : (forall k e, mget k es = Some e -> settled (entry_schema cs) e) -> settled (SList i keys od cs) (OList ch es).

(** Nothing that the notifications [E] from [q], and those of the choices on the way to [q], would
    reset is other than new. *)
Definition clear_of (E : str * str -> Prop) (q : list pstep) (m : list obj) : Prop :=
  forall r s c k k', (2 <= length r <= length q)%nat -> Forall2 step_eq (removelast r) (firstn (length r - 1) q) ->
    schema_at top r = Some s -> s_tag s = Some (c, k') -> k <> k' ->
    (E (c, k) \/ exists t st, prefix t q /\ (length r <= length t)%nat /\ schema_at top t = Some st /\ s_tag st = Some (c, k)) ->
    at_path m r = Some (fresh O s) /\ ~ Forall2 step_eq r (firstn (length r) q).
Definition outer (s : schema) (x : obj) (q : list pstep) (m : list obj) : Prop :=
  has_data s x -> clear_of (emits s x) q m.
Definition around (cs : list schema) (kids : list obj) (p : list pstep) (m : list obj) : Prop :=
  forall n s x, nth_error cs n = Some s -> nth_error kids n = Some x -> has_data s x -> clear_of (emits s x) p m.
Definition quiet (cs : list schema) (kids : list obj) (p : list pstep) (m : list obj) : Prop :=
  forall n s x, nth_error cs n = Some s -> nth_error kids n = Some x -> ~ has_data s x ->
    at_path m (p ++ [Kid n]) = Some (fresh O s).

Lemma step_eq_dec a b : step_eq a b \/ ~ step_eq a b.
Proof.
  destruct a as [n|k], b as [n'|k']; try (right; intros H; inversion H; fail).
  - destruct (Nat.eq_dec n n') as [->|Hn]; [left; constructor|right; intros H; inversion H; congruence].
  - destruct (py_eq k k') eqn:E; [left; now constructor|right; intros H; inversion H; congruence].
Qed.
Lemma not_steps_apart q : forall r, (length r <= length q)%nat -> ~ Forall2 step_eq r (firstn (length r) q) -> apart q r.
Proof.
  induction q as [|a q IH]; intros [|b r] Hl Hn; cbn in *; try (exfalso; apply Hn; constructor; fail); [lia|].
  destruct (step_eq_dec a b) as [Hab|Hab]; [|now left]. right. apply IH; [lia|]. intros H. apply Hn. constructor; auto.
  destruct Hab; constructor. now rewrite py_eq_sym.
Qed.
Lemma clear_upd E q m m' : upd q m m' -> clear_of E q m -> clear_of E q m'.
Proof.
  intros Hu H r s c k k' Hl Hf Hs Ht Hk Hsrc. destruct (H r s c k k' Hl Hf Hs Ht Hk Hsrc) as [Ha Hn]. split; auto.
  rewrite (u_apart _ _ _ Hu); auto. apply not_steps_apart; auto. lia.
Qed.
Lemma outer_upd s x q m m' : upd q m m' -> outer s x q m -> outer s x q m'.
Proof. intros Hu H Hd. eapply clear_upd; eauto. Qed.
Lemma around_upd cs kids p m m' : upd p m m' -> around cs kids p m -> around cs kids p m'.
Proof. intros Hu H n s x Hs Hx Hd. eapply clear_upd; eauto. Qed.

Lemma op_calm E m q o s x : shaped top m -> ends_kid q -> schema_at top q = Some s -> at_path m q = Some x ->
  (forall c k, In (Some (c, k)) (base_events O s x o) -> s_tag s = Some (c, k)) -> clear_of E q m ->
  upd q m (fst (run_op m q o)) /\ snd (run_op m q o) = f_out (apply O s x o) /\
  at_path (fst (run_op m q o)) q = Some (put O s x o).
Proof.
  intros Hs He Hsc Hx Hb Hc. unfold Serialise.run_op.
  destruct (module_exec_ok O top m q o s x Hs He Hsc Hx) as (evs & R).
  assert (Hriv : forall r, rival top q r -> (length r <= length q)%nat -> forall t, schema_at top r = Some t ->
            at_path m r = Some (fresh O t) /\ ~ Forall2 step_eq r (firstn (length r) q)).
  { intros r (s1 & c & k' & t & st & k & H2 & Hf & Hr & Htg & Hp & Hl & Ht & Htt & Hne) Hlen u Hu.
    assert (u = s1) by congruence. subst u. eapply Hc; eauto 10. }
  assert (Hcl : clash_free false top q (base_events O s x o)).
  { apply no_rival_clash_free with s; auto. intros r Hp Hr. pose proof (prefix_len _ _ Hp) as Hl.
    pose proof Hr as (s1 & _ & _ & _ & _ & _ & _ & _ & Hr1 & _).
    destruct (Hriv r Hr Hl s1 Hr1) as [_ Hn]. apply Hn. destruct Hp as [z ->].
    rewrite firstn_app, firstn_all, Nat.sub_diag. cbn. rewrite app_nil_r. apply steps_refl. }
  split; [|split; [exact (run_out _ _ _ _ _ _ _ _ _ _ _ R)|eapply run_put; eauto]].
  constructor.
  - exact (module_run_shaped O top [(q, o)] m Hs).
  - intros r Hr. destruct (run_frame _ _ _ _ _ _ _ _ _ _ _ R Hs r Hr) as [E0|(r' & Hp & Hr')]; [exact E0|].
    assert (Hl : (length r' <= length q)%nat) by (destruct Hr' as (? & ? & ? & ? & (_ & Hl) & _); exact Hl).
    destruct (reset_is_rival O top _ q _ s r' Hsc Hb Hr') as [Hriv' (t & Ht & Ha)].
    destruct (Hriv r' Hriv' Hl t Ht) as [Hm _]. destruct Hp as [z ->]. unfold at_path in *. rewrite !node_app, Ha, Hm. reflexivity.
  - intros r Hr Hn. destruct r as [|a r]; [rewrite !at_nil; cbn; discriminate|].
    pose proof (run_above _ _ _ _ _ _ _ _ _ _ _ R Hs Hcl (a :: r) Hr ltac:(discriminate) Hn) as Hm.
    unfold marked in Hm. destruct (at_path m (a :: r)) as [[]|]; try contradiction;
      destruct (at_path _ (a :: r)) as [[]|]; try contradiction; destruct (schema_at top (a :: r)) as [[]|]; try contradiction; cbn.
    + destruct Hm as [_ ->]. unfold mark_present. destruct (base_events _ _ _ _); auto. now intros ->.
    + now destruct Hm.
Qed.
Lemma ends_kid_app p n : ends_kid (p ++ [Kid n]).
Proof. now exists p, n. Qed.
Lemma schema_kid p i pr cs n : schema_at top p = Some (SCont i pr cs) ->
  schema_at top (p ++ [Kid n]) = nth_error cs n.
Proof. intros H. unfold schema_at in *. rewrite sub_app, H. cbn. destruct (nth_error cs n); reflexivity. Qed.
Lemma schema_entry p i keys od cs k : schema_at top p = Some (SList i keys od cs) ->
  schema_at top (p ++ [Ent k]) = Some (entry_schema cs).
Proof. intros H. unfold schema_at in *. rewrite sub_app, H. reflexivity. Qed.
Lemma at_kid m p ch pres ks n : at_path m p = Some (OCont ch pres ks) -> at_path m (p ++ [Kid n]) = nth_error ks n.
Proof. intros H. unfold at_path in *. rewrite node_app, H. cbn. destruct (nth_error ks n); reflexivity. Qed.
Lemma at_entry m p ch es k : at_path m p = Some (OList ch es) -> at_path m (p ++ [Ent k]) = mget k es.
Proof. intros H. unfold at_path in *. rewrite node_app, H. cbn. destruct (mget k es); reflexivity. Qed.

(** What an operation notifies. *)
Lemma own_events s x o : choice_op o -> forall c k, In (Some (c, k)) (base_events O s x o) -> s_tag s = Some (c, k).
Proof.
  intros Ho c k. unfold base_events. destruct o as [w [v|z]| |b|lo|u yo]; try contradiction; cbn [apply].
  - assert (Hcase : assign O s w (AVal v) = set_any O s (AVal v) \/ exists e, assign O s w (AVal v) = no_effect (Raise e)).
    { unfold assign. destruct w; [destruct (e_rw _)|]; try destruct (is_key s && _)%bool; eauto. }
    destruct Hcase as [-> |[e ->]]; [|intros []]. intros Hin.
    assert (Hev : forall evs r, (evs = [s_tag s] \/ evs = []) ->
            In (Some (c, k)) (f_pre (setter evs r) ++ f_post (setter evs r)) -> s_tag s = Some (c, k)).
    { intros evs r Hevs. unfold setter. destruct r; cbn [f_pre f_post]; destruct Hevs as [->| ->]; cbn; intros [H|[H|H]] || intros [H|H] || intros H;
        try discriminate; try contradiction; auto. }
    destruct s as [i lt d yt kk|i ts yt|i pr [|cc cs]|i keys od cs]; cbn [set_any] in Hin;
      unfold set_leaf, set_leaf_list in Hin; (eapply Hev; [|exact Hin]); auto.
    destruct (d_notified _); auto.
  - destruct s, x; try (intros []; fail). destruct b; cbn; [intros [H|[]]; exact H|intros []].
  - destruct s, x; try (intros []; fail). destruct (tl_op O ts true l lo) as [l' r]. cbn [f_pre f_post app].
    destruct (tl_notifies lo); [intros [H|[]]; exact H|intros []].
Qed.
Lemma list_events i keys od cs ch es u yo : forall c k,
  (forall c k, In (Some (c, k)) (snd (fst (list_op O keys cs u es yo))) -> e_choice i = Some (c, k)) ->
  In (Some (c, k)) (base_events O (SList i keys od cs) (OList ch es) (AList u yo)) -> s_tag (SList i keys od cs) = Some (c, k).
Proof.
  intros c k Hn. unfold base_events. cbn [apply]. destruct (list_op O keys cs u es yo) as [[es' evs] r]. cbn [fst snd] in Hn.
  cbn [f_pre f_post app]. intros Hin. apply in_app_or in Hin as [Hin|Hin]; [|now apply (Hn c k)].
  destruct (yl_notifies yo); [destruct Hin as [H|[]]; exact H|destruct Hin].
Qed.
(** Nothing is set that a notification of [tg] unsets. *)
Definition kept_apart (tg : event) (cs : list schema) (kids : list obj) : Prop :=
  forall n s x, nth_error cs n = Some s -> nth_error kids n = Some x -> other_case tg s = true -> x = fresh O s.
Lemma clears_same tg cs evs : (forall c k, In (Some (c, k)) evs -> tg = Some (c, k)) ->
  forall kids, kept_apart tg cs kids -> clears O cs kids evs = kids.
Proof.
  induction evs as [|e evs IH]; intros H kids Hu; [reflexivity|]. unfold clears in *. cbn [fold_left].
  assert (E : clear O cs kids e = kids).
  { assert (He : e = None \/ e = tg). { destruct e as [[c k]|]; auto. right. symmetry. apply H. now left. }
    clear -He Hu. revert kids Hu. induction cs as [|s cs IH]; intros [|x kids] Hu; try reflexivity. cbn [clear].
    rewrite IH by (intros n; exact (Hu (S n))). f_equal. destruct He as [->| ->]; [reflexivity|].
    destruct (other_case tg s) eqn:E; [|reflexivity]. symmetry. exact (Hu 0%nat s x eq_refl eq_refl E). }
  rewrite E. apply IH; auto. intros c k Hi. apply H. now right.
Qed.
Lemma kept_set tg cs kids n s y : kept_apart tg cs kids -> nth_error cs n = Some s -> other_case tg s = false ->
  kept_apart tg cs (set_nth n y kids).
Proof.
  intros Hu Hs Ho m t x Ht Hx E. destruct (Nat.eq_dec n m) as [->|Hne]; [rewrite Hs in Ht; injection Ht as <-; congruence|].
  rewrite set_nth_other in Hx by assumption. exact (Hu m t x Ht Hx E).
Qed.
Lemma kept_fresh tg cs : kept_apart tg cs (map (fresh O) cs).
Proof. intros n s x Hs Hx _. rewrite nth_fresh, Hs in Hx. now injection Hx as <-. Qed.
Lemma own_case tg s : s_tag s = None \/ s_tag s = tg -> other_case tg s = false.
Proof. intros [H|H]; unfold other_case; rewrite H; destruct tg as [[c k]|]; auto. now rewrite !str_eqb_refl. Qed.
Lemma absorb_same tg cs kids n s f y : (forall c k, In (Some (c, k)) (f_pre f ++ f_post f) -> tg = Some (c, k)) -> f_new f = Some y ->
  kept_apart tg cs kids -> nth_error cs n = Some s -> other_case tg s = false -> absorb O true cs kids n f = set_nth n y kids.
Proof.
  intros H Hf Hu Hs Ho. unfold absorb. rewrite Hf. rewrite (clears_same tg cs (f_pre f)); [|intros c k Hi; apply H, in_or_app; auto|exact Hu].
  apply (clears_same tg); [intros c k Hi; apply H, in_or_app; auto|eapply kept_set; eassumption].
Qed.
Lemma key_events tg i lt v : e_choice i = None \/ e_choice i = tg ->
  forall c k, In (Some (c, k)) (f_pre (set_leaf O i lt v) ++ f_post (set_leaf O i lt v)) -> tg = Some (c, k).
Proof.
  intros Hi c k. unfold set_leaf, setter. destruct Hi as [->| ->]; destruct (d_notified _), (d_out _); cbn; intuition congruence.
Qed.
(** Adding an entry whose keys are in no choice or in the case of the list notifies of no other. *)
Lemma fill_events tg cs : forall kd kids, 
  (forall n j s, In n (map fst kd) -> kid_index n cs = Some j -> nth_error cs j = Some s ->
     (s_tag s = None \/ s_tag s = tg) /\ exists i lt d yt k, s = SLeaf i lt d yt k) ->
  forall c k, In (Some (c, k)) (snd (fst (fill_keys O cs kids kd))) -> tg = Some (c, k).
Proof.
  induction kd as [|[n v] kd IH]; intros kids H c k; [intros []|]. cbn [fill_keys].
  destruct (kid_index n cs) as [j|] eqn:Ej; [|intros []]. destruct (nth_error cs j) as [s|] eqn:Es; [|intros []].
  destruct (H n j s (or_introl eq_refl) Ej Es) as [Ht (i & lt & d & yt & kk & ->)]. cbn [set_any].
  pose proof (key_events tg i lt v Ht) as Hq. destruct (f_out (set_leaf O i lt v)); [|exact (Hq c k)].
  assert (Hrec := IH (absorb O true cs kids j (set_leaf O i lt v))). destruct (fill_keys O cs _ kd) as [[k1 e1] r1]. cbn [fst snd] in *.
  rewrite app_assoc. intros Hin. apply in_app_or in Hin as [Hin|Hin]; [exact (Hq c k Hin)|]. eapply Hrec; [|exact Hin].
  intros n' j' s' Hn'. apply H. now right.
Qed.

(** Choices, one level down. *)
Lemma prefix_snoc (t q : list pstep) a : prefix t (q ++ [a]) -> prefix t q \/ t = q ++ [a].
Proof.
  intros [z E]. destruct z as [|b z] using rev_ind; [right; now rewrite app_nil_r in E|].
  left. rewrite app_assoc in E. apply app_inj_tail in E. destruct E as [-> _]. now exists z.
Qed.
Lemma has_kid i pr cs ch ps : forall kids n s x, nth_error cs n = Some s -> nth_error kids n = Some x -> has_data s x ->
  length kids = length cs -> has_data (SCont i pr cs) (OCont ch ps kids).
Proof.
  intros kids n s x Hs Hx Hd _. unfold has_data in *. rewrite get_cont.
  assert (H : get_kids true cs kids <> []).
  { clear -Hs Hx Hd. revert kids n Hs Hx. induction cs as [|s0 cs IH]; intros [|x0 kids] [|n] Hs Hx; try discriminate; cbn in Hs, Hx; cbn [get_kids].
    - injection Hs as ->. injection Hx as ->. destruct (get_kid true s x); [discriminate|congruence].
    - destruct (get_kid true s0 x0); [discriminate|]. eapply IH; eassumption. }
  destruct (get_kids true cs kids); [congruence|discriminate].
Qed.
Lemma around_outer i pr cs ch ps kids p m : shaped top m -> conf (SCont i pr cs) (OCont ch ps kids) ->
  outer (SCont i pr cs) (OCont ch ps kids) p m -> around cs kids p m.
Proof.
  intros _ Hc Ho n s x Hs Hx Hd. inversion Hc as [| |? ? ? ? ? ? Hf|]; subst.
  assert (Hl : length kids = length cs) by (clear -Hf; induction Hf; cbn; congruence).
  specialize (Ho (has_kid i pr cs ch ps kids n s x Hs Hx Hd Hl)).
  intros r t c k k' Hlen Hst Hr Ht Hk [He|He]; apply (Ho r t c k k' Hlen Hst Hr Ht Hk); [left|now right].
  eapply EmKid; eassumption.
Qed.
Lemma kid_clear i pr cs kids p m n s x : schema_at top p = Some (SCont i pr cs) -> length kids = length cs ->
  nth_error cs n = Some s -> nth_error kids n = Some x -> has_data s x ->
  around cs kids p m -> quiet cs kids p m -> (p <> [] -> kids_settled cs kids) ->
  clear_of (emits s x) (p ++ [Kid n]) m.
Proof.
  intros Hp Hlen Hs Hx Hd Har Hq Hset r t c k k' Hl Hf Hr Ht Hk Hsrc.
  rewrite app_length in Hl. cbn [length] in Hl.
  assert (Hpn : schema_at top (p ++ [Kid n]) = Some s).
  { unfold schema_at in *. rewrite sub_app, Hp. cbn. now rewrite Hs. }
  destruct (Nat.leb_spec (length r) (length p)) as [Hle|Hgt].
  - assert (Hf' : Forall2 step_eq (removelast r) (firstn (length r - 1) p)).
    { rewrite firstn_app in Hf. replace (length r - 1 - length p)%nat with 0%nat in Hf by lia. cbn [firstn] in Hf. now rewrite app_nil_r in Hf. }
    rewrite (steps_trans_firstn r p [Kid n] Hle).
    apply (Har n s x Hs Hx Hd r t c k k'); auto; [lia|].
    destruct Hsrc as [He|(t0 & st & Hpt & Hlt & Hst & Htt)]; [now left|].
    destruct (prefix_snoc _ _ _ Hpt) as [Hpt'| ->]; [right; now exists t0, st|].
    left. rewrite Hpn in Hst. injection Hst as <-. now apply EmOwn.
  - assert (Hlr : (length r = length p + 1)%nat) by lia.
    assert (Hne : r <> []) by (intros ->; cbn in Hlr; lia).
    destruct (last_step r Hne) as (r0 & a & ->). rewrite removelast_last in Hf. rewrite app_length in *. cbn [length] in *.
    replace (length r0 + 1 - 1)%nat with (length p) in Hf by lia.
    rewrite firstn_app, firstn_all, Nat.sub_diag in Hf. cbn [firstn] in Hf. rewrite app_nil_r in Hf.
    assert (Hem : emits s x (c, k)).
    { destruct Hsrc as [He|(t0 & st & Hpt & Hlt & Hst & Htt)]; [exact He|].
      destruct (prefix_snoc _ _ _ Hpt) as [Hpt'| ->]; [pose proof (prefix_len _ _ Hpt'); lia|].
      rewrite Hpn in Hst. injection Hst as <-. now apply EmOwn. }
    unfold schema_at in Hr. rewrite sub_app, (schema_steps r0 p Hf) in Hr. unfold schema_at in Hp. rewrite Hp in Hr.
    destruct a as [j|kk]; [|discriminate]. cbn [sub] in Hr. destruct (nth_error cs j) as [sj|] eqn:Hj; [|discriminate].
    injection Hr as ->.
    assert (Hxj : exists xj, nth_error kids j = Some xj).
    { destruct (nth_error kids j) eqn:E; [eauto|]. apply nth_error_None in E. assert (j < length cs)%nat by (apply nth_error_Some; congruence). lia. }
    destruct Hxj as [xj Hxj].
    assert (Hp0 : p <> []) by (intros ->; cbn in Hlr; inversion Hf; subst; cbn in Hl; lia).
    pose proof (Hset Hp0 n j s t x xj c k k' Hs Hj Hx Hxj Hem Ht Hk) as Hnd.
    split.
    + unfold at_path. rewrite node_app, (node_steps r0 p Hf). pose proof (Hq j t xj Hj Hxj Hnd) as Hq'.
      unfold at_path in Hq'. rewrite node_app in Hq'. exact Hq'.
    + intros H. assert (j <> n) by (intros ->; apply Hnd; congruence).
      replace (length r0 + 1)%nat with (length (p ++ [Kid n])) in H by (rewrite app_length; cbn; lia).
      rewrite firstn_all in H. apply Forall2_app_inv_l in H. destruct H as (l1 & l2 & H1 & H2 & E).
      inversion H2 as [|? b ? l2' Hb Hnil]; subst. inversion Hnil; subst. apply app_inj_tail in E. destruct E as [_ <-].
      inversion Hb; congruence.
Qed.
Lemma entry_outer i keys od cs ch es k e q m : schema_at top q = Some (SList i keys od cs) -> mget k es = Some e ->
  outer (SList i keys od cs) (OList ch es) q m -> outer (entry_schema cs) e (q ++ [Ent k]) m.
Proof.
  intros Hq He Ho _ r t c k0 k' Hl Hf Hr Ht Hk Hsrc.
  assert (Hd : has_data (SList i keys od cs) (OList ch es)).
  { unfold has_data. rewrite get_list. destruct es; [discriminate He|discriminate]. }
  assert (Hpn : schema_at top (q ++ [Ent k]) = Some (entry_schema cs)).
  { unfold schema_at in *. rewrite sub_app, Hq. reflexivity. }
  rewrite app_length in Hl. cbn [length] in Hl.
  destruct (Nat.leb_spec (length r) (length q)) as [Hle|Hgt].
  - assert (Hf' : Forall2 step_eq (removelast r) (firstn (length r - 1) q)).
    { rewrite firstn_app in Hf. replace (length r - 1 - length q)%nat with 0%nat in Hf by lia. cbn [firstn] in Hf. now rewrite app_nil_r in Hf. }
    rewrite (steps_trans_firstn r q [Ent k] Hle).
    apply (Ho Hd r t c k0 k'); auto; [lia|].
    destruct Hsrc as [Hem|(t0 & st & Hpt & Hlt & Hst & Htt)]; [left; eapply EmEnt; eassumption|].
    destruct (prefix_snoc _ _ _ Hpt) as [Hpt'| ->]; [right; now exists t0, st|].
    rewrite Hpn in Hst. injection Hst as <-. discriminate Htt.
  - assert (Hlr : (length r = length q + 1)%nat) by lia.
    assert (Hne : r <> []) by (intros ->; cbn in Hlr; lia).
    destruct (last_step r Hne) as (r0 & a & ->). rewrite removelast_last in Hf. rewrite app_length in *. cbn [length] in *.
    replace (length r0 + 1 - 1)%nat with (length q) in Hf by lia.
    rewrite firstn_app, firstn_all, Nat.sub_diag in Hf. cbn [firstn] in Hf. rewrite app_nil_r in Hf.
    unfold schema_at in Hr. rewrite sub_app, (schema_steps r0 q Hf) in Hr. unfold schema_at in Hq. rewrite Hq in Hr.
    destruct a as [j|kk]; [discriminate|]. injection Hr as <-. discriminate Ht.
Qed.
Lemma quiet_upd cs kids p m m' n s x : nth_error cs n = Some s -> nth_error kids n = Some x -> has_data s x ->
  upd (p ++ [Kid n]) m m' -> quiet cs kids p m -> quiet cs kids p m'.
Proof.
  intros Hs Hx Hd Hu Hq j t y Hj Hy Hn. rewrite (u_apart _ _ _ Hu); [now apply Hq with y|]. apply apart_kids.
  intros ->. assert (t = s) by congruence. assert (y = x) by congruence. now subst.
Qed.
Lemma data_dec s x : has_data s x \/ ~ has_data s x.
Proof. unfold has_data. destruct (get_kid true s x); [left; discriminate|right; intros H; now apply H]. Qed.

(** The body of the loop. *)
Definition load_kid (ov skip : bool) (s : schema) (q : list pstep) (j : json) (m : list obj) : step :=
  match s with
  | SCont _ pr cs' =>
      andthen (if pr then run_op m q (APresent true) else (m, Ok tt)) (fun m =>
      andthen (if ov then unset_kids O top q (length cs') m else (m, Ok tt)) (fun m =>
      load O uid top false skip false cs' (Some q) q j m))
  | SList _ _ od cs' =>
      match j with
      | JObj es =>
          let acts := map (fun kj => (order_of (snd kj),
                             load_entry O uid top q (fst kj)
                               (load O uid top false skip od cs' (Some q) (q ++ [Ent (VStr (fst kj))]) (snd kj)))) es in
          match (if od then in_order acts [] [] else Ok (map snd acts)) with
          | Raise e => (m, Raise e)
          | Ok todo =>
              andthen (for_each (fun act m => act m) todo m) (fun m =>
              andthen (if ov then prune O top q (map fst es) (map fst (entries m q)) m else (m, Ok tt)) (fun m =>
              match es with
              | [] => run_op m q (ASet (Priv true) (AVal (VDict [])))
              | _ => (m, Ok tt)
              end))
          end
      | _ => (m, Raise AttributeError)
      end
  | SLeafList _ _ _ =>
      if ov then run_op m q (ASet (Priv true) (AVal (jval j))) else load_members O top q j m
  | SLeaf _ _ _ _ _ => run_op m q (ASet (Priv true) (AVal (jval j)))
  end.
Definition load_member (ov skip strip : bool) (cs : list schema) (p : list pstep) (kj : str * json) (m : list obj) : step :=
  if strip && str_eqb (fst kj) order_key then (m, Ok tt)
  else match find_kid (fst kj) cs with
       | None => if skip then (m, Ok tt) else (m, Raise AttributeError)
       | Some (n, s) => load_kid ov skip s (p ++ [Kid n]) (snd kj) m
       end.
Lemma load_obj ov skip strip cs self p ms m :
  load O uid top ov skip strip cs self p (JObj ms) m = for_each (load_member ov skip strip cs p) ms m.
Proof. reflexivity. Qed.

Lemma for_each_app {A} (f : A -> list obj -> step) l1 : forall l2 m,
  for_each f (l1 ++ l2) m = andthen (for_each f l1 m) (for_each f l2).
Proof.
  induction l1 as [|a l1 IH]; intros l2 m; cbn; [reflexivity|].
  destruct (f a m) as [m1 [[]|e]]; cbn; auto.
Qed.
Lemma for_each_map {A B} (g : A -> B) (f : B -> list obj -> step) l : forall m,
  for_each f (map g l) m = for_each (fun a => f (g a)) l m.
Proof. induction l as [|a l IH]; intros m; cbn; auto. destruct (f (g a) m) as [m1 [[]|e]]; cbn; auto. Qed.

(** Objects without data. *)
Fixpoint blank (s : schema) (y : obj) {struct s} : Prop :=
  match s, y with
  | SLeaf _ _ _ _ _, OLeaf c _ => c = false
  | SLeafList _ _ _, OLeafList _ l => l = []
  | SCont _ _ cs, OCont _ pres kids =>
      pres = false /\ (fix all cs kids := match cs, kids with
                         | s :: cs', y :: kids' => blank s y /\ all cs' kids'
                         | [], [] => True
                         | _, _ => False
                         end) cs kids
  | SList _ _ _ _, OList _ es => es = []
  | _, _ => False
  end.
Lemma blank_kids i pr cs c pres kids : blank (SCont i pr cs) (OCont c pres kids) <-> pres = false /\ Forall2 blank cs kids.
Proof.
  cbn [blank]. split; intros [-> H]; split; auto.
  - revert kids H. induction cs as [|s cs IH]; intros [|y kids] H; try contradiction; constructor; try apply IH; apply H.
  - induction H as [|s y cs kids H1 H2 IH]; cbn; auto.
Qed.
Lemma fresh_blank s : blank s (fresh O s).
Proof.
  induction s as [i lt d yt k|i ts yt|i pr cs IH|i keys od cs IH] using schema_ind'; cbn [fresh]; try reflexivity.
  apply blank_kids. split; auto. induction IH; cbn; constructor; auto.
Qed.
Lemma get_blanks cs : forall kids, Forall2 (fun s y => get_kid true s y = None) cs kids -> get_kids true cs kids = [].
Proof. intros kids H. induction H as [|s y cs kids H1 H2 IH]; cbn [get_kids]; auto. now rewrite H1. Qed.
Lemma get_blank s : forall y, blank s y -> get_kid true s y = None.
Proof.
  induction s as [i lt d yt k|i ts yt|i pr cs IH|i keys od cs IH] using schema_ind'; intros [c v|c l|c ps kids|c es] H;
    try contradiction.
  - cbn in *. now subst.
  - cbn in *. now subst.
  - apply blank_kids in H. destruct H as [-> H]. rewrite get_cont, get_blanks, Bool.andb_false_r; auto.
    revert kids H. induction IH as [|s cs Hs Hcs IH]; intros kids H; inversion H; subst; constructor; auto.
  - cbn in H. subst. now rewrite get_list.
Qed.

(* ------------------------------------------------------------------ the round trip *)
Context (im : einfo -> str -> option str) (Hpk : plain_keys top).

Definition named_ok (cs : list schema) : Prop :=
  NoDup (map (fun s => e_py (s_info s)) cs) /\
  Forall (fun s => e_py (s_info s) = safe_name (e_yang (s_info s)) /\ e_yang (s_info s) <> order_key) cs.

Lemma kid_index_nth cs : NoDup (map (fun s => e_py (s_info s)) cs) -> forall n s, nth_error cs n = Some s ->
  kid_index (e_py (s_info s)) cs = Some n.
Proof.
  induction cs as [|c cs IH]; intros Hd n s Hn; [destruct n; discriminate|].
  cbn [map] in Hd. inversion Hd as [|? ? Hi Hd']; subst. destruct n as [|n]; cbn in Hn |- *.
  - injection Hn as ->. now rewrite str_eqb_refl.
  - rewrite str_eqb_neq. { now rewrite (IH Hd' n s Hn). }
    intros E. apply Hi. rewrite <- E. change (e_py (s_info s)) with ((fun s => e_py (s_info s)) s). apply in_map.
    eapply nth_error_In; eassumption.
Qed.
Lemma kid_index_some cs : forall n j, kid_index n cs = Some j -> exists s, nth_error cs j = Some s /\ e_py (s_info s) = n.
Proof.
  induction cs as [|c cs IH]; intros n j H; cbn in H; [discriminate|].
  destruct (str_eqb n (e_py (s_info c))) eqn:E.
  - injection H as <-. apply str_eqb_eq in E. exists c. split; auto.
  - destruct (kid_index n cs) as [k|] eqn:Ek; [|discriminate]. injection H as <-. destruct (IH n k Ek) as (s & Hs & Hp). now exists s.
Qed.
Lemma find_own cs n s : named_ok cs -> nth_error cs n = Some s -> find_kid (e_yang (s_info s)) cs = Some (n, s).
Proof.
  intros [Hd Hf] Hn. unfold find_kid. rewrite Forall_forall in Hf.
  destruct (Hf s (nth_error_In _ _ Hn)) as [<- _]. rewrite (kid_index_nth cs Hd n s Hn), Hn. reflexivity.
Qed.
Lemma yang_dist cs : named_ok cs -> NoDup (map (fun s => e_yang (s_info s)) cs).
Proof.
  intros [Hd Hf]. assert (E : map (fun s => e_py (s_info s)) cs = map safe_name (map (fun s => e_yang (s_info s)) cs)).
  { rewrite map_map. apply map_ext_in. intros s Hs. rewrite Forall_forall in Hf. now destruct (Hf s Hs). }
  rewrite E in Hd. eapply NoDup_map_inv; eassumption.
Qed.
Lemma child_own cs : NoDup (map (fun s => e_yang (s_info s)) cs) -> forall n s, nth_error cs n = Some s ->
  child_named (e_yang (s_info s)) cs = Some s.
Proof.
  induction cs as [|c cs IH]; intros Hd n s Hn; [destruct n; discriminate|].
  cbn [map] in Hd. inversion Hd as [|? ? Hi Hd']; subst. destruct n as [|n]; cbn in Hn |- *.
  - injection Hn as ->. now rewrite str_eqb_refl.
  - rewrite str_eqb_neq. { now rewrite (IH Hd' n s Hn). }
    intros E. apply Hi. rewrite <- E. change (e_yang (s_info s)) with ((fun s => e_yang (s_info s)) s). apply in_map.
    eapply nth_error_In; eassumption.
Qed.

Definition set_leaf_kid (cs : list schema) (kids : list obj) (n : str) : Prop :=
  exists j i lt d yt k v, kid_index n cs = Some j /\ nth_error cs j = Some (SLeaf i lt d yt k) /\ nth_error kids j = Some (OLeaf true v).

Inductive ready : schema -> obj -> Prop :=
| RyLeaf i lt d yt k ch v :
    (ch = true -> exists j, enc_leaf O im false i lt yt v = Ok j /\ d_out (leaf_assign O lt (jval j)) = Ok v) ->
    ready (SLeaf i lt d yt k) (OLeaf ch v)
| RyLeafList i ts yt ch l js :
    Forall2 (fun v j => enc_member O false ts v = Ok j /\ member_value O ts (jval j) = Some v /\ py_eq v (jval j) = true) l js ->
    dist l -> ready (SLeafList i ts yt) (OLeafList ch l)
| RyCont i pr cs ch pres kids : Forall2 ready cs kids -> ready (SCont i pr cs) (OCont ch pres kids)
| RyList i keys od cs ch es : keys <> [] -> kdist es ->
    Forall (fun e => exists t, fst e = VStr t /\ snd (list_op O keys cs [] [] (YAdd (VStr t))) = Ok tt) es ->
    Forall (fun e => exists c ps kids, snd e = OCont c ps kids /\ Forall2 ready cs kids /\ Forall (set_leaf_kid cs kids) keys) es ->
    ready (SList i keys od cs) (OList ch es).

(** What a child may look like when its data arrive. *)
Definition startable (s : schema) (x y : obj) : Prop :=
  y = fresh O s \/ exists i lt d yt k v c w, s = SLeaf i lt d yt k /\ x = OLeaf true v /\ y = OLeaf c w.

Definition arrives (s : schema) : Prop := forall x d, (exists q, schema_at top q = Some s) ->
  ready s x -> settled s x -> get_kid true s x = Some d ->
  exists j, enc_dump O im s d = Ok j /\
    forall q m y skip, shaped top m -> schema_at top q = Some s -> ends_kid q -> at_path m q = Some y -> startable s x y -> outer s x q m ->
      exists m' y', load_kid false skip s q j m = (m', Ok tt) /\ upd q m m' /\ at_path m' q = Some y' /\
        get_kid true s y' = Some d.

Definition enc_item (cs : list schema) (nd : str * dump) : res (str * json) :=
  match child_named (fst nd) cs with
  | Some t => j <- enc_dump O im t (snd nd) ;; Ok (fst nd, j)
  | None => Raise KeyError
  end.

Lemma at_parent m p n y : at_path m (p ++ [Kid n]) = Some y -> exists c ps ks, at_path m p = Some (OCont c ps ks).
Proof.
  intros H. unfold at_path in *. rewrite node_app in H. destruct (node _ p) as [z|]; [|discriminate].
  cbn in H. destruct z; try discriminate. eauto.
Qed.

Lemma kids_arrive cs : named_ok cs -> Forall arrives cs -> (exists q i pr, schema_at top q = Some (SCont i pr cs)) ->
  forall kids, length kids = length cs ->
  forall cs2 kids2 n0, (forall n s, nth_error cs2 n = Some s -> nth_error cs (n0 + n) = Some s) ->
  (forall n x, nth_error kids2 n = Some x -> nth_error kids (n0 + n) = Some x) -> Forall2 ready cs2 kids2 -> Forall2 settled cs2 kids2 ->
  exists ms, map_res (enc_item cs) (get_kids true cs2 kids2) = Ok ms /\ Forall (fun kj => fst kj <> order_key) ms /\
    forall p m skip strip i pr, shaped top m -> schema_at top p = Some (SCont i pr cs) ->
      (forall n s x, nth_error cs2 n = Some s -> nth_error kids2 n = Some x ->
         exists y, at_path m (p ++ [Kid (n0 + n)]) = Some y /\ startable s x y) ->
      around cs kids p m -> quiet cs kids p m -> (p <> [] -> kids_settled cs kids) ->
      exists m', for_each (load_member false skip strip cs p) ms m = (m', Ok tt) /\ upd p m m' /\
        kept (at_path m p) (at_path m' p) /\
        (forall n, (n < n0)%nat -> at_path m' (p ++ [Kid n]) = at_path m (p ++ [Kid n])) /\
        (forall n s x, nth_error cs2 n = Some s -> nth_error kids2 n = Some x ->
           exists y', at_path m' (p ++ [Kid (n0 + n)]) = Some y' /\ get_kid true s y' = get_kid true s x).
Proof.
  intros Hnm HP Hq0 kids Hlk. induction cs2 as [|s cs2 IH]; intros kids2 n0 Hsuf Hsuk Hr Hse; inversion Hr as [|? x ? kids2' Hrs Hrr E1 E2]; subst.
  - exists []. cbn. split; auto. split; auto. intros p m skip strip i pr Hs Hp _ _ _ _. exists m. split; auto.
    split; [now apply upd_refl|]. split; [apply kept_refl|]. split; auto. intros [|n]; discriminate.
  - assert (Hsuf' : forall n t, nth_error cs2 n = Some t -> nth_error cs (S n0 + n) = Some t).
    { intros n t Hn. rewrite <- (Hsuf (S n) t Hn). f_equal. lia. }
    assert (Hsuk' : forall n t, nth_error kids2' n = Some t -> nth_error kids (S n0 + n) = Some t).
    { intros n t Hn. rewrite <- (Hsuk (S n) t Hn). f_equal. lia. }
    assert (Hs0 : nth_error cs n0 = Some s). { rewrite <- (Hsuf 0%nat s eq_refl). f_equal. lia. }
    assert (Hx0 : nth_error kids n0 = Some x). { rewrite <- (Hsuk 0%nat x eq_refl). f_equal. lia. }
    inversion Hse as [|? ? ? ? Hse1 Hse2]; subst.
    destruct (IH kids2' (S n0) Hsuf' Hsuk' Hrr Hse2) as (ms & Hms & Hord & Hload).
    cbn [get_kids]. destruct (get_kid true s x) as [d|] eqn:Hd.
    + assert (Har : arrives s) by (rewrite Forall_forall in HP; eapply HP, nth_error_In; eassumption).
      destruct (Har x d) as (j & Hj & Hl); auto.
      { destruct Hq0 as (q & i & pr & Hq). exists (q ++ [Kid n0]). now rewrite (schema_kid q i pr cs). }
      exists ((e_yang (s_info s), j) :: ms). split.
      { change (map_res (enc_item cs) ((e_yang (s_info s), d) :: get_kids true cs2 kids2'))
          with (b <- enc_item cs (e_yang (s_info s), d) ;; r <- map_res (enc_item cs) (get_kids true cs2 kids2') ;; Ok (b :: r)).
        unfold enc_item at 1. cbn [fst snd]. rewrite (child_own cs (yang_dist cs Hnm) n0 s Hs0), Hj. cbn [bind]. now rewrite Hms. }
      split.
      { constructor; auto. cbn. destruct Hnm as [_ Hf]. rewrite Forall_forall in Hf. now destruct (Hf s (nth_error_In _ _ Hs0)). }
      intros p m skip strip i pr Hsh Hp Hst Haro Hqui Hks.
      destruct (Hst 0%nat s x eq_refl eq_refl) as (y & Hy & Hsty). rewrite Nat.add_0_r in Hy.
      assert (Hdat : has_data s x) by (unfold has_data; congruence).
      destruct (Hl (p ++ [Kid n0]) m y skip Hsh) as (m1 & y1 & El & Hu & Hy1 & Hg1); auto using ends_kid_app.
      { now rewrite (schema_kid p i pr cs). }
      { intros _. eapply kid_clear; eauto. }
      destruct (Hload p m1 skip strip i pr) as (m2 & E2' & Hu2 & Hk2 & Hlow & Hnew); auto.
      { apply Hu. }
      2:{ eapply around_upd; [eapply upd_below; exact Hu|exact Haro]. }
      2:{ eapply quiet_upd; eauto. }
      { intros n t z Ht Hz. destruct (Hst (S n) t z Ht Hz) as (w & Hw & Hsw). exists w.
        replace (n0 + S n)%nat with (S n0 + n)%nat in Hw by lia. split; auto.
        rewrite (u_apart _ _ _ Hu); auto. apply apart_kids. lia. }
      exists m2. split.
      { cbn [for_each]. unfold load_member at 1. cbn [fst snd].
        rewrite (str_eqb_neq (e_yang (s_info s)) order_key), Bool.andb_false_r.
        - rewrite (find_own cs n0 s Hnm Hs0), El. cbn. exact E2'.
        - destruct Hnm as [_ Hf]. rewrite Forall_forall in Hf. now destruct (Hf s (nth_error_In _ _ Hs0)). }
      split; [eapply upd_trans; [eapply upd_below; exact Hu|exact Hu2]|].
      split; [eapply kept_trans; [eapply upd_above_one; exact Hu|exact Hk2]|].
      split.
      { intros n Hn. rewrite Hlow by lia. apply (u_apart _ _ _ Hu), apart_kids. lia. }
      intros [|n] t z Ht Hz; cbn in Ht, Hz.
      * injection Ht as <-. injection Hz as <-. exists y1. rewrite Nat.add_0_r, Hlow by lia. rewrite Hg1, Hd. auto.
      * destruct (Hnew n t z Ht Hz) as (w & Hw & Hg). exists w. replace (n0 + S n)%nat with (S n0 + n)%nat by lia. auto.
    + exists ms. split; auto. split; auto. intros p m skip strip i pr Hsh Hp Hst Haro Hqui Hks.
      destruct (Hload p m skip strip i pr Hsh Hp) as (m2 & E2' & Hu2 & Hk2 & Hlow & Hnew); auto.
      { intros n t z Ht Hz. destruct (Hst (S n) t z Ht Hz) as (w & Hw & Hsw). exists w.
        replace (n0 + S n)%nat with (S n0 + n)%nat in Hw by lia. auto. }
      exists m2. split; auto. split; auto. split; auto. split; [intros; apply Hlow; lia|].
      intros [|n] t z Ht Hz; cbn in Ht, Hz.
      * injection Ht as <-. injection Hz as <-. 
        assert (Hno : ~ has_data s x) by (unfold has_data; rewrite Hd; intros H; now apply H).
        exists (fresh O s). rewrite Nat.add_0_r, Hlow by lia. rewrite Hd. split; [now apply (Hqui n0 s x)|]. apply get_blank, fresh_blank.
      * destruct (Hnew n t z Ht Hz) as (w & Hw & Hg). exists w. replace (n0 + S n)%nat with (S n0 + n)%nat by lia. auto.
Qed.

Lemma leaf_arrives i lt d yt k : arrives (SLeaf i lt d yt k).
Proof.
  intros x dd _ Hr _ Hg. inversion Hr as [? ? ? ? ? ch v Henc| | |]; subst.
  cbn in Hg. destruct ch; [|discriminate]. injection Hg as <-. destruct (Henc eq_refl) as (j & Hj & Ha).
  exists j. split; [exact Hj|]. intros q m y skip Hs Hsc He Hy _ Hout.
  destruct (op_calm _ m q (ASet (Priv true) (AVal (jval j))) _ y Hs He Hsc Hy (own_events _ _ (ASet (Priv true) (AVal (jval j))) I) (Hout ltac:(discriminate))) as (Hu & Ho & Hp).
  unfold load_kid. destruct (run_op m q (ASet (Priv true) (AVal (jval j)))) as [m' r] eqn:Er. cbn [fst snd] in *.
  exists m', (OLeaf true v).
  unfold put in Hp. cbn [apply assign negb] in Ho, Hp. rewrite Bool.andb_false_r in Ho, Hp.
  cbn [set_any] in Ho, Hp. unfold set_leaf in Ho, Hp. rewrite Ha in Ho, Hp. cbn in Ho, Hp.
  subst r. auto.
Qed.

Lemma dist_snoc l v : dist (l ++ [v]) -> forall w, py_eq v w = true -> py_in w l = false.
Proof.
  intros H w Hw. apply py_in_not. intros Hh. apply Exists_exists in Hh. destruct Hh as (z & Hz & Ez).
  apply dist_app in H. destruct H as (_ & _ & H). specialize (H z v Hz (or_introl eq_refl)).
  assert (py_eq z v = true); [|congruence].
  apply py_eq_trans with w; rewrite py_eq_sym; auto.
Qed.
Lemma append_all E i ts yt q js2 : forall l1 l2 m c,
  Forall2 (fun v j => enc_member O false ts v = Ok j /\ member_value O ts (jval j) = Some v /\ py_eq v (jval j) = true) l2 js2 ->
  dist (l1 ++ l2) -> shaped top m -> schema_at top q = Some (SLeafList i ts yt) -> ends_kid q -> at_path m q = Some (OLeafList c l1) ->
  clear_of E q m ->
  exists m' c', for_each (fun j m => if py_in (jval j) (members m q) then (m, Ok tt)
                                     else run_op m q (ALeafList (LAppend (jval j)))) js2 m = (m', Ok tt) /\
    upd q m m' /\ at_path m' q = Some (OLeafList c' (l1 ++ l2)).
Proof.
  induction js2 as [|j js2 IH]; intros l1 l2 m c Hf Hd Hs Hsc He Hat Hcl; inversion Hf as [|v ? l2' ? Hv Hf' E1 E2]; subst.
  - exists m, c. cbn. rewrite app_nil_r. split; auto. split; auto using upd_refl.
  - destruct Hv as (_ & Hm & Heq).
    assert (Hd1 : dist (l1 ++ [v])).
    { change (v :: l2') with ([v] ++ l2') in Hd. rewrite app_assoc in Hd. apply dist_app in Hd. apply Hd. }
    pose proof (dist_snoc l1 v Hd1 (jval j) Heq) as Hnin.
    destruct (op_calm _ m q (ALeafList (LAppend (jval j))) _ _ Hs He Hsc Hat (own_events _ _ (ALeafList (LAppend (jval j))) I) Hcl) as (Hu & Ho & Hp).
    cbn [for_each]. unfold members at 1. rewrite Hat, Hnin.
    destruct (run_op m q (ALeafList (LAppend (jval j)))) as [m1 r] eqn:Er. cbn [fst snd] in *.
    unfold put in Hp. cbn [apply tl_op] in Ho, Hp. unfold tl_append, tl_check in Ho, Hp.
    rewrite Hnin in Ho, Hp. cbn [andb] in Ho, Hp. rewrite Hm in Ho, Hp. cbn in Ho, Hp. subst r. cbn [andthen].
    destruct (IH (l1 ++ [v]) l2' m1 (c || true)%bool) as (m2 & c2 & E2 & Hu2 & Hat2); auto.
    { rewrite <- app_assoc. exact Hd. } { apply Hu. } { eapply clear_upd; eauto. }
    exists m2, c2. split; [exact E2|]. split; [eapply upd_trans; eassumption|]. rewrite <- app_assoc in Hat2. exact Hat2.
Qed.
Lemma for_each_skip {A} (f : A -> list obj -> step) l m : (forall a, In a l -> f a m = (m, Ok tt)) -> for_each f l m = (m, Ok tt).
Proof. induction l as [|a l IH]; intros H; cbn; auto. rewrite H by now left. cbn. apply IH. intros; apply H; now right. Qed.

Lemma map_res_cons {A B} (f : A -> res B) a l : map_res f (a :: l) = (b <- f a ;; r <- map_res f l ;; Ok (b :: r)).
Proof. reflexivity. Qed.
Lemma members_enc ts l js : Forall2 (fun v j => enc_member O false ts v = Ok j /\ member_value O ts (jval j) = Some v /\ py_eq v (jval j) = true) l js ->
  map_res (enc_member O false ts) l = Ok js.
Proof. intros H. induction H as [|v j l js (H1 & _) H2 IH]; [reflexivity|]. rewrite map_res_cons, H1. cbn [bind]. now rewrite IH. Qed.
Lemma leaf_list_arrives i ts yt : arrives (SLeafList i ts yt).
Proof.
  intros x dd _ Hr _ Hg. inversion Hr as [|? ? ? ch l js Henc Hd| |]; subst.
  assert (Hdat : has_data (SLeafList i ts yt) (OLeafList ch l)) by (unfold has_data; rewrite Hg; discriminate).
  cbn in Hg. assert (Hg' : dd = DLeafList l) by (destruct l; [discriminate|congruence]). subst dd.
  exists (JArr js). split.
  { cbn [enc_dump]. unfold enc_members. now rewrite (members_enc ts l js Henc). }
  intros q m y skip Hs Hsc He Hy Hst Hout.
  destruct Hst as [Hb|(i' & lt & d & yt' & k & v & c & w & E & _)]; [|discriminate].
  cbn [fresh] in Hb. subst y.
  destruct (append_all _ i ts yt q js [] l m false Henc Hd Hs Hsc He Hy (Hout Hdat)) as (m' & c' & E & Hu & Hat). cbn [app] in Hat.
  exists m', (OLeafList c' l). split.
  { cbn [load_kid load_members]. unfold append_missing. rewrite E. cbn [andthen]. unfold members. rewrite Hat. apply for_each_skip.
    intros v Hv. assert (py_in v (map jval js) = true) as ->; auto.
    apply py_in_has, Exists_exists. clear - Henc Hv. induction Henc as [|v' j l js (_ & _ & H1) H2 IH]; [contradiction|].
    destruct Hv as [->|Hv]; [exists (jval j); split; [now left|auto]|].
    destruct (IH Hv) as (z & Hz & Ez). exists z. split; [now right|auto]. }
  split; [exact Hu|]. split; [exact Hat|]. cbn. destruct l; [discriminate|reflexivity].
Qed.

Lemma get_kids_ext cs : forall k1 k2, Forall2 conf cs k1 -> Forall2 conf cs k2 ->
  (forall n s x, nth_error cs n = Some s -> nth_error k1 n = Some x -> exists y, nth_error k2 n = Some y /\ get_kid true s y = get_kid true s x) ->
  get_kids true cs k2 = get_kids true cs k1.
Proof.
  induction cs as [|s cs IH]; intros k1 k2 H1 H2 H; inversion H1; inversion H2; subst; auto.
  cbn [get_kids]. destruct (H 0%nat s y eq_refl eq_refl) as (z & Hz & Hg). cbn in Hz. injection Hz as <-. rewrite Hg.
  rewrite (IH l' l'0); auto. intros n t x Ht Hx. exact (H (S n) t x Ht Hx).
Qed.
Lemma ready_conf s : forall x, ready s x -> conf s x.
Proof.
  induction s as [i lt d yt k|i ts yt|i pr cs IH|i keys od cs IH] using schema_ind'; intros x H; inversion H; subst; constructor.
  - match goal with H : Forall2 ready _ _ |- _ => revert IH; induction H as [|a b la lb Hab Hl IHl] end; intros IH; constructor; inversion IH; subst; auto.
    apply IHl; auto. now constructor.
  - match goal with H : Forall (fun e => exists c ps kids, _) es |- _ => rename H into Hf end.
    eapply Forall_impl; [|exact Hf]. intros e (c & ps & kids & -> & Hk & _). constructor.
    clear - IH Hk. revert IH. induction Hk as [|a b la lb Hab Hl IHl]; intros IH; constructor; inversion IH; subst; auto.
Qed.
Lemma readys_shaped cs kids : Forall2 ready cs kids -> Forall2 conf cs kids.
Proof. intros H. induction H; constructor; auto using ready_conf. Qed.

Lemma cont_arrives i pr cs : named_ok cs -> Forall arrives cs -> arrives (SCont i pr cs).
Proof.
  intros Hnm HP x dd [q0 Hq0] Hr Hse Hg. inversion Hr as [| |? ? ? ch pres kids Hk|]; subst.
  inversion Hse as [| |? ? ? ? ? ? Hks Hse'|]; subst.
  assert (Hlk : length kids = length cs) by (clear -Hk; induction Hk; cbn; congruence).
  assert (Hdat : has_data (SCont i pr cs) (OCont ch pres kids)) by (unfold has_data; rewrite Hg; discriminate).
  destruct (kids_arrive cs Hnm HP (ex_intro _ q0 (ex_intro _ i (ex_intro _ pr Hq0))) kids Hlk cs kids 0%nat) as (ms & Hms & _ & Hl); auto.
  rewrite get_cont in Hg.
  assert (Hdd : dd = DDict (get_kids true cs kids) /\ (get_kids true cs kids = [] -> pr = true /\ pres = true)).
  { destruct (get_kids true cs kids) as [|a l] eqn:Eg.
    - destruct (pr && pres)%bool eqn:Ep; [|discriminate]. apply Bool.andb_true_iff in Ep. split; auto. congruence.
    - split; [congruence|discriminate]. }
  destruct Hdd as [-> Hpp]. exists (JObj ms). split.
  { change (enc_dump O im (SCont i pr cs) (DDict (get_kids true cs kids)))
      with (ms <- map_res (enc_item cs) (get_kids true cs kids) ;; Ok (JObj ms)). now rewrite Hms. }
  intros q m y skip Hs Hsc He Hy Hst Hout.
  destruct Hst as [Hb|(i' & lt & d & yt' & k & v & c & w & E & _)]; [|discriminate].
  cbn [fresh] in Hb. subst y. set (ky := map (fresh O) cs) in *.
  assert (Hpre : exists m1 c1 ps1, (if pr then run_op m q (APresent true) else (m, Ok tt)) = (m1, Ok tt) /\ upd q m m1 /\
                   at_path m1 q = Some (OCont c1 ps1 ky) /\ (pr = true -> ps1 = true)).
  { destruct pr.
    - destruct (op_calm _ m q (APresent true) _ _ Hs He Hsc Hy (own_events _ _ (APresent true) I) (Hout Hdat)) as (Hu & Ho & Hp).
      destruct (run_op m q (APresent true)) as [m1 r]. cbn in Ho, Hp, Hu. subst r. exists m1, true, true. auto.
    - exists m, false, false. repeat split; auto; try discriminate. now intros; apply kept_refl. }
  destruct Hpre as (m1 & c1 & ps1 & E1 & Hu1 & Hat1 & Hps).
  destruct (Hl q m1 skip false i pr) as (m2 & E2 & Hu2 & Hk2 & _ & Hnew); auto.
  { apply Hu1. }
  { intros n s x Hns Hnx. cbn [Nat.add]. rewrite (at_kid m1 q c1 ps1 ky n Hat1). exists (fresh O s).
    unfold ky. rewrite nth_fresh, Hns. split; [reflexivity|now left]. }
  { eapply around_outer with (ch := ch) (ps := pres) (i := i) (pr := pr); [apply Hu1|now apply ready_conf|]. eapply outer_upd; eauto. }
  { intros n s x Hns Hnx _. rewrite (at_kid m1 q c1 ps1 ky n Hat1). unfold ky. now rewrite nth_fresh, Hns. }
  assert (Hat2 : exists c2 ps2 k2, at_path m2 q = Some (OCont c2 ps2 k2) /\ (ps1 = true -> ps2 = true)).
  { rewrite Hat1 in Hk2. destruct (at_path m2 q) as [[]|]; cbn in Hk2; try discriminate. eauto. }
  destruct Hat2 as (c2 & ps2 & k2 & Hat2 & Hps2).
  exists m2, (OCont c2 ps2 k2). split.
  { unfold load_kid. rewrite E1. cbn [andthen]. rewrite load_obj. exact E2. }
  split; [eapply upd_trans; eassumption|]. split; auto.
  rewrite get_cont. rewrite (get_kids_ext cs kids k2).
  - destruct (get_kids true cs kids); auto. destruct (Hpp eq_refl) as [-> _]. now rewrite (Hps2 (Hps eq_refl)).
  - now apply readys_shaped.
  - destruct (at_path_conf top m2 q _ (u_shape _ _ _ Hu2) Hat2) as (s & Hs2 & Hc2). rewrite Hsc in Hs2. injection Hs2 as <-.
    now inversion Hc2.
  - intros n s x Hns Hnx. destruct (Hnew n s x Hns Hnx) as (y & Hy1 & Hy2). cbn [Nat.add] in Hy1.
    rewrite (at_kid m2 q _ _ _ n Hat2) in Hy1. eauto.
Qed.

(* ------------------------------------------------------------------ lists *)
Lemma combine_fst {A B} (ks : list A) : forall (l : list B), length l = length ks -> map fst (combine ks l) = ks.
Proof. induction ks as [|a ks IH]; intros [|b l] E; cbn in *; try lia; auto. f_equal. apply IH. lia. Qed.
Lemma key_dict_names keys k kd : keys <> [] -> key_dict keys k = Ok kd -> map fst kd = keys.
Proof.
  intros Hk H. unfold key_dict in H. destruct keys as [|n [|n2 ks]]; [congruence| |].
  - destruct k as [| | | |[|]| | | | |]; try discriminate; injection H as <-; reflexivity.
  - destruct k as [| | | |t| | | | |]; try discriminate. destruct (Nat.eqb _ _) eqn:E; [|discriminate].
    injection H as <-. apply Nat.eqb_eq in E. rewrite <- (map_length VStr) in E. exact (combine_fst (n :: n2 :: ks) _ E).
Qed.

Lemma fill_start tg cs : forall kd kids kids' evs, length kids = length cs -> kept_apart tg cs kids ->
  (forall n, In n (map fst kd) -> exists j i lt d yt k, kid_index n cs = Some j /\ nth_error cs j = Some (SLeaf i lt d yt k) /\ (e_choice i = None \/ e_choice i = tg)) ->
  fill_keys O cs kids kd = (kids', evs, Ok tt) ->
  forall j y, nth_error kids' j = Some y -> nth_error kids j = Some y \/
    exists n w, In n (map fst kd) /\ kid_index n cs = Some j /\ y = OLeaf true w.
Proof.
  induction kd as [|[n v] kd IH]; intros kids kids' evs Hlen Hun Hkd H j y Hj.
  - cbn in H. injection H as <- <-. now left.
  - cbn [fill_keys] in H. destruct (Hkd n (or_introl eq_refl)) as (j0 & i & lt & d & yt & k & Hi & Hs & Hno).
    rewrite Hi, Hs in H. cbn [set_any] in H.
    assert (Hjl : (j0 < length kids)%nat) by (rewrite Hlen; apply nth_error_Some; congruence).
    pose proof (key_events tg i lt v Hno) as Hkq. pose proof (own_case tg (SLeaf i lt d yt k) Hno) as Hoc.
    unfold set_leaf in H, Hkq. destruct (d_out (leaf_assign O lt v)) as [w|e].
    2:{ cbn in H. discriminate. }
    cbn [bind setter f_out f_pre f_post f_new] in H, Hkq.
    rewrite (absorb_same tg cs kids j0 (SLeaf i lt d yt k) _ (OLeaf true w)) in H; [|exact Hkq|reflexivity|exact Hun|exact Hs|exact Hoc].
    destruct (fill_keys O cs (set_nth j0 (OLeaf true w) kids) kd) as [[k2 e2] r2] eqn:E2.
    injection H as -> _ ->.
    destruct (IH (set_nth j0 (OLeaf true w) kids) kids' e2) with (j := j) (y := y) as [Hk|(n' & w' & Hn & Hi' & Hy)]; auto.
    + now rewrite set_nth_length.
    + eapply kept_set; eauto.
    + intros n' Hn'. apply Hkd. now right.
    + destruct (Nat.eq_dec j0 j) as [->|Hne].
      * rewrite set_nth_same in Hk by assumption. injection Hk as <-. right. exists n, w. cbn. auto.
      * rewrite set_nth_other in Hk by assumption. now left.
    + right. exists n', w'. cbn. auto.
Qed.

Lemma add_new keys cs u es t : keys <> [] -> snd (list_op O keys cs [] [] (YAdd (VStr t))) = Ok tt -> ~ has_key es (VStr t) ->
  exists kd evs kids, map fst kd = keys /\ fill_keys O cs (map (fresh O) cs) kd = (kids, evs, Ok tt) /\
    list_op O keys cs u es (YAdd (VStr t)) = (es ++ [(VStr t, OCont (mark evs false) false kids)], evs, Ok tt).
Proof.
  intros Hk H Hnh. unfold list_op, yl_op, yl_add in *. cbn [hashable negb] in *.
  apply mhas_not in Hnh. rewrite Hnh. cbn [mhas mget] in H.
  destruct keys as [|n ks]; [congruence|].
  destruct (key_dict (n :: ks) (VStr t)) as [kd|e] eqn:Ekd; [|discriminate].
  unfold mk_entry in *. destruct (fill_keys O cs (map (fresh O) cs) kd) as [[kids evs] r] eqn:Ef. cbn in H.
  destruct r as [[]|e]; cbn in H; [|discriminate].
  exists kd, evs, kids. split; [now apply key_dict_names with (VStr t)|]. split; auto.
  cbn [bind store]. rewrite mput_add by now apply mhas_not. reflexivity.
Qed.

(** The children of an entry arrive. *)
Definition entry_arrives (cs : list schema) (kids : list obj) (ms : list (str * json)) : Prop :=
  Forall (fun kj => fst kj <> order_key) ms /\
  forall p m skip strip i pr, shaped top m -> schema_at top p = Some (SCont i pr cs) ->
      (forall n s x, nth_error cs n = Some s -> nth_error kids n = Some x ->
         exists y, at_path m (p ++ [Kid n]) = Some y /\ startable s x y) ->
      around cs kids p m -> quiet cs kids p m -> (p <> [] -> kids_settled cs kids) ->
      exists m', for_each (load_member false skip strip cs p) ms m = (m', Ok tt) /\ upd p m m' /\
        kept (at_path m p) (at_path m' p) /\
        (forall n s x, nth_error cs n = Some s -> nth_error kids n = Some x ->
           exists y', at_path m' (p ++ [Kid n]) = Some y' /\ get_kid true s y' = get_kid true s x).

Definition place (od : bool) (n : nat) : list (str * json) := if od then [(order_key, JInt (Z.of_nat n))] else [].

Lemma upd_entry q k m m' c es : upd (q ++ [Ent k]) m m' -> at_path m q = Some (OList c es) ->
  exists c' es', at_path m' q = Some (OList c' es') /\ map fst es' = map fst es /\
    forall k', py_eq k k' = false -> mget k' es' = mget k' es.
Proof.
  intros Hu Hat. pose proof (upd_above_one _ _ _ _ Hu) as Hk. rewrite Hat in Hk. cbn in Hk.
  destruct (at_path m' q) as [[]|] eqn:Hat'; try discriminate. exists ch, es0. split; auto. split; auto.
  intros k' Hk'. rewrite <- (at_entry m' q _ _ k' Hat'), <- (at_entry m q _ _ k' Hat).
  apply (u_apart _ _ _ Hu). now apply apart_ents.
Qed.
Lemma upd_keep q p m m' r : upd q m m' -> (exists t, q = p ++ t) -> r = p -> upd p m m'.
Proof. intros Hu [t ->] ->. eapply upd_below; eassumption. Qed.

Lemma has_key_app {A} (es : list (pyval * A)) k x : has_key (es ++ [(k, x)]) k.
Proof. exists k, x. split; [apply in_or_app; right; now left|apply py_eq_refl]. Qed.
Lemma mget_snoc {A} (es : list (pyval * A)) k x : ~ has_key es k -> mget k (es ++ [(k, x)]) = Some x.
Proof. intros H. rewrite <- (mput_add es k x H). apply mget_mput_same. Qed.

Lemma entry_loads i keys od cs t kids ms n q m c es skip xc xes ec eps :
  mget (VStr t) xes = Some (OCont ec eps kids) -> outer (SList i keys od cs) (OList xc xes) q m -> kids_settled cs kids -> keys <> [] -> snd (list_op O keys cs [] [] (YAdd (VStr t))) = Ok tt -> Forall (set_leaf_kid cs kids) keys ->
  Forall2 conf cs kids -> entry_arrives cs kids ms ->
  shaped top m -> schema_at top q = Some (SList i keys od cs) -> ends_kid q -> at_path m q = Some (OList c es) ->
  ~ has_key es (VStr t) ->
  exists m' c' es' e', load_entry O uid top q t (load O uid top false skip od cs (Some q) (q ++ [Ent (VStr t)]) (JObj (ms ++ place od n))) m = (m', Ok tt) /\
    upd q m m' /\ at_path m' q = Some (OList c' es') /\ map fst es' = map fst es ++ [VStr t] /\
    (forall k', py_eq (VStr t) k' = false -> mget k' es' = mget k' es) /\
    mget (VStr t) es' = Some e' /\ get_entry true cs e' = DDict (get_kids true cs kids).
Proof.
  intros Hmg Hout Hks Hkeys Hadd Hset Hcf' [Hord Harr] Hs Hsc He Hat Hnh.
  destruct (add_new keys cs (uid es) es t Hkeys Hadd Hnh) as (kd & evs & k0 & Hkd & Hfill & Hop).
  assert (Hset' : forall nm, In nm (map fst kd) -> exists j' i' lt d yt k, kid_index nm cs = Some j' /\ nth_error cs j' = Some (SLeaf i' lt d yt k) /\ (e_choice i' = None \/ e_choice i' = e_choice i)).
  { intros nm Hnm. rewrite Hkd in Hnm. rewrite Forall_forall in Hset. destruct (Hset nm Hnm) as (j' & i' & lt & d & yt & k & v & A & B & _).
    exists j', i', lt, d, yt, k. split; auto. split; auto.
    destruct (kid_index_some _ _ _ A) as (s' & B' & Ep). rewrite B in B'. injection B' as <-.
    apply (Hpk q i keys od cs j' _ Hsc B). now rewrite Ep. }
  assert (Hdat : has_data (SList i keys od cs) (OList xc xes)).
  { unfold has_data. rewrite get_list. destruct xes; [discriminate Hmg|discriminate]. }
  assert (Hev : forall c k, In (Some (c, k)) (snd (fst (list_op O keys cs (uid es) es (YAdd (VStr t))))) -> e_choice i = Some (c, k)).
  { rewrite Hop. cbn [fst snd]. intros c0 k1. pose proof (fill_events (e_choice i) cs kd (map (fresh O) cs)) as Hn. rewrite Hfill in Hn. cbn [fst snd] in Hn.
    apply Hn. intros nm j s Hnm Hj Hsj. destruct (Hset' nm Hnm) as (j' & i' & lt & d & yt & k & A & B & C).
    rewrite A in Hj. injection Hj as <-. rewrite B in Hsj. injection Hsj as <-. split; [exact C|]. now exists i', lt, d, yt, k. }
  destruct (op_calm _ m q (AList (uid es) (YAdd (VStr t))) _ _ Hs He Hsc Hat (fun c k => list_events i keys od cs _ es _ _ c k Hev) (Hout Hdat)) as (Hu & Ho & Hp).
  unfold load_entry, entries. rewrite Hat. rewrite (proj2 (mhas_not es (VStr t)) Hnh).
  destruct (run_op m q (AList (uid es) (YAdd (VStr t)))) as [m1 r]. cbn [fst snd] in *.
  unfold put in Hp. cbn [apply] in Ho, Hp. rewrite Hop in Ho, Hp. cbn in Ho, Hp. subst r. cbn [andthen].
  rewrite Hp. rewrite (proj2 (mhas_key _ _) (has_key_app es (VStr t) _)).
  set (e0 := OCont (mark evs false) false k0) in *.
  assert (Hg0 : mget (VStr t) (es ++ [(VStr t, e0)]) = Some e0) by now apply mget_snoc.
  assert (Hate : at_path m1 (q ++ [Ent (VStr t)]) = Some e0) by now rewrite (at_entry m1 q _ _ (VStr t) Hp).
  assert (Hlen : length (map (fresh O) cs) = length cs) by apply map_length.
  assert (Hst0 : forall j s x, nth_error cs j = Some s -> nth_error kids j = Some x ->
             exists y, at_path m1 ((q ++ [Ent (VStr t)]) ++ [Kid j]) = Some y /\ startable s x y).
  { intros j s x Hj Hx. rewrite (at_kid _ _ _ _ _ j Hate).
    assert (Hck0 : conf (entry_schema cs) e0).
    { apply (mk_entry_conf O cs kd). unfold mk_entry. now rewrite Hfill. }
    assert (Hk0 : Forall2 conf cs k0) by (inversion Hck0; assumption). destruct (Forall2_nth conf cs k0 j s Hk0 Hj) as (y & Hy & Hcy).
    exists y. split; auto.
    destruct (fill_start (e_choice i) cs kd (map (fresh O) cs) k0 evs Hlen (kept_fresh _ _)) with (j := j) (y := y) as [Hfr|(nm & w & Hnm & Hidx & ->)]; auto.
    - rewrite nth_fresh, Hj in Hfr. injection Hfr as <-. now left.
    - rewrite Hkd in Hnm. rewrite Forall_forall in Hset. destruct (Hset nm Hnm) as (j' & i' & lt & d & yt & k & v & A & B & C).
      rewrite A in Hidx. injection Hidx as ->. rewrite Hj in B. injection B as ->. rewrite Hx in C. injection C as ->.
      right; now exists i', lt, d, yt, k, v, true, w. }
  destruct (Harr (q ++ [Ent (VStr t)]) m1 skip od plain false) as (m2 & E2 & Hu2 & Hk2 & Hnew); auto.
  { apply Hu. } { now apply schema_entry with i keys od. }
  { eapply around_outer with (ch := ec) (ps := eps) (i := plain) (pr := false); [apply Hu|now constructor|].
    eapply entry_outer with (ch := xc); eauto. eapply outer_upd; eauto. }
  { intros j s x Hj Hx Hnd. destruct (Hst0 j s x Hj Hx) as (y & Hy & [->|(i' & lt & d & yt & k & v & c0 & w & -> & -> & _)]); [exact Hy|].
    exfalso. apply Hnd. discriminate. }
  destruct (upd_entry q (VStr t) m1 m2 _ _ Hu2 Hp) as (c2 & es2 & Hat2 & Hkeys2 & Hoth).
  assert (Hate2 : exists ch ps kk, at_path m2 (q ++ [Ent (VStr t)]) = Some (OCont ch ps kk)).
  { rewrite Hate in Hk2. destruct (at_path m2 (q ++ [Ent (VStr t)])) as [[]|]; cbn in Hk2; try discriminate. eauto. }
  destruct Hate2 as (ch2 & ps2 & kk2 & Hate2).
  exists m2, c2, es2, (OCont ch2 ps2 kk2). split.
  { rewrite load_obj, for_each_app, E2. cbn [andthen]. unfold place. destruct od; cbn; auto. }
  split; [eapply upd_trans; [exact Hu|eapply upd_below; exact Hu2]|]. split; auto. split.
  { rewrite Hkeys2, map_app. reflexivity. }
  split.
  { intros k' Hk'. rewrite Hoth by assumption. rewrite <- (mput_add es (VStr t) e0 Hnh). apply mget_mput_other. now rewrite py_eq_sym. }
  split; [now rewrite <- (at_entry m2 q _ _ (VStr t) Hat2)|].
  unfold get_entry. f_equal. apply get_kids_ext; auto.
  - destruct (at_path_conf top m2 _ _ (u_shape _ _ _ Hu2) Hate2) as (s & Hs2 & Hc2).
    rewrite (schema_entry q i keys od cs (VStr t) Hsc) in Hs2. injection Hs2 as <-. now inversion Hc2.
  - intros j s x Hj Hx. destruct (Hnew j s x Hj Hx) as (y & Hy1 & Hy2). rewrite (at_kid _ _ _ _ _ j Hate2) in Hy1. eauto.
Qed.

Definition enc_entries (od : bool) (cs : list schema) : nat -> list (pyval * dump) -> res (list (str * json)) :=
  fix go n es := match es with
                 | [] => Ok []
                 | (k, d') :: es' =>
                     j <- enc_dump O im (entry_schema cs) d' ;;
                     kt <- json_key O k ;;
                     r <- go (S n) es' ;;
                     Ok ((kt, if od then add_order j n else j) :: r)
                 end.

Inductive docs_ok (keys : list str) (od : bool) (cs : list schema) : nat -> list (pyval * obj) -> list (str * json) -> Prop :=
| DkNil n : docs_ok keys od cs n [] []
| DkCons n t c ps kids es ms docs :
    snd (list_op O keys cs [] [] (YAdd (VStr t))) = Ok tt -> Forall (set_leaf_kid cs kids) keys -> Forall2 conf cs kids ->
    entry_arrives cs kids ms -> kids_settled cs kids -> docs_ok keys od cs (S n) es docs ->
    docs_ok keys od cs n ((VStr t, OCont c ps kids) :: es) ((t, JObj (ms ++ place od n)) :: docs).

Lemma docs_make keys od cs : named_ok cs -> Forall arrives cs -> (exists q i pr, schema_at top q = Some (SCont i pr cs)) ->
  forall es n,
    Forall (fun e => exists t, fst e = VStr t /\ snd (list_op O keys cs [] [] (YAdd (VStr t))) = Ok tt) es ->
    Forall (fun e => exists c ps kids, snd e = OCont c ps kids /\ Forall2 ready cs kids /\ Forall (set_leaf_kid cs kids) keys) es ->
    Forall (fun e => settled (entry_schema cs) (snd e)) es ->
  exists docs, enc_entries od cs n (map (fun e => (fst e, get_entry true cs (snd e))) es) = Ok docs /\ docs_ok keys od cs n es docs.
Proof.
  intros Hnm HP Hq0. induction es as [|[k e] es IH]; intros n H1 H2 H3.
  - exists []. split; [reflexivity|constructor].
  - inversion H1 as [|? ? (t & Ht & Hadd) H1']; subst. inversion H2 as [|? ? (c & ps & kids & He & Hr & Hset) H2']; subst.
    inversion H3 as [|? ? Hse H3']; subst.
    cbn [fst snd] in *. subst k e. inversion Hse as [| |? ? ? ? ? ? Hks Hse'|]; subst.
    destruct (IH (S n) H1' H2' H3') as (docs & Hd & Hok).
    assert (Hlk : length kids = length cs) by (clear -Hr; induction Hr; cbn; congruence).
    destruct (kids_arrive cs Hnm HP Hq0 kids Hlk cs kids 0%nat) as (ms & Hms & Hord & Hl); auto.
    exists ((t, JObj (ms ++ place od n)) :: docs). split.
    + cbn [map enc_entries fst snd]. unfold get_entry at 1.
      change (enc_dump O im (entry_schema cs) (DDict (get_kids true cs kids)))
        with (ms <- map_res (enc_item cs) (get_kids true cs kids) ;; Ok (JObj ms)). rewrite Hms. cbn [bind json_key].
      fold (enc_entries od cs). rewrite Hd. cbn [bind]. unfold place. destruct od; cbn [add_order]; [reflexivity|now rewrite app_nil_r].
    + constructor; auto using readys_shaped. split; auto. intros p m skip strip i pr Hs Hp Hst Ha Hq Hk.
      destruct (Hl p m skip strip i pr Hs Hp Hst Ha Hq Hk) as (m' & A & B & C & _ & D). exists m'. auto.
Qed.

Lemma order_placed ms n : Forall (fun kj : str * json => fst kj <> order_key) ms ->
  order_of (JObj (ms ++ place true n)) = Ok (Some (Z.of_nat n)).
Proof.
  intros H. unfold order_of, place. assert (assoc order_key (ms ++ [(order_key, JInt (Z.of_nat n))]) = Some (JInt (Z.of_nat n))) as ->; auto.
  induction H as [|[k j] ms Hk Hms IH]; [reflexivity|]. cbn in Hk. cbn [app assoc]. rewrite str_eqb_neq; auto.
Qed.
Lemma put_order_last {A} z (x : A) l : Forall (fun zx => (fst zx < z)%Z) l -> put_order z x l = l ++ [(z, x)].
Proof.
  intros H. induction H as [|[z' x'] l Hz Hl IH]; cbn; auto. cbn in Hz. rewrite IH.
  destruct (Z.eqb_spec z z'); [lia|]. destruct (Z.ltb_spec z z'); [lia|]. reflexivity.
Qed.
Lemma in_order_seq {A} (f : str * json -> A) keys cs : forall es n docs placed, docs_ok keys true cs n es docs ->
  Forall (fun zx => (fst zx < Z.of_nat n)%Z) placed ->
  in_order (map (fun kj => (order_of (snd kj), f kj)) docs) placed [] = Ok (map snd placed ++ map f docs).
Proof.
  induction es as [|e es IH]; intros n docs placed Hd Hp; inversion Hd as [|? t c ps kids ? ms docs' _ _ _ [Hord _] _ Hd']; subst.
  - cbn. reflexivity.
  - cbn [map in_order snd]. rewrite (order_placed ms n Hord). cbn [bind].
    rewrite put_order_last by exact Hp. rewrite (IH (S n) docs').
    + rewrite map_app, <- app_assoc. reflexivity.
    + exact Hd'.
    + apply Forall_app. split; [|constructor; cbn; [lia|constructor]]. eapply Forall_impl; [|exact Hp]. cbn. intros; lia.
Qed.

Lemma same_shown (g : obj -> dump) : forall (a b : list (pyval * obj)), map fst a = map fst b -> kdist b ->
  (forall k, has_key b k -> option_map g (mget k a) = option_map g (mget k b)) ->
  map (fun e => (fst e, g (snd e))) a = map (fun e => (fst e, g (snd e))) b.
Proof.
  induction a as [|[k x] a IH]; intros [|[k' y] b] Hk Hd H; try discriminate; auto.
  injection Hk as -> Hk. unfold kdist in Hd. cbn in Hd. inversion Hd as [|? ? Hn Hd']; subst. cbn [map fst snd].
  assert (Hh : has_key ((k', y) :: b) k'). { exists k', y. split; [now left|apply py_eq_refl]. }
  pose proof (H k' Hh) as H0. cbn [mget] in H0. rewrite py_eq_refl in H0. cbn in H0. injection H0 as ->. f_equal.
  apply IH; auto. intros k0 (k1 & z & Hin & He). assert (Hk0 : py_eq k0 k' = false).
  { destruct (py_eq k0 k') eqn:E; auto. rewrite Forall_forall in Hn.
    assert (py_eq k' k1 = false) by (apply Hn; change k1 with (fst (k1, z)); now apply in_map).
    assert (py_eq k' k1 = true); [|congruence]. apply py_eq_trans with k0; auto. now rewrite py_eq_sym. }
  assert (Hh0 : has_key ((k', y) :: b) k0). { exists k1, z. split; [now right|auto]. }
  pose proof (H k0 Hh0) as H1. cbn [mget] in H1. now rewrite Hk0 in H1.
Qed.

Lemma kdist_mget {A} (es : list (pyval * A)) : kdist es -> forall k e, In (k, e) es -> mget k es = Some e.
Proof.
  unfold kdist. induction es as [|[k0 e0] es IH]; intros Hd k e Hin; [contradiction|]. cbn [map fst] in Hd. inversion Hd as [|? ? Hn Hd']; subst.
  cbn [mget]. destruct Hin as [E|Hin].
  - injection E as -> ->. now rewrite py_eq_refl.
  - rewrite Forall_forall in Hn. assert (H : py_eq k0 k = false) by (apply Hn; change k with (fst (k, e)); now apply in_map).
    rewrite py_eq_sym in H. rewrite H. now apply IH.
Qed.
Lemma docs_load i keys od cs skip q xc xes : keys <> [] -> schema_at top q = Some (SList i keys od cs) -> ends_kid q ->
  forall es n docs, docs_ok keys od cs n es docs -> (forall k e, In (k, e) es -> mget k xes = Some e) ->
  forall m c es0, kdist (es0 ++ es) -> shaped top m -> at_path m q = Some (OList c es0) -> outer (SList i keys od cs) (OList xc xes) q m ->
  exists m' c' es', for_each (fun kj m => load_entry O uid top q (fst kj)
                       (load O uid top false skip od cs (Some q) (q ++ [Ent (VStr (fst kj))]) (snd kj)) m) docs m = (m', Ok tt) /\
    upd q m m' /\ at_path m' q = Some (OList c' es') /\
    map (fun e => (fst e, get_entry true cs (snd e))) es' = map (fun e => (fst e, get_entry true cs (snd e))) (es0 ++ es).
Proof.
  intros Hkeys Hsc He. induction es as [|e es IH]; intros n docs Hd Hxe m c es0 Hkd Hs Hat Hout;
    inversion Hd as [|? t c1 ps kids ? ms docs' Hadd Hset Hcf' Harr Hks Hd']; subst.
  - exists m, c, es0. rewrite app_nil_r. split; auto. split; auto using upd_refl.
  - assert (Hnh : ~ has_key es0 (VStr t)).
    { intros (k1 & z & Hin & Heq). unfold kdist in Hkd. rewrite map_app in Hkd. apply dist_app in Hkd. destruct Hkd as (_ & _ & H).
      assert (py_eq k1 (VStr t) = false) by (apply H; [change k1 with (fst (k1, z)); now apply in_map|now left]).
      rewrite py_eq_sym in Heq. congruence. }
    destruct (entry_loads i keys od cs t kids ms n q m c es0 skip xc xes c1 ps (Hxe _ _ (or_introl eq_refl)) Hout Hks Hkeys Hadd Hset Hcf' Harr Hs Hsc He Hat Hnh)
      as (m1 & c' & es1 & e1 & E1 & Hu1 & Hat1 & Hk1 & Hoth & Hget & Hshow).
    set (mid := es0 ++ [(VStr t, OCont c1 ps kids)]).
    assert (Hmid : kdist (mid ++ es)). { unfold mid. rewrite <- app_assoc. exact Hkd. }
    assert (Hkmid : kdist mid) by (unfold kdist in *; rewrite map_app in Hmid; apply dist_app in Hmid; apply Hmid).
    assert (Hsh : map (fun e => (fst e, get_entry true cs (snd e))) es1 = map (fun e => (fst e, get_entry true cs (snd e))) mid).
    { apply same_shown; auto.
      - rewrite Hk1. unfold mid. now rewrite map_app.
      - intros k Hk. unfold mid. destruct (py_eq (VStr t) k) eqn:Ek.
        + assert (Hmg : forall l : list (pyval * obj), mget k l = mget (VStr t) l).
          { clear - Ek. induction l as [|[k' z] l IH]; [reflexivity|]. cbn [mget]. rewrite IH.
            destruct (py_eq k k') eqn:E1, (py_eq (VStr t) k') eqn:E2; auto.
            - pose proof (py_eq_trans _ _ _ Ek E1). congruence.
            - rewrite py_eq_sym in Ek. pose proof (py_eq_trans _ _ _ Ek E2). congruence. }
          rewrite !Hmg, Hget, mget_snoc by assumption. cbn. now rewrite Hshow.
        + rewrite Hoth by assumption. rewrite <- (mput_add es0 (VStr t) (OCont c1 ps kids) Hnh), mget_mput_other; auto.
          now rewrite py_eq_sym. }
    assert (Hfst : map fst es1 = map fst mid).
    { apply (f_equal (map fst)) in Hsh. rewrite !map_map in Hsh. exact Hsh. }
    destruct (IH (S n) docs' Hd' (fun k e H => Hxe k e (or_intror H)) m1 c' es1) as (m2 & c2 & es2 & E2 & Hu2 & Hat2 & Hsh2); auto.
    { unfold kdist in *. rewrite map_app in *. now rewrite Hfst. } { apply Hu1. } { eapply outer_upd; eauto. }
    exists m2, c2, es2. split; [cbn [for_each fst snd]; rewrite E1; exact E2|].
    split; [eapply upd_trans; eassumption|]. split; auto.
    rewrite Hsh2, map_app, Hsh. unfold mid. rewrite !map_app, <- app_assoc. reflexivity.
Qed.

Lemma list_arrives i keys od cs : named_ok cs -> Forall arrives cs -> arrives (SList i keys od cs).
Proof.
  intros Hnm HP x dd [q0 Hq0] Hr Hse Hg. inversion Hr as [| | |? ? ? ? ch es Hkeys Hkd Hadds Hents]; subst.
  inversion Hse as [| | |? ? ? ? ? ? Hset]; subst.
  assert (Hxe : forall k e, In (k, e) es -> mget k es = Some e) by now apply kdist_mget.
  rewrite get_list in Hg.
  destruct (docs_make keys od cs Hnm HP) with (es := es) (n := 0%nat) as (docs & Henc & Hok); auto.
  { exists (q0 ++ [Ent VNone]), plain, false. now apply schema_entry with i keys od. }
  { apply Forall_forall. intros [k e] He. cbn [snd]. apply Hset with k. now apply Hxe. }
  assert (Hne : es <> []) by (intros ->; congruence).
  assert (Hdd : dd = DList (map (fun e => (fst e, get_entry true cs (snd e))) es)) by (destruct es; congruence). subst dd.
  exists (JObj docs). split.
  { change (enc_dump O im (SList i keys od cs) (DList (map (fun e => (fst e, get_entry true cs (snd e))) es)))
      with (ms <- enc_entries od cs 0%nat (map (fun e => (fst e, get_entry true cs (snd e))) es) ;; Ok (JObj ms)). now rewrite Henc. }
  intros q m y skip Hs Hsc He Hy Hst Hout.
  destruct Hst as [Hb|(i' & lt & d & yt' & k & v & c & w & E & _)]; [|discriminate].
  cbn [fresh] in Hb. subst y.
  destruct (docs_load i keys od cs skip q ch es Hkeys Hsc He es 0%nat docs Hok Hxe m false []) as (m' & c' & es' & E & Hu & Hat & Hsh); auto.
  exists m', (OList c' es'). split.
  { unfold load_kid.
    assert (Etodo : (if od then in_order (map (fun kj => (order_of (snd kj), load_entry O uid top q (fst kj)
                       (load O uid top false skip od cs (Some q) (q ++ [Ent (VStr (fst kj))]) (snd kj)))) docs) [] []
                     else Ok (map snd (map (fun kj => (order_of (snd kj), load_entry O uid top q (fst kj)
                       (load O uid top false skip od cs (Some q) (q ++ [Ent (VStr (fst kj))]) (snd kj)))) docs)))
                    = Ok (map (fun kj => load_entry O uid top q (fst kj)
                       (load O uid top false skip od cs (Some q) (q ++ [Ent (VStr (fst kj))]) (snd kj))) docs)).
    { destruct od.
      - rewrite (in_order_seq _ keys cs es 0%nat docs []); auto.
      - f_equal. rewrite map_map. reflexivity. }
    rewrite Etodo, for_each_map. cbv beta. rewrite E. cbn [andthen].
    inversion Hok; subst; [congruence|reflexivity]. }
  split; auto. split; auto. rewrite get_list, Hsh. cbn [app].
  assert (es' <> []). { intros ->. destruct es; [congruence|cbn in Hsh; congruence]. } destruct es'; [congruence|]. reflexivity.
Qed.

(* ------------------------------------------------------------------ together *)
Lemma all_arrive : (forall p i pr cs, schema_at top p = Some (SCont i pr cs) -> named_ok cs) ->
  forall s q, schema_at top q = Some s -> arrives s.
Proof.
  intros Hnm. induction s as [i lt d yt k|i ts yt|i pr cs IH|i keys od cs IH] using schema_ind'; intros q Hq.
  - apply leaf_arrives.
  - apply leaf_list_arrives.
  - apply cont_arrives; [eapply Hnm; eassumption|]. apply Forall_forall. intros s Hs. apply In_nth_error in Hs as [n Hn].
    rewrite Forall_forall in IH. apply (IH s (nth_error_In _ _ Hn) (q ++ [Kid n])). now rewrite (schema_kid q i pr cs).
  - pose proof (schema_entry q i keys od cs VNone Hq) as Hq'.
    apply list_arrives; [eapply Hnm; eassumption|]. apply Forall_forall. intros s Hs. apply In_nth_error in Hs as [n Hn].
    rewrite Forall_forall in IH. apply (IH s (nth_error_In _ _ Hn) ((q ++ [Ent VNone]) ++ [Kid n])).
    now rewrite (schema_kid _ plain false cs).
Qed.

Theorem ready_round_trip kids : (forall p i pr cs, schema_at top p = Some (SCont i pr cs) -> named_ok cs) ->
  Forall2 ready top kids -> Forall2 settled top kids ->
  exists j m', dumps O im top kids = Ok j /\ loads O uid top j = (m', Ok tt) /\
    get_kids true top m' = get_kids true top kids.
Proof.
  intros Hnm Hr Hse. pose proof (Hnm [] plain false top eq_refl) as Hn0.
  assert (Hlk : length kids = length top) by (clear -Hr; induction Hr; cbn; congruence).
  assert (HP : Forall arrives top).
  { apply Forall_forall. intros s Hs. apply In_nth_error in Hs as [n Hn]. apply (all_arrive Hnm s [Kid n]).
    unfold schema_at. cbn. now rewrite Hn. }
  destruct (kids_arrive top Hn0 HP) with (kids := kids) (cs2 := top) (kids2 := kids) (n0 := 0%nat) as (ms & Hms & _ & Hl); auto.
  { now exists [], plain, false. }
  destruct (Hl [] (module_new O top) false false plain false) as (m' & E & Hu & _ & _ & Hnew); auto.
  { apply fresh_shaped. }
  { intros n s x Hs Hx. exists (fresh O s). split.
    - unfold at_path. cbn. unfold module_new. now rewrite nth_fresh, Hs.
    - now left. }
  { intros n s x Hs Hx Hd r t c k k' Hll. cbn in Hll. lia. }
  { intros n s x Hs Hx _. unfold at_path. cbn. unfold module_new. now rewrite nth_fresh, Hs. }
  { congruence. }
  exists (JObj ms), m'. split.
  { unfold dumps. change (enc_dump O im (entry_schema top) (DDict (get_kids true top kids)))
      with (ms <- map_res (enc_item top) (get_kids true top kids) ;; Ok (JObj ms)). now rewrite Hms. }
  split; [exact E|]. apply get_kids_ext; [now apply readys_shaped|apply Hu|].
  intros n s x Hs Hx. destruct (Hnew n s x Hs Hx) as (y & Hy & Hg). exists y. split; auto.
  unfold at_path in Hy. cbn in Hy. destruct (nth_error m' n) as [z|]; [|discriminate]. exact Hy.
Qed.
End L.

(* ------------------------------------------------------------------ trees without rivals *)
Lemma emits_path s x tg : emits s x tg -> exists p t y, sub s p = Some t /\ node x p = Some y /\ has_data t y /\ s_tag t = Some tg.
Proof.
  induction 1 as [s x tg Hd Ht|i pr cs ch ps kids n s x tg Hs Hx _ (p & t & y & H1 & H2 & H3)|i keys od cs ch es k e tg He _ (p & t & y & H1 & H2 & H3)].
  - now exists [], s, x.
  - exists (Kid n :: p), t, y. cbn [sub node]. now rewrite Hs, Hx.
  - exists (Ent k :: p), t, y. cbn [sub node]. now rewrite He.
Qed.
Lemma kids_unrivalled cs kids p i pr cs' ch ps ks : unrivalled cs kids -> p <> [] ->
  schema_at cs p = Some (SCont i pr cs') -> at_path kids p = Some (OCont ch ps ks) -> kids_settled cs' ks.
Proof.
  intros Hu Hp Hs Hx n1 n2 s1 s2 x1 x2 c k1 k2 Hs1 Hs2 Hx1 Hx2 He Ht Hk.
  destruct (emits_path _ _ _ He) as (p1 & t & y & A & B & C & D).
  assert (Hq : schema_at cs (p ++ Kid n1 :: p1) = Some t).
  { unfold schema_at in *. rewrite sub_app, Hs. cbn [sub]. now rewrite Hs1. }
  assert (Hy : at_path kids (p ++ Kid n1 :: p1) = Some y).
  { unfold at_path in *. rewrite node_app, Hx. cbn [node]. now rewrite Hx1. }
  apply (Hu (p ++ Kid n1 :: p1) (p ++ [Kid n2]) t s2 y x2); auto.
  - exists s2, c, k2, (p ++ Kid n1 :: p1), t, k1. rewrite app_length. cbn [length].
    split; [destruct p; [congruence|cbn; lia]|]. split.
    { rewrite removelast_last. replace (length p + 1 - 1)%nat with (length p) by lia.
      rewrite firstn_app, firstn_all, Nat.sub_diag. cbn. rewrite app_nil_r. apply steps_refl. }
    split; [unfold schema_at in *; rewrite sub_app, Hs; cbn [sub]; now rewrite Hs2|]. split; auto.
    split; [exists []; now rewrite app_nil_r|]. split; [rewrite app_length; cbn; lia|]. auto.
  - unfold schema_at in *; rewrite sub_app, Hs; cbn [sub]. now rewrite Hs2.
  - unfold at_path in *. rewrite node_app, Hx. cbn [node]. now rewrite Hx2.
Qed.
Lemma unrivalled_settled cs kids : unrivalled cs kids -> forall s x p, conf s x -> p <> [] ->
  schema_at cs p = Some s -> at_path kids p = Some x -> settled s x.
Proof.
  intros Hu. induction s as [i lt d yt k|i ts yt|i pr cs' IH|i keys od cs' IH] using schema_ind'; intros x p Hc Hp Hs Hx;
    inversion Hc as [| |? ? ? ch ps ks Hf|? ? ? ? ch es Hf]; subst; try constructor.
  - eapply kids_unrivalled; eassumption.
  - assert (G : forall cs2 ks2 n0, (forall n s, nth_error cs2 n = Some s -> nth_error cs' (n0 + n) = Some s) ->
       (forall n s, nth_error ks2 n = Some s -> nth_error ks (n0 + n) = Some s) -> Forall2 conf cs2 ks2 -> Forall2 settled cs2 ks2).
    { intros cs2 ks2 n0 H1 H2 H. revert n0 H1 H2. induction H as [|s y cs2 ks2 Hsy Hr IH2]; intros n0 H1 H2; constructor.
      - pose proof (H1 0%nat s eq_refl) as A. pose proof (H2 0%nat y eq_refl) as B. rewrite Nat.add_0_r in A, B.
        rewrite Forall_forall in IH. apply (IH s (nth_error_In _ _ A) y (p ++ [Kid n0]) Hsy); [now destruct p| |].
        + unfold schema_at in *. rewrite sub_app, Hs. cbn [sub]. now rewrite A.
        + unfold at_path in *. rewrite node_app, Hx. cbn [node]. now rewrite B.
      - apply (IH2 (S n0)); intros n z Hn; rewrite Nat.add_succ_comm; auto. }
    apply (G cs' ks 0%nat); auto.
  - intros k e He. assert (Hce : conf (entry_schema cs') e) by (eapply mget_conf; eauto).
    inversion Hce as [| |? ? ? ch' ps ks Hf'|]; subst.
    assert (Hse : schema_at cs (p ++ [Ent k]) = Some (SCont plain false cs')).
    { unfold schema_at in *. rewrite sub_app, Hs. reflexivity. }
    assert (Hxe : at_path kids (p ++ [Ent k]) = Some (OCont ch' ps ks)).
    { unfold at_path in *. rewrite node_app, Hx. cbn [node]. now rewrite He. }
    constructor; [eapply (kids_unrivalled cs kids (p ++ [Ent k])); eauto; now destruct p|].
    assert (G : forall cs2 ks2 n0, (forall n s, nth_error cs2 n = Some s -> nth_error cs' (n0 + n) = Some s) ->
       (forall n s, nth_error ks2 n = Some s -> nth_error ks (n0 + n) = Some s) -> Forall2 conf cs2 ks2 -> Forall2 settled cs2 ks2).
    { intros cs2 ks2 n0 H1 H2 H. revert n0 H1 H2. induction H as [|s y cs2 ks2 Hsy Hr IH2]; intros n0 H1 H2; constructor.
      - pose proof (H1 0%nat s eq_refl) as A. pose proof (H2 0%nat y eq_refl) as B. rewrite Nat.add_0_r in A, B.
        rewrite Forall_forall in IH. apply (IH s (nth_error_In _ _ A) y ((p ++ [Ent k]) ++ [Kid n0]) Hsy); [now destruct p| |].
        + unfold schema_at in *. rewrite sub_app, Hse. cbn [sub]. now rewrite A.
        + unfold at_path in *. rewrite node_app, Hxe. cbn [node]. now rewrite B.
      - apply (IH2 (S n0)); intros n z Hn; rewrite Nat.add_succ_comm; auto. }
    apply (G cs' ks 0%nat); auto.
Qed.
Lemma unrivalled_all cs kids : shaped cs kids -> unrivalled cs kids -> Forall2 settled cs kids.
Proof.
  intros Hs Hu.
  assert (G : forall cs2 ks2 n0, (forall n s, nth_error cs2 n = Some s -> nth_error cs (n0 + n) = Some s) ->
       (forall n s, nth_error ks2 n = Some s -> nth_error kids (n0 + n) = Some s) -> Forall2 conf cs2 ks2 -> Forall2 settled cs2 ks2).
  { intros cs2 ks2 n0 H1 H2 H. revert n0 H1 H2. induction H as [|s y cs2 ks2 Hsy Hr IH2]; intros n0 H1 H2; constructor.
    - pose proof (H1 0%nat s eq_refl) as A. pose proof (H2 0%nat y eq_refl) as B. rewrite Nat.add_0_r in A, B.
      apply (unrivalled_settled cs kids Hu s y [Kid n0] Hsy); [discriminate| |].
      + unfold schema_at. cbn [sub entry_schema]. now rewrite A.
      + unfold at_path. cbn [node]. now rewrite B.
    - apply (IH2 (S n0)); intros n z Hn; rewrite Nat.add_succ_comm; auto. }
  apply (G cs kids 0%nat); auto.
Qed.
Lemma choice_free_unrivalled cs kids : choice_free cs -> unrivalled cs kids.
Proof. intros H p r s t x y _ _ _ (s1 & c & k' & t1 & st & k & _ & _ & Hr & Ht & _). rewrite (H r s1 Hr) in Ht. discriminate. Qed.
Lemma choice_free_keys cs : choice_free cs -> plain_keys cs.
Proof.
  intros H p i keys od cs' n s Hp Hs _. left. apply (H ((p ++ [Ent VNone]) ++ [Kid n])).
  unfold schema_at in *. rewrite !sub_app, Hp. cbn [sub entry_schema]. now rewrite Hs.
Qed.
