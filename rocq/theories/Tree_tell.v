(** Which nodes an operation clears, exactly. *)
From Verif Require Import PyStr PyStr_facts PyVal Restricted Spec_Lists TypedList TypedList_proofs YList YList_proofs
  Tree Spec_Tree Tree_proofs Tree_frame Tree_main Tree_hist.
From Coq Require Import Lia.
Import ListNotations.

(* ------------------------------------------------------------------ paths up to equal keys *)
Lemma step_eq_sym a b : step_eq a b -> step_eq b a.
Proof. destruct 1; constructor. now rewrite py_eq_sym. Qed.
Lemma step_eq_trans a b c : step_eq a b -> step_eq b c -> step_eq a c.
Proof. destruct 1; inversion 1; subst; constructor. eauto using py_eq_trans. Qed.
Lemma step_eq_dec a b : {step_eq a b} + {~ step_eq a b}.
Proof.
  destruct a as [n|k], b as [m|k']; try (right; intros H; inversion H; fail).
  - destruct (Nat.eq_dec n m) as [->|H]; [left; constructor|right; intros H1; inversion H1; contradiction].
  - destruct (py_eq k k') eqn:E; [left; now constructor|right; intros H1; inversion H1; congruence].
Qed.
Lemma steps_sym p q : Forall2 step_eq p q -> Forall2 step_eq q p.
Proof. induction 1; constructor; auto using step_eq_sym. Qed.
Lemma steps_trans p q r : Forall2 step_eq p q -> Forall2 step_eq q r -> Forall2 step_eq p r.
Proof. intros H; revert r; induction H; inversion 1; subst; constructor; eauto using step_eq_trans. Qed.

Lemma node_eq p q : Forall2 step_eq p q -> forall x, node x p = node x q.
Proof.
  induction 1 as [|a b p q H _ IH]; intros x; [reflexivity|]. destruct H as [n|k k' Hk]; cbn [node].
  - destruct x; try reflexivity. destruct (nth_error kids n); auto.
  - destruct x; try reflexivity. rewrite (mget_eq k' k) by auto. destruct (mget k' es); auto.
Qed.
Lemma at_eq kids p q : Forall2 step_eq p q -> at_path kids p = at_path kids q.
Proof. intros H. now apply node_eq. Qed.
Lemma sub_eq p q : Forall2 step_eq p q -> forall s, sub s p = sub s q.
Proof.
  induction 1 as [|a b p q H _ IH]; intros x; [reflexivity|]. destruct H as [n|k k' Hk]; cbn [sub].
  - destruct x; try reflexivity. destruct (nth_error cs n); auto.
  - destruct x; auto.
Qed.
Lemma schema_eq cs p q : Forall2 step_eq p q -> schema_at cs p = schema_at cs q.
Proof. intros H. now apply sub_eq. Qed.

Lemma apart_not p q z : Forall2 step_eq p q -> ~ apart p (q ++ z).
Proof. induction 1; cbn; [tauto|]. intros [H1|H1]; auto. Qed.
Lemma apart_not' p q z : Forall2 step_eq p q -> ~ apart (p ++ z) q.
Proof. induction 1; cbn; [destruct z; tauto|]. intros [H1|H1]; auto. Qed.

(** Three ways for two paths to lie. *)
Lemma paths_lie p : forall q, apart p q \/ (exists p' q', q = p' ++ q' /\ Forall2 step_eq p p') \/
  (exists q' p', p = q' ++ p' /\ p' <> [] /\ Forall2 step_eq q q').
Proof.
  induction p as [|a p IH]; intros q.
  - right. left. exists [], q. auto.
  - destruct q as [|b q]; [right; right; exists [], (a :: p); repeat split; auto; discriminate|].
    destruct (step_eq_dec a b) as [E|E]; [|left; left; exact E].
    destruct (IH q) as [H|[(p' & q' & -> & H)|(q' & p' & -> & Hp & H)]]; [left; right; exact H| |].
    + right. left. exists (b :: p'), q'. split; [reflexivity|]. now constructor.
    + right. right. exists (a :: q'), p'. split; [reflexivity|]. split; [exact Hp|]. constructor; [now apply step_eq_sym|exact H].
Qed.

Lemma prefix_app_inv (t a b : list pstep) : prefix t (a ++ b) -> (length t <= length a)%nat -> prefix t a.
Proof.
  intros [z H] Hl. exists (firstn (length a - length t) z).
  assert (E : firstn (length a) (a ++ b) = firstn (length a) (t ++ z)) by now rewrite H.
  rewrite firstn_app, firstn_all, Nat.sub_diag in E. cbn in E. rewrite app_nil_r in E.
  rewrite firstn_app, (firstn_all2 t) in E by exact Hl. exact E.
Qed.
Lemma prefixes (r t p : list pstep) : prefix r p -> prefix t p -> prefix r t \/ prefix t r.
Proof.
  intros [a ->] Ht. destruct (Nat.le_gt_cases (length t) (length r)) as [H|H].
  - right. eapply prefix_app_inv; eauto.
  - left. destruct Ht as [b Hb]. symmetry in Hb. apply prefix_app_inv with (b := b); [exists a; exact Hb|lia].
Qed.

Lemma uniform_sub cs a cs' : (forall q, q <> [] -> schema_at cs (a ++ q) = schema_at cs' q) -> uniform cs -> uniform cs'.
Proof.
  intros He Hu p0 q s t tg tg' H1 H2 H3 H4.
  destruct p0 as [|x p0]; [cbn in H1; injection H1 as <-; discriminate|].
  apply (Hu (a ++ x :: p0) q s t tg tg'); auto; rewrite <- ?app_assoc, He; auto; discriminate.
Qed.
Lemma uniform_cont' cs n i pr cs' : nth_error cs n = Some (SCont i pr cs') -> uniform cs -> uniform cs'.
Proof. intros H Hu. apply (uniform_sub cs [Kid n]); auto. intros q Hq. cbn [app]. eapply schema_cont; eauto. Qed.
Lemma uniform_ent' cs n i keys od cs' (k : pyval) : nth_error cs n = Some (SList i keys od cs') -> uniform cs -> uniform cs'.
Proof. intros H Hu. apply (uniform_sub cs [Kid n; Ent k]); auto. intros q Hq. cbn [app]. eapply schema_ent; eauto. Qed.

(** On one path all tags are the same. *)
Lemma uniform_path cs p r t s st tg tg' : uniform cs -> prefix r p -> prefix t p ->
  schema_at cs r = Some s -> s_tag s = Some tg -> schema_at cs t = Some st -> s_tag st = Some tg' -> tg = tg'.
Proof.
  intros Hu Hr Ht H1 H2 H3 H4. destruct (prefixes r t p Hr Ht) as [[z ->]|[z ->]].
  - symmetry. exact (Hu r z s st tg tg' H1 H2 H3 H4).
  - exact (Hu t z st s tg' tg H3 H4 H1 H2).
Qed.

Section T.
Context (O : oracle).

(** The notifications at the target carry no tag but its own. *)
Definition own_tags (s0 : schema) (base : list event) : Prop := forall ev, In ev base -> ev = None \/ ev = s_tag s0.

Lemma own_tags_in s0 base : own_tags s0 base -> forall c k, In (Some (c, k)) base -> s_tag s0 = Some (c, k).
Proof. intros H c k Hin. destruct (H _ Hin) as [E|E]; [discriminate|now symmetry]. Qed.

Lemma uniform_clash live cs p s0 base : uniform cs -> schema_at cs p = Some s0 -> own_tags s0 base ->
  clash_free live cs p base.
Proof.
  intros Hu Hs Hb r s c k k' Hr Hlen Hsr Hts Hsrc.
  assert (Hp : prefix p p) by (exists []; now rewrite app_nil_r).
  destruct Hsrc as [H|(t & st & T1 & T2 & T3 & T4 & _)].
  - pose proof (uniform_path cs p r p s s0 _ _ Hu Hr Hp Hsr Hts Hs (own_tags_in _ _ Hb _ _ H)) as E. congruence.
  - pose proof (uniform_path cs p r t s st _ _ Hu Hr T1 Hsr Hts T3 T4) as E. congruence.
Qed.

(** Who hears of the operation: the tag of every container on the way, and the target's own tag if the
    target sent it. *)
Definition is_cont (s : schema) : Prop := match s with SCont _ _ _ => True | _ => False end.

Lemma forward_tag evs i c k : (forall ev, In ev evs -> ev = None \/ ev = e_choice i) -> evs <> [] ->
  e_choice i = Some (c, k) -> In (Some (c, k)) (map (forward (e_choice i)) evs).
Proof.
  intros Ht Hne He. destruct evs as [|ev evs]; [congruence|]. left. destruct (Ht ev (or_introl eq_refl)) as [->| ->]; cbn.
  - exact He.
  - rewrite He. reflexivity.
Qed.

Lemma run_schema' o s0 x0 live cs kids p kids' evs r :
  run_at O o s0 x0 live cs kids p kids' evs r -> schema_at cs p = Some s0 /\ p <> [].
Proof.
  induction 1; (split; [|discriminate]).
  - unfold schema_at. cbn. rewrite H. reflexivity.
  - rewrite (schema_cont _ _ _ _ _ _ H) by discriminate. apply IHrun_at.
  - rewrite (schema_ent _ _ _ _ _ _ _ _ H). apply IHrun_at.
Qed.

Lemma run_tells o s0 x0 live cs kids p kids' evs r :
  run_at O o s0 x0 live cs kids p kids' evs r -> uniform cs -> own_tags s0 (base_events O s0 x0 o) ->
  base_events O s0 x0 o <> [] ->
  forall t st c k, prefix t p -> schema_at cs t = Some st -> s_tag st = Some (c, k) ->
  is_cont st /\ t <> p \/ In (Some (c, k)) (base_events O s0 x0 o) -> In (Some (c, k)) evs.
Proof.
  induction 1; intros Hu Hb Hne t st c0 k0 Ht Hst Htt Hor.
  - destruct Hor as [[_ Hor]|Hor]; [|exact Hor]. exfalso.
    destruct Ht as [z Hz]. destruct t as [|a t]; [cbn in Hst; injection Hst as <-; discriminate|].
    injection Hz as <- Hz. destruct t; [congruence|discriminate].
  - assert (Hu' := uniform_cont' _ _ _ _ _ H Hu).
    destruct t as [|a t]; [cbn in Hst; injection Hst as <-; discriminate|].
    destruct Ht as [z Hz]. injection Hz as <- Hz.
    assert (Hin : In (Some (c0, k0)) evs -> In (Some (c0, k0)) (map (forward (e_choice i)) evs)).
    { intros Hi. apply in_map_iff. exists (Some (c0, k0)). auto. }
    destruct Hor as [[Hc Hn]|Hor].
    2:{ apply Hin. destruct (run_schema' _ _ _ _ _ _ _ _ _ _ H2) as [Hsp _].
        apply (IHrun_at Hu' Hb Hne (Kid m :: p) s0); auto; [exists []; now rewrite app_nil_r|].
        exact (own_tags_in _ _ Hb _ _ Hor). }
    destruct t as [|a t].
    + unfold schema_at in Hst. cbn in Hst. rewrite H in Hst. injection Hst as <-. change (e_choice i = Some (c0, k0)) in Htt.
      assert (Hev : evs <> []) by (intros E; apply Hne; now apply (run_evs_nil O _ _ _ _ _ _ _ _ _ _ H2)).
      apply forward_tag; auto. intros [[c1 k1]|] Hi; [right|now left].
      assert (Hs1 : schema_at cs (Kid n :: Kid m :: p) = Some s0).
      { rewrite (schema_cont _ _ _ _ _ _ H) by discriminate. eapply run_schema'; eauto. }
      assert (Hs0 : schema_at cs [Kid n] = Some (SCont i pr cs')) by (unfold schema_at; cbn; now rewrite H).
      pose proof (run_src O _ _ _ _ _ _ _ _ _ _ H2 _ _ Hi) as Hsrc.
      apply (src_cont cs n i pr cs') in Hsrc; [|exact H|discriminate|lia].
      destruct Hsrc as [Hs|(t & st & T1 & T2 & T3 & T4 & _)].
      * rewrite Htt. f_equal. eapply (uniform_path cs (Kid n :: Kid m :: p) _ _ s0 (SCont i pr cs')); [exact Hu| | |exact Hs1| |exact Hs0|exact Htt].
        -- exists []. now rewrite app_nil_r.
        -- now exists (Kid m :: p).
        -- exact (own_tags_in _ _ Hb _ _ Hs).
      * rewrite Htt. f_equal. eapply (uniform_path cs (Kid n :: Kid m :: p) _ _ st (SCont i pr cs')); [exact Hu|exact T1| |exact T3|exact T4|exact Hs0|exact Htt].
        now exists (Kid m :: p).
    + apply Hin. apply (IHrun_at Hu' Hb Hne (a :: t) st); auto.
      * now exists z.
      * rewrite (schema_cont _ _ _ _ _ _ H) in Hst by discriminate. exact Hst.
      * left. split; [exact Hc|congruence].
  - assert (Hu' := uniform_ent' _ _ _ _ _ _ k H Hu).
    destruct t as [|a t]; [cbn in Hst; injection Hst as <-; discriminate|].
    destruct Ht as [z Hz]. injection Hz as <- Hz.
    destruct Hor as [[Hc Hn]|Hor].
    2:{ destruct (run_schema' _ _ _ _ _ _ _ _ _ _ H3) as [Hsp _].
        apply (IHrun_at Hu' Hb Hne p s0); auto; [exists []; now rewrite app_nil_r|].
        exact (own_tags_in _ _ Hb _ _ Hor). }
    destruct t as [|a t].
    { exfalso. unfold schema_at in Hst. cbn in Hst. rewrite H in Hst. injection Hst as <-. exact Hc. }
    injection Hz as <- Hz. rewrite (schema_ent _ _ _ _ _ _ _ _ H) in Hst.
    apply (IHrun_at Hu' Hb Hne t st); auto; [now exists z|]. left. split; [exact Hc|congruence].
Qed.

(** What is told is cleared. *)
Lemma hit_in' evs s c k k' : In (Some (c, k)) evs -> s_tag s = Some (c, k') -> k <> k' -> hit evs s = true.
Proof.
  intros H Ht Hne. apply existsb_exists. exists (Some (c, k)). split; [exact H|]. unfold other_case. rewrite Ht, str_eqb_refl.
  cbn. apply negb_true_iff. destruct (str_eqb k k') eqn:E; [|reflexivity]. apply str_eqb_eq in E. contradiction.
Qed.

Lemma sib_fresh live cs kids n f m s c k k' : In (Some (c, k)) (f_pre f ++ f_post f) ->
  schema_at cs [Kid m] = Some s -> s_tag s = Some (c, k') -> k <> k' -> at_path kids [Kid m] <> None -> live <> false -> n <> m ->
  at_path (absorb O live cs kids n f) [Kid m] = Some (fresh O s).
Proof.
  intros Hev Hs Hts Hkk Hq Hl Hnm. destruct live; [|congruence].
  unfold schema_at in Hs; cbn in Hs. destruct (nth_error cs m) as [u|] eqn:Eu; [|discriminate]. injection Hs as ->.
  unfold at_path in Hq; cbn in Hq. destruct (nth_error kids m) as [y|] eqn:Ey; [|congruence].
  unfold at_path. cbn [node]. rewrite (absorb_other O true cs kids n m f s y Hnm Eu Ey). cbn [andb].
  now rewrite (hit_in' _ s c k k' Hev Hts Hkk).
Qed.

Lemma run_resets o s0 x0 live cs kids p kids' evs r :
  run_at O o s0 x0 live cs kids p kids' evs r -> shaped cs kids -> uniform cs -> own_tags s0 (base_events O s0 x0 o) ->
  base_events O s0 x0 o <> [] ->
  forall q s t st c k k', (live = false -> (2 <= length q)%nat) ->
  Forall2 step_eq (removelast q) (firstn (length q - 1) p) -> schema_at cs q = Some s -> s_tag s = Some (c, k') ->
  prefix t p -> (length q <= length t)%nat -> schema_at cs t = Some st -> s_tag st = Some (c, k) -> k <> k' ->
  is_cont st /\ t <> p \/ In (Some (c, k)) (base_events O s0 x0 o) ->
  at_path kids q <> None -> at_path kids' q = Some (fresh O s).
Proof.
  intros Hrun. assert (Hrun0 := Hrun). induction Hrun; intros Hk Hu Hb Hne q s t st c0 k0 k1 Hl Hf Hs Hts Ht Hlen Hst Htt Hkk Hor Hq.
  all: assert (Hev := run_tells _ _ _ _ _ _ _ _ _ _ Hrun0 Hu Hb Hne t st c0 k0 Ht Hst Htt Hor).
  all: destruct (run_schema' _ _ _ _ _ _ _ _ _ _ Hrun0) as [Hsp _].
  all: pose proof (uniform_clash live cs _ s0 _ Hu Hsp Hb) as Hcf.
  all: destruct q as [|a q]; [cbn in Hs; injection Hs as <-; discriminate|].
  all: destruct a as [m0|k2]; [|discriminate].
  all: destruct q as [|b q];
    [apply (sib_fresh live cs kids _ _ m0 s c0 k0 k1); auto;
     [intros ->; specialize (Hl eq_refl); cbn in Hl; lia|];
     intros E; subst m0; apply Hkk;
     assert (E : (c0, k1) = (c0, k0)); [|congruence];
     refine (uniform_path cs _ _ t s st _ _ Hu _ Ht Hs Hts Hst Htt); now eexists|].
  all: rewrite removelast_cons in Hf by discriminate; cbn [length] in Hf; rewrite Nat.sub_succ, Nat.sub_0_r in Hf; cbn [firstn] in Hf.
  all: inversion Hf as [|? ? ? ? Hse Hf' E1 E2]; subst; inversion Hse; subst; clear Hse.
  - exfalso. apply prefix_len in Ht. cbn in Ht, Hlen. lia.
  - destruct t as [|a t]; [cbn in Hlen; lia|]. destruct Ht as [z Hz]. injection Hz as <- Hz.
    destruct t as [|a t]; [cbn in Hlen; lia|].
    match goal with |- at_path (absorb O live cs kids n ?F) _ = _ =>
      assert (E : nth_error (absorb O live cs kids n F) n = Some (OCont (mark evs ch) (mark_present pr evs pres) kids'')) end.
    { rewrite (absorb_put O _ _ _ _ _ _ _ _ _ _ H H0).
      rewrite (clash_here live cs n (SCont i pr cs') (Kid m :: p) (base_events O s0 x0 o)); auto.
      intros. eapply (run_src O _ _ _ live); eauto. }
    rewrite (path_cont _ _ _ _ _ _ E) by discriminate.
    rewrite (schema_cont _ _ _ _ _ _ H) in Hs by discriminate. rewrite (schema_cont _ _ _ _ _ _ H) in Hst by discriminate.
    rewrite (path_cont _ _ _ _ _ _ H0) in Hq by discriminate.
    eapply (IHHrun Hrun H1 (uniform_cont' _ _ _ _ _ H Hu) Hb Hne (b :: q) s (a :: t) st c0 k0 k1); eauto.
    + discriminate.
    + cbn [length]. rewrite Nat.sub_succ, Nat.sub_0_r. exact Hf'.
    + now exists z.
    + cbn [length] in *. lia.
    + destruct Hor as [[Hc Hn]|Hor]; [left|right; exact Hor]. split; [exact Hc|congruence].
  - destruct t as [|a t]; [cbn in Hlen; lia|]. destruct Ht as [z Hz]. injection Hz as <- Hz.
    destruct t as [|a t]; [cbn in Hlen; lia|]. injection Hz as <- Hz.
    match goal with |- at_path (absorb O live cs kids n ?F) _ = _ =>
      assert (E : nth_error (absorb O live cs kids n F) n = Some (OList ch (mput k (OCont (mark evs ech) epres ekids') es))) end.
    { rewrite (absorb_put O _ _ _ _ _ _ _ _ _ _ H H0).
      rewrite (clash_here live cs n (SList i keys od cs') (Ent k :: p) (base_events O s0 x0 o)); auto.
      intros. eapply (run_src O _ _ _ live); eauto. }
    destruct q as [|b1 q].
    { exfalso. unfold schema_at in Hs. destruct b as [j|kk]; cbn in Hs; rewrite H in Hs; [discriminate|].
      injection Hs as <-. discriminate. }
    cbn [length firstn] in Hf'.
    inversion Hf' as [|? ? ? ? Hse Hf2 E1 E2]; subst. inversion Hse as [|k2 ? Hk2]; subst.
    rewrite (schema_ent _ _ _ _ _ _ _ _ H) in Hs. rewrite (schema_ent _ _ _ _ _ _ _ _ H) in Hst.
    assert (Hp0 : b1 :: q <> []) by discriminate.
    assert (E3 : at_path kids (Kid n :: Ent k2 :: b1 :: q) = at_path ekids (b1 :: q)).
    { apply (path_ent _ _ ch es k2 ech epres); auto. now rewrite (mget_eq k k2). }
    rewrite E3 in Hq.
    assert (E4 : at_path (absorb O live cs kids n {| f_pre := []; f_new := Some (OList ch (mput k (OCont (mark evs ech) epres ekids') es)); f_post := evs; f_out := r |})
                   (Kid n :: Ent k2 :: b1 :: q) = at_path ekids' (b1 :: q)).
    { eapply (path_ent _ _ ch _ k2 (mark evs ech) epres); eauto. rewrite mget_mput_eq; auto. }
    rewrite E4. destruct t as [|a t]; [cbn in Hlen; lia|].
    eapply (IHHrun Hrun H2 (uniform_ent' _ _ _ _ _ _ k H Hu) Hb Hne (b1 :: q) s (a :: t) st c0 k0 k1); eauto.
    + discriminate.
    + cbn [length]. rewrite Nat.sub_succ, Nat.sub_0_r. exact Hf2.
    + now exists z.
    + cbn [length] in *. lia.
    + destruct Hor as [[Hc Hn]|Hor]; [left|right; exact Hor]. split; [exact Hc|congruence].
Qed.
End T.
