(** At most one case of a choice holds data. *)
From Verif Require Import PyStr PyStr_facts PyVal Restricted Spec_Lists TypedList TypedList_proofs YList YList_proofs
  Tree Spec_Tree Tree_proofs Tree_frame Tree_main Tree_dump Tree_hist.
From Coq Require Import Lia.
Import ListNotations.

Section T.
Context (O : oracle).

Definition siblings (cs : list schema) (ks : list obj) : Prop :=
  forall m n s1 s2 x1 x2 c k1 k2,
    nth_error cs m = Some s1 -> nth_error cs n = Some s2 ->
    nth_error ks m = Some x1 -> nth_error ks n = Some x2 ->
    s_tag s1 = Some (c, k1) -> s_tag s2 = Some (c, k2) -> k1 <> k2 ->
    ~ (has_data s1 x1 /\ has_data s2 x2).

Inductive excl : schema -> obj -> Prop :=
| ExLeaf i lt d y k ch v : excl (SLeaf i lt d y k) (OLeaf ch v)
| ExLeafList i ts y ch l : excl (SLeafList i ts y) (OLeafList ch l)
| ExCont i pr cs ch pres ks : siblings cs ks -> Forall2 excl cs ks -> excl (SCont i pr cs) (OCont ch pres ks)
| ExList i keys od cs ch es : (forall k z, mget k es = Some z -> excl (entry_schema cs) z) -> excl (SList i keys od cs) (OList ch es).

Lemma excl_one_case cs kids : Forall2 excl cs kids -> one_case cs kids.
Proof.
  intros H p i pr cs' ch pres ks m n s1 s2 x1 x2 c k1 k2 Hp Hs Hx.
  assert (Hgo : forall p s x, excl s x -> forall t y, sub s p = Some t -> node x p = Some y -> excl t y).
  { clear. induction p as [|[n|k] p IH]; intros s x He t y Ht Hy.
    - injection Ht as <-. now injection Hy as <-.
    - cbn [sub node] in *. destruct s; try discriminate. destruct x; try discriminate.
      inversion He as [| |? ? ? ? ? ? _ Hf|]; subst.
      destruct (nth_error cs n) as [u|] eqn:E1; [|discriminate]. destruct (nth_error kids n) as [z|] eqn:E2; [|discriminate].
      destruct (Forall2_nth _ _ _ _ _ Hf E1) as (z' & Hz & Hez). rewrite E2 in Hz. injection Hz as <-. eapply IH; eauto.
    - cbn [sub node] in *. destruct s; try discriminate. destruct x; try discriminate.
      inversion He as [| | |? ? ? ? ? ? Hf]; subst. destruct (mget k es) as [z|] eqn:E; [|discriminate].
      pose proof (Hf k z E) as Hez. eapply IH; eauto. }
  destruct p as [|a p]; [contradiction|].
  assert (He : excl (SCont i pr cs') (OCont ch pres ks)).
  { unfold schema_at, at_path in *. cbn [sub node entry_schema] in *. destruct a as [j|k]; [|discriminate].
    destruct (nth_error cs j) as [u|] eqn:E1; [|discriminate]. destruct (nth_error kids j) as [z|] eqn:E2; [|discriminate].
    destruct (Forall2_nth _ _ _ _ _ H E1) as (z' & Hz & Hez). rewrite E2 in Hz. injection Hz as <-. eapply Hgo; eauto. }
  inversion He as [| |? ? ? ? ? ? Hsib _|]; subst. apply Hsib.
Qed.

(** The other direction, for shaped states. *)
Lemma one_case_cont cs kids n i pr cs' ch pres ks : one_case cs kids ->
  nth_error cs n = Some (SCont i pr cs') -> nth_error kids n = Some (OCont ch pres ks) -> siblings cs' ks /\ one_case cs' ks.
Proof.
  intros H Hn Hx. split.
  - intros m m' s1 s2 x1 x2 c k1 k2. apply (H [Kid n] i pr cs' ch pres ks); [discriminate| |];
      unfold schema_at, at_path; cbn [sub node entry_schema]; [now rewrite Hn|now rewrite Hx].
  - intros p i0 pr0 cs0 ch0 pres0 ks0 m m' s1 s2 x1 x2 c k1 k2 Hp Hs Hy.
    apply (H (Kid n :: p) i0 pr0 cs0 ch0 pres0 ks0); [discriminate| |].
    + now rewrite (schema_cont cs n i pr cs').
    + now rewrite (path_cont kids n ch pres ks).
Qed.
Lemma one_case_ent cs kids n i keys od cs' ch es k ech epres ks : one_case cs kids ->
  nth_error cs n = Some (SList i keys od cs') -> nth_error kids n = Some (OList ch es) ->
  mget k es = Some (OCont ech epres ks) -> siblings cs' ks /\ one_case cs' ks.
Proof.
  intros H Hn Hx Hk. split.
  - intros m m' s1 s2 x1 x2 c k1 k2. apply (H [Kid n; Ent k] plain false cs' ech epres ks); [discriminate| |];
      unfold schema_at, at_path; cbn [sub node entry_schema]; [now rewrite Hn|now rewrite Hx, Hk].
  - intros p i0 pr0 cs0 ch0 pres0 ks0 m m' s1 s2 x1 x2 c k1 k2 Hp Hs Hy.
    apply (H (Kid n :: Ent k :: p) i0 pr0 cs0 ch0 pres0 ks0); [discriminate| |].
    + now rewrite (schema_ent cs n i keys od cs').
    + now rewrite (path_ent kids n ch es k ech epres ks).
Qed.

Lemma one_case_excl s : forall x, conf s x -> one_case [s] [x] -> excl s x.
Proof.
  induction s as [i lt d y k|i ts y|i pr cs IH|i keys od cs IH] using schema_ind'; intros x Hc H.
  - inversion Hc; subst. constructor.
  - inversion Hc; subst. constructor.
  - inversion Hc as [| |? ? ? ch pres ks Hf|]; subst.
    destruct (one_case_cont [SCont i pr cs] [OCont ch pres ks] 0 i pr cs ch pres ks H eq_refl eq_refl) as [Hs Ho].
    constructor; [exact Hs|]. clear H Hc Hs. revert IH Hf Ho. revert ks.
    assert (Hgo : forall ks, Forall2 conf cs ks -> Forall (fun s => forall x, conf s x -> one_case [s] [x] -> excl s x) cs ->
                  (forall n s x, nth_error cs n = Some s -> nth_error ks n = Some x -> one_case [s] [x]) -> Forall2 excl cs ks).
    { clear. intros ks Hf. induction Hf as [|s x cs ks Hc Hf IHf]; intros IH H; [constructor|].
      inversion IH as [|? ? Hhd Htl]; subst. constructor; [apply Hhd; auto; exact (H 0%nat s x eq_refl eq_refl)|].
      apply IHf; auto. intros n s' x' Hn Hx. exact (H (S n) s' x' Hn Hx). }
    intros ks IH Hf Ho. apply Hgo; auto. intros n s x Hn Hx p i0 pr0 cs0 ch0 pres0 ks0 m m' s1 s2 x1 x2 c k1 k2 Hp Hsc Hat.
    destruct p as [|[[|j]|k] p]; [contradiction| | |discriminate].
    2:{ unfold schema_at in Hsc. cbn in Hsc. destruct j; discriminate. }
    apply (Ho (Kid n :: p) i0 pr0 cs0 ch0 pres0 ks0); [discriminate| |].
    + unfold schema_at in *. cbn [sub entry_schema nth_error] in *. rewrite Hn. exact Hsc.
    + unfold at_path in *. cbn [node nth_error] in *. rewrite Hx. exact Hat.
  - inversion Hc as [| | |? ? ? ? ch es Hf]; subst. constructor. intros k z Hz.
    pose proof (mget_conf (conf (entry_schema cs)) k z es Hf Hz) as Hcz.
    inversion Hcz as [| |? ? ? ech epres ks Hfe|]; subst.
    destruct (one_case_ent [SList i keys od cs] [OList ch es] 0 i keys od cs ch es k ech epres ks H eq_refl eq_refl Hz) as [Hs Ho].
    constructor; [exact Hs|]. clear - IH Hfe Ho.
    assert (Hgo : forall ks, Forall2 conf cs ks -> Forall (fun s => forall x, conf s x -> one_case [s] [x] -> excl s x) cs ->
                  (forall n s x, nth_error cs n = Some s -> nth_error ks n = Some x -> one_case [s] [x]) -> Forall2 excl cs ks).
    { clear. intros ks Hf. induction Hf as [|s x cs ks Hc Hf IHf]; intros IH H; [constructor|].
      inversion IH as [|? ? Hhd Htl]; subst. constructor; [apply Hhd; auto; exact (H 0%nat s x eq_refl eq_refl)|].
      apply IHf; auto. intros n s' x' Hn Hx. exact (H (S n) s' x' Hn Hx). }
    apply Hgo; auto. intros n s x Hn Hx p i0 pr0 cs0 ch0 pres0 ks0 m m' s1 s2 x1 x2 c k1 k2 Hp Hsc Hat.
    destruct p as [|[[|j]|k0] p]; [contradiction| | |discriminate].
    2:{ unfold schema_at in Hsc. cbn in Hsc. destruct j; discriminate. }
    apply (Ho (Kid n :: p) i0 pr0 cs0 ch0 pres0 ks0); [discriminate| |].
    + unfold schema_at in *. cbn [sub entry_schema nth_error] in *. rewrite Hn. exact Hsc.
    + unfold at_path in *. cbn [node nth_error] in *. rewrite Hx. exact Hat.
Qed.

Lemma one_case_all cs kids : shaped cs kids -> one_case cs kids -> Forall2 excl cs kids.
Proof.
  intros Hs Ho.
  assert (H : forall n s x, nth_error cs n = Some s -> nth_error kids n = Some x -> one_case [s] [x]).
  { intros n s x Hn Hx p i0 pr0 cs0 ch0 pres0 ks0 m m' s1 s2 x1 x2 c k1 k2 Hp Hsc Hat.
    destruct p as [|[[|j]|k] p]; [contradiction| | |discriminate].
    2:{ unfold schema_at in Hsc. cbn in Hsc. destruct j; discriminate. }
    apply (Ho (Kid n :: p) i0 pr0 cs0 ch0 pres0 ks0); [discriminate| |].
    + unfold schema_at in *. cbn [sub entry_schema nth_error] in *. rewrite Hn. exact Hsc.
    + unfold at_path in *. cbn [node nth_error] in *. rewrite Hx. exact Hat. }
  clear Ho. induction Hs as [|s x cs kids Hc Hs IH]; constructor.
  - apply one_case_excl; auto. exact (H 0%nat s x eq_refl eq_refl).
  - apply IH. intros n s' x' Hn Hx. exact (H (S n) s' x' Hn Hx).
Qed.

(* ------------------------------------------------------------------ data *)
Lemma get_kids_fresh cs : Forall (fun s => get_kid true s (fresh O s) = None) cs -> get_kids true cs (map (fresh O) cs) = [].
Proof. induction 1 as [|s cs H _ IH]; cbn [map get_kids]; [reflexivity|]. rewrite H. exact IH. Qed.
Lemma fresh_nodata s : get_kid true s (fresh O s) = None.
Proof.
  induction s as [i lt d y k|i ts y|i pr cs IH|i keys od cs IH] using schema_ind'; try reflexivity.
  cbn [fresh]. rewrite get_cont, (get_kids_fresh cs IH). now rewrite andb_false_r.
Qed.
Lemma fresh_excl s : excl s (fresh O s).
Proof.
  induction s as [i lt d y k|i ts y|i pr cs IH|i keys od cs IH] using schema_ind'; cbn [fresh].
  - constructor.
  - constructor.
  - constructor.
    + intros m n s1 s2 x1 x2 c k1 k2 H1 H2 H3 H4 _ _ _ [Hd _]. rewrite nth_fresh, H1 in H3. injection H3 as <-.
      apply Hd. apply fresh_nodata.
    + clear - IH. induction IH; constructor; auto.
  - constructor. intros k z Hz. discriminate.
Qed.

Definition mono (cs : list schema) (kids kids' : list obj) : Prop :=
  forall n s x x', nth_error cs n = Some s -> nth_error kids n = Some x -> nth_error kids' n = Some x' ->
    has_data s x' -> has_data s x.

Lemma get_kids_some cs ks : get_kids true cs ks <> [] <->
  exists n s x, nth_error cs n = Some s /\ nth_error ks n = Some x /\ has_data s x.
Proof.
  revert ks. induction cs as [|s cs IH]; intros ks.
  - split; [contradiction|]. intros ([|n] & s & x & H & _); discriminate.
  - destruct ks as [|x ks].
    { split; [contradiction|]. intros ([|n] & s' & x & _ & H & _); discriminate. }
    cbn [get_kids]. destruct (get_kid true s x) as [d|] eqn:E.
    + split; [|intros _; discriminate]. intros _. exists 0%nat, s, x. repeat split; auto. unfold has_data. congruence.
    + rewrite IH. split.
      * intros (n & s' & x' & H). now exists (S n), s', x'.
      * intros ([|n] & s' & x' & H1 & H2 & H3).
        -- injection H1 as <-. injection H2 as <-. now destruct H3.
        -- now exists n, s', x'.
Qed.

Lemma cont_data i pr cs ch pres ks : has_data (SCont i pr cs) (OCont ch pres ks) <->
  (get_kids true cs ks <> [] \/ pr && pres = true).
Proof.
  unfold has_data. rewrite get_cont. destruct (get_kids true cs ks).
  - destruct (pr && pres); split; intros H; try discriminate; auto. destruct H as [H|H]; contradiction || discriminate.
  - split; intros; [left|]; discriminate.
Qed.

Lemma cont_mono i pr cs ch ch' pres ks ks' : length ks = length ks' -> mono cs ks ks' ->
  has_data (SCont i pr cs) (OCont ch' pres ks') -> has_data (SCont i pr cs) (OCont ch pres ks).
Proof.
  intros Hl Hm. rewrite !cont_data. intros [H|H]; [left|now right].
  apply get_kids_some in H. destruct H as (n & s & x' & Hn & Hx & Hd). apply get_kids_some.
  destruct (nth_error ks n) as [x|] eqn:E.
  - exists n, s, x. repeat split; auto. eapply Hm; eauto.
  - exfalso. apply nth_error_None in E. rewrite Hl in E. apply nth_error_None in E. congruence.
Qed.

(* ------------------------------------------------------------------ one level *)
Lemma hit_in evs c k s k' : In (Some (c, k)) evs -> s_tag s = Some (c, k') -> k <> k' -> hit evs s = true.
Proof.
  intros Hin Ht Hk. unfold hit. apply existsb_exists. exists (Some (c, k)). split; [exact Hin|].
  cbn [other_case]. rewrite Ht, str_eqb_refl. cbn [andb]. now rewrite str_eqb_neq.
Qed.

(** What becomes of child [m]. *)
Lemma absorb_child live cs kids n f s x m s1 x1 :
  nth_error cs n = Some s -> nth_error kids n = Some x ->
  nth_error cs m = Some s1 -> nth_error (absorb O live cs kids n f) m = Some x1 ->
  x1 = fresh O s1 \/
  (m = n /\ x1 = match f_new f with Some y => y | None => x end) \/
  (m <> n /\ nth_error kids m = Some x1 /\ live && hit (f_pre f ++ f_post f) s1 = false).
Proof.
  intros Hs Hx Hs1 Hx1. destruct (Nat.eq_dec m n) as [->|Hne].
  - rewrite Hs in Hs1. injection Hs1 as <-. destruct (f_new f) as [y|] eqn:Ey.
    + rewrite (absorb_same _ _ _ _ _ _ _ _ _ Hs Hx Ey) in Hx1. injection Hx1 as <-. destruct (live && _); auto.
    + rewrite (absorb_same_none _ _ _ _ _ _ _ _ Hs Hx Ey) in Hx1. injection Hx1 as <-. destruct (live && _); auto.
  - destruct (nth_error kids m) as [z|] eqn:Ez.
    + rewrite (absorb_other _ _ _ _ _ m f s1 z) in Hx1; auto. injection Hx1 as <-.
      destruct (live && _) eqn:E; auto.
    + exfalso. apply nth_error_None in Ez. rewrite <- (absorb_length O live cs kids n f) in Ez. apply nth_error_None in Ez. congruence.
Qed.

Lemma absorb_siblings cs kids n f s x :
  siblings cs kids -> nth_error cs n = Some s -> nth_error kids n = Some x ->
  (forall tg, s_tag s = Some tg -> In (Some tg) (f_pre f ++ f_post f) \/
     (forall y, f_new f = Some y -> has_data s y -> has_data s x)) ->
  siblings cs (absorb O true cs kids n f).
Proof.
  intros Hsib Hs Hx Ht.
  assert (Hfr : forall s, ~ has_data s (fresh O s)) by (intros s' H; apply H, fresh_nodata).
  (* one of the two is the child that was operated on *)
  assert (Hone : forall m s1 x1 x2 c k1 k2,
    nth_error cs m = Some s1 -> m <> n -> nth_error (absorb O true cs kids n f) n = Some x1 ->
    nth_error (absorb O true cs kids n f) m = Some x2 ->
    s_tag s = Some (c, k1) -> s_tag s1 = Some (c, k2) -> k1 <> k2 -> ~ (has_data s x1 /\ has_data s1 x2)).
  { intros m s1 x1 x2 c k1 k2 Hm Hne H1 H2 Ht1 Ht2 Hk [D1 D2].
    destruct (absorb_child true cs kids n f s x m s1 x2 Hs Hx Hm H2) as [->|[[E _]|(_ & Hxm & Hh)]]; [exact (Hfr _ D2)|contradiction|].
    destruct (Ht _ Ht1) as [Hin|Hmono].
    - cbn [andb] in Hh. rewrite (hit_in _ _ _ _ _ Hin Ht2 Hk) in Hh. discriminate.
    - destruct (absorb_child true cs kids n f s x n s x1 Hs Hx Hs H1) as [->|[[_ E]|(E & _)]]; [exact (Hfr _ D1)| |contradiction].
      apply (Hsib n m s s1 x x2 c k1 k2); auto. split; [|exact D2].
      subst x1. destruct (f_new f) as [y|]; [now apply (Hmono y)|exact D1]. }
  intros m1 m2 s1 s2 x1 x2 c k1 k2 Hm1 Hm2 H1 H2 Ht1 Ht2 Hk [D1 D2].
  destruct (Nat.eq_dec m1 n) as [->|N1].
  - rewrite Hs in Hm1. injection Hm1 as <-.
    assert (N2 : m2 <> n). { intros ->. rewrite Hs in Hm2. injection Hm2 as <-. rewrite Ht1 in Ht2. injection Ht2 as <-. contradiction. }
    eapply (Hone m2); eauto.
  - destruct (Nat.eq_dec m2 n) as [->|N2].
    + rewrite Hs in Hm2. injection Hm2 as <-. apply (Hone m1 s1 x2 x1 c k2 k1); auto.
    + destruct (absorb_child true cs kids n f s x m1 s1 x1 Hs Hx Hm1 H1) as [->|[[E _]|(_ & G1 & _)]]; [exact (Hfr _ D1)|contradiction|].
      destruct (absorb_child true cs kids n f s x m2 s2 x2 Hs Hx Hm2 H2) as [->|[[E _]|(_ & G2 & _)]]; [exact (Hfr _ D2)|contradiction|].
      apply (Hsib m1 m2 s1 s2 x1 x2 c k1 k2); auto.
Qed.

Lemma Forall2_of_nth {A B} (R : A -> B -> Prop) l : forall l', length l = length l' ->
  (forall n a b, nth_error l n = Some a -> nth_error l' n = Some b -> R a b) -> Forall2 R l l'.
Proof.
  induction l as [|a l IH]; intros [|b l'] Hl H; try discriminate; constructor.
  - exact (H 0%nat a b eq_refl eq_refl).
  - apply IH; [now injection Hl|]. intros n x y Hx Hy. exact (H (S n) x y Hx Hy).
Qed.

Lemma absorb_excl live cs kids n f s x : Forall2 excl cs kids -> nth_error cs n = Some s -> nth_error kids n = Some x ->
  (forall y, f_new f = Some y -> excl s y) -> Forall2 excl cs (absorb O live cs kids n f).
Proof.
  intros Hf Hs Hx Hy. apply Forall2_of_nth.
  - rewrite absorb_length. clear - Hf. induction Hf; cbn; auto.
  - intros m s1 x1 Hm H1. destruct (absorb_child live cs kids n f s x m s1 x1 Hs Hx Hm H1) as [->|[[-> E]|(_ & G & _)]].
    + apply fresh_excl.
    + rewrite Hs in Hm. injection Hm as <-. destruct (f_new f) as [y|]; [subst; auto|].
      subst. destruct (Forall2_nth _ _ _ _ _ Hf Hs) as (z & Hz & He). congruence.
    + destruct (Forall2_nth _ _ _ _ _ Hf Hm) as (z & Hz & He). congruence.
Qed.

Lemma absorb_mono live cs kids n f s x : nth_error cs n = Some s -> nth_error kids n = Some x ->
  (forall y, f_new f = Some y -> has_data s y -> has_data s x) -> mono cs kids (absorb O live cs kids n f).
Proof.
  intros Hs Hx Hy m s1 z z' Hm Hz Hz' D.
  destruct (absorb_child live cs kids n f s x m s1 z' Hs Hx Hm Hz') as [->|[[-> E]|(_ & G & _)]].
  - exfalso. apply D, fresh_nodata.
  - rewrite Hs in Hm. injection Hm as <-. rewrite Hx in Hz. injection Hz as <-.
    destruct (f_new f) as [y|]; subst; [now apply (Hy y)|exact D].
  - rewrite Hz in G. injection G as <-. exact D.
Qed.

(* ------------------------------------------------------------------ the operations *)
Lemma set_val_new s v y : f_new (set_any O s (AVal v)) = Some y -> excl s y /\ In (s_tag s) (f_pre (set_any O s (AVal v))).
Proof.
  destruct s as [i lt d yt k|i ts yt|i pr [|c cs]|i keys od cs]; cbn [set_any].
  - unfold set_leaf. destruct (d_out (leaf_assign O lt v)) as [u|e] eqn:E; [|discriminate].
    rewrite (leaf_ok_notified O _ _ _ E). cbn. intros H. injection H as <-. split; [constructor|now left].
  - unfold set_leaf_list. destruct (tl_init O ts true v); [|discriminate]. cbn. intros H. injection H as <-. split; [constructor|now left].
  - cbn. intros H. injection H as <-. split; [|now left]. constructor; [|constructor]. intros [|m] n ? ? ? ? ? ? ? H; discriminate.
  - discriminate.
  - cbn. intros H. injection H as <-. split; [|now left]. constructor. discriminate.
Qed.

Lemma apply_choice s x o : conf s x -> excl s x -> choice_op o ->
  (forall y, f_new (apply O s x o) = Some y -> excl s y) /\
  (In (s_tag s) (base_events O s x o) \/ (forall y, f_new (apply O s x o) = Some y -> has_data s y -> has_data s x)) /\
  (forall c k, In (Some (c, k)) (base_events O s x o) -> s_tag s = Some (c, k)).
Proof.
  intros Hc He Ho. unfold base_events. destruct o as [w [v|z]| |b|lo|uid yo]; try contradiction; cbn [apply].
  - assert (Hcase : assign O s w (AVal v) = set_any O s (AVal v) \/ exists e, assign O s w (AVal v) = no_effect (Raise e)).
    { unfold assign. destruct w; [destruct (e_rw _)|]; try destruct (is_key s && _); eauto. }
    destruct Hcase as [-> |[e ->]].
    + split; [intros y Hy; exact (proj1 (set_val_new s v y Hy))|]. split.
      * destruct (f_new (set_any O s (AVal v))) as [y|] eqn:E; [|right; discriminate].
        left. apply in_or_app. left. exact (proj2 (set_val_new s v y E)).
      * intros c k Hin. assert (Hev : forall evs r, (evs = [s_tag s] \/ evs = []) ->
            In (Some (c, k)) (f_pre (setter evs r) ++ f_post (setter evs r)) -> s_tag s = Some (c, k)).
        { intros evs r Hevs. unfold setter. destruct r; cbn [f_pre f_post]; destruct Hevs as [->| ->]; cbn; intros [H|[H|H]] || intros [H|H] || intros H;
            try discriminate; try contradiction; auto. }
        destruct s as [i lt d yt kk|i ts yt|i pr [|cc cs]|i keys od cs]; cbn [set_any] in Hin;
          unfold set_leaf, set_leaf_list in Hin; (eapply Hev; [|exact Hin]); auto.
        destruct (d_notified _); auto.
    + split; [discriminate|]. split; [right; discriminate|]. intros c k [].
  - split; [intros y Hy; injection Hy as <-; apply fresh_excl|]. split; [|intros c k []].
    right. intros y Hy D. injection Hy as <-. exfalso. apply D, fresh_nodata.
  - destruct He as [i lt d yt k ch v|i ts yt ch l|i pr cs ch pres ks Hsib Hf|i keys od cs ch es Hf];
      try (split; [discriminate|split; [right; discriminate|intros c k0 []]]).
    destruct b; cbn [f_new f_pre f_post app].
    + split; [intros y Hy; injection Hy as <-; now constructor|]. split; [left; now left|].
      intros c k [H|[]]. exact H.
    + split; [intros y Hy; injection Hy as <-; now constructor|]. split; [|intros c k []].
      right. intros y Hy. injection Hy as <-. rewrite !cont_data. intros [H|H]; [now left|].
      rewrite andb_false_r in H. discriminate.
  - destruct He as [i lt d yt k ch v|i ts yt ch l|i pr cs ch pres ks Hsib Hf|i keys od cs ch es Hf];
      try (split; [discriminate|split; [right; discriminate|intros c k0 []]]).
    destruct (tl_op O ts true l lo) as [l' r] eqn:E. cbn [f_new f_pre f_post app].
    split; [intros y Hy; injection Hy as <-; constructor|]. split.
    + destruct (tl_notifies lo) eqn:En; [left; now left|right].
      intros y Hy. injection Hy as <-. destruct lo; try discriminate.
      intros D. destruct l as [|a l]; [|discriminate]. exfalso. apply D. cbn [tl_op] in E.
      assert (l' = []) as -> by (destruct (index_pos (length (@nil pyval)) i0) as [[|k0]|]; injection E as <- _; reflexivity).
      reflexivity.
    + destruct (tl_notifies lo); intros c k [H|[]] || intros c k []. exact H.
Qed.

Lemma apply_choice' s x o : choice_op o -> conf s x -> excl s x ->
  (forall y, f_new (apply O s x o) = Some y -> excl s y) /\
  ((forall tg, s_tag s = Some tg -> In (Some tg) (base_events O s x o) \/
      (forall y, f_new (apply O s x o) = Some y -> has_data s y -> has_data s x)) /\
   (base_events O s x o = [] -> forall y, f_new (apply O s x o) = Some y -> has_data s y -> has_data s x)) /\
  (forall c k, In (Some (c, k)) (base_events O s x o) -> s_tag s = Some (c, k)).
Proof.
  intros Ho Hc He. destruct (apply_choice s x o Hc He Ho) as (A1 & A2 & A3). split; [exact A1|]. split; [|exact A3].
  destruct A2 as [A2|A2]; [|auto]. split; [intros tg <-; auto|]. intros E. rewrite E in A2. contradiction.
Qed.

(* ------------------------------------------------------------------ anywhere *)
Lemma run_schema o s0 x0 live cs kids p kids' evs r :
  run_at O o s0 x0 live cs kids p kids' evs r -> schema_at cs p = Some s0.
Proof.
  induction 1.
  - unfold schema_at. cbn [sub entry_schema]. now rewrite H.
  - rewrite (schema_cont cs n i pr cs'); auto. discriminate.
  - now rewrite (schema_ent cs n i keys od cs').
Qed.

Lemma uniform_cont cs n i pr cs' : uniform cs -> nth_error cs n = Some (SCont i pr cs') -> uniform cs'.
Proof.
  intros H Hn p q s t tg tg' Hp Ht Hq Ht'. destruct p as [|a p].
  - injection Hp as <-. discriminate.
  - apply (H (Kid n :: a :: p) q s t tg tg'); auto.
    + now rewrite (schema_cont cs n i pr cs') by (auto; discriminate).
    + cbn [app]. now rewrite (schema_cont cs n i pr cs') by (auto; discriminate).
Qed.
Lemma uniform_ent cs n i keys od cs' : uniform cs -> nth_error cs n = Some (SList i keys od cs') -> uniform cs'.
Proof.
  intros H Hn p q s t tg tg' Hp Ht Hq Ht'.
  apply (H (Kid n :: Ent VNone :: p) q s t tg tg'); auto; cbn [app]; now rewrite (schema_ent cs n i keys od cs').
Qed.

Lemma run_excl o s0 x0 live cs kids p kids' evs r :
  run_at O o s0 x0 live cs kids p kids' evs r ->
  (conf s0 x0 -> excl s0 x0 ->
   (forall y, f_new (apply O s0 x0 o) = Some y -> excl s0 y) /\
   ((forall tg, s_tag s0 = Some tg -> In (Some tg) (base_events O s0 x0 o) \/
       (forall y, f_new (apply O s0 x0 o) = Some y -> has_data s0 y -> has_data s0 x0)) /\
    (base_events O s0 x0 o = [] -> forall y, f_new (apply O s0 x0 o) = Some y -> has_data s0 y -> has_data s0 x0)) /\
   (forall c k, In (Some (c, k)) (base_events O s0 x0 o) -> s_tag s0 = Some (c, k))) ->
  uniform cs -> shaped cs kids -> Forall2 excl cs kids -> (live = true -> siblings cs kids) ->
  Forall2 excl cs kids' /\ (live = true -> siblings cs kids') /\ (evs = [] -> mono cs kids kids').
Proof.
  intros R Ho. induction R; intros Hu Hs He Hsib.
  - destruct (Forall2_nth _ _ _ _ _ Hs H) as (z & Hz & Hc). rewrite H0 in Hz. injection Hz as <-.
    destruct (Forall2_nth _ _ _ _ _ He H) as (z & Hz & Hex). rewrite H0 in Hz. injection Hz as <-.
    destruct (Ho Hc Hex) as (A1 & (A2 & A2') & A3). split; [|split].
    + eapply absorb_excl; eauto.
    + intros ->. eapply absorb_siblings; eauto.
    + intros E. eapply absorb_mono; eauto.
  - destruct (Forall2_nth _ _ _ _ _ He H) as (z & Hz & Hex). rewrite H0 in Hz. injection Hz as <-.
    inversion Hex as [| |? ? ? ? ? ? Hsib' He'|]; subst.
    destruct (IHR (uniform_cont _ _ _ _ _ Hu H) H1 He' (fun _ => Hsib')) as (I1 & I2 & I3).
    assert (Hlen : length kids' = length kids'').
    { clear - R H1. assert (L : forall live cs kids p kids' evs r, run_at O o s0 x0 live cs kids p kids' evs r -> length kids' = length kids).
      { destruct 1; now rewrite absorb_length. } symmetry. eapply L; eauto. }
    assert (Hmono : evs = [] -> has_data (SCont i pr cs') (OCont (mark evs ch) (mark_present pr evs pres) kids'') ->
                    has_data (SCont i pr cs') (OCont ch pres kids')).
    { intros -> . cbn [mark mark_present]. apply cont_mono; auto. }
    split; [|split].
    + eapply absorb_excl; eauto. cbn [f_new]. intros y Hy. injection Hy as <-. constructor; auto.
    + intros ->. eapply absorb_siblings; eauto. intros tg Htg. cbn [f_pre f_post f_new app].
      destruct evs as [|ev evs].
      * right. intros y Hy. injection Hy as <-. now apply Hmono.
      * left. left. cbn [s_tag s_info] in Htg. change (e_choice i = Some tg) in Htg.
        destruct ev as [[c k]|]; cbn [forward]; [|exact Htg]. f_equal.
        assert (Hsrc : src cs' (Kid m :: p) (base_events O s0 x0 o) 1 c k).
        { eapply (run_src O); [exact R|now left]. }
        assert (Hn1 : schema_at cs [Kid n] = Some (SCont i pr cs')).
        { unfold schema_at. cbn [sub entry_schema]. now rewrite H. }
        destruct Hsrc as [Hin|(t & st & Hp & Hl & Hst & Htag & _)].
        -- assert (Hs0 : s_tag s0 = Some (c, k)).
           { assert (Hc0 : conf s0 x0 /\ excl s0 x0).
             { clear - R H1 He'. revert H1 He'. induction R; intros S1 S2.
               - destruct (Forall2_nth _ _ _ _ _ S1 H) as (z & Hz & Hc). destruct (Forall2_nth _ _ _ _ _ S2 H) as (z' & Hz' & Hc').
                 split; congruence.
               - destruct (Forall2_nth _ _ _ _ _ S2 H) as (z & Hz & Hc). rewrite H0 in Hz. injection Hz as <-.
                 inversion Hc; subst. auto.
               - destruct (Forall2_nth _ _ _ _ _ S2 H) as (z & Hz & Hc). rewrite H0 in Hz. injection Hz as <-.
                 inversion Hc as [| | |? ? ? ? ? ? Hent]; subst. specialize (Hent _ _ H1). inversion Hent; subst. auto. }
             destruct Hc0 as [C0 E0]. exact (proj2 (proj2 (Ho C0 E0)) c k Hin). }
           apply (Hu [Kid n] (Kid m :: p) (SCont i pr cs') s0 tg (c, k)); auto.
           cbn [app]. rewrite (schema_cont cs n i pr cs') by (auto; discriminate). exact (run_schema _ _ _ _ _ _ _ _ _ _ R).
        -- apply (Hu [Kid n] t (SCont i pr cs') st tg (c, k)); auto.
           cbn [app]. rewrite (schema_cont cs n i pr cs'); auto. destruct t; [cbn in Hl; lia|discriminate].
    + intros E. apply map_eq_nil in E. eapply absorb_mono; eauto. cbn [f_new]. intros y Hy. injection Hy as <-. auto.
  - destruct (Forall2_nth _ _ _ _ _ He H) as (z & Hz & Hex). rewrite H0 in Hz. injection Hz as <-.
    inversion Hex as [| | |? ? ? ? ? ? Hent]; subst. pose proof (Hent _ _ H1) as Hek.
    inversion Hek as [| |? ? ? ? ? ? Hsib' He'|]; subst.
    destruct (IHR (uniform_ent _ _ _ _ _ _ Hu H) H2 He' (fun _ => Hsib')) as (I1 & I2 & I3).
    assert (Hold : has_data (SList i keys od cs') (OList ch es)).
    { unfold has_data. rewrite get_list. destruct es; discriminate. }
    split; [|split].
    + eapply absorb_excl; eauto. cbn [f_new]. intros y Hy. injection Hy as <-. constructor.
      intros k1 z Hz. destruct (py_eq k1 k) eqn:Ek.
      * rewrite (mget_mput_eq _ _ _ _ Ek) in Hz. injection Hz as <-. constructor; auto.
      * rewrite (mget_mput_other _ _ _ _ Ek) in Hz. exact (Hent _ _ Hz).
    + intros ->. eapply absorb_siblings; eauto.
    + intros _. eapply absorb_mono; eauto.
Qed.

Theorem one_case_step cs kids p o : uniform cs -> shaped cs kids -> choice_op o -> one_case cs kids ->
  one_case cs (fst (module_exec O cs kids p o)).
Proof.
  intros Hu Hs Ho H1. destruct (at_path kids p) as [x|] eqn:Hx.
  2:{ destruct (module_exec_missing O cs kids p o Hs (or_intror Hx)) as (e & ->). exact H1. }
  destruct (at_path_conf cs kids p x Hs Hx) as (s & Hsc & _).
  destruct (existing_dec O cs kids p o s Hs Hsc) as [(e & ->)|(He & _)]; [exact H1|].
  destruct (module_exec_ok O cs kids p o s x Hs He Hsc Hx) as (evs & R).
  apply excl_one_case.
  apply (run_excl _ _ _ _ _ _ _ _ _ _ R (apply_choice' s x o Ho) Hu Hs (one_case_all cs kids Hs H1)). discriminate.
Qed.

Theorem one_case_run cs os : forall kids, uniform cs -> shaped cs kids -> one_case cs kids ->
  Forall (fun po => choice_op (snd po)) os -> one_case cs (module_run O cs kids os).
Proof.
  induction os as [|[p o] os IH]; intros kids Hu Hs H1 Ho; [exact H1|].
  inversion Ho as [|? ? Ho1 Ho2]; subst. cbn [module_run]. apply IH; auto.
  - unfold module_exec. destruct (exec O false cs kids p o) as [[k e] r] eqn:E. cbn [fst].
    pose proof (exec_shaped O p false cs kids o Hs) as Hp. rewrite E in Hp. exact Hp.
  - now apply one_case_step.
Qed.

Lemma new_one_case cs : one_case cs (module_new O cs).
Proof. apply excl_one_case. unfold module_new. induction cs; constructor; auto using fresh_excl. Qed.
End T.
