(** Tools for the cases beside the theorems about JSON: conditions on a schema, by computation. *)
From Verif Require Import PyStr PyStr_facts PyVal Restricted SafeName YList YList_proofs Tree Spec_Tree Tree_proofs Serialise Spec_Serialise Load_proofs Rival_proofs.

(** [f] holds of the children of every container and list. *)
Fixpoint everywhere (f : list schema -> bool) (s : schema) : bool :=
  match s with
  | SCont _ _ cs | SList _ _ _ cs => f cs && forallb (everywhere f) cs
  | _ => true
  end.
Lemma everywhere_sub f p : forall s t, everywhere f s = true -> sub s p = Some t -> everywhere f t = true.
Proof.
  induction p as [|[k|k] p IH]; intros s t Hs Ht; cbn in Ht.
  - now injection Ht as <-.
  - destruct s as [| |i pr cs|]; try discriminate. destruct (nth_error cs k) as [s'|] eqn:E; [|discriminate].
    apply (IH s'); auto. cbn in Hs. apply andb_true_iff in Hs as [_ Hs]. rewrite forallb_forall in Hs.
    apply Hs. eapply nth_error_In; eauto.
  - destruct s as [| | |i keys od cs]; try discriminate. apply (IH (entry_schema cs)); auto.
Qed.
Lemma everywhere_at f top p i pr cs : everywhere f (entry_schema top) = true -> schema_at top p = Some (SCont i pr cs) -> f cs = true.
Proof. intros H Hs. pose proof (everywhere_sub f p _ _ H Hs) as G. cbn in G. now apply andb_true_iff in G as [G _]. Qed.

Fixpoint distinctb (l : list str) : bool := match l with [] => true | s :: l' => negb (str_in s l') && distinctb l' end.
Lemma distinctb_ok l : distinctb l = true -> NoDup l.
Proof.
  induction l as [|s l IH]; intros H; [constructor|]. cbn in H. apply andb_true_iff in H as [H1 H2]. constructor; auto.
  intros Hi. assert (E : str_in s l = true); [|rewrite E in H1; discriminate]. apply existsb_exists. exists s. split; auto. apply str_eqb_refl.
Qed.
Definition names_b (cs : list schema) : bool :=
  distinctb (map (fun s => e_py (s_info s)) cs) &&
  forallb (fun s => str_eqb (e_py (s_info s)) (safe_name (e_yang (s_info s))) && negb (str_eqb (e_yang (s_info s)) (lit "__yang_order"))) cs.
Lemma names_by top : everywhere names_b (entry_schema top) = true -> python_names top.
Proof.
  intros H p i pr cs Hs. pose proof (everywhere_at _ _ _ _ _ _ H Hs) as G. unfold names_b in G. apply andb_true_iff in G as [G1 G2].
  split; [now apply distinctb_ok|]. apply Forall_forall. intros s Hi. rewrite forallb_forall in G2. specialize (G2 s Hi).
  apply andb_true_iff in G2 as [Ga Gb]. split; [now apply str_eqb_eq|]. intros E. rewrite E, str_eqb_refl in Gb. discriminate.
Qed.
Definition plain_b (cs : list schema) : bool := forallb (fun s => negb (existsb (N.eqb 58) (e_yang (s_info s)))) cs.
Lemma yang_names_by top : everywhere plain_b (entry_schema top) = true -> yang_names top.
Proof.
  intros H p i pr cs Hs. pose proof (everywhere_at _ _ _ _ _ _ H Hs) as G. apply Forall_forall. intros s Hi Hc.
  unfold plain_b in G. rewrite forallb_forall in G. specialize (G s Hi). cbn beta in G.
  assert (E : existsb (N.eqb 58) (e_yang (s_info s)) = true); [|rewrite E in G; discriminate].
  apply existsb_exists. exists 58%N. split; auto.
Qed.
Fixpoint tagless (s : schema) : bool :=
  match s_tag s with Some _ => false | None => match s with SCont _ _ cs | SList _ _ _ cs => forallb tagless cs | _ => true end end.
Lemma tagless_sub p : forall s t, tagless s = true -> sub s p = Some t -> tagless t = true.
Proof.
  induction p as [|[k|k] p IH]; intros s t Hs Ht; cbn in Ht.
  - now injection Ht as <-.
  - destruct s as [| |i pr cs|]; try discriminate. destruct (nth_error cs k) as [s'|] eqn:E; [|discriminate].
    apply (IH s'); auto. cbn in Hs. destruct (s_tag _); [discriminate|]. rewrite forallb_forall in Hs.
    apply Hs. eapply nth_error_In; eauto.
  - destruct s as [| | |i keys od cs]; try discriminate. apply (IH (entry_schema cs)); auto. cbn in Hs |- *. now destruct (s_tag _).
Qed.
Lemma choice_free_by top : tagless (entry_schema top) = true -> choice_free top.
Proof. intros H p s Hs. pose proof (tagless_sub p _ _ H Hs) as G. destruct s; cbn in G; now destruct (s_tag _). Qed.

Fixpoint keys_b (s : schema) : bool :=
  match s with
  | SCont _ _ cs => forallb keys_b cs
  | SList _ keys _ cs =>
      forallb keys_b cs &&
      forallb (fun k => match kid_index k cs with
                        | Some n => match nth_error cs n with
                                    | Some (SLeaf i _ _ _ _) => str_eqb (local_name (e_yang i)) (e_yang i) && negb (metadata (e_yang i))
                                    | Some _ => false
                                    | None => true
                                    end
                        | None => true
                        end) keys
  | _ => true
  end.
Lemma keys_b_sub p : forall s t, keys_b s = true -> sub s p = Some t -> keys_b t = true.
Proof.
  induction p as [|[k|k] p IH]; intros s t Hs Ht; cbn in Ht.
  - now injection Ht as <-.
  - destruct s as [| |i pr cs|]; try discriminate. destruct (nth_error cs k) as [s'|] eqn:E; [|discriminate].
    apply (IH s'); auto. cbn in Hs. rewrite forallb_forall in Hs. apply Hs. eapply nth_error_In; eauto.
  - destruct s as [| | |i keys od cs]; try discriminate. apply (IH (entry_schema cs)); auto. cbn in Hs |- *.
    now apply andb_true_iff in Hs as [Hs _].
Qed.
Lemma keys_plain_by top : keys_b (entry_schema top) = true -> keys_plain top.
Proof.
  intros H p i keys od cs k n s Hs Hk Hn He. pose proof (keys_b_sub p _ _ H Hs) as G. cbn in G. apply andb_true_iff in G as [_ G].
  rewrite forallb_forall in G. specialize (G k Hk). rewrite Hn, He in G. destruct s as [i0 lt d yt key| | |]; try discriminate.
  apply andb_true_iff in G as [G1 G2]. split; [eauto 6|]. split; [now apply str_eqb_eq|]. now apply negb_true_iff.
Qed.

Definition ietf_b (cs : list schema) : bool :=
  forallb (fun s => negb (existsb (N.eqb 58) (e_yang (s_info s))) && negb (metadata (e_yang (s_info s))) && negb (metadata (e_mod (s_info s)))) cs.
Lemma ietf_names_by top : everywhere ietf_b (entry_schema top) = true -> ietf_names top.
Proof.
  intros H p i pr cs Hs. pose proof (everywhere_at _ _ _ _ _ _ H Hs) as G. apply Forall_forall. intros s Hi.
  unfold ietf_b in G. rewrite forallb_forall in G. specialize (G s Hi). cbn beta in G.
  apply andb_true_iff in G as [G G3]. apply andb_true_iff in G as [G1 G2]. apply negb_true_iff in G1, G2, G3. split; [|auto].
  intros Hc. assert (E : existsb (N.eqb 58) (e_yang (s_info s)) = true); [|rewrite E in G1; discriminate].
  apply existsb_exists. exists 58%N. split; auto.
Qed.

Definition no_key_b (cs : list schema) : bool := forallb (fun s => negb (is_key s)) cs.
Lemma no_key_ok cs : no_key_b cs = true -> Forall (fun s => is_key s = false) cs.
Proof. intros H. apply Forall_forall. intros s Hs. unfold no_key_b in H. rewrite forallb_forall in H. specialize (H s Hs). now apply negb_true_iff in H. Qed.
Fixpoint marked_b (s : schema) : bool :=
  match s with
  | SCont _ _ cs => no_key_b cs && forallb marked_b cs
  | SList i keys _ cs =>
      forallb (fun s => if is_key s then str_in (e_py (s_info s)) keys else true) cs &&
      forallb (fun s => if str_in (e_py (s_info s)) keys then str_eqb (e_ns (s_info s)) (e_ns i) else true) cs && forallb marked_b cs
  | _ => true
  end.
Lemma marked_sub p : forall s t, (exists cs, s = entry_schema cs /\ forallb marked_b cs = true) \/ marked_b s = true -> sub s p = Some t ->
  (exists cs, t = entry_schema cs /\ forallb marked_b cs = true /\ ~ (exists q n, p = q ++ [Kid n])) \/ marked_b t = true.
Proof.
  induction p as [|[k|k] p IH]; intros s t Hs Ht; cbn in Ht.
  - injection Ht as <-. destruct Hs as [(cs & -> & H)|H]; [left|now right]. exists cs. split; [reflexivity|]. split; [exact H|].
    intros (q & n & E). now apply app_cons_not_nil in E.
  - destruct s as [| |i pr cs|]; try discriminate. destruct (nth_error cs k) as [s'|] eqn:E; [|discriminate].
    assert (H' : forallb marked_b cs = true).
    { destruct Hs as [(cs' & E' & H)|H]; [injection E' as _ _ <-; exact H|]. cbn in H. now apply andb_true_iff in H as [_ H]. }
    rewrite forallb_forall in H'. specialize (H' s' (nth_error_In _ _ E)).
    destruct p as [|a p]; [injection Ht as <-; now right|].
    destruct (IH s' t (or_intror H') Ht) as [(cs' & H1 & H2 & H3)|H1]; [left|now right]. exists cs'. split; [assumption|]. split; [assumption|].
    intros (q & n & Eq). destruct q as [|b q]; [discriminate|]. injection Eq as _ Eq. apply H3. now exists q, n.
  - destruct s as [| | |i keys od cs]; try discriminate.
    assert (H' : forallb marked_b cs = true).
    { destruct Hs as [(cs' & E' & H)|H]; [discriminate|]. cbn in H. now apply andb_true_iff in H as [_ H]. }
    destruct p as [|a p].
    + injection Ht as <-. left. exists cs. split; [reflexivity|]. split; [exact H'|].
      intros (q & n & Eq). destruct q as [|b q]; [discriminate|]. injection Eq as _ Eq. now apply app_cons_not_nil in Eq.
    + destruct (IH (entry_schema cs) t) as [(cs' & H1 & H2 & H3)|H1]; [left; now exists cs|exact Ht|left|now right].
      exists cs'. split; [assumption|]. split; [assumption|].
      intros (q & n & Eq). destruct q as [|b q]; [discriminate|]. injection Eq as _ Eq. apply H3. now exists q, n.
Qed.
Lemma key_leaves_by top : marked_b (entry_schema top) = true -> key_leaves top.
Proof.
  intros H. split; [cbn in H; apply andb_true_iff in H as [H _]; now apply no_key_ok|]. split.
  - intros p n i pr cs Hs. destruct (marked_sub _ _ _ (or_intror H) Hs) as [(cs' & _ & _ & H3)|H1].
    + exfalso. apply H3. now exists p, n.
    + cbn in H1. apply andb_true_iff in H1 as [H1 _]. now apply no_key_ok.
  - intros p i keys od cs Hs. destruct (marked_sub _ _ _ (or_intror H) Hs) as [(cs' & E & _)|H1]; [discriminate|].
    cbn in H1. apply andb_true_iff in H1 as [H1 _]. apply andb_true_iff in H1 as [H1 H2]. rewrite forallb_forall in H1, H2.
    apply Forall_forall. intros s Hs'. specialize (H1 s Hs'). specialize (H2 s Hs'). split.
    + intros E. rewrite E in H1. apply existsb_exists in H1 as (x & Hx & Ex). apply str_eqb_eq in Ex. now subst x.
    + intros Hi. assert (E : str_in (e_py (s_info s)) keys = true). { apply existsb_exists. eexists. split; [exact Hi|apply str_eqb_refl]. }
      rewrite E in H2. now apply str_eqb_eq.
Qed.

(** Keys in no other choice than their list, data in no two cases. *)
Fixpoint plain_key_b (s : schema) : bool :=
  match s with
  | SCont _ _ cs => forallb plain_key_b cs
  | SList i keys _ cs =>
      forallb (fun s => match s_tag s with
                        | Some t => match e_choice i with Some t' => tag_eqb t t' | None => false end || negb (str_in (e_py (s_info s)) keys)
                        | None => true
                        end) cs && forallb plain_key_b cs
  | _ => true
  end.
Lemma plain_key_sub p : forall s t, plain_key_b s = true -> sub s p = Some t -> plain_key_b t = true.
Proof.
  induction p as [|[k|k] p IH]; intros s t Hs Ht; cbn in Ht.
  - now injection Ht as <-.
  - destruct s as [| |i pr cs|]; try discriminate. destruct (nth_error cs k) as [s'|] eqn:E; [|discriminate].
    apply (IH s'); auto. cbn in Hs. rewrite forallb_forall in Hs. apply Hs. eapply nth_error_In; eauto.
  - destruct s as [| | |i keys od cs]; try discriminate. apply (IH (entry_schema cs)); auto. cbn in Hs |- *.
    now apply andb_true_iff in Hs as [_ Hs].
Qed.
Lemma plain_keys_by top : plain_key_b (entry_schema top) = true -> plain_keys top.
Proof.
  intros H p i keys od cs n s Hp Hn Hk. pose proof (plain_key_sub p _ _ H Hp) as G. cbn in G. apply andb_true_iff in G as [G _].
  rewrite forallb_forall in G. specialize (G s (nth_error_In _ _ Hn)). destruct (s_tag s) as [t|]; [|now left]. right.
  apply orb_true_iff in G as [G|G].
  { destruct (e_choice i) as [t'|]; [|discriminate]. unfold tag_eqb in G. apply andb_true_iff in G as [G1 G2]. apply str_eqb_eq in G1, G2.
    destruct t, t'. cbn in *. congruence. }
  assert (E : str_in (e_py (s_info s)) keys = true); [|rewrite E in G; discriminate].
  apply existsb_exists. eexists. split; [exact Hk|apply str_eqb_refl].
Qed.

Definition data_b (s : schema) (x : obj) : bool := match get_kid true s x with Some _ => true | None => false end.
Definition own_tag (s : schema) (x : obj) : list (str * str) := match s_tag s with Some t => if data_b s x then [t] else [] | None => [] end.
Fixpoint emitted (s : schema) (x : obj) {struct s} : list (str * str) :=
  let all := fix all cs kids := match cs, kids with s :: cs', x :: kids' => emitted s x ++ all cs' kids' | _, _ => [] end in
  own_tag s x ++
  match s, x with
  | SCont _ _ cs, OCont _ _ kids => all cs kids
  | SList _ _ _ cs, OList _ es => flat_map (fun e => match snd e with OCont _ _ kids => all cs kids | _ => [] end) es
  | _, _ => []
  end.
Fixpoint all_emitted cs kids := match cs, kids with s :: cs', x :: kids' => emitted s x ++ all_emitted cs' kids' | _, _ => [] end.
Definition kids_calm (cs : list schema) (kids : list obj) : bool :=
  forallb (fun sx => forallb (fun t => forallb (fun u => (negb (str_eqb (fst t) (fst u)) || str_eqb (snd t) (snd u))%bool) (all_emitted cs kids))
                       (own_tag (fst sx) (snd sx))) (combine cs kids).
Fixpoint calm_b (s : schema) (x : obj) {struct s} : bool :=
  let all := fix all cs kids := match cs, kids with s :: cs', x :: kids' => calm_b s x && all cs' kids' | _, _ => true end in
  match s, x with
  | SCont _ _ cs, OCont _ _ kids => kids_calm cs kids && all cs kids
  | SList _ _ _ cs, OList _ es => forallb (fun e => match snd e with OCont _ _ kids => kids_calm cs kids && all cs kids | _ => true end) es
  | _, _ => true
  end.
Fixpoint all_calm cs kids := match cs, kids with s :: cs', x :: kids' => calm_b s x && all_calm cs' kids' | _, _ => true end.

Lemma mget_stored (es : list (pyval * obj)) k e : mget k es = Some e -> exists k', In (k', e) es.
Proof.
  induction es as [|[k1 z] es IH]; cbn [mget]; [discriminate|]. destruct (py_eq k k1); intros H.
  - injection H as ->. exists k1. now left.
  - destruct (IH H) as [k' H']. exists k'. now right.
Qed.
Lemma emits_emitted s x tg : emits s x tg -> In tg (emitted s x).
Proof.
  induction 1 as [s x tg Hd Ht|i pr cs ch ps kids n s x tg Hs Hx _ IH|i keys od cs ch es k e tg He Hem IH].
  - assert (H : In tg (own_tag s x)).
    { unfold own_tag, data_b, has_data in *. rewrite Ht. destruct (get_kid true s x); [now left|congruence]. }
    destruct s; cbn [emitted]; apply in_or_app; now left.
  - cbn [emitted]. apply in_or_app. right. change (In tg (all_emitted cs kids)). clear -Hs Hx IH. revert kids n Hs Hx.
    induction cs as [|s0 cs IHc]; intros [|x0 kids] [|n] Hs Hx; try discriminate; cbn in Hs, Hx; cbn [all_emitted]; apply in_or_app.
    + left. congruence.
    + right. eauto.
  - cbn [emitted]. apply in_or_app. right. apply mget_stored in He as (k' & Hin). apply in_flat_map. exists (k', e). split; [exact Hin|]. cbn [snd].
    inversion Hem as [? ? ? Hd Ht|? ? ? ? ? ? n s x ? Hs Hx Hemit|]; subst.
    + discriminate Ht.
    + cbn [emitted entry_schema] in IH. apply in_app_or in IH. destruct IH as [IH|IH]; [|exact IH]. destruct IH.
Qed.
Lemma kids_calm_settled cs kids : kids_calm cs kids = true -> kids_settled cs kids.
Proof.
  intros H n1 n2 s1 s2 x1 x2 c k1 k2 Hs1 Hs2 Hx1 Hx2 He Ht Hk Hd. unfold kids_calm in H. rewrite forallb_forall in H.
  assert (Hin : In (s2, x2) (combine cs kids)).
  { clear -Hs2 Hx2. revert kids n2 Hs2 Hx2. induction cs as [|s cs IH]; intros [|x kids] [|n] Hs Hx; try discriminate; cbn in Hs, Hx; cbn [combine];
      [left; congruence|right; eauto]. }
  specialize (H _ Hin). cbn [fst snd] in H. unfold own_tag in H. rewrite Ht in H. unfold data_b in H. unfold has_data in Hd.
  destruct (get_kid true s2 x2); [|congruence]. rewrite forallb_forall in H. specialize (H _ (or_introl eq_refl)).
  rewrite forallb_forall in H. assert (Hi : In (c, k1) (all_emitted cs kids)).
  { apply emits_emitted in He. clear -Hs1 Hx1 He. revert kids n1 Hs1 Hx1. induction cs as [|s cs IH]; intros [|x kids] [|n] Hs Hx; try discriminate; cbn in Hs, Hx;
      cbn [all_emitted]; apply in_or_app; [left; congruence|right; eauto]. }
  specialize (H _ Hi). cbn [fst snd] in H. rewrite str_eqb_refl in H. cbn [negb orb] in H. apply str_eqb_eq in H. congruence.
Qed.
Lemma calm_sub p : forall s x t y, calm_b s x = true -> sub s p = Some t -> node x p = Some y -> calm_b t y = true.
Proof.
  induction p as [|[k|k] p IH]; intros s x t y H Hs Hx; cbn in Hs, Hx.
  - congruence.
  - destruct s as [| |i pr cs|]; try discriminate. destruct (nth_error cs k) as [s'|] eqn:E; [|discriminate].
    destruct x as [| |ch ps ks|]; try discriminate. destruct (nth_error ks k) as [x'|] eqn:E'; [|discriminate].
    apply (IH s' x'); auto. cbn [calm_b] in H. apply andb_true_iff in H as [_ H]. change (all_calm cs ks = true) in H.
    clear -H E E'. revert ks k H E E'. induction cs as [|s cs IH]; intros [|x ks] [|k] H E E'; try discriminate; cbn in E, E'; cbn [all_calm] in H;
      apply andb_true_iff in H as [H1 H2]; [congruence|eauto].
  - destruct s as [| | |i keys od cs]; try discriminate. destruct x as [| | |ch es]; try discriminate.
    destruct (mget k es) as [e|] eqn:Ee; [|discriminate]. apply (IH (entry_schema cs) e); auto.
    apply mget_stored in Ee as (k' & Hin). cbn [calm_b] in H. rewrite forallb_forall in H. specialize (H _ Hin). cbn [snd] in H.
    destruct e; try reflexivity. exact H.
Qed.
Lemma unrivalled_by cs kids : shaped cs kids -> all_calm cs kids = true -> unrivalled cs kids.
Proof.
  intros Hsh H. apply Rival_proofs.calm_unrivalled; [assumption|]. intros p i pr cs' ch ps ks Hp Hs Hx. apply kids_calm_settled.
  destruct p as [|[n|k] p]; [congruence| |]; unfold schema_at, at_path in Hs, Hx; cbn in Hs, Hx; [|discriminate].
  destruct (nth_error cs n) as [s|] eqn:Es; [|discriminate]. destruct (nth_error kids n) as [x|] eqn:Ex; [|discriminate].
  assert (Hc : calm_b s x = true).
  { clear -H Es Ex. revert kids n H Es Ex. induction cs as [|s0 cs IH]; intros [|x0 ks] [|k] H E E'; try discriminate; cbn in E, E'; cbn [all_calm] in H;
      apply andb_true_iff in H as [H1 H2]; [congruence|eauto]. }
  pose proof (calm_sub p _ _ _ _ Hc Hs Hx) as G. cbn [calm_b] in G. now apply andb_true_iff in G as [G _].
Qed.
Lemma no_choice_by cs kids : tagless (entry_schema cs) = true -> plain_keys cs /\ unrivalled cs kids.
Proof. intros H. apply choice_free_by in H. split; [now apply choice_free_keys|now apply choice_free_unrivalled]. Qed.

Lemma one_case_by cs kids : all_calm cs kids = true -> one_case cs kids.
Proof.
  intros H p i pr cs' ch ps ks m n s1 s2 x1 x2 c k1 k2 Hp Hs Hx Hs1 Hs2 Hx1 Hx2 H1 H2 Hk [Hd1 Hd2].
  destruct p as [|[a|k] p]; [congruence| |]; unfold schema_at, at_path in Hs, Hx; cbn in Hs, Hx; [|discriminate].
  destruct (nth_error cs a) as [s|] eqn:Es; [|discriminate]. destruct (nth_error kids a) as [x|] eqn:Ex; [|discriminate].
  assert (Hc : calm_b s x = true).
  { clear -H Es Ex. revert kids a H Es Ex. induction cs as [|s0 cs IH]; intros [|x0 kids] [|k] H E E'; try discriminate; cbn in E, E'; cbn [all_calm] in H;
      apply andb_true_iff in H as [Ha Hb]; [congruence|eauto]. }
  pose proof (calm_sub p _ _ _ _ Hc Hs Hx) as G. cbn [calm_b] in G. apply andb_true_iff in G as [G _]. apply kids_calm_settled in G.
  exact (G m n s1 s2 x1 x2 c k1 k2 Hs1 Hs2 Hx1 Hx2 (EmOwn _ _ _ Hd1 H1) H2 Hk Hd2).
Qed.

(** Choices of different names, and none inside a case. *)
Fixpoint tags_of (s : schema) : list (str * str) :=
  match s_tag s with Some t => [t] | None => [] end ++ match s with SCont _ _ cs | SList _ _ _ cs => flat_map tags_of cs | _ => [] end.
Definition uniform_b (cs : list schema) : bool :=
  forallb (fun u => match s_tag u with
                    | Some t => forallb (fun t' => str_eqb (fst t') (fst t) && str_eqb (snd t') (snd t)) (tags_of u)
                    | None => true
                    end) cs.
Definition own_b (cs : list schema) : bool :=
  forallb (fun u => match s_tag u with
                    | Some _ => true
                    | None => forallb (fun t' => forallb (fun s => match s_tag s with Some t => negb (str_eqb (fst t) (fst t')) | None => true end) cs) (tags_of u)
                    end) cs.
Lemma tags_sub p : forall s t tg, sub s p = Some t -> s_tag t = Some tg -> In tg (tags_of s).
Proof.
  induction p as [|[k|k] p IH]; intros s t tg Hs Ht; cbn in Hs.
  - injection Hs as ->. destruct t; cbn [tags_of]; rewrite Ht; now left.
  - destruct s as [| |i pr cs|]; try discriminate. destruct (nth_error cs k) as [s'|] eqn:E; [|discriminate].
    cbn [tags_of]. apply in_or_app. right. apply in_flat_map. exists s'. split; [eapply nth_error_In; eauto|eauto].
  - destruct s as [| | |i keys od cs]; try discriminate. specialize (IH _ _ _ Hs Ht). cbn [tags_of entry_schema] in IH |- *.
    apply in_or_app. right. exact IH.
Qed.
Lemma kid_parent top p n s : schema_at top (p ++ [Kid n]) = Some s -> exists i pr cs, schema_at top p = Some (SCont i pr cs) /\ nth_error cs n = Some s.
Proof.
  intros E. unfold schema_at in *. rewrite Tree_main.sub_app in E. destruct (sub (entry_schema top) p) as [t|]; [|discriminate].
  cbn [sub] in E. destruct t as [| |i pr cs|]; try discriminate. exists i, pr, cs. split; [reflexivity|]. now destruct (nth_error cs n).
Qed.
Lemma kid_down top p n q u t : schema_at top (p ++ [Kid n]) = Some u -> schema_at top (p ++ Kid n :: q) = Some t -> sub u q = Some t.
Proof.
  intros E1 E2. replace (p ++ Kid n :: q) with ((p ++ [Kid n]) ++ q) in E2 by now rewrite <- app_assoc.
  unfold schema_at in *. rewrite Tree_main.sub_app, E1 in E2. exact E2.
Qed.
Lemma uniform_by top : everywhere uniform_b (entry_schema top) = true -> uniform top.
Proof.
  intros H.
    intros p q s t tg tg' Hs Ht Hq Ht'. assert (Hne : p <> []) by (intros ->; injection Hs as <-; discriminate).
    destruct (exists_last Hne) as (p0 & z & ->). destruct z as [n|k].
    + destruct (kid_parent top p0 n s Hs) as (i & pr & cs & Hp & Hn). pose proof (everywhere_at _ _ _ _ _ _ H Hp) as G. unfold uniform_b in G.
      rewrite forallb_forall in G. specialize (G s (nth_error_In _ _ Hn)). rewrite Ht, forallb_forall in G.
      rewrite <- app_assoc in Hq. specialize (G tg' (tags_sub q s t tg' (kid_down top p0 n q s t Hs Hq) Ht')). apply andb_true_iff in G as [G1 G2].
      apply str_eqb_eq in G1, G2. destruct tg, tg'; cbn in G1, G2; congruence.
    + unfold schema_at in Hs. rewrite Tree_main.sub_app in Hs. destruct (sub (entry_schema top) p0) as [t0|]; [|discriminate]. cbn [sub] in Hs.
      destruct t0; try discriminate. injection Hs as <-. discriminate.
Qed.
Lemma own_choices_by top : everywhere own_b (entry_schema top) = true -> own_choices top.
Proof.
  intros H.
    intros p n m q s t u c k k' Hs Ht Hu Hq Ht' Eu. destruct (kid_parent top p n s Hs) as (i & pr & cs & Hp & Hn). destruct (kid_parent top p m u Hu) as (i' & pr' & cs' & Hp' & Hm).
    rewrite Hp in Hp'. injection Hp' as <- <- <-. pose proof (everywhere_at _ _ _ _ _ _ H Hp) as G. unfold own_b in G.
    rewrite forallb_forall in G. specialize (G u (nth_error_In _ _ Hm)). rewrite Eu, forallb_forall in G.
    specialize (G _ (tags_sub q u t _ (kid_down top p m q u t Hu Hq) Ht')). rewrite forallb_forall in G. specialize (G s (nth_error_In _ _ Hn)).
    rewrite Ht in G. cbn [fst] in G. rewrite str_eqb_refl in G. discriminate.
Qed.
Lemma choices_by top : everywhere uniform_b (entry_schema top) && everywhere own_b (entry_schema top) = true -> uniform top /\ own_choices top.
Proof. intros H. apply andb_true_iff in H as [H1 H2]. split; [now apply uniform_by|now apply own_choices_by]. Qed.
