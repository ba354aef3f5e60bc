(** Which leaves are written in an IETF document. *)
From Coq Require Import Lia.
From Verif Require Import PyStr PyStr_facts PyVal Restricted Spec_Lists TypedList YList YList_proofs SafeName
  Tree Spec_Tree Tree_proofs Serialise Spec_Serialise Load_proofs Json_proofs.
Local Open Scope Z_scope.

Lemma ietf_name_eq ns i : ietf_name ns i = qualified ns i.
Proof. unfold ietf_name, qualified. destruct ns as [n|]; [|reflexivity]. rewrite (str_eqb_sym n). reflexivity. Qed.

Lemma no_colon_tail a b c d : no_colon b -> no_colon d -> a ++ lit ":" ++ b = c ++ lit ":" ++ d -> b = d.
Proof.
  change (lit ":") with [58%N]. intros Hb Hd. revert c. induction a as [|x a IH]; intros [|y c] H; cbn in H.
  - now injection H.
  - injection H as <- H. exfalso. apply Hb. rewrite H. apply in_app_iff. right. now left.
  - injection H as -> H. exfalso. apply Hd. rewrite <- H. apply in_app_iff. right. now left.
  - injection H as _ H. now apply (IH c).
Qed.
Lemma qualified_inj ns i i' : no_colon (e_yang i) -> no_colon (e_yang i') -> qualified ns i = qualified ns i' -> e_yang i = e_yang i'.
Proof.
  intros H1 H2. unfold qualified.
  assert (G : forall i i', no_colon (e_yang i) -> e_yang i = e_mod i' ++ lit ":" ++ e_yang i' -> False).
  { intros a b Ha E. apply Ha. rewrite E. apply in_app_iff. right. now left. }
  destruct ns as [n|].
  - destruct (str_eqb (e_ns i) n), (str_eqb (e_ns i') n); intros E; [exact E| | |].
    + exfalso. eapply (G i i'); eauto.
    + symmetry in E. exfalso. eapply (G i' i); eauto.
    + eapply no_colon_tail; eauto.
  - intros E. eapply no_colon_tail; eauto.
Qed.

Section E.
Context (O : oracle) (im : einfo -> str -> option str) (flt : bool) (wd : with_defaults).
Local Notation gen_kid := (gen_kid flt wd).
Local Notation gen_kids := (gen_kids flt wd).
Local Notation member_enc := (member_enc O im).

Lemma not_there ns n cs : forall kids ms, map_res member_enc (gen_kids ns cs kids) = Ok ms ->
  (forall s, In s cs -> qualified ns (s_info s) <> n) -> assoc n ms = None.
Proof.
  induction cs as [|s cs IH]; intros [|x kids] ms H Hn; try (injection H as <-; reflexivity).
  cbn [Serialise.gen_kids] in H. destruct (gen_kid ns s x) as [[n' t]|] eqn:E.
  - rewrite map_res_cons in H. unfold Json_proofs.member_enc at 1 in H. cbn [fst snd] in H.
    destruct (enc_itree O im t) as [j|]; [|discriminate]. cbn [bind] in H.
    destruct (map_res member_enc (gen_kids ns cs kids)) as [ms'|] eqn:Em; [|discriminate]. injection H as <-.
    cbn [assoc]. rewrite (gen_name _ _ _ _ _ _ _ E). destruct (str_eqb n _) eqn:En.
    + apply str_eqb_eq in En. exfalso. apply (Hn s (or_introl eq_refl)). auto.
    + eapply IH; eauto. intros s' Hs'. apply Hn. now right.
  - eapply IH; eauto. intros s' Hs'. apply Hn. now right.
Qed.

Lemma kid_written ns cs : NoDup (map (fun s => e_yang (s_info s)) cs) -> Forall (fun s => no_colon (e_yang (s_info s))) cs ->
  forall kids ms k s x, map_res member_enc (gen_kids ns cs kids) = Ok ms -> nth_error cs k = Some s -> nth_error kids k = Some x ->
  match gen_kid ns s x with
  | Some (n, t) => exists j, enc_itree O im t = Ok j /\ assoc (qualified ns (s_info s)) ms = Some j
  | None => assoc (qualified ns (s_info s)) ms = None
  end.
Proof.
  intros Hnd Hnc. induction cs as [|s0 cs IH]; intros kids ms k s x H Hk Hx; [destruct k; discriminate|].
  inversion Hnd as [|? ? Hn0 Hnd']; subst. inversion Hnc as [|? ? Hc0 Hnc']; subst. specialize (IH Hnd' Hnc').
  destruct kids as [|x0 kids]; [destruct k; discriminate|].
  assert (Hdiff : forall s', In s' cs -> qualified ns (s_info s') <> qualified ns (s_info s0)).
  { intros s' Hs' E. rewrite Forall_forall in Hnc'. apply qualified_inj in E; auto. apply Hn0. rewrite <- E.
    now apply (in_map (fun s => e_yang (s_info s))). }
  destruct k as [|k]; cbn [nth_error] in Hk, Hx.
  - injection Hk as <-. injection Hx as <-. cbn [Serialise.gen_kids] in H. destruct (gen_kid ns s0 x0) as [[n t]|] eqn:E.
    + rewrite map_res_cons in H. unfold Json_proofs.member_enc at 1 in H. cbn [fst snd] in H.
      destruct (enc_itree O im t) as [j|]; [|discriminate]. cbn [bind] in H.
      destruct (map_res member_enc (gen_kids ns cs kids)) as [ms'|] eqn:Em; [|discriminate]. injection H as <-.
      exists j. split; auto. cbn [assoc]. now rewrite (gen_name _ _ _ _ _ _ _ E), str_eqb_refl.
    + eapply not_there; eauto.
  - assert (Hs : In s cs) by (eapply nth_error_In; eauto).
    cbn [Serialise.gen_kids] in H. destruct (gen_kid ns s0 x0) as [[n t]|] eqn:E; [|eapply IH; eauto].
    rewrite map_res_cons in H. unfold Json_proofs.member_enc at 1 in H. cbn [fst snd] in H.
    destruct (enc_itree O im t) as [j|]; [|discriminate]. cbn [bind] in H.
    destruct (map_res member_enc (gen_kids ns cs kids)) as [ms'|] eqn:Em; [|discriminate]. injection H as <-.
    cbn [assoc fst]. rewrite (gen_name _ _ _ _ _ _ _ E). destruct (str_eqb _ _) eqn:Eq.
    + apply str_eqb_eq in Eq. exfalso. now apply (Hdiff s Hs).
    + eapply IH; eauto.
Qed.

Definition emits (d : option pyval) (ch : bool) (v : pyval) : bool :=
  match wd with WNone => negb flt || ch | WIfSet => ch || py_eq (default_of d) v end.

Lemma entry_at {A} k (es : list (pyval * A)) y : mget k es = Some y -> exists a, entry_no k es = Some a /\ nth_error (map snd es) a = Some y.
Proof.
  induction es as [|[k' y'] es IH]; cbn; [discriminate|]. destruct (py_eq k k').
  - intros H. injection H as ->. now exists 0%nat.
  - intros H. destruct (IH H) as (a & -> & Ha). now exists (S a).
Qed.
Lemma map_res_nth {A B} (f : A -> res B) l : forall l' n a, map_res f l = Ok l' -> nth_error l n = Some a ->
  exists b, f a = Ok b /\ nth_error l' n = Some b.
Proof.
  induction l as [|a0 l IH]; intros l' n a H Hn; [destruct n; discriminate|]. rewrite map_res_cons in H.
  destruct (f a0) as [b0|] eqn:E; [|discriminate]. cbn [bind] in H. destruct (map_res f l) as [r|] eqn:Er; [|discriminate].
  injection H as <-. destruct n; cbn in *; [injection Hn as <-; eauto|eauto].
Qed.
Lemma dict_ok l j : enc_itree O im (IDict l) = Ok j -> exists ms, j = JObj ms /\ map_res member_enc l = Ok ms.
Proof. rewrite enc_dict. destruct (map_res member_enc l) as [ms|] eqn:E; [|discriminate]. intros H. injection H as <-. eauto. Qed.

Lemma leaf_written n : forall p cs, (length p <= n)%nat ->
  (forall q i pr cs', sub (entry_schema cs) q = Some (SCont i pr cs') ->
     NoDup (map (fun s => e_yang (s_info s)) cs') /\ Forall (fun s => no_colon (e_yang (s_info s))) cs') ->
  forall ns kids ms i lt d yt key ch v, map_res member_enc (gen_kids ns cs kids) = Ok ms ->
  sub (entry_schema cs) p = Some (SLeaf i lt d yt key) -> node (OCont false false kids) p = Some (OLeaf ch v) ->
  (written ns cs kids p (JObj ms) <> None <-> emits d ch v = true).
Proof.
  induction n as [|n IH]; intros p cs Hlen Hnm ns kids ms i lt d yt key ch v Hms Hsub Hnode; destruct p as [|[k|k] p];
    try discriminate; cbn in Hlen; try lia.
  cbn in Hsub, Hnode. destruct (nth_error cs k) as [s|] eqn:Hs; [|discriminate]. destruct (nth_error kids k) as [x|] eqn:Hx; [|discriminate].
  destruct (Hnm [] plain false cs eq_refl) as [Hnd Hnc].
  pose proof (kid_written ns cs Hnd Hnc kids ms k s x Hms Hs Hx) as Hw.
  assert (Hnm' : forall q i pr cs', sub s q = Some (SCont i pr cs') ->
     NoDup (map (fun s => e_yang (s_info s)) cs') /\ Forall (fun s => no_colon (e_yang (s_info s))) cs').
  { intros q i0 pr cs' Hq. apply (Hnm (Kid k :: q) i0 pr cs'). cbn. now rewrite Hs. }
  cbn [written]. rewrite Hs, Hx, ietf_name_eq.
  destruct p as [|[k2|k2] p].
  - injection Hsub as ->. injection Hnode as ->. cbn [Serialise.gen_kid s_info] in Hw.
    change (match wd with WNone => negb flt || ch | WIfSet => ch || py_eq (match d with Some v => v | None => VBool false end) v end)
      with (emits d ch v) in Hw.
    destruct (emits d ch v).
    + destruct Hw as (j & _ & E). cbn [s_info]. rewrite E. split; [reflexivity|discriminate].
    + cbn [s_info]. rewrite Hw. split; [congruence|discriminate].
  - destruct s as [| |i0 pr cs'|]; try discriminate. destruct x as [| |c ps kids'|]; try discriminate.
    rewrite gen_cont in Hw. cbn [s_info] in Hw |- *.
    assert (HI : forall ms', map_res member_enc (gen_kids (Some (e_ns i0)) cs' kids') = Ok ms' ->
      (written (Some (e_ns i0)) cs' kids' (Kid k2 :: p) (JObj ms') <> None <-> emits d ch v = true)).
    { intros ms' Hms'. eapply IH; eauto; [cbn in *; lia|]. intros q i1 pr1 cs1 Hq. destruct q as [|a q].
      - injection Hq as <- <- <-. apply (Hnm' [] i0 pr cs' eq_refl).
      - apply (Hnm' (a :: q) i1 pr1 cs1). destruct a; exact Hq. }
    destruct (gen_kids (Some (e_ns i0)) cs' kids') as [|mm l] eqn:El.
    + assert (Hno : written (Some (e_ns i0)) cs' kids' (Kid k2 :: p) (JObj []) = None).
      { cbn. destruct (nth_error cs' k2); [|reflexivity]. now destruct (nth_error kids' k2). }
      specialize (HI [] eq_refl). rewrite Hno in HI.
      destruct ps; [destruct Hw as (j & Hj & ->); injection Hj as <-; now rewrite Hno|rewrite Hw; exact HI].
    + destruct Hw as (j & Hj & ->). apply dict_ok in Hj as (ms' & -> & Hms'). now apply HI.
  - destruct s as [| | |i0 keys od cs']; try discriminate. destruct x as [| | |c es]; try discriminate.
    rewrite gen_list in Hw. cbn [s_info] in Hw |- *.
    cbn [node sub] in Hnode, Hsub. destruct (mget k2 es) as [y|] eqn:Hy; [|discriminate]. destruct (entry_at k2 es y Hy) as (a & Ha & Hnth).
    destruct p as [|b p]; [discriminate Hsub|].
    assert (Hy' : exists c0 ps0 kids', y = OCont c0 ps0 kids').
    { destruct b as [b|b]; [|discriminate]. destruct y as [| |c0 ps0 kids'|]; try discriminate. eauto. }
    destruct Hy' as (c0 & ps0 & kids' & ->). destruct es as [|e0 es0] eqn:Ees; [discriminate|]. rewrite <- Ees in *.
    destruct Hw as (j & Hj & ->). cbn [enc_itree] in Hj.
    destruct (map_res (enc_itree O im) (map (entry_itree flt wd i0 cs') es)) as [js|] eqn:Ejs; [|discriminate]. injection Hj as <-.
    rewrite Ha, Hnth. rewrite nth_error_map in Hnth. destruct (nth_error es a) as [e|] eqn:Ee; [|discriminate]. injection Hnth as He.
    destruct (map_res_nth _ _ _ a (entry_itree flt wd i0 cs' e) Ejs) as (j' & Hj' & ->); [now rewrite nth_error_map, Ee|].
    unfold entry_itree in Hj'. rewrite He in Hj'. apply dict_ok in Hj' as (ms' & -> & Hms').
    eapply IH; eauto; [cbn in *; lia|].
    intros q i1 pr1 cs1 Hq. apply (Hnm' (Ent k2 :: q) i1 pr1 cs1). exact Hq.
Qed.

Theorem leaf_emitted cs kids j p i lt d yt key ch v : python_names cs -> yang_names cs ->
  dumps_ietf O im flt wd cs kids = Ok j ->
  schema_at cs p = Some (SLeaf i lt d yt key) -> at_path kids p = Some (OLeaf ch v) ->
  (written None cs kids p j <> None <-> emits d ch v = true).
Proof.
  intros Hn Hy H Hs Ha. unfold dumps_ietf in H. apply dict_ok in H as (ms & -> & Hms).
  eapply leaf_written; eauto. intros q i0 pr cs' Hq. split; [|exact (Hy q i0 pr cs' Hq)].
  destruct (Hn q i0 pr cs' Hq) as [Hnd Hf].
  assert (G : map (fun s => e_py (s_info s)) cs' = map safe_name (map (fun s => e_yang (s_info s)) cs')).
  { rewrite map_map. apply map_ext_in. intros s Hs'. rewrite Forall_forall in Hf. now apply Hf. }
  rewrite G in Hnd. now apply NoDup_map_inv in Hnd.
Qed.
End E.
