(** Lemmas about the JSON documents of parts. *)
From Verif Require Import PyStr PyStr_facts PyVal Restricted SafeName Tree Spec_Tree Tree_dump Serialise Load_proofs Json_proofs Emit_proofs Xml Parts Spec_Parts.

(* ------------------------------------------------------------------ the IETF format *)
Section I.
Context (O : oracle) (im : einfo -> str -> option str) (flt : bool) (wd : with_defaults).
Notation gen_kid := (gen_kid flt wd).
Notation gen_kids := (gen_kids flt wd).
Notation menc := (member_enc O im).

Lemma gen_any ns s x : gen_kid ns s x = match gen_kid None s x with Some (_, t) => Some (qualified ns (s_info s), t) | None => None end.
Proof.
  destruct s as [i lt d yt k|i ts yt|i pr cs|i keys od cs], x as [c v|c l|c ps kids|c es]; try reflexivity.
  - cbn [Serialise.gen_kid s_info]. destruct (match wd with WNone => _ | WIfSet => _ end); reflexivity.
  - cbn [Serialise.gen_kid s_info]. destruct (match wd with WNone => _ | WIfSet => _ end); reflexivity.
  - rewrite !gen_cont. destruct (gen_kids (Some (e_ns i)) cs kids); [destruct ps|]; reflexivity.
  - rewrite !gen_list. destruct es; reflexivity.
Qed.
Lemma gen_prefixes ns cs : forall kids ms, map_res menc (gen_kids ns cs kids) = Ok ms ->
  exists ms', map_res menc (gen_kids None cs kids) = Ok ms' /\ same_but_prefixes ms ms'.
Proof.
  induction cs as [|s cs IH]; intros kids ms H; [cbn in H; injection H as <-; exists []; split; [reflexivity|constructor]|].
  destruct kids as [|x kids]; [cbn in H; injection H as <-; exists []; split; [reflexivity|constructor]|]. cbn [Serialise.gen_kids] in H |- *. rewrite (gen_any ns) in H.
  destruct (gen_kid None s x) as [[n t]|] eqn:E; [|apply IH; assumption]. pose proof (gen_name flt wd None s x n t E) as En. rewrite map_res_cons in H |- *. unfold member_enc in H at 1. unfold member_enc at 1. cbn [fst snd] in *.
  destruct (enc_itree O im t) as [j|]; [|discriminate]. cbn [bind] in H |- *. destruct (map_res menc (gen_kids ns cs kids)) as [r|] eqn:Er; [|discriminate]. cbn [bind] in H. injection H as <-.
  destruct (IH kids r Er) as (r' & Hr' & Hs). rewrite Hr'. cbn [bind]. exists ((n, j) :: r'). split; [reflexivity|]. constructor; [|assumption]. cbn [fst snd]. split; [reflexivity|].
  rewrite En. unfold qualified. destruct ns as [m|]; [destruct (str_eqb (e_ns (s_info s)) m); [right; exists (e_mod (s_info s)); reflexivity|left; reflexivity]|left; reflexivity].
Qed.
Lemma gen_nth ns cs : forall kids ms n s x nm t, map_res menc (gen_kids ns cs kids) = Ok ms -> nth_error cs n = Some s -> nth_error kids n = Some x -> gen_kid ns s x = Some (nm, t) ->
  exists j, enc_itree O im t = Ok j /\ In (nm, j) ms.
Proof.
  induction cs as [|s0 cs IH]; intros kids ms n s x nm t H Hs Hx E; [destruct n; discriminate|]. destruct kids as [|x0 kids]; [destruct n; discriminate|]. cbn [Serialise.gen_kids] in H.
  destruct n as [|n]; cbn [nth_error] in Hs, Hx.
  - injection Hs as ->. injection Hx as ->. rewrite E in H. rewrite map_res_cons in H. unfold member_enc in H at 1. cbn [fst snd] in H.
    destruct (enc_itree O im t) as [j|]; [|discriminate]. cbn [bind] in H. destruct (map_res menc (gen_kids ns cs kids)) as [r|]; [|discriminate]. cbn [bind] in H. injection H as <-.
    exists j. split; [reflexivity|left; reflexivity].
  - destruct (gen_kid ns s0 x0) as [m|]; [|apply (IH kids ms n s x nm t H Hs Hx E)]. rewrite map_res_cons in H. destruct (menc m) as [m'|]; [|discriminate]. cbn [bind] in H.
    destruct (map_res menc (gen_kids ns cs kids)) as [r|] eqn:Er; [|discriminate]. cbn [bind] in H. injection H as <-. destruct (IH kids r n s x nm t Er Hs Hx E) as (j & H1 & H2). exists j. split; [assumption|right; assumption].
Qed.
Definition named_for (i : einfo) (n : str) : Prop := n = e_yang i \/ n = e_mod i ++ lit ":" ++ e_yang i.
Lemma qualified_for ns i : named_for i (qualified ns i).
Proof. unfold qualified, named_for. destruct ns as [m|]; [destruct (str_eqb (e_ns i) m); [left|right]; reflexivity|right; reflexivity]. Qed.

Lemma held_obj n j ms : held n j (JObj ms) -> ms <> [].
Proof.
  intros H E. subst ms. remember (JObj []) as d eqn:Ed. induction H as [n j ms H|n j ms js H H'|n j ms es k j' H H' H''|n j n' j' d H1 IH1 H2 IH2].
  - injection Ed as ->. destruct H.
  - injection Ed as ->. destruct H.
  - injection Ed as ->. destruct H.
  - exact (IH1 Ed).
Qed.
Lemma ietf_part cs kids i b cs' kids' : part cs kids i b cs' kids' -> forall ns ms, map_res menc (gen_kids ns cs kids) = Ok ms ->
  exists ms', map_res menc (gen_kids (Some (e_ns i)) cs' kids') = Ok ms' /\ (b = true \/ ms' <> [] -> exists n, named_for i n /\ held n (JObj ms') (JObj ms)).
Proof.
  induction 1 as [cs kids n i pr cs' ch pres kids' Hs Hx|cs kids n i keys od cs' ch es k ch' pres kids' Hs Hx Hin|cs kids j b csj kidsj i b' cs' kids' H1 IH1 H2 IH2]; intros ns ms He.
  - assert (D : forall l, gen_kids (Some (e_ns i)) cs' kids' = l -> gen_kid ns (SCont i pr cs') (OCont ch pres kids') = Some (qualified ns i, IDict l) ->
      exists ms', map_res menc l = Ok ms' /\ exists n, named_for i n /\ held n (JObj ms') (JObj ms)).
    { intros l El Eg. destruct (gen_nth ns cs kids ms n _ _ _ _ He Hs Hx Eg) as (j & Hj & Hi). rewrite enc_dict in Hj. destruct (map_res menc l) as [ms'|]; [|discriminate]. cbn [bind] in Hj. injection Hj as <-.
      exists ms'. split; [reflexivity|]. exists (qualified ns i). split; [apply qualified_for|]. apply HMember. assumption. }
    pose proof (gen_cont flt wd ns i pr cs' ch pres kids') as Eg. destruct (gen_kids (Some (e_ns i)) cs' kids') as [|a l] eqn:El.
    + destruct pres.
      * destruct (D [] eq_refl Eg) as (ms' & H1 & H2). exists ms'. split; [exact H1|]. intros _. exact H2.
      * exists []. split; [reflexivity|]. intros [Hb|Hb]; [rewrite Bool.andb_false_r in Hb; discriminate|contradiction].
    + destruct (D (a :: l) eq_refl Eg) as (ms' & H1 & H2). exists ms'. split; [exact H1|]. intros _. exact H2.
  - pose proof (gen_list flt wd ns i keys od cs' ch es) as Eg. assert (Hne : es <> []) by (intros ->; destruct Hin). destruct es as [|e0 es0]; [contradiction|].
    destruct (gen_nth ns cs kids ms n _ _ _ _ He Hs Hx Eg) as (j & Hj & Hi).
    change (enc_itree O im (IList (map (entry_itree flt wd i cs') (e0 :: es0)))) with (js <- map_res (enc_itree O im) (map (entry_itree flt wd i cs') (e0 :: es0)) ;; Ok (JArr js)) in Hj.
    destruct (map_res (enc_itree O im) (map (entry_itree flt wd i cs') (e0 :: es0))) as [js|] eqn:Ejs; [|discriminate]. cbn [bind] in Hj. injection Hj as <-.
    apply (in_map (entry_itree flt wd i cs')) in Hin. apply In_nth_error in Hin. destruct Hin as (n' & Hn'). destruct (map_res_nth _ _ _ _ _ Ejs Hn') as (j & Ej & Hnj). unfold entry_itree in Ej. cbn [snd] in Ej.
    rewrite enc_dict in Ej. destruct (map_res menc (gen_kids (Some (e_ns i)) cs' kids')) as [ms'|]; [|discriminate]. cbn [bind] in Ej. injection Ej as <-. exists ms'. split; [reflexivity|]. intros _.
    exists (qualified ns i). split; [apply qualified_for|]. eapply HEls; [exact Hi|]. eapply nth_error_In; eassumption.
  - destruct (IH1 ns ms He) as (ms1 & E1 & P1). destruct (IH2 (Some (e_ns j)) ms1 E1) as (ms2 & E2 & P2). exists ms2. split; [assumption|]. intros Hb. destruct (P2 Hb) as (n & Hn & Hh).
    destruct (P1 (or_intror (held_obj _ _ _ Hh))) as (n1 & _ & Hh1). exists n. split; [assumption|]. eapply HIn; eassumption.
Qed.
Lemma ietf_thm cs kids d i b cs' kids' : dumps_ietf O im flt wd cs kids = Ok d -> part cs kids i b cs' kids' ->
  exists ms ms', dumps_ietf O im flt wd cs' kids' = Ok (JObj ms') /\ same_but_prefixes ms ms' /\ (b = true \/ ms' <> [] -> exists n, named_for i n /\ held n (JObj ms) d).
Proof.
  unfold dumps_ietf. rewrite !enc_dict. intros H Hp. destruct (map_res menc (gen_kids None cs kids)) as [ds|] eqn:E; [|discriminate]. cbn [bind] in H. injection H as <-.
  destruct (ietf_part cs kids i b cs' kids' Hp None ds E) as (ms & Hms & Hh). destruct (gen_prefixes _ _ _ _ Hms) as (ms' & Hms' & Hs). exists ms, ms'. rewrite Hms'. cbn [bind].
  split; [reflexivity|]. split; [assumption|]. intros Hb. apply Hh. destruct Hb as [Hb|Hb]; [left; assumption|right]. intros E0. subst ms. inversion Hs; subst. contradiction.
Qed.
(** Whole lists. *)
Lemma map_res_len {A B} (f : A -> res B) : forall l r, map_res f l = Ok r -> length r = length l.
Proof.
  induction l as [|a l IH]; intros r H; [cbn in H; injection H as <-; reflexivity|]. rewrite map_res_cons in H. destruct (f a) as [b|]; [|discriminate]. cbn [bind] in H.
  destruct (map_res f l) as [r'|]; [|discriminate]. cbn [bind] in H. injection H as <-. cbn [length]. rewrite (IH r' eq_refl). reflexivity.
Qed.
Lemma entries_prefixes i cs : forall es js, map_res (enc_itree O im) (map (entry_itree flt wd i cs) es) = Ok js ->
  exists js', map_res (enc_itree O im) (map (fun e : pyval * obj => match snd e with OCont _ _ kids => IDict (gen_kids None cs kids) | _ => IDict [] end) es) = Ok js' /\
    Forall2 (fun j j' => exists ms ms', j = JObj ms /\ j' = JObj ms' /\ same_but_prefixes ms ms') js js'.
Proof.
  induction es as [|[k x] es IH]; intros js H; [cbn in H; injection H as <-; exists []; split; [reflexivity|constructor]|]. cbn [map] in H |- *. rewrite map_res_cons in H |- *.
  assert (D : forall j, enc_itree O im (entry_itree flt wd i cs (k, x)) = Ok j -> exists j', enc_itree O im (match snd (k, x) with OCont _ _ kids => IDict (gen_kids None cs kids) | _ => IDict [] end) = Ok j' /\
    exists ms ms', j = JObj ms /\ j' = JObj ms' /\ same_but_prefixes ms ms').
  { intros j Hj. unfold entry_itree in Hj. cbn [snd] in Hj |- *. destruct x as [c v|c l|c ps kids|c es0]; try (cbn in Hj; injection Hj as <-; eexists; split; [reflexivity|]; exists [], []; split; [reflexivity|]; split; [reflexivity|constructor]).
    rewrite enc_dict in Hj |- *. destruct (map_res menc (gen_kids (Some (e_ns i)) cs kids)) as [ms|] eqn:E; [|discriminate]. cbn [bind] in Hj. injection Hj as <-. destruct (gen_prefixes _ _ _ _ E) as (ms' & E' & Hs).
    rewrite E'. cbn [bind]. eexists. split; [reflexivity|]. exists ms, ms'. split; [reflexivity|]. split; [reflexivity|assumption]. }
  destruct (enc_itree O im (entry_itree flt wd i cs (k, x))) as [j|]; [|discriminate]. destruct (D j eq_refl) as (j' & Hj' & Hs). rewrite Hj'. cbn [bind] in H |- *.
  destruct (map_res (enc_itree O im) (map (entry_itree flt wd i cs) es)) as [r|]; [|discriminate]. cbn [bind] in H. injection H as <-. destruct (IH r eq_refl) as (r' & Hr' & Hs'). rewrite Hr'. cbn [bind].
  eexists. split; [reflexivity|]. constructor; assumption.
Qed.
Lemma ietf_list_at ns cs kids ms n i keys od cs' ch es : map_res menc (gen_kids ns cs kids) = Ok ms -> nth_error cs n = Some (SList i keys od cs') -> nth_error kids n = Some (OList ch es) ->
  exists js js', dumps_ietf_list O im flt wd cs' es = Ok (JArr js') /\ length js = length es /\ Forall2 (fun j j' => exists ms ms', j = JObj ms /\ j' = JObj ms' /\ same_but_prefixes ms ms') js js' /\
    (es <> [] -> exists n, named_for i n /\ In (n, JArr js) ms).
Proof.
  intros He Hs Hx. pose proof (gen_list flt wd ns i keys od cs' ch es) as Eg. destruct es as [|e0 es0].
  - exists [], []. split; [reflexivity|]. split; [reflexivity|]. split; [constructor|]. contradiction.
  - destruct (gen_nth ns cs kids ms n _ _ _ _ He Hs Hx Eg) as (j & Hj & Hi).
    change (enc_itree O im (IList (map (entry_itree flt wd i cs') (e0 :: es0)))) with (js <- map_res (enc_itree O im) (map (entry_itree flt wd i cs') (e0 :: es0)) ;; Ok (JArr js)) in Hj.
    destruct (map_res (enc_itree O im) (map (entry_itree flt wd i cs') (e0 :: es0))) as [js|] eqn:Ejs; [|discriminate]. cbn [bind] in Hj. injection Hj as <-.
    destruct (entries_prefixes _ _ _ _ Ejs) as (js' & Hjs' & Hf). exists js, js'. unfold dumps_ietf_list.
    change (enc_itree O im (IList ?l)) with (js <- map_res (enc_itree O im) l ;; Ok (JArr js)). rewrite Hjs'. split; [reflexivity|]. split; [|split; [assumption|]].
    + apply map_res_len in Ejs. rewrite Ejs. apply map_length.
    + intros _. exists (qualified ns i). split; [apply qualified_for|assumption].
Qed.
Lemma ietf_list_thm cs kids d i keys od cs' es : dumps_ietf O im flt wd cs kids = Ok d -> list_in cs kids i keys od cs' es ->
  exists js js', dumps_ietf_list O im flt wd cs' es = Ok (JArr js') /\ length js = length es /\ Forall2 (fun j j' => exists ms ms', j = JObj ms /\ j' = JObj ms' /\ same_but_prefixes ms ms') js js' /\
    (es <> [] -> exists n, named_for i n /\ held n (JArr js) d).
Proof.
  unfold dumps_ietf. rewrite enc_dict. intros H Hl. destruct (map_res menc (gen_kids None cs kids)) as [ds|] eqn:E; [|discriminate]. cbn [bind] in H. injection H as <-.
  destruct Hl as [(n & ch & Hs & Hx)|(j & b & csj & kidsj & n & ch & Hp & Hs & Hx)].
  - destruct (ietf_list_at _ _ _ _ _ _ _ _ _ _ _ E Hs Hx) as (js & js' & H1 & H2 & H3 & H4). exists js, js'. split; [assumption|]. split; [assumption|]. split; [assumption|].
    intros Hne. destruct (H4 Hne) as (nm & Hn & Hi). exists nm. split; [assumption|]. apply HMember. assumption.
  - destruct (ietf_part cs kids j b csj kidsj Hp None ds E) as (ms & Hms & Hh). destruct (ietf_list_at _ _ _ _ _ _ _ _ _ _ _ Hms Hs Hx) as (js & js' & H1 & H2 & H3 & H4). exists js, js'.
    split; [assumption|]. split; [assumption|]. split; [assumption|]. intros Hne. destruct (H4 Hne) as (nm & Hn & Hi). exists nm. split; [assumption|].
    destruct Hh as (n1 & _ & Hh); [right; intros E0; subst ms; destruct Hi|]. eapply HIn; [exact Hh|]. apply HMember. assumption.
Qed.
End I.

(* ------------------------------------------------------------------ the default format *)
Section D.
Context (O : oracle) (im : einfo -> str -> option str).
Notation item := (enc_item O im).
Notation encs := (enc_entries O im).

Lemma item_nth all : NoDup (map (fun s => e_yang (s_info s)) all) -> forall cs kids ms n s x d, (forall s, In s cs -> exists m, nth_error all m = Some s) ->
  map_res (item all) (get_kids true cs kids) = Ok ms -> nth_error cs n = Some s -> nth_error kids n = Some x -> get_kid true s x = Some d ->
  exists j, enc_dump O im s d = Ok j /\ In (e_yang (s_info s), j) ms.
Proof.
  intros Hd. induction cs as [|s0 cs IH]; intros kids ms n s x d Hall H Hs Hx E; [destruct n; discriminate|]. destruct kids as [|x0 kids]; [destruct n; discriminate|]. cbn [get_kids] in H.
  destruct n as [|n]; cbn [nth_error] in Hs, Hx.
  - injection Hs as ->. injection Hx as ->. rewrite E in H. rewrite map_res_cons in H. unfold enc_item in H at 1. cbn [fst snd] in H. destruct (Hall s (or_introl eq_refl)) as (m & Hm).
    rewrite (child_own all Hd m s Hm) in H. destruct (enc_dump O im s d) as [j|]; [|discriminate]. cbn [bind] in H. destruct (map_res (item all) (get_kids true cs kids)) as [r|]; [|discriminate]. cbn [bind] in H. injection H as <-.
    exists j. split; [reflexivity|left; reflexivity].
  - assert (Hall' : forall s, In s cs -> exists m, nth_error all m = Some s) by (intros s' Hs'; apply Hall; right; assumption).
    destruct (get_kid true s0 x0) as [d0|]; [|apply (IH kids ms n s x d Hall' H Hs Hx E)]. rewrite map_res_cons in H. destruct (item all (e_yang (s_info s0), d0)) as [m'|]; [|discriminate]. cbn [bind] in H.
    destruct (map_res (item all) (get_kids true cs kids)) as [r|] eqn:Er; [|discriminate]. cbn [bind] in H. injection H as <-. destruct (IH kids r n s x d Hall' Er Hs Hx E) as (j & H1 & H2). exists j. split; [assumption|right; assumption].
Qed.
Lemma item_at cs kids ms n s x d : NoDup (map (fun s => e_yang (s_info s)) cs) -> map_res (item cs) (get_kids true cs kids) = Ok ms -> nth_error cs n = Some s -> nth_error kids n = Some x -> get_kid true s x = Some d ->
  exists j, enc_dump O im s d = Ok j /\ In (e_yang (s_info s), j) ms.
Proof. intros Hd. apply (item_nth cs Hd). intros s' H'. apply In_nth_error. exact H'. Qed.
Lemma entries_in od cs : forall es n ms k d, encs od cs n es = Ok ms -> In (k, d) es -> exists j k' j', enc_dump O im (entry_schema cs) d = Ok j /\ In (k', j') ms /\ (j' = j \/ exists z, j' = with_position z j).
Proof.
  induction es as [|[k0 d0] es IH]; intros n ms k d H Hin; [destruct Hin|]. cbn [enc_entries] in H. destruct (enc_dump O im (entry_schema cs) d0) as [j0|] eqn:E0; [|discriminate]. cbn [bind] in H.
  destruct (json_key O k0) as [kt|]; [|discriminate]. cbn [bind] in H. destruct (encs od cs (S n) es) as [r|] eqn:Er; [|discriminate]. cbn [bind] in H. injection H as <-. destruct Hin as [Hin|Hin].
  - injection Hin as -> ->. exists j0, kt. eexists. split; [exact E0|]. split; [left; reflexivity|]. destruct od; [right; exists (Z.of_nat n); reflexivity|left; reflexivity].
  - destruct (IH (S n) r k d Er Hin) as (j & k' & j' & H1 & H2 & H3). exists j, k', j'. split; [assumption|]. split; [right; assumption|assumption].
Qed.
Lemma held_more n j ms more : held n j (JObj ms) -> held n j (JObj (ms ++ more)).
Proof.
  intros H. remember (JObj ms) as d eqn:Ed. revert ms Ed. induction H as [n j ms0 H|n j ms0 js H H'|n j ms0 es k j' H H' H''|n j n' j' d H1 IH1 H2 IH2]; intros ms Ed.
  - injection Ed as ->. apply HMember. apply in_or_app. left. assumption.
  - injection Ed as ->. eapply HEls; [apply in_or_app; left; eassumption|assumption].
  - injection Ed as ->. eapply HEnt; [apply in_or_app; left; eassumption|eassumption|assumption].
  - eapply HIn; [apply IH1; assumption|assumption].
Qed.
(** What is below an object is below the same object with its position. *)
Lemma default_part cs kids i b cs' kids' : part cs kids i b cs' kids' -> distinct_names cs -> forall ms, map_res (item cs) (get_kids true cs kids) = Ok ms ->
  distinct_names cs' /\ exists ms', map_res (item cs') (get_kids true cs' kids') = Ok ms' /\ (b = true \/ ms' <> [] -> held (e_yang i) (JObj ms') (JObj ms)).
Proof.
  induction 1 as [cs kids n i pr cs' ch pres kids' Hs Hx|cs kids n i keys od cs' ch es k ch' pres kids' Hs Hx Hin|cs kids j b csj kidsj i b' cs' kids' H1 IH1 H2 IH2]; intros Hd ms He.
  - split; [eapply distinct_cont; eassumption|].
    assert (D : get_kid true (SCont i pr cs') (OCont ch pres kids') = Some (DDict (get_kids true cs' kids')) -> exists ms', map_res (item cs') (get_kids true cs' kids') = Ok ms' /\ held (e_yang i) (JObj ms') (JObj ms)).
    { intros Eg. destruct (item_at cs kids ms n _ _ _ (distinct_here cs Hd) He Hs Hx Eg) as (j & Hj & Hi).
      change (enc_dump O im (SCont i pr cs') (DDict (get_kids true cs' kids'))) with (ms <- map_res (item cs') (get_kids true cs' kids') ;; Ok (JObj ms)) in Hj.
      destruct (map_res (item cs') (get_kids true cs' kids')) as [ms'|]; [|discriminate]. cbn [bind] in Hj. injection Hj as <-. exists ms'. split; [reflexivity|]. apply HMember. exact Hi. }
    rewrite get_cont in D. destruct (get_kids true cs' kids') as [|a l].
    + destruct (pr && pres)%bool.
      * destruct (D eq_refl) as (ms' & E1 & E2). exists ms'. split; [exact E1|]. intros _. exact E2.
      * exists []. split; [reflexivity|]. intros [Hb|Hb]; [discriminate|contradiction].
    + destruct (D eq_refl) as (ms' & E1 & E2). exists ms'. split; [exact E1|]. intros _. exact E2.
  - split; [eapply distinct_ent; eassumption|]. pose proof (get_list true i keys od cs' ch es) as Eg. destruct es as [|e0 es0]; [destruct Hin|].
    destruct (item_at cs kids ms n _ _ _ (distinct_here cs Hd) He Hs Hx Eg) as (j & Hj & Hi).
    change (enc_dump O im (SList i keys od cs') (DList (map (fun e => (fst e, get_entry true cs' (snd e))) (e0 :: es0)))) with
      (ms <- encs od cs' 0%nat (map (fun e => (fst e, get_entry true cs' (snd e))) (e0 :: es0)) ;; Ok (JObj ms)) in Hj.
    destruct (encs od cs' 0%nat (map (fun e => (fst e, get_entry true cs' (snd e))) (e0 :: es0))) as [ents|] eqn:Ee; [|discriminate]. cbn [bind] in Hj. injection Hj as <-.
    apply (in_map (fun e => (fst e, get_entry true cs' (snd e)))) in Hin. destruct (entries_in _ _ _ _ _ _ _ Ee Hin) as (j & k' & j' & Hj & Hk & Hpos). cbn [snd get_entry] in Hj.
    change (enc_dump O im (entry_schema cs') (get_entry true cs' (OCont ch' pres kids'))) with (ms <- map_res (item cs') (get_kids true cs' kids') ;; Ok (JObj ms)) in Hj.
    destruct (map_res (item cs') (get_kids true cs' kids')) as [ms'|]; [|discriminate]. cbn [bind] in Hj. injection Hj as <-. exists ms'. split; [reflexivity|]. intros _. eapply HEnt; eassumption.
  - destruct (IH1 Hd ms He) as (Hd1 & ms1 & E1 & P1). destruct (IH2 Hd1 ms1 E1) as (Hd2 & ms2 & E2 & P2). split; [assumption|]. exists ms2. split; [assumption|]. intros Hb. specialize (P2 Hb).
    specialize (P1 (or_intror (held_obj _ _ _ P2))). eapply HIn; eassumption.
Qed.
Lemma default_thm cs kids d i b cs' kids' : distinct_names cs -> dumps O im cs kids = Ok d -> part cs kids i b cs' kids' ->
  exists ms, dumps O im cs' kids' = Ok (JObj ms) /\ (b = true \/ ms <> [] -> held (e_yang i) (JObj ms) d).
Proof.
  unfold dumps. intros Hd H Hp. change (enc_dump O im (entry_schema cs) (DDict (get_kids true cs kids))) with (ms <- map_res (item cs) (get_kids true cs kids) ;; Ok (JObj ms)) in H.
  destruct (map_res (item cs) (get_kids true cs kids)) as [ds|] eqn:E; [|discriminate]. cbn [bind] in H. injection H as <-. destruct (default_part cs kids i b cs' kids' Hp Hd ds E) as (_ & ms & E1 & P). exists ms.
  change (enc_dump O im (entry_schema cs') (DDict (get_kids true cs' kids'))) with (ms <- map_res (item cs') (get_kids true cs' kids') ;; Ok (JObj ms)). rewrite E1. split; [reflexivity|exact P].
Qed.
Lemma default_list_at cs kids ms n i keys od cs' ch es : distinct_names cs -> map_res (item cs) (get_kids true cs kids) = Ok ms -> nth_error cs n = Some (SList i keys od cs') -> nth_error kids n = Some (OList ch es) ->
  exists j, dumps_list O im i keys od cs' es = Ok j /\ (es <> [] -> In (e_yang i, j) ms).
Proof.
  intros Hd He Hs Hx. pose proof (get_list true i keys od cs' ch es) as Eg. destruct es as [|e0 es0]; [eexists; split; [reflexivity|contradiction]|].
  destruct (item_at cs kids ms n _ _ _ (distinct_here cs Hd) He Hs Hx Eg) as (j & Hj & Hi). exists j. split; [|intros _; exact Hi]. rewrite <- Hj. unfold dumps_list. do 2 f_equal.
  apply map_ext. intros [k x]. cbn [fst snd]. unfold get_entry. destruct x; reflexivity.
Qed.
Lemma default_list_thm cs kids d i keys od cs' es : distinct_names cs -> dumps O im cs kids = Ok d -> list_in cs kids i keys od cs' es ->
  exists j, dumps_list O im i keys od cs' es = Ok j /\ (es <> [] -> held (e_yang i) j d).
Proof.
  unfold dumps. intros Hd H Hl. change (enc_dump O im (entry_schema cs) (DDict (get_kids true cs kids))) with (ms <- map_res (item cs) (get_kids true cs kids) ;; Ok (JObj ms)) in H.
  destruct (map_res (item cs) (get_kids true cs kids)) as [ds|] eqn:E; [|discriminate]. cbn [bind] in H. injection H as <-.
  destruct Hl as [(n & ch & Hs & Hx)|(j & b & csj & kidsj & n & ch & Hp & Hs & Hx)].
  - destruct (default_list_at _ _ _ _ _ _ _ _ _ _ Hd E Hs Hx) as (r & H1 & H2). exists r. split; [assumption|]. intros Hne. apply HMember. auto.
  - destruct (default_part cs kids j b csj kidsj Hp Hd ds E) as (Hd' & ms & E1 & P). destruct (default_list_at _ _ _ _ _ _ _ _ _ _ Hd' E1 Hs Hx) as (r & H1 & H2). exists r. split; [assumption|].
    intros Hne. specialize (H2 Hne). eapply HIn; [apply P; right; intros E0; subst ms; destruct H2|]. apply HMember. assumption.
Qed.
End D.
