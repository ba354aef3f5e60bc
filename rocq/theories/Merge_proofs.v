(** What is written for one tree is a valid document that says what the tree holds, so that it can be loaded into
    another tree. *)
From Coq Require Import Lia.
From Verif Require Import PyStr PyStr_facts PyVal Restricted Spec_Types Spec_Lists IntTypes StrTypes MemberTypes TypedList TypedList_proofs YList YList_proofs SafeName
  Tree Spec_Tree Tree_proofs Tree_frame Tree_main Tree_dump Serialise Spec_Serialise Spec_Stored Load_proofs Serialise_proofs
  Spec_Loading Spec_Shape Spec_Accept Spec_AcceptJson Spec_AcceptChoice Spec_Merge.
From Verif Require Accept_proofs AcceptJson_proofs AcceptChoice_proofs.
Local Open Scope Z_scope.

Lemma map_res_all {A B} (f : A -> res B) l : forall r, map_res f l = Ok r -> Forall2 (fun a b => f a = Ok b) l r.
Proof.
  induction l as [|a l IH]; intros r H; rewrite ?map_res_cons in H; [cbn in H; injection H as <-; constructor|].
  destruct (f a) as [b|] eqn:Ea; [|discriminate]. cbn [bind] in H. destruct (map_res f l) as [r0|] eqn:El; [|discriminate]. cbn [bind] in H. injection H as <-. constructor; auto.
Qed.
Lemma F2_in_l {A B} (P : A -> B -> Prop) l l' : Forall2 P l l' -> forall a, In a l -> exists b, In b l' /\ P a b.
Proof. induction 1 as [|a b l l' H HF IH]; intros c Hc; [contradiction|]. destruct Hc as [<-|Hc]; [exists b; split; [now left|exact H]|]. destruct (IH c Hc) as (d & Hd & Hp). exists d. split; [now right|exact Hp]. Qed.
Lemma F2_in_r {A B} (P : A -> B -> Prop) l l' : Forall2 P l l' -> forall b, In b l' -> exists a, In a l /\ P a b.
Proof. induction 1 as [|a b l l' H HF IH]; intros c Hc; [contradiction|]. destruct Hc as [<-|Hc]; [exists a; split; [now left|exact H]|]. destruct (IH c Hc) as (d & Hd & Hp). exists d. split; [now right|exact Hp]. Qed.

Lemma NoDup_both {A} (l l' : list A) : NoDup l -> NoDup l' -> (forall a, In a l -> ~ In a l') -> NoDup (l ++ l').
Proof.
  intros H H' Hn. induction H as [|a l Ha Hl IH]; [exact H'|]. cbn. constructor; [|apply IH; intros b Hb; apply Hn; now right].
  intros Hi. apply in_app_or in Hi. destruct Hi as [Hi|Hi]; [exact (Ha Hi)|exact (Hn a (or_introl eq_refl) Hi)].
Qed.
Lemma get_kids_in cs : forall kids n s x d, nth_error cs n = Some s -> nth_error kids n = Some x -> get_kid true s x = Some d -> In (e_yang (s_info s), d) (get_kids true cs kids).
Proof.
  induction cs as [|s0 cs IH]; intros [|x0 kids] [|n] s x d Hs Hx Hd; try discriminate; cbn in Hs, Hx; cbn [get_kids].
  - injection Hs as ->. injection Hx as ->. rewrite Hd. now left.
  - destruct (get_kid true s0 x0); [right|]; eapply IH; eassumption.
Qed.
(** Data below means data above. *)
Lemma data_above z : forall s x t y, sub s z = Some t -> node x z = Some y -> has_data t y \/ is_entry z = true -> has_data s x.
Proof.
  induction z as [|[n|k] z IH]; intros s x t y Hs Hx Hd.
  - cbn in Hs, Hx. injection Hs as <-. injection Hx as <-. destruct Hd as [Hd|Hd]; [exact Hd|discriminate].
  - cbn [sub node] in Hs, Hx. destruct s; try discriminate. destruct x; try discriminate. destruct (nth_error cs n) as [s0|] eqn:E1; [|discriminate]. destruct (nth_error kids n) as [x0|] eqn:E2; [|discriminate].
    assert (H0 : has_data s0 x0). { apply (IH s0 x0 t y Hs Hx). destruct Hd as [Hd|Hd]; [now left|right]. destruct z; [discriminate|exact Hd]. }
    unfold has_data in *. destruct (get_kid true s0 x0) as [d|] eqn:E; [|congruence]. rewrite get_cont. pose proof (get_kids_in _ _ _ _ _ _ E1 E2 E) as Hin. destruct (get_kids true cs kids); [contradiction|discriminate].
  - cbn [sub node] in Hs, Hx. destruct s; try discriminate. destruct x; try discriminate. unfold has_data. rewrite get_list. destruct es; [discriminate|discriminate].
Qed.
Lemma holds_data s x w : holds s x w -> has_data s x.
Proof.
  intros H. unfold has_data. inversion H as [| ? ? ? ? l Hl|]; subst; [discriminate| |rewrite get_cont; destruct (get_kids true cs kids); discriminate]. cbn. destruct l; [congruence|discriminate].
Qed.
Lemma get_kids_from cs : forall kids nm d, In (nm, d) (get_kids true cs kids) -> exists n s x, nth_error cs n = Some s /\ nth_error kids n = Some x /\ get_kid true s x = Some d /\ nm = e_yang (s_info s).
Proof.
  induction cs as [|s0 cs IH]; intros [|x0 kids] nm d H; try contradiction. cbn [get_kids] in H.
  destruct (get_kid true s0 x0) as [d0|] eqn:E.
  - destruct H as [H|H]; [injection H as <- <-; exists 0%nat, s0, x0; auto|]. destruct (IH _ _ _ H) as (n & H'). now exists (S n).
  - destruct (IH _ _ _ H) as (n & H'). now exists (S n).
Qed.
Lemma get_kids_names cs : named_ok cs -> forall kids, NoDup (map (fun nd => safe_name (fst nd)) (get_kids true cs kids)).
Proof.
  intros [Hd Hn]. induction cs as [|s cs IH]; intros [|x kids]; try constructor. cbn [map] in Hd. inversion Hd as [|? ? Hni Hd']; subst. inversion Hn as [|? ? [Hp _] Hn']; subst.
  cbn [get_kids]. destruct (get_kid true s x) as [d|]; [|now apply IH]. cbn [map fst]. constructor; [|now apply IH].
  intros Hin. apply in_map_iff in Hin. destruct Hin as ([nm d'] & E & Hin). cbn [fst] in E. destruct (get_kids_from _ _ _ _ Hin) as (n & s' & x' & Hs' & _ & _ & ->).
  apply Hni. rewrite Hp, <- E. rewrite Forall_forall in Hn'. pose proof (nth_error_In _ _ Hs') as Hi. rewrite <- (proj1 (Hn' _ Hi)).
  change (e_py (s_info s')) with ((fun s => e_py (s_info s)) s'). now apply in_map.
Qed.

Section Plain.
Context (O : oracle) (im : einfo -> str -> option str) (skip : bool) (top : list schema).
Context (Hnm : python_names top).

Definition item_of (cs : list schema) (kids : list obj) (kj : str * json) : Prop :=
  exists n s x d, nth_error cs n = Some s /\ nth_error kids n = Some x /\ get_kid true s x = Some d /\ fst kj = e_yang (s_info s) /\ enc_dump O im s d = Ok (snd kj).
Lemma kids_doc cs kids ms : named_ok cs -> map_res (enc_item O im cs) (get_kids true cs kids) = Ok ms ->
  Forall (item_of cs kids) ms /\ NoDup (map (fun m => safe_name (fst m)) ms) /\
  (forall n s x d, nth_error cs n = Some s -> nth_error kids n = Some x -> get_kid true s x = Some d -> exists j, In (e_yang (s_info s), j) ms /\ enc_dump O im s d = Ok j).
Proof.
  intros Hn H. pose proof (map_res_all _ _ _ H) as F.
  assert (G : forall n s x d j, nth_error cs n = Some s -> nth_error kids n = Some x -> get_kid true s x = Some d -> enc_item O im cs (e_yang (s_info s), d) = Ok j ->
             exists j0, j = (e_yang (s_info s), j0) /\ enc_dump O im s d = Ok j0).
  { intros n s x d j Hs Hx Hd E. unfold enc_item in E. cbn [fst snd] in E. rewrite (child_own cs (yang_dist cs Hn) n s Hs) in E.
    destruct (enc_dump O im s d) as [j0|]; [|discriminate]. cbn in E. injection E as <-. now exists j0. }
  split; [|split].
  - apply Forall_forall. intros kj Hkj. destruct (F2_in_r _ _ _ F _ Hkj) as ([nm d] & Hin & E). destruct (get_kids_from _ _ _ _ Hin) as (n & s & x & Hs & Hx & Hd & ->).
    destruct (G n s x d kj Hs Hx Hd E) as (j0 & -> & Ej). exists n, s, x, d. auto.
  - pose proof (get_kids_names cs Hn kids) as N. replace (map (fun m : str * json => safe_name (fst m)) ms) with (map (fun nd : str * dump => safe_name (fst nd)) (get_kids true cs kids)); [exact N|].
    clear - F. induction F as [|[nm d] b l l' E HF IH]; [reflexivity|]. cbn [map]. rewrite IH. f_equal. unfold enc_item in E. cbn [fst snd] in *.
    destruct (child_named nm cs); [|discriminate]. destruct (enc_dump O im s d); [|discriminate]. cbn in E. now injection E as <-.
  - intros n s x d Hs Hx Hd. destruct (F2_in_l _ _ _ F _ (get_kids_in _ _ _ _ _ _ Hs Hx Hd)) as (kj & Hin & E). destruct (G n s x d kj Hs Hx Hd E) as (j0 & -> & Ej). exists j0. auto.
Qed.

(** What is shown of one node. *)
Definition shown_by (od : bool) (s : schema) (x : obj) (j : json) : Prop :=
  json_valid O skip od s j /\
  (forall r w, tells O od s j r w -> r <> [] -> exists t y, sub s r = Some t /\ node x r = Some y /\ has_data t y) /\
  (forall r t y w, sub s r = Some t -> node x r = Some y -> holds t y w \/ is_entry r = true /\ w = ToldEntry ->
     exists r' w', Forall2 step_eq r' r /\ tells O od s j r' w' /\ forall z, so w' z -> so w z).
Definition fine (s : schema) : Prop := forall q x d j, schema_at top q = Some s -> suited s -> storable O Plain s x ->
  get_kid true s x = Some d -> enc_dump O im s d = Ok j -> shown_by false s x j.

Lemma spelt_own cs n s : named_ok cs -> nth_error cs n = Some s -> spelt cs (e_yang (s_info s)) n s.
Proof. intros [_ Hn] Hs. split; [exact Hs|]. rewrite Forall_forall in Hn. exact (proj1 (Hn _ (nth_error_In _ _ Hs))). Qed.

Lemma kids_fine i pr cs : named_ok cs -> Forall fine cs -> (forall n s, nth_error cs n = Some s -> exists q, schema_at top q = Some s) -> Forall suited cs ->
  forall od n c ps kids ms, Forall2 (storable O Plain) cs kids -> map_res (enc_item O im cs) (get_kids true cs kids) = Ok ms ->
  shown_by od (SCont i pr cs) (OCont c ps kids) (JObj (ms ++ place od n)).
Proof.
  intros Hn HF Hq Hsu od n c ps kids ms Hst Hms. destruct (kids_doc cs kids ms Hn Hms) as (Hi & Hd & Hc). rewrite Forall_forall in HF, Hsu, Hi.
  assert (Hfine : forall a s x d j, nth_error cs a = Some s -> nth_error kids a = Some x -> get_kid true s x = Some d -> enc_dump O im s d = Ok j -> shown_by false s x j).
  { intros a s x d j Hs Hx Hg He. pose proof (nth_error_In _ _ Hs) as HI. destruct (Hq a s Hs) as (q & Hq'). destruct (Forall2_nth _ _ _ _ _ Hst Hs) as (x' & Hx' & Hst'). rewrite Hx in Hx'. injection Hx' as <-.
    exact (HF s HI q x d j Hq' (Hsu s HI) Hst' Hg He). }
  assert (Hnot : forall key j, In (key, j) ms -> key <> order_key).
  { intros key j Hin. destruct (Hi _ Hin) as (a & s & x & d & Hs & _ & _ & Hk & _). cbn [fst] in Hk. subst key. destruct Hn as [_ Hn]. rewrite Forall_forall in Hn. exact (proj2 (Hn _ (nth_error_In _ _ Hs))). }
  split; [|split].
  - apply JvCont.
    + split.
      * rewrite map_app. apply NoDup_both. { apply (NoDup_map_inv (fun k => safe_name k)). now rewrite map_map. }
        { unfold place. destruct od; cbn; repeat constructor; auto. }
        intros k H1 H2. apply in_map_iff in H1. destruct H1 as ([k0 j0] & <- & H1). cbn [fst] in *. apply (Hnot _ _ H1). unfold place in H2. destruct od; [|contradiction]. cbn in H2. destruct H2 as [H2|[]]. now rewrite <- H2.
      * intros ms1 key j ms2 key' j' ms3 E Ha Ha'. assert (In (key', j') ms /\ exists t, ms = ms1 ++ (key, j) :: t /\ In (key', j') t) as (H1 & t & -> & H2).
        { assert (Hin : forall k0 j0 a b, ms ++ place od n = a ++ (k0, j0) :: b -> ~ set_aside od k0 -> exists b', ms = a ++ (k0, j0) :: b' /\ b = b' ++ place od n).
          { clear - Hnot. intros k0 j0. induction ms as [|m ms IH]; intros a b E Hs.
            - cbn in E. unfold place in E. destruct od; [|now destruct a]. destruct a as [|? [|]]; try discriminate. injection E as <- _ _. now destruct Hs.
            - destruct a as [|a0 a]; cbn in E; injection E as -> E; [exists ms; auto|]. destruct (IH (fun k j H => Hnot k j (or_intror H)) a b E Hs) as (b' & -> & ->). now exists b'. }
          destruct (Hin _ _ _ _ E Ha) as (b' & Eb & E2). clear E.
          assert (E3 : b' ++ place od n = ms2 ++ (key', j') :: ms3) by now rewrite E2.
          assert (In (key', j') b').
          { assert (In (key', j') (b' ++ place od n)) as Hb by (rewrite E3; apply in_or_app; right; now left). apply in_app_or in Hb. destruct Hb as [Hb|Hb]; [exact Hb|].
            unfold place in Hb. destruct od; [|contradiction]. destruct Hb as [Hb|[]]. injection Hb as <- _. now destruct Ha'. }
          split; [rewrite Eb; apply in_or_app; right; now right|]. exists b'. auto. }
        intros a s s' [Hs Hp] [Hs' Hp']. rewrite Hs in Hs'. injection Hs' as <-. rewrite map_app in Hd. cbn [map fst] in Hd. apply NoDup_remove_2 in Hd. apply Hd. apply in_or_app. right.
        replace (safe_name key) with (safe_name key') by congruence. change (safe_name key') with ((fun m : str * json => safe_name (fst m)) (key', j')). now apply in_map.
    + intros key j Hin. apply in_app_or in Hin. destruct Hin as [Hin|Hin].
      * right. left. destruct (Hi _ Hin) as (a & s & x & d & Hs & Hx & Hg & Hk & He). cbn [fst snd] in *. subst key. exists a, s. split; [now apply spelt_own|].
        exact (proj1 (Hfine a s x d j Hs Hx Hg He)).
      * left. unfold place in Hin. destruct od; [|contradiction]. destruct Hin as [Hin|[]]. injection Hin as <- _. split; reflexivity.
  - intros r w Ht Hr. inversion Ht as [| | |? ? ? ? ? key j a s r' ? Hin Has Hsp Ht'| | |]; subst; [congruence|].
    assert (Hin' : In (key, j) ms). { apply in_app_or in Hin. destruct Hin as [Hin|Hin]; [exact Hin|]. unfold place in Hin. destruct od; [|contradiction]. destruct Hin as [Hin|[]]. injection Hin as <- _. now destruct Has. }
    destruct (Hi _ Hin') as (a' & s' & x & d & Hs & Hx & Hg & Hk & He). cbn [fst snd] in *. subst key.
    destruct (Accept_proofs.spelt_one cs _ _ _ _ _ (proj1 Hn) Hsp (spelt_own cs a' s' Hn Hs)) as [-> ->].
    cbn [sub node]. rewrite Hs, Hx. destruct r' as [|b r']; [exists s', x; split; [reflexivity|split; [reflexivity|unfold has_data; congruence]]|].
    exact (proj1 (proj2 (Hfine a' s' x d j Hs Hx Hg He)) (b :: r') w Ht' ltac:(discriminate)).
  - intros r t y w Hsub Hnode Hw. destruct r as [|[a|k] r].
    + cbn in Hsub, Hnode. injection Hsub as <-. injection Hnode as <-. destruct Hw as [Hw|[Hw _]]; [|discriminate]. inversion Hw; subst. exists [], ToldPresent. split; [constructor|]. split; [constructor|auto].
    + cbn [sub node] in Hsub, Hnode. destruct (nth_error cs a) as [s|] eqn:Hs; [|discriminate]. destruct (nth_error kids a) as [x|] eqn:Hx; [|discriminate].
      destruct (Forall2_nth _ _ _ _ _ Hst Hs) as (x' & Hx' & Hstx). rewrite Hx in Hx'. injection Hx' as <-.
      assert (Hdt : has_data s x).
      { apply (data_above r s x t y Hsub Hnode). destruct Hw as [Hw|[Hw _]]; [left; exact (holds_data _ _ _ Hw)|]. right. destruct r; [discriminate|exact Hw]. }
      unfold has_data in Hdt. destruct (get_kid true s x) as [d|] eqn:Hg; [|congruence].
      destruct (Hc a s x d Hs Hx Hg) as (j & Hin & He).
      destruct (proj2 (proj2 (Hfine a s x d j Hs Hx Hg He)) r t y w Hsub Hnode) as (r' & w' & H1 & H2 & H3).
      { destruct Hw as [Hw|[Hw ->]]; [now left|]. right. split; [|reflexivity]. destruct r; [discriminate|exact Hw]. }
      exists (Kid a :: r'), w'. split; [constructor; [constructor|exact H1]|]. split; [|exact H3].
      apply TellsIn with (e_yang (s_info s)) j s; [apply in_or_app; now left| |now apply spelt_own|exact H2]. intros [_ E]. now apply (Hnot _ _ Hin).
    + discriminate.
Qed.

Lemma leaf_fine i lt d yt k : fine (SLeaf i lt d yt k).
Proof.
  intros q x dd j _ _ Hst Hg He. inversion Hst as [? w ? ? ? ch v Hok| | |]; subst. cbn in Hg. destruct ch; [|discriminate]. injection Hg as <-. cbn [enc_dump] in He.
  destruct (Hok eq_refl) as [Hn Hl]. destruct (plain_leaf O im i w yt v Hn Hl) as (j0 & Ej & Ev). rewrite He in Ej. injection Ej as <-.
  split; [eapply JvLeaf; exact Ev|]. split.
  - intros r w' Ht Hr. inversion Ht; subst. congruence.
  - intros r t y w' Hsub Hnode Hw. destruct r as [|[]]; try discriminate. cbn in Hsub, Hnode. injection Hsub as <-. injection Hnode as <-. destruct Hw as [Hw|[Hw _]]; [|discriminate]. inversion Hw; subst.
    exists [], (ToldValue v). split; [constructor|]. split; [now constructor|auto].
Qed.
Lemma one_member ts a w : member_value O ts a = Some w -> tl_init O ts true (PyVal.VList [a]) = Ok [w].
Proof. intros H. cbn [tl_init tl_build py_in existsb andb]. unfold tl_check. cbn [py_in existsb andb]. now rewrite H. Qed.
Lemma leaf_list_fine i ts yt : fine (SLeafList i ts yt).
Proof.
  intros q x dd j _ _ Hst Hg He. inversion Hst as [|? t ? ch l Hwf Hyt Hall Hd _| |]; subst. cbn in Hg.
  assert (Hdd : dd = DLeafList l) by (destruct l; congruence). subst dd. clear Hg. cbn [enc_dump] in He. unfold enc_members in He. destruct (map_res (enc_member O false [pty_of t]) l) as [js|] eqn:E; [|discriminate]. cbn in He. injection He as <-.
  pose proof (map_res_all _ _ _ E) as F.
  assert (F' : Forall2 (fun v j => member_value O [pty_of t] (jval j) = Some v /\ py_eq v (jval j) = true) l js).
  { clear - F Hall Hwf. induction F as [|v j l js Hj HF IH]; constructor; inversion Hall as [|? ? Hv Hl]; subst; auto. destruct (plain_member O t yt v Hwf Hv) as (j0 & Ej & H). rewrite Hj in Ej. injection Ej as <-. exact H. }
  split; [|split].
  - apply JvLeafList. intros j Hj. destruct (F2_in_r _ _ _ F' _ Hj) as (v & _ & Hv & Heq). exists v. split; [now apply one_member|exact Heq].
  - intros r w' Ht Hr. inversion Ht; subst. congruence.
  - intros r t0 y w' Hsub Hnode Hw. destruct r as [|[]]; try discriminate. cbn in Hsub, Hnode. injection Hsub as <-. injection Hnode as <-. destruct Hw as [Hw|[Hw _]]; [|discriminate]. inversion Hw; subst.
    exists [], (ToldMembers (map jval js)). split; [constructor|]. split; [constructor|]. intros z (c & vs & -> & H1 & H2). exists c, vs. split; [reflexivity|]. split.
    + intros v Hv. destruct (F2_in_l _ _ _ F' _ Hv) as (j & Hj & _ & Heq). destruct (H1 (jval j) (in_map _ _ _ Hj)) as (u & Hu & Hu'). exists u. split; [exact Hu|]. eapply py_eq_trans; eassumption.
    + intros v Hv. destruct (H2 v Hv) as (u & Hu & Hu'). apply in_map_iff in Hu. destruct Hu as (j & <- & Hj). destruct (F2_in_r _ _ _ F' _ Hj) as (v' & Hv' & _ & Heq). exists v'. split; [exact Hv'|].
      eapply py_eq_trans; [exact Hu'|]. now rewrite py_eq_sym.
Qed.
Lemma kid_places q i pr cs : schema_at top q = Some (SCont i pr cs) -> forall n s, nth_error cs n = Some s -> exists q', schema_at top q' = Some s.
Proof. intros Hq n s Hs. exists (q ++ [Kid n]). now rewrite (schema_kid top q i pr cs). Qed.
Lemma cont_fine i pr cs : Forall fine cs -> fine (SCont i pr cs).
Proof.
  intros IH q x dd j Hq Hsu Hst Hg He. inversion Hst as [| |? ? ? ch pres kids Hk _|]; subst. inversion Hsu as [| |? ? ? Hsk|]; subst. rewrite get_cont in Hg.
  assert (Hdd : dd = DDict (get_kids true cs kids)). { destruct (get_kids true cs kids); [destruct (pr && pres); congruence|congruence]. } subst dd. clear Hg.
  change (enc_dump O im (SCont i pr cs) (DDict (get_kids true cs kids))) with (ms <- map_res (enc_item O im cs) (get_kids true cs kids) ;; Ok (JObj ms)) in He.
  destruct (map_res (enc_item O im cs) (get_kids true cs kids)) as [ms|] eqn:E; [|discriminate]. cbn in He. injection He as <-.
  pose proof (kids_fine i pr cs (Hnm _ _ _ _ Hq) IH (kid_places q i pr cs Hq) Hsk false 0%nat ch pres kids ms Hk E) as H. unfold place in H. now rewrite app_nil_r in H.
Qed.
(** The documents of the entries of a list. *)
Lemma entries_doc od cs des : forall n docs, enc_entries O im od cs n des = Ok docs ->
  Forall2 (fun e kj => exists j0 m, json_key O (fst e) = Ok (fst kj) /\ enc_dump O im (entry_schema cs) (snd e) = Ok j0 /\ snd kj = (if od then add_order j0 m else j0)) des docs /\
  (forall a e kj, nth_error des a = Some e -> nth_error docs a = Some kj -> exists j0, enc_dump O im (entry_schema cs) (snd e) = Ok j0 /\ snd kj = (if od then add_order j0 (n + a) else j0)).
Proof.
  induction des as [|[k d] des IH]; intros n docs H.
  - cbn in H. injection H as <-. split; [constructor|]. intros [|a]; discriminate.
  - cbn [enc_entries] in H. destruct (enc_dump O im (entry_schema cs) d) as [j0|] eqn:E1; [|discriminate]. cbn [bind] in H. destruct (json_key O k) as [kt|] eqn:E2; [|discriminate]. cbn [bind] in H.
    fold (enc_entries O im od cs) in H. destruct (enc_entries O im od cs (S n) des) as [r|] eqn:E3; [|discriminate]. cbn [bind] in H. injection H as <-. destruct (IH (S n) r E3) as [F N]. split.
    + constructor; [|exact F]. exists j0, n. auto.
    + intros [|a] e kj He Hk; cbn in He, Hk; [injection He as <-; injection Hk as <-; exists j0; rewrite Nat.add_0_r; auto|]. rewrite Nat.add_succ_r. exact (N a e kj He Hk).
Qed.
Lemma list_fine i keys od cs : Forall fine cs -> fine (SList i keys od cs).
Proof.
  intros IH q x dd j Hq Hsu Hst Hg He. inversion Hst as [| | |? ? ? ? ch es Hne Hdis Hes]; subst. inversion Hsu as [| | |? ? ? ? _ Hkn Hsk Hmark]; subst. rewrite get_list in Hg.
  assert (Hdd : dd = DList (map (fun e => (fst e, get_entry true cs (snd e))) es) /\ es <> []) by (destruct es; [discriminate|split; congruence]). destruct Hdd as [-> Hnil]. clear Hg.
  change (enc_dump O im (SList i keys od cs) (DList (map (fun e => (fst e, get_entry true cs (snd e))) es)))
    with (ms <- enc_entries O im od cs 0 (map (fun e => (fst e, get_entry true cs (snd e))) es) ;; Ok (JObj ms)) in He.
  destruct (enc_entries O im od cs 0 (map (fun e => (fst e, get_entry true cs (snd e))) es)) as [docs|] eqn:E; [|discriminate]. cbn in He. injection He as <-.
  destruct (entries_doc od cs _ _ _ E) as [F N]. clear E.
  pose proof (schema_entry top q i keys od cs VNone Hq) as Hq'. pose proof (Hnm _ _ _ _ Hq') as Hn.
  assert (Hdist : kdist es) by now apply all_distinct_iff.
  (* each entry and its document *)
  assert (G : Forall2 (fun e kj => exists c ps kids ms n, snd e = OCont c ps kids /\ Forall2 (storable O Plain) cs kids /\ plain_key O keys cs kids (fst e) /\ fst e = VStr (fst kj) /\
              map_res (enc_item O im cs) (get_kids true cs kids) = Ok ms /\ snd kj = JObj (ms ++ place od n)) es docs).
  { clear N. assert (Hl : forall es0, (forall e, In e es0 -> In e es) -> forall docs0, Forall2 (fun e kj => exists j0 m, json_key O (fst e) = Ok (fst kj) /\ enc_dump O im (entry_schema cs) (snd e) = Ok j0 /\ snd kj = (if od then add_order j0 m else j0))
      (map (fun e => (fst e, get_entry true cs (snd e))) es0) docs0 -> Forall2 (fun e kj => exists c ps kids ms n, snd e = OCont c ps kids /\ Forall2 (storable O Plain) cs kids /\ plain_key O keys cs kids (fst e) /\ fst e = VStr (fst kj) /\
              map_res (enc_item O im cs) (get_kids true cs kids) = Ok ms /\ snd kj = JObj (ms ++ place od n)) es0 docs0); [|exact (Hl es (fun e H => H) docs F)].
    clear F. induction es0 as [|[k x] es0 IHe]; intros Hi docs0 F0; inversion F0 as [|? kj ? docs1 (j0 & m & Hk & Hj & Ekj) F1]; subst; constructor; [|apply IHe; [intros e He; apply Hi; now right|exact F1]].
    rewrite Forall_forall in Hes. destruct (Hes (k, x) (Hi _ (or_introl eq_refl))) as (c & ps & kids & Ex & Hst0 & Hpk). cbn [fst snd] in *. subst x. unfold get_entry in Hj.
    change (enc_dump O im (entry_schema cs) (DDict (get_kids true cs kids))) with (ms <- map_res (enc_item O im cs) (get_kids true cs kids) ;; Ok (JObj ms)) in Hj.
    destruct (map_res (enc_item O im cs) (get_kids true cs kids)) as [ms|] eqn:Em; [|discriminate]. cbn in Hj. injection Hj as <-.
    exists c, ps, kids, ms, m. split; [reflexivity|]. split; [exact Hst0|]. split; [exact Hpk|]. split.
    { destruct Hpk as (parts & -> & _). cbn in Hk. now injection Hk as <-. }
    split; [exact Em|]. rewrite Ekj. unfold place. destruct od; [reflexivity|now rewrite app_nil_r]. }
  assert (Hshown : forall e (kj : str * json) c ps kids ms n, In e es -> snd e = OCont c ps kids -> Forall2 (storable O Plain) cs kids -> map_res (enc_item O im cs) (get_kids true cs kids) = Ok ms -> snd kj = JObj (ms ++ place od n) ->
     shown_by od (entry_schema cs) (snd e) (snd kj)).
  { intros e kj c ps kids ms n _ -> Hst0 Em ->. exact (kids_fine plain false cs Hn IH (kid_places _ _ _ _ Hq') Hsk od n c ps kids ms Hst0 Em). }
  assert (Hkeys : map fst es = map (fun kj => VStr (fst kj)) docs).
  { clear - G. induction G as [|e kj es docs (c & ps & kids & ms & n & _ & _ & _ & Ek & _) HG IHG]; [reflexivity|]. cbn [map]. now rewrite IHG, Ek. }
  split; [|split].
  - apply JvList.
    + unfold kdist in Hdist. rewrite Hkeys in Hdist. clear - Hdist. induction docs as [|[t j] docs IHd]; [constructor|]. cbn [map fst] in *. inversion Hdist as [|? ? Hf Hd]; subst. constructor; [|now apply IHd].
      intros Hin. rewrite Forall_forall in Hf. assert (H : py_eq (VStr t) (VStr t) = false). { apply Hf. apply in_map_iff in Hin. destruct Hin as ([t' j'] & <- & Hin). change (VStr (fst (t', j'))) with ((fun kj : str * json => VStr (fst kj)) (t', j')). now apply in_map. }
      cbn in H. rewrite str_eqb_refl in H. discriminate.
    + intros t e Hin. destruct (F2_in_r _ _ _ G _ Hin) as (e0 & He0 & c & ps & kids & ms & n & Ee & Hst0 & Hpk & Ek & Em & Ej). cbn [fst snd] in *.
      split; [|exact (proj1 (Hshown e0 (t, e) c ps kids ms n He0 Ee Hst0 Em Ej))].
      destruct Hpk as (parts & Ep & Hsp & Hp). rewrite Ek in Ep. injection Ep as ->.
      assert (Hp' : Forall2 (part_taken O cs) keys parts).
      { assert (HH : forall name p, In name keys -> (exists t yt v, key_leaf O Plain cs kids name t yt v /\ key_part t v p) -> part_taken O cs name p).
        { intros name p Hk (t & yt & v & (a & ki & d & kf & Ha & Hpy & _ & Hwf & Hv) & Hpart). destruct (part_assign O t yt v p Hwf Hv Hpart) as (w & Hw).
          assert (kf = true) as ->. { pose proof (Hmark _ (nth_error_In _ _ Ha)) as M. cbn in M. apply M. now rewrite Hpy. }
          exists a, ki, (LOne (pty_of t)), d, yt, w. auto. }
        clear - Hp HH. induction Hp as [|name p ks ps Hnp HF IHp]; constructor; [apply HH; [now left|exact Hnp]|apply IHp; intros; apply HH; [now right|assumption]]. }
      destruct keys as [|k1 [|k2 ks]]; [congruence| |].
      * left. inversion Hp' as [|? p ? ps' H1 H2]; subst. inversion H2; subst. exists k1. split; [reflexivity|]. cbn. rewrite ?app_nil_r. auto.
      * right. split; [cbn; lia|]. exists parts. split; [reflexivity|]. split; [|exact Hp'].
        inversion Hp' as [|? p1 ? ps1 H1 H2]; subst. inversion H2 as [|? p2 ? ps2 H3 H4]; subst. exact Hsp.
    + intros ->. assert (Hpos : forall ms m, (exists kids, map_res (enc_item O im cs) (get_kids true cs kids) = Ok ms) -> position (JObj (ms ++ place true m)) = Some (JInt (Z.of_nat m))).
      { intros ms m (kids & Em). destruct (kids_doc cs kids ms Hn Em) as (Hi & _ & _). pose proof (order_placed ms m) as Ho. unfold position.
        assert (Hf : Forall (fun kj : str * json => fst kj <> order_key) ms).
        { eapply Forall_impl; [|exact Hi]. intros kj (a & s & x & d & Hs & _ & _ & -> & _). destruct Hn as [_ Hn']. rewrite Forall_forall in Hn'. exact (proj2 (Hn' _ (nth_error_In _ _ Hs))). }
        specialize (Ho Hf). unfold order_of in Ho. change (lit "__yang_order") with order_key. destruct (assoc order_key (ms ++ place true m)) as [[]|]; try discriminate. injection Ho as ->. reflexivity. }
      assert (Hat : forall a kj, nth_error docs a = Some kj -> position (snd kj) = Some (JInt (Z.of_nat a))).
      { intros a kj Ha. destruct (Forall2_nth' _ _ _ _ _ G Ha) as (e & He & c & ps & kids & ms & n & Ee & _ & _ & _ & Em & _).
        destruct (N a (fst e, get_entry true cs (snd e)) kj) as (j0 & Hj & Ekj); [now rewrite nth_error_map, He|exact Ha|]. cbn [snd] in Hj. rewrite Ee in Hj. unfold get_entry in Hj.
        change (enc_dump O im (entry_schema cs) (DDict (get_kids true cs kids))) with (ms <- map_res (enc_item O im cs) (get_kids true cs kids) ;; Ok (JObj ms)) in Hj.
        rewrite Em in Hj. cbn in Hj. injection Hj as <-. rewrite Ekj. cbn [Nat.add add_order]. apply Hpos. now exists kids. }
      split.
      * intros t e jj Hin Hp. apply In_nth_error in Hin. destruct Hin as (a & Ha). pose proof (Hat a (t, e) Ha) as Hp'. cbn [snd] in Hp'. rewrite Hp' in Hp. injection Hp as <-. eauto.
      * intros es1 t e es2 t' e' es3 -> _. pose proof (Hat (length es1) (t, e)) as H1. rewrite nth_error_app2, Nat.sub_diag in H1 by lia. specialize (H1 eq_refl).
        pose proof (Hat (length es1 + S (length es2))%nat (t', e')) as H2. rewrite nth_error_app2 in H2 by lia. replace (length es1 + S (length es2) - length es1)%nat with (S (length es2)) in H2 by lia.
        cbn [nth_error] in H2. rewrite nth_error_app2, Nat.sub_diag in H2 by lia. specialize (H2 eq_refl). cbn [snd] in *. rewrite H1, H2. intros E. injection E as E. lia.
  - intros r w Ht Hr.
    assert (Hent : forall t e, In (t, e) docs -> exists e0 c ps kids, mget (VStr t) es = Some e0 /\ e0 = OCont c ps kids /\ shown_by od (entry_schema cs) e0 e /\ has_data (entry_schema cs) e0).
    { intros t e Hin. destruct (F2_in_r _ _ _ G _ Hin) as ([k e0] & He0 & c & ps & kids & ms & n & Ee & Hst0 & Hpk & Ek & Em & Ej). cbn [fst snd] in *. exists e0, c, ps, kids. subst k.
      split; [exact (kdist_mget es Hdist _ _ He0)|]. split; [exact Ee|]. split; [exact (Hshown (VStr t, e0) (t, e) c ps kids ms n He0 Ee Hst0 Em Ej)|].
      destruct (plain_key_adds O keys cs kids (VStr t) (proj1 Hn) Hne Hpk) as (_ & _ & _ & Hset). destruct keys as [|k1 ks]; [congruence|]. inversion Hset as [|? ? (a & ki & lt & d & yt & kf & v & _ & Ha & Hx) _]; subst.
      apply (data_above [Kid a] (entry_schema cs) _ (SLeaf ki lt d yt kf) (OLeaf true v)); [cbn; now rewrite Ha|cbn; now rewrite Hx|left; discriminate]. }
    inversion Ht as [| | | |? ? ? ? ? ? t e Hin|? ? ? ? ? ? t e r' ? Hin Ht'|]; subst; [| |congruence].
    + destruct (Hent t e Hin) as (e0 & c & ps & kids & Hm & _ & _ & Hd). exists (entry_schema cs), e0. cbn [sub node]. rewrite Hm. auto.
    + destruct (Hent t e Hin) as (e0 & c & ps & kids & Hm & _ & Hsh & Hd). cbn [sub node]. rewrite Hm. destruct r' as [|b r']; [exists (entry_schema cs), e0; auto|].
      exact (proj1 (proj2 Hsh) (b :: r') w Ht' ltac:(discriminate)).
  - intros r t y w Hsub Hnode Hw. destruct r as [|[a|k] r]; [|discriminate|].
    + cbn in Hsub, Hnode. injection Hsub as <-. injection Hnode as <-. destruct Hw as [Hw|[Hw _]]; [inversion Hw|discriminate].
    + cbn [sub node] in Hsub, Hnode. destruct (mget k es) as [e0|] eqn:Em; [|discriminate]. apply (mget_in es k e0 Hdist) in Em. destruct Em as (k' & Hin & Hkk).
      destruct (F2_in_l _ _ _ G _ Hin) as ([tk j] & Hj & c & ps & kids & ms & n & Ee & Hst0 & Hpk & Ek & Em & Ej). cbn [fst snd] in *. subst k'.
      pose proof (Hshown (VStr tk, e0) (tk, j) c ps kids ms n Hin Ee Hst0 Em Ej) as Hsh. cbn [snd] in Hsh.
      assert (Hse : step_eq (Ent (VStr tk)) (Ent k)) by (constructor; now rewrite py_eq_sym).
      destruct r as [|b r].
      * destruct Hw as [Hw|[_ ->]].
        { cbn in Hsub, Hnode. injection Hsub as <-. injection Hnode as <-. inversion Hw. }
        exists [Ent (VStr tk)], ToldEntry. split; [constructor; [exact Hse|constructor]|]. split; [eapply TellsEntry; exact Hj|auto].
      * destruct (proj2 (proj2 Hsh) (b :: r) t y w Hsub Hnode) as (r' & w' & H1 & H2 & H3); [destruct Hw as [Hw|[Hw ->]]; [now left|right; split; [exact Hw|reflexivity]]|].
        exists (Ent (VStr tk) :: r'), w'. split; [now constructor|]. split; [eapply TellsInEntry; eassumption|exact H3].
Qed.
Lemma all_fine s : fine s.
Proof. induction s using schema_ind'; auto using leaf_fine, leaf_list_fine, cont_fine, list_fine. Qed.

Theorem plain_doc kids j : Forall suited top -> Forall2 (storable O Plain) top kids -> dumps O im top kids = Ok j ->
  exists ms, j = JObj ms /\ shown_by false (entry_schema top) (OCont false false kids) (JObj ms).
Proof.
  intros Hsu Hst Hd. unfold dumps in Hd.
  change (enc_dump O im (entry_schema top) (DDict (get_kids true top kids))) with (ms <- map_res (enc_item O im top) (get_kids true top kids) ;; Ok (JObj ms)) in Hd.
  destruct (map_res (enc_item O im top) (get_kids true top kids)) as [ms|] eqn:E; [|discriminate]. cbn in Hd. injection Hd as <-. exists ms. split; [reflexivity|].
  assert (Hq : schema_at top [] = Some (SCont plain false top)) by reflexivity.
  pose proof (kids_fine plain false top (Hnm [] _ _ _ Hq) ltac:(apply Forall_forall; intros; apply all_fine) (kid_places [] _ _ _ Hq) Hsu false 0%nat false false kids ms Hst E) as H.
  unfold place in H. now rewrite app_nil_r in H.
Qed.
End Plain.

(** Documents about nodes with data are consistent. *)
Lemma data_consistent cs kids (about : list pstep -> Prop) : unrivalled cs kids ->
  (forall q, about q -> q <> [] -> exists t y, schema_at cs q = Some t /\ at_path kids q = Some y /\ has_data t y) -> consistent cs about.
Proof.
  intros Hun Ha q1 q2 r H1 H2 [z ->] Hr. destruct Hr as (s & c & k' & t & st & k & Hlen & Hr).
  assert (N1 : q1 <> []). { destruct Hr as (_ & _ & _ & (z0 & ->) & Hl & _). intros E. apply app_eq_nil in E. destruct E as [-> _]. cbn in Hl. lia. }
  assert (N2 : r ++ z <> []) by (intros E; apply app_eq_nil in E; destruct E as [-> _]; cbn in Hlen; lia).
  destruct (Ha q1 H1 N1) as (t1 & y1 & A1 & B1 & D1). destruct (Ha _ H2 N2) as (t2 & y2 & A2 & B2 & D2). unfold schema_at, at_path in A2, B2. rewrite sub_app in A2. rewrite node_app in B2.
  destruct (sub (entry_schema cs) r) as [tr|] eqn:Er; [|discriminate]. destruct (node (OCont false false kids) r) as [yr|] eqn:Ey; [|discriminate].
  apply (Hun q1 r t1 tr y1 yr A1 B1 D1); [exists s, c, k', t, st, k; auto|exact Er|exact Ey|]. exact (data_above z tr yr t2 y2 A2 B2 (or_introl D2)).
Qed.
Lemma leaf_even cs : leaf_keys cs -> even_keys cs.
Proof. intros H p i keys od cs' n s Hp Hn Hk. destruct (H p i keys od cs' n s Hp Hn Hk) as (i' & lt & d & y & k & -> & E). exact E. Qed.

Theorem plain_merged O im ft uid cs l skip kids : uniform cs -> even_keys cs -> python_names cs -> plain_deeds O ft uid cs l ->
  Forall suited cs -> unrivalled cs kids -> Forall2 (storable O Plain) cs kids ->
  exists j m', dumps O im cs kids = Ok j /\ load_json O uid cs false skip j (after O ft uid cs l) = (m', Ok tt) /\
    forall q s x w, schema_at cs q = Some s -> at_path kids q = Some x -> holds s x w \/ is_entry q = true /\ w = ToldEntry ->
    exists y, at_path m' q = Some y /\ so w y.
Proof.
  intros Hu Hk Hn Hl Hsu Hun Hst.
  assert (Hpk : plain_keys cs) by (intros p i keys od cs' n s Hp Hn' Hi; right; exact (Hk p i keys od cs' n s Hp Hn' Hi)).
  destruct (plain_round_trip O im (fun _ => []) cs kids Hpk Hun Hn Hst) as (j & _ & Hd & _). destruct (plain_doc O im skip cs Hn kids j Hsu Hst Hd) as (ms & -> & Hv & Hb & Hh).
  destruct (AcceptChoice_proofs.json_choice O ft uid cs l Hu Hk Hn Hl skip ms Hv) as (m' & Hm & Ht).
  { apply (data_consistent cs kids); [exact Hun|]. intros q (w & Hw) Hq. exact (Hb q w Hw Hq). }
  exists (JObj ms), m'. split; [exact Hd|]. split; [exact Hm|]. intros q s x w Hs Hx Hw. destruct (Hh q s x w Hs Hx Hw) as (r & w' & Hr & Hw' & Hso).
  destruct (Ht r w' Hw') as (y & Hy & Hyw). exists y. split; [|exact (Hso y Hyw)]. unfold at_path in *. now rewrite <- (node_steps r q Hr).
Qed.
