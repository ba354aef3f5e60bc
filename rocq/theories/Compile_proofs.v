(** Lemmas about [compile]. *)
From Verif Require Import PyStr PyStr_facts PyVal Restricted SafeName Spec_Lists YList Tree Spec_Tree Tree_proofs Tree_frame Tree_main
  Compile Spec_Compile.
From Coq Require Import Lia.
Import ListNotations.

Section YInd.
Context (P : ystmt -> Prop)
  (Hleaf : forall h lt d y, P (YLeaf h lt d y)) (Hll : forall h ts y, P (YLeafList h ts y))
  (Hcont : forall h pr cs, Forall P cs -> P (YCont h pr cs))
  (Hlist : forall h k od cs, Forall P cs -> P (YList h k od cs))
  (Hchoice : forall n c cases, Forall (fun kc => Forall P (snd kc)) cases -> P (YChoice n c cases)).
Fixpoint ystmt_ind' (s : ystmt) : P s :=
  let all := (fix all (l : list ystmt) : Forall P l :=
                match l with [] => Forall_nil _ | x :: l' => Forall_cons _ (ystmt_ind' x) (all l') end) in
  match s with
  | YLeaf h lt d y => Hleaf h lt d y
  | YLeafList h ts y => Hll h ts y
  | YCont h pr cs => Hcont h pr cs (all cs)
  | YList h k od cs => Hlist h k od cs (all cs)
  | YChoice n c cases =>
      Hchoice n c cases
        ((fix allc (l : list (str * list ystmt)) : Forall (fun kc => Forall P (snd kc)) l :=
            match l with
            | [] => Forall_nil _
            | (k, ss) :: l' => Forall_cons (k, ss) (all ss) (allc l')
            end) cases)
  end.
End YInd.

(** A data definition statement found directly or through choices, with the (choice, case) it is in. *)
Inductive found : option (str * str) -> list ystmt -> option (str * str) -> ystmt -> Prop :=
| FoundHere ch ss y : In y ss -> (forall n c cases, y <> YChoice n c cases) -> found ch ss ch y
| FoundIn ch ss n c cases k ss' ch' y : In (YChoice n c cases) ss -> In (k, ss') cases ->
    found (Some (n, k)) ss' ch' y -> found ch ss ch' y.

Lemma found_incl ch y ch' y' ss : found ch [y] ch' y' -> In y ss -> found ch ss ch' y'.
Proof.
  intros H Hy. inversion H as [? ? ? Hi Hn|? ? ? ? ? ? ? ? ? Hi Hk Hg]; subst.
  - destruct Hi as [E|[]]; subst. now apply FoundHere.
  - destruct Hi as [E|[]]; subst. eapply FoundIn; eauto.
Qed.

Lemma compile_found po cfg keys s : forall y ch, In s (compile po cfg ch keys y) ->
  exists ch' y', found ch [y] ch' y' /\ In s (compile po cfg ch' keys y').
Proof.
  induction y as [h lt d yt|h ts yt|h pr cs _|h k od cs _|n c cases IH] using ystmt_ind'; intros ch H;
    try (eexists ch, _; split; [apply FoundHere; [now left|discriminate]|exact H]).
  cbn [compile] in H. apply in_flat_map in H. destruct H as ([k ss] & Hin & H).
  apply in_flat_map in H. destruct H as (y & Hy & H).
  rewrite Forall_forall in IH. specialize (IH _ Hin). cbn [snd] in IH. rewrite Forall_forall in IH.
  destruct (IH y Hy (Some (n, k)) H) as (ch' & y' & Hf & Hs). exists ch', y'. split; [|exact Hs].
  eapply FoundIn; [now left|exact Hin|]. eapply found_incl; eauto.
Qed.

Lemma compile_all_found po cfg ch keys ss s : In s (flat_map (compile po cfg ch keys) ss) ->
  exists ch' y', found ch ss ch' y' /\ In s (compile po cfg ch' keys y').
Proof.
  intros H. apply in_flat_map in H. destruct H as (y & Hy & H).
  destruct (compile_found po cfg keys s y ch H) as (ch' & y' & Hf & Hs). exists ch', y'. split; [|exact Hs].
  eapply found_incl; eauto.
Qed.

Lemma found_data ch ss ch' y : found ch ss ch' y -> forall n c cases, y <> YChoice n c cases.
Proof. induction 1; auto. Qed.

(** Every property of statements that choices hand on to their cases. *)
Lemma found_prop (P : ystmt -> Prop) ch ss ch' y :
  (forall n c cases, P (YChoice n c cases) -> forall k ss s, In (k, ss) cases -> In s ss -> P s) ->
  found ch ss ch' y -> (forall s, In s ss -> P s) -> P y.
Proof. intros Hp. induction 1; intros Hall; auto. apply IHfound. intros s Hs. eapply Hp; eauto. Qed.

Lemma found_declared ch ss ch' y : found ch ss ch' y -> (forall s, In s ss -> choice_config_free s) ->
  forall ctx ns b, declared ctx [y] ns b -> declared ctx ss ns b.
Proof.
  induction 1 as [ch ss y Hin Hn|ch ss n c cases k ss' ch' y Hin Hk Hf IH]; intros Hcc ctx ns b Hd.
  - inversion Hd as [? ? ? ? ? ? Hi|? ? ? ? ? Hi|? ? ? ? ? Hi|? ? ? ? ? ? Hi|? ? ? ? ? ? ? Hi|? ? ? ? ? ? ? ? Hi|? ? ? ? ? ? ? ? ? Hi];
      subst; destruct Hi as [E|[]]; subst y.
    + eapply DcLeaf; eauto.
    + eapply DcLeafList; eauto.
    + eapply DcCont; eauto.
    + eapply DcList; eauto.
    + eapply DcInCont; eauto.
    + eapply DcInList; eauto.
    + exfalso. eapply Hn. reflexivity.
  - pose proof (Hcc _ Hin) as Hc. inversion Hc as [| | | |? ? ? Ho Hall]; subst.
    eapply DcInChoice; [exact Hin|exact Hk|]. rewrite Ho. cbn [andb]. apply IH; eauto.
Qed.

Lemma schema_len1 cs n s : schema_at cs [Kid n] = Some s -> In s cs.
Proof.
  unfold schema_at. cbn [sub entry_schema]. destruct (nth_error cs n) as [t|] eqn:E; [|discriminate].
  intros H. injection H as <-. eapply nth_error_In; eauto.
Qed.

(** What [compile] makes of a data definition statement. *)
Lemma compile_one po cfg ch keys y s : (forall n c cases, y <> YChoice n c cases) -> In s (compile po cfg ch keys y) ->
  exists h, s_info s = info_of h ch cfg /\
  ((exists lt d yt, y = YLeaf h lt d yt /\ exists k, s = SLeaf (info_of h ch cfg) lt d yt k) \/
   (exists ts yt, y = YLeafList h ts yt /\ s = SLeafList (info_of h ch cfg) ts yt) \/
   (exists pr cs, y = YCont h pr cs /\
      s = SCont (info_of h ch cfg) (po && pr) (flat_map (compile po (cfg && own_config (y_config h)) ch []) cs)) \/
   (exists key od cs ks ks', y = YList h key od cs /\
      s = SList (info_of h ch cfg) ks od (flat_map (compile po (cfg && own_config (y_config h)) ch ks') cs))).
Proof.
  intros Hn H. destruct y as [h lt d yt|h ts yt|h pr cs|h key od cs|n c cases].
  - destruct H as [<-|[]]. exists h. split; [reflexivity|]. left. eauto 6.
  - destruct H as [<-|[]]. exists h. split; [reflexivity|]. right. left. eauto.
  - cbn [compile] in H. exists h. destruct cs as [|c cs].
    + destruct (po && pr) eqn:E; [|contradiction]. destruct H as [<-|[]]. split; [reflexivity|]. right. right. left.
      exists pr, []. split; [reflexivity|]. now rewrite E.
    + destruct H as [<-|[]]. split; [reflexivity|]. right. right. left. now exists pr, (c :: cs).
  - cbn [compile] in H. exists h. destruct cs as [|c cs]; [contradiction|].
    destruct H as [<-|[]]. split; [reflexivity|]. right. right. right. eexists key, od, (c :: cs), _, _. split; reflexivity.
  - now destruct (Hn n c cases).
Qed.

Theorem compile_config po : forall N p ss cfg ch keys s dp, (length p <= N)%nat -> ends_kid p ->
  (forall y, In y ss -> choice_config_free y) ->
  schema_at (flat_map (compile po cfg ch keys) ss) p = Some s ->
  named_at (flat_map (compile po cfg ch keys) ss) p = Some dp ->
  declared cfg ss (plain_names dp) (e_rw (s_info s)).
Proof.
  induction N as [|N IH]; intros p ss cfg ch keys s dp Hl He Hcc Hs Hn.
  { destruct p; [|cbn in Hl; lia]. destruct He as (p0 & n & E). now destruct p0. }
  destruct p as [|[n|k] p]; [destruct He as (p0 & n & E); now destruct p0| |discriminate].
  unfold schema_at in Hs. unfold named_at in Hn. cbn [sub named entry_schema] in Hs, Hn.
  destruct (nth_error (flat_map (compile po cfg ch keys) ss) n) as [t|] eqn:En; [|discriminate].
  pose proof (nth_error_In _ _ En) as Hin.
  destruct (compile_all_found po cfg ch keys ss t Hin) as (ch' & y & Hf & Hc).
  assert (Hccy : choice_config_free y).
  { eapply found_prop; [|exact Hf|exact Hcc]. intros m c cases H k0 ss0 s0. inversion H; subst. eauto. }
  destruct (compile_one po cfg ch' keys y t (found_data _ _ _ _ Hf) Hc) as (h & Hi & Hcase).
  destruct (named t p) as [dp'|] eqn:Enm; [|discriminate]. cbn [option_map] in Hn. injection Hn as <-.
  apply (found_declared _ _ _ _ Hf Hcc).
  replace (e_yang (s_info t)) with (y_name h) by (rewrite Hi; reflexivity). cbn [plain_names].
  destruct p as [|a p].
  - injection Hs as <-. injection Enm as <-. cbn [plain_names]. rewrite Hi. cbn [info_of e_rw].
    destruct Hcase as [(lt & d & yt & -> & _)|[(ts & yt & -> & _)|[(pr & cs & -> & _)|(key & od & cs & ks & ks' & -> & _)]]].
    + eapply DcLeaf. now left.
    + eapply DcLeafList. now left.
    + eapply DcCont. now left.
    + eapply DcList. now left.
  - assert (He' : ends_kid (a :: p)).
    { destruct He as (p0 & m & E). destruct p0 as [|b p0]; [discriminate|]. injection E as <- E. now exists p0, m. }
    destruct Hcase as [(lt & d & yt & -> & k' & ->)|[(ts & yt & -> & ->)|[(pr & cs & -> & ->)|(key & od & cs & ks & ks' & -> & ->)]]].
    + destruct a; discriminate.
    + destruct a; discriminate.
    + destruct a as [m|k]; [|discriminate].
      eapply DcInCont; [now left|]. rewrite andb_comm. 
      refine (IH (Kid m :: p) cs _ ch' [] s dp' _ He' _ Hs Enm); [cbn in *; lia|].
      intros y Hy. inversion Hccy; subst. auto.
    + destruct a as [m|k]; [discriminate|]. cbn [sub named] in Hs, Enm.
      destruct (named (entry_schema (flat_map (compile po (cfg && own_config (y_config h)) ch' ks') cs)) p) as [dp''|] eqn:E; [|discriminate].
      injection Enm as <-. cbn [plain_names].
      eapply DcInList; [now left|]. rewrite andb_comm.
      assert (He'' : ends_kid p).
      { destruct He' as (p0 & m & E'). destruct p0 as [|b p0]; [discriminate|]. injection E' as <- E'. now exists p0, m. }
      refine (IH p cs _ ch' ks' s dp'' _ He'' _ Hs E); [cbn in *; lia|].
      intros y Hy. inversion Hccy; subst. auto.
Qed.

(* ------------------------------------------------------------------ determinism of [declared] *)
Lemma NoDup_flat_map {A B} (f : A -> list B) l a b x : NoDup (flat_map f l) -> In a l -> In b l ->
  In x (f a) -> In x (f b) -> a = b.
Proof.
  induction l as [|c l IH]; intros Hd Ha Hb Hxa Hxb; [contradiction|].
  cbn [flat_map] in Hd.
  assert (Hdisj : forall z, In z (f c) -> In z (flat_map f l) -> False).
  { clear - Hd. intros z H1 H2. revert Hd H1. generalize (f c). induction l0 as [|y l0 IH0]; intros Hd H1; [contradiction|].
    cbn in Hd. inversion Hd as [|? ? Hn Hd']; subst. destruct H1 as [->|H1]; [|eauto]. apply Hn. apply in_or_app. now right. }
  assert (Hdl : NoDup (flat_map f l)).
  { clear - Hd. revert Hd. generalize (f c). induction l0 as [|y l0 IH0]; intros Hd; [exact Hd|]. cbn in Hd. inversion Hd; auto. }
  destruct Ha as [->|Ha], Hb as [->|Hb]; auto.
  - exfalso. apply (Hdisj x Hxa). apply in_flat_map. now exists b.
  - exfalso. apply (Hdisj x Hxb). apply in_flat_map. now exists a.
Qed.

Lemma NoDup_flat_map_in {A B} (f : A -> list B) l a : NoDup (flat_map f l) -> In a l -> NoDup (f a).
Proof.
  induction l as [|c l IH]; intros Hd Ha; [contradiction|]. cbn [flat_map] in Hd. destruct Ha as [->|Ha].
  - clear - Hd. revert Hd. generalize (flat_map f l). intros l0. generalize (f a). induction l1 as [|y l1 IH1]; intros Hd; [constructor|].
    cbn in Hd. inversion Hd as [|? ? Hn Hd']; subst. constructor; auto. intros H; apply Hn. apply in_or_app. now left.
  - apply IH; auto. clear - Hd. revert Hd. generalize (f c). induction l0 as [|y l0 IH0]; intros Hd; [exact Hd|]. cbn in Hd. inversion Hd; auto.
Qed.

Lemma declared_level ctx ss ns b : declared ctx ss ns b -> exists n ns', ns = n :: ns' /\ In n (flat_map level_names ss).
Proof.
  induction 1; try (eexists _, _; split; [reflexivity|]; apply in_flat_map; eexists; split; [eassumption|]; now left).
  destruct IHdeclared as (n0 & ns' & -> & Hin). exists n0, ns'. split; [reflexivity|].
  apply in_flat_map. eexists. split; [exact H|]. cbn [level_names]. apply in_flat_map. exists (k, cs). auto.
Qed.

Lemma cross ss y n c cases k cs ctx nm ns b : NoDup (flat_map level_names ss) -> In y ss -> In nm (level_names y) ->
  In (YChoice n c cases) ss -> In (k, cs) cases -> declared ctx cs (nm :: ns) b -> y = YChoice n c cases.
Proof.
  intros Hnd Hy Hnm Hi Hk Hd. eapply (NoDup_flat_map level_names); eauto. cbn [level_names].
  apply in_flat_map. exists (k, cs). split; [exact Hk|].
  destruct (declared_level _ _ _ _ Hd) as (n3 & ns3 & E & Hl3). now injection E as <- <-.
Qed.

Theorem declared_fun ctx ss ns b : declared ctx ss ns b -> ywf_all ss -> forall b', declared ctx ss ns b' -> b' = b.
Proof.
  intros H. induction H as [ctx ss h lt d y Hi|ctx ss h ts y Hi|ctx ss h pr cs Hi|ctx ss h key od cs Hi
    |ctx ss h pr cs ns b Hi Hd IH|ctx ss h key od cs ns b Hi Hd IH|ctx ss n c cases k cs ns b Hi Hk Hd IH]; intros [Hnd Hwf] b' Hb.
  all: assert (Huniq : forall y1 y2 x, In y1 ss -> In y2 ss -> In x (level_names y1) -> In x (level_names y2) -> y1 = y2)
         by (intros; eapply NoDup_flat_map; eassumption).
  all: inversion Hb as [? ? h2 lt2 d2 yt2 Hi2|? ? h2 ts2 yt2 Hi2|? ? h2 pr2 cs2 Hi2|? ? h2 key2 od2 cs2 Hi2
    |? ? h2 pr2 cs2 ns2 bb Hi2 Hd2|? ? h2 key2 od2 cs2 ns2 bb Hi2 Hd2|? ? n2 c2 cases2 k2 cs2 ns2 bb Hi2 Hk2 Hd2]; subst.
  all: try match goal with
       | H1 : In ?y1 ?ss, H2 : In ?y2 ?ss, E : y_name ?h2 = y_name ?h1 |- _ =>
           let H := fresh in assert (H : y1 = y2) by (apply (Huniq y1 y2 (y_name h1)); auto; cbn; auto); try discriminate H; injection H; intros; subst
       end; try reflexivity.
  all: try (destruct (declared_level _ _ _ _ Hd) as (? & ? & E & _); discriminate).
  all: try (destruct (declared_level _ _ _ _ Hd2) as (? & ? & E & _); discriminate).
  all: try (match goal with
            | H1 : In (YLeaf ?h _ _ _) ?l, H2 : In (YChoice _ _ _) ?l, H3 : declared _ _ (y_name ?h :: _) _ |- _ =>
                pose proof (cross _ _ _ _ _ _ _ _ _ _ _ Hnd H1 (or_introl eq_refl) H2 ltac:(eassumption) H3)
            | H1 : In (YLeafList ?h _ _) ?l, H2 : In (YChoice _ _ _) ?l, H3 : declared _ _ (y_name ?h :: _) _ |- _ =>
                pose proof (cross _ _ _ _ _ _ _ _ _ _ _ Hnd H1 (or_introl eq_refl) H2 ltac:(eassumption) H3)
            | H1 : In (YCont ?h _ _) ?l, H2 : In (YChoice _ _ _) ?l, H3 : declared _ _ (y_name ?h :: _) _ |- _ =>
                pose proof (cross _ _ _ _ _ _ _ _ _ _ _ Hnd H1 (or_introl eq_refl) H2 ltac:(eassumption) H3)
            | H1 : In (YList ?h _ _ _) ?l, H2 : In (YChoice _ _ _) ?l, H3 : declared _ _ (y_name ?h :: _) _ |- _ =>
                pose proof (cross _ _ _ _ _ _ _ _ _ _ _ Hnd H1 (or_introl eq_refl) H2 ltac:(eassumption) H3)
            end; discriminate).
  - apply IH; auto. pose proof (Hwf _ Hi) as Hw. inversion Hw; subst. split; auto.
  - apply IH; auto. pose proof (Hwf _ Hi) as Hw. inversion Hw; subst. split; auto.
  - destruct (declared_level _ _ _ _ Hd) as (n3 & ns3 & -> & Hl3).
    destruct (declared_level _ _ _ _ Hd2) as (n4 & ns4 & E & Hl4). injection E as <- <-.
    assert (Hx : YChoice n c cases = YChoice n2 c2 cases2).
    { apply (Huniq _ _ n3); auto; cbn [level_names]; apply in_flat_map; [exists (k, cs)|exists (k2, cs2)]; auto. }
    injection Hx as <- <- <-.
    assert (Hnd2 : NoDup (level_names (YChoice n c cases))) by (eapply NoDup_flat_map_in; eassumption).
    cbn [level_names] in Hnd2.
    assert (Hcase : (k, cs) = (k2, cs2)).
    { eapply (NoDup_flat_map _ _ _ _ n3 Hnd2); auto. }
    injection Hcase as <- <-. apply IH; auto. split.
    + exact (NoDup_flat_map_in _ _ (k, cs) Hnd2 Hk).
    + intros s Hs. pose proof (Hwf _ Hi) as Hw. inversion Hw; subst. eauto.
Qed.

(* ------------------------------------------------------------------ choices *)
Lemma found_no_choice ch ss ch' y : found ch ss ch' y -> (forall s, In s ss -> no_choice s) -> ch' = ch /\ In y ss.
Proof. intros H Hall. destruct H as [? ? ? Hi _|? ? ? ? ? ? ? ? ? Hi]; [auto|]. pose proof (Hall _ Hi) as Hx. inversion Hx. Qed.

Lemma compile_tag po : forall N p ss cfg ch keys s, (length p <= N)%nat ->
  (forall y, In y ss -> no_choice y) ->
  schema_at (flat_map (compile po cfg ch keys) ss) p = Some s -> forall tg, s_tag s = Some tg -> ch = Some tg.
Proof.
  induction N as [|N IH]; intros p ss cfg ch keys s Hl Hnc Hs tg Ht.
  { destruct p; [|cbn in Hl; lia]. injection Hs as <-. discriminate. }
  destruct p as [|[n|k] p]; [injection Hs as <-; discriminate| |discriminate].
  unfold schema_at in Hs. cbn [sub entry_schema] in Hs.
  destruct (nth_error (flat_map (compile po cfg ch keys) ss) n) as [t|] eqn:En; [|discriminate].
  pose proof (nth_error_In _ _ En) as Hin.
  destruct (compile_all_found po cfg ch keys ss t Hin) as (ch' & y & Hf & Hc).
  destruct (found_no_choice _ _ _ _ Hf Hnc) as [-> Hy]. pose proof (Hnc _ Hy) as Hncy.
  destruct (compile_one po cfg ch keys y t (found_data _ _ _ _ Hf) Hc) as (h & Hi & Hcase).
  destruct p as [|a p].
  - injection Hs as <-. unfold s_tag in Ht. rewrite Hi in Ht. exact Ht.
  - destruct Hcase as [(lt & d & yt & -> & k' & ->)|[(ts & yt & -> & ->)|[(pr & cs & -> & ->)|(key & od & cs & ks & ks' & -> & ->)]]].
    + destruct a; discriminate.
    + destruct a; discriminate.
    + destruct a as [m|k]; [|discriminate].
      refine (IH (Kid m :: p) cs _ ch [] s _ _ Hs tg Ht); [cbn in *; lia|]. intros z Hz. inversion Hncy; subst. auto.
    + destruct a as [m|k]; [discriminate|]. cbn [sub] in Hs.
      refine (IH p cs _ ch ks' s _ _ Hs tg Ht); [cbn in *; lia|]. intros z Hz. inversion Hncy; subst. auto.
Qed.

Lemma found_no_nested ss ch' y : found None ss ch' y -> (forall s, In s ss -> no_nested_choice s) ->
  (ch' = None /\ In y ss) \/ (exists tg, ch' = Some tg /\ no_choice y).
Proof.
  intros H Hall. inversion H as [? ? ? Hi _|? ? ? ? ? ? ? ? ? Hi Hk Hf]; subst; [now left|]. right.
  pose proof (Hall _ Hi) as Hx. inversion Hx as [| | | |? ? ? Hc]; subst.
  destruct (found_no_choice _ _ _ _ Hf (fun s Hs => Hc _ _ s Hk Hs)) as [-> Hy]. eauto.
Qed.

Lemma compile_uniform_gen po : forall N p q ss cfg keys s t tg tg', (length p <= N)%nat ->
  (forall y, In y ss -> no_nested_choice y) ->
  schema_at (flat_map (compile po cfg None keys) ss) p = Some s -> s_tag s = Some tg ->
  schema_at (flat_map (compile po cfg None keys) ss) (p ++ q) = Some t -> s_tag t = Some tg' -> tg' = tg.
Proof.
  induction N as [|N IH]; intros p q ss cfg keys s t tg tg' Hl Hnn Hs Ht Hs' Ht'.
  { destruct p; [|cbn in Hl; lia]. injection Hs as <-. discriminate. }
  destruct p as [|[n|k] p]; [injection Hs as <-; discriminate| |discriminate].
  unfold schema_at in Hs, Hs'. cbn [sub entry_schema app] in Hs, Hs'.
  destruct (nth_error (flat_map (compile po cfg None keys) ss) n) as [u|] eqn:En; [|discriminate].
  pose proof (nth_error_In _ _ En) as Hin.
  destruct (compile_all_found po cfg None keys ss u Hin) as (ch' & y & Hf & Hc).
  destruct (compile_one po cfg ch' keys y u (found_data _ _ _ _ Hf) Hc) as (h & Hi & Hcase).
  destruct (found_no_nested _ _ _ Hf Hnn) as [[-> Hy]|(tg0 & -> & Hy)].
  - pose proof (Hnn _ Hy) as Hnny.
    destruct p as [|a p].
    + injection Hs as <-. unfold s_tag in Ht. rewrite Hi in Ht. discriminate.
    + destruct Hcase as [(lt & d & yt & -> & k' & ->)|[(ts & yt & -> & ->)|[(pr & cs & -> & ->)|(key & od & cs & ks & ks' & -> & ->)]]].
      * destruct a; discriminate.
      * destruct a; discriminate.
      * destruct a as [m|k]; [|discriminate].
        refine (IH (Kid m :: p) q cs _ [] s t tg tg' _ _ Hs Ht Hs' Ht'); [cbn in *; lia|]. intros z Hz. inversion Hnny; subst. auto.
      * destruct a as [m|k]; [discriminate|]. cbn [sub app] in Hs, Hs'.
        refine (IH p q cs _ ks' s t tg tg' _ _ Hs Ht Hs' Ht'); [cbn in *; lia|]. intros z Hz. inversion Hnny; subst. auto.
  - (* everything from here on is in the case found *)
    assert (Hall : forall r v tgv, sub u r = Some v -> s_tag v = Some tgv -> tgv = tg0).
    { intros r v tgv Hr Hv.
      apply In_nth_error in Hc. destruct Hc as [j Hj].
      assert (Hx : schema_at (flat_map (compile po cfg (Some tg0) keys) [y]) (Kid j :: r) = Some v).
      { unfold schema_at. cbn [sub entry_schema flat_map]. rewrite app_nil_r, Hj. exact Hr. }
      assert (E : Some tg0 = Some tgv) by
        (refine (compile_tag po (S (length r)) (Kid j :: r) [y] cfg (Some tg0) keys v _ _ Hx tgv Hv); [cbn; lia|intros z [<-|[]]; exact Hy]).
      now injection E as <-. }
    rewrite (Hall _ _ _ Hs Ht). exact (Hall _ _ _ Hs' Ht').
Qed.

Theorem compile_uniform po ss : (forall y, In y ss -> no_nested_choice y) -> uniform (compile_module po ss).
Proof. intros Hnn p q s t tg tg' H1 H2 H3 H4. eapply (compile_uniform_gen po (length p)); eauto. Qed.

(* ------------------------------------------------------------------ config and assignment *)
Lemma exec_ext (O : oracle) o1 o2 : forall N p live cs kids, (length p <= N)%nat ->
  (forall s x, schema_at cs p = Some s -> apply O s x o1 = apply O s x o2) ->
  exec O live cs kids p o1 = exec O live cs kids p o2.
Proof.
  induction N as [|N IH]; intros p live cs kids Hl H; [destruct p; [reflexivity|cbn in Hl; lia]|].
  destruct p as [|[n|k] p]; try reflexivity. cbn [exec].
  destruct (nth_error cs n) as [s|] eqn:En; [|reflexivity]. destruct (nth_error kids n) as [x|]; [|reflexivity].
  destruct p as [|[m|k] p].
  - rewrite (H s x); [reflexivity|]. unfold schema_at. cbn [sub entry_schema]. now rewrite En.
  - destruct s as [| |i pr cs'|]; try reflexivity. destruct x as [| |ch pres kk|]; try reflexivity.
    rewrite (IH (Kid m :: p) true cs' kk); [reflexivity|cbn in *; lia|].
    intros s x Hs. apply H. unfold schema_at in *. cbn [sub entry_schema] in *. rewrite En. exact Hs.
  - destruct s as [| | |i keys od cs']; try reflexivity. destruct x as [| | |ch es]; try reflexivity.
    destruct (mget k es) as [[]|]; try reflexivity.
    rewrite (IH p true cs' kids0); [reflexivity|cbn in *; lia|].
    intros s x Hs. apply H. unfold schema_at in *. cbn [sub entry_schema] in *. rewrite En. exact Hs.
Qed.

Lemma assign_rw (O : oracle) cs kids p s a : schema_at cs p = Some s -> e_rw (s_info s) = true ->
  module_exec O cs kids p (ASet Attr a) = module_exec O cs kids p (ASet (Priv false) a).
Proof.
  intros Hs Hrw. unfold module_exec. rewrite (exec_ext O (ASet Attr a) (ASet (Priv false) a) (length p) p); [reflexivity|lia|].
  intros s' x Hs'. rewrite Hs in Hs'. injection Hs' as <-. cbn [apply]. unfold assign. now rewrite Hrw.
Qed.

Lemma assign_ro (O : oracle) cs kids p s x a : shaped cs kids -> ends_kid p -> schema_at cs p = Some s -> at_path kids p = Some x ->
  e_rw (s_info s) = false -> module_exec O cs kids p (ASet Attr a) = (kids, Raise AttributeError).
Proof.
  intros Hs He Hsc Hx Hrw. eapply quiet_rejection; eauto. cbn [apply]. unfold assign. now rewrite Hrw.
Qed.

Theorem config_main (O : oracle) po ss p s dp kids x a :
  (forall y, In y ss -> choice_config_free y) -> ywf_all ss ->
  shaped (compile_module po ss) kids -> ends_kid p ->
  schema_at (compile_module po ss) p = Some s -> at_path kids p = Some x -> named_at (compile_module po ss) p = Some dp ->
  exists b, declared true ss (plain_names dp) b /\ (forall b', declared true ss (plain_names dp) b' -> b' = b) /\
    (b = true -> module_exec O (compile_module po ss) kids p (ASet Attr a) = module_exec O (compile_module po ss) kids p (ASet (Priv false) a)) /\
    (b = false -> module_exec O (compile_module po ss) kids p (ASet Attr a) = (kids, Raise AttributeError)).
Proof.
  intros Hcc Hwf Hs He Hsc Hx Hn.
  assert (Hd : declared true ss (plain_names dp) (e_rw (s_info s))).
  { refine (compile_config po (length p) p ss true None [] s dp _ He Hcc Hsc Hn). lia. }
  exists (e_rw (s_info s)). split; [exact Hd|]. split; [intros b' Hb'; eapply declared_fun; eauto|]. split; intros Hb.
  - eapply assign_rw; eauto.
  - eapply assign_ro; eauto.
Qed.

(* ------------------------------------------------------------------ names *)
Inductive subseq {A} : list A -> list A -> Prop :=
| SsNil : subseq [] []
| SsSkip x l l' : subseq l l' -> subseq l (x :: l')
| SsTake x l l' : subseq l l' -> subseq (x :: l) (x :: l').
Lemma subseq_refl {A} (l : list A) : subseq l l.
Proof. induction l; [constructor|now apply SsTake]. Qed.
Lemma subseq_nil {A} (l : list A) : subseq [] l.
Proof. induction l; [constructor|now apply SsSkip]. Qed.
Lemma subseq_app {A} (a a' : list A) : subseq a a' -> forall b b', subseq b b' -> subseq (a ++ b) (a' ++ b').
Proof. induction 1; intros b b' Hb; cbn [app]; [exact Hb|apply SsSkip; auto|apply SsTake; auto]. Qed.
Lemma subseq_in {A} (l l' : list A) : subseq l l' -> forall x, In x l -> In x l'.
Proof. induction 1; intros y; [auto|right; auto|]. intros [->|Hy]; [now left|right; auto]. Qed.
Lemma subseq_NoDup {A} (l l' : list A) : subseq l l' -> NoDup l' -> NoDup l.
Proof. induction 1; intros Hn; [constructor| |]; inversion Hn; subst; auto. constructor; auto. intros Hi. eapply subseq_in in Hi; eauto. Qed.

Definition yang_names (cs : list schema) : list str := map (fun s => e_yang (s_info s)) cs.
Lemma compile_names po cfg keys : forall y ch, subseq (yang_names (compile po cfg ch keys y)) (level_names y).
Proof.
  induction y as [h lt d yt|h ts yt|h pr cs _|h k od cs _|n c cases IH] using ystmt_ind'; intros ch; cbn [compile level_names].
  - apply subseq_refl.
  - apply subseq_refl.
  - destruct cs; [destruct (po && pr)|]; first [apply subseq_refl|apply subseq_nil].
  - destruct cs; [apply subseq_nil|apply subseq_refl].
  - induction cases as [|[k ss] cases IHc]; [constructor|]. inversion IH as [|? ? H1 H2]; subst. cbn [flat_map].
    unfold yang_names in *. rewrite map_app. apply subseq_app; [|auto]. cbn [snd] in H1. clear - H1.
    induction ss as [|s ss IHs]; [constructor|]. inversion H1; subst. cbn [flat_map]. rewrite map_app. apply subseq_app; auto.
Qed.
Lemma compile_all_names po cfg ch keys ss : subseq (yang_names (flat_map (compile po cfg ch keys) ss)) (flat_map level_names ss).
Proof.
  induction ss as [|s ss IH]; [constructor|]. cbn [flat_map]. unfold yang_names in *. rewrite map_app. apply subseq_app; [apply compile_names|exact IH].
Qed.

Lemma compile_distinct_gen po : forall N p ss cfg ch keys i pr cs, (length p <= N)%nat -> ywf_all ss ->
  schema_at (flat_map (compile po cfg ch keys) ss) p = Some (SCont i pr cs) -> NoDup (yang_names cs).
Proof.
  induction N as [|N IH]; intros p ss cfg ch keys i pr cs Hl [Hnd Hwf] Hs.
  { destruct p; [|cbn in Hl; lia]. injection Hs as _ _ <-. eapply subseq_NoDup; [apply compile_all_names|exact Hnd]. }
  destruct p as [|[n|k] p]; [injection Hs as _ _ <-; eapply subseq_NoDup; [apply compile_all_names|exact Hnd]| |discriminate].
  unfold schema_at in Hs. cbn [sub entry_schema] in Hs.
  destruct (nth_error (flat_map (compile po cfg ch keys) ss) n) as [t|] eqn:En; [|discriminate].
  pose proof (nth_error_In _ _ En) as Hin.
  destruct (compile_all_found po cfg ch keys ss t Hin) as (ch' & y & Hf & Hc).
  assert (Hwy : ywf y).
  { eapply found_prop; [|exact Hf|exact Hwf]. intros m c cases H k0 ss0 s0. inversion H; subst. eauto. }
  destruct (compile_one po cfg ch' keys y t (found_data _ _ _ _ Hf) Hc) as (h & Hi & Hcase).
  destruct Hcase as [(lt & d & yt & -> & k' & ->)|[(ts & yt & -> & ->)|[(pr' & cs' & -> & ->)|(key & od & cs' & ks & ks' & -> & ->)]]].
  - destruct p as [|[]]; discriminate.
  - destruct p as [|[]]; discriminate.
  - assert (Hw' : ywf_all cs') by (inversion Hwy; subst; split; auto).
    destruct p as [|[m|k] p]; [|refine (IH (Kid m :: p) cs' _ ch' [] i pr cs _ Hw' Hs); cbn in *; lia|discriminate].
    injection Hs as _ _ <-. destruct Hw' as [Hnd' _]. eapply subseq_NoDup; [apply compile_all_names|exact Hnd'].
  - assert (Hw' : ywf_all cs') by (inversion Hwy; subst; split; auto).
    destruct p as [|[m|k] p]; [discriminate|discriminate|]. cbn [sub] in Hs.
    refine (IH p cs' _ ch' ks' i pr cs _ Hw' Hs). cbn in *; lia.
Qed.

Theorem compile_distinct po ss : ywf_all ss -> distinct_names (compile_module po ss).
Proof. intros Hw p i pr cs' H. eapply (compile_distinct_gen po (length p)); eauto. Qed.

Theorem compile_choice_free po ss : (forall y, In y ss -> no_choice y) -> choice_free (compile_module po ss).
Proof.
  intros Hn p s Hs. destruct (s_tag s) as [tg|] eqn:E; [|reflexivity].
  pose proof (compile_tag po (length p) p ss true None [] s (le_n _) Hn Hs tg E). discriminate.
Qed.

Lemma prefix_of_len {A} (r : list A) : forall t p a b, p = r ++ a -> p = t ++ b -> (length r <= length t)%nat -> exists q, t = r ++ q.
Proof.
  induction r as [|x r IH]; intros t p a b E1 E2 Hl; [now exists t|].
  destruct t as [|y t]; [cbn in Hl; lia|]. subst p. injection E2 as -> E2.
  destruct (IH t _ a b eq_refl E2) as (q & ->); [cbn in Hl; lia|]. now exists q.
Qed.

Lemma uniform_no_rival cs p : uniform cs -> forall r, prefix r p -> ~ rival cs p r.
Proof.
  intros Hu r (a & Hr) (s & c & k' & t & st & k & _ & _ & Hs & Ht & (b & Hp) & Hl & Hst & Htt & Hne).
  destruct (prefix_of_len r t p a b Hr Hp Hl) as (q & ->).
  pose proof (Hu r q s st _ _ Hs Ht Hst Htt) as E. congruence.
Qed.

(* ------------------------------------------------------------------ key leaves *)
Lemma compile_flag po cfg keys j lt d yt k : forall y ch, In (SLeaf j lt d yt k) (compile po cfg ch keys y) -> k = str_in (e_yang j) keys.
Proof.
  induction y as [h lt' d' yt'|h ts yt'|h pr cs _|h ky od cs _|n c cases IH] using ystmt_ind'; intros ch H.
  - destruct H as [E|[]]. injection E as <- _ _ _ <-. reflexivity.
  - destruct H as [E|[]]. discriminate.
  - cbn [compile] in H. destruct cs; [destruct (po && pr); [|contradiction]|]; destruct H as [E|[]]; discriminate.
  - cbn [compile] in H. destruct cs; [contradiction|]. destruct H as [E|[]]; discriminate.
  - cbn [compile] in H. apply in_flat_map in H as ([q ss] & Hin & H). apply in_flat_map in H as (y & Hy & H).
    rewrite Forall_forall in IH. specialize (IH _ Hin). cbn [snd] in IH. rewrite Forall_forall in IH. now apply (IH y Hy (Some (n, q))).
Qed.
Theorem key_flags po cfg ch keys h key od cs s : In s (compile po cfg ch keys (YList h key od cs)) ->
  exists i ka cs', s = SList i ka od cs' /\
    forall j lt d yt k, In (SLeaf j lt d yt k) cs' -> (k = true <-> exists ks, key = Some (join (lit " ") ks) /\ Forall (fun w => ~ In 32%N w) ks /\ In (e_yang j) ks).
Proof.
  intros H. cbn [compile] in H. destruct cs as [|c cs]; [contradiction|]. destruct H as [<-|[]]. do 3 eexists. split; [reflexivity|].
  intros j lt d yt k Hi. apply in_flat_map in Hi as (y & _ & Hi). apply compile_flag in Hi. subst k. rewrite str_in_In. split.
  - destruct key as [q|]; [|intros []]. intros Hi. exists (split_on 32 q). split; [f_equal; symmetry; apply (join_split 32 q)|]. split; [|exact Hi].
    apply split_on_Forall.
  - intros (ks & -> & Hf & Hi). assert (E : split_on 32 (join (lit " ") ks) = ks); [|now rewrite E]. change (lit " ") with [32%N].
    apply split_join; [|assumption]. intros ->. destruct Hi.
Qed.
Theorem no_key_flags po cfg ch keys h pr cs s : In s (compile po cfg ch keys (YCont h pr cs)) ->
  exists i p cs', s = SCont i p cs' /\ forall j lt d yt k, In (SLeaf j lt d yt k) cs' -> k = false.
Proof.
  intros H. cbn [compile] in H. destruct cs as [|c cs].
  - destruct (po && pr); [|contradiction]. destruct H as [<-|[]]. do 3 eexists. split; [reflexivity|]. intros ? ? ? ? ? [].
  - destruct H as [<-|[]]. do 3 eexists. split; [reflexivity|]. intros j lt d yt k Hi. apply in_flat_map in Hi as (y & _ & Hi). now apply compile_flag in Hi.
Qed.
