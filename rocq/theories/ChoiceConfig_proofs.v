(** Config statements of choices. *)
From Verif Require Import PyStr PyStr_facts PyVal Restricted SafeName Spec_Lists YList Tree Spec_Tree Tree_proofs Tree_frame Tree_main
  Compile Spec_Compile Compile_proofs Spec_ChoiceConfig.
Import ListNotations.

(** The statements without the config of choices. *)
Fixpoint bare (s : ystmt) : ystmt :=
  match s with
  | YLeaf h lt d y => YLeaf h lt d y
  | YLeafList h ts y => YLeafList h ts y
  | YCont h pr cs => YCont h pr (map bare cs)
  | YList h key od cs => YList h key od (map bare cs)
  | YChoice n _ cases => YChoice n None (map (fun kc => match kc with (k, ss) => (k, map bare ss) end) cases)
  end.

Lemma flat_map_bare {A} (f : ystmt -> list A) l : Forall (fun s => f (bare s) = f s) l -> flat_map f (map bare l) = flat_map f l.
Proof. induction 1 as [|s l H _ IH]; [reflexivity|]. cbn [map flat_map]. now rewrite H, IH. Qed.
Lemma compile_bare po s : forall cfg ch keys, compile po cfg ch keys (bare s) = compile po cfg ch keys s.
Proof.
  induction s as [h lt d y|h ts y|h pr cs IH|h k od cs IH|n c cases IH] using ystmt_ind'; intros cfg ch keys; try reflexivity.
  - cbn [bare compile]. destruct cs as [|s cs]; [reflexivity|]. cbn [map]. f_equal. f_equal.
    change (bare s :: map bare cs) with (map bare (s :: cs)). apply flat_map_bare. apply Forall_forall. intros x Hx. exact (proj1 (Forall_forall _ _) IH x Hx _ _ _).
  - cbn [bare compile]. destruct cs as [|s cs]; [reflexivity|]. cbn [map]. f_equal. f_equal.
    change (bare s :: map bare cs) with (map bare (s :: cs)). apply flat_map_bare. apply Forall_forall. intros x Hx. exact (proj1 (Forall_forall _ _) IH x Hx _ _ _).
  - cbn [bare compile]. induction IH as [|[k ss] cases H _ IHc]; [reflexivity|]. cbn [map flat_map]. rewrite IHc. f_equal.
    apply flat_map_bare. apply Forall_forall. intros x Hx. exact (proj1 (Forall_forall _ _) H x Hx _ _ _).
Qed.
Lemma module_bare po ss : compile_module po (map bare ss) = compile_module po ss.
Proof. unfold compile_module. apply flat_map_bare. apply Forall_forall. intros s _. apply compile_bare. Qed.
Lemma bare_free s : choice_config_free (bare s).
Proof.
  induction s as [h lt d y|h ts y|h pr cs IH|h k od cs IH|n c cases IH] using ystmt_ind'; cbn [bare]; constructor; try reflexivity.
  - intros s Hs. apply in_map_iff in Hs as (x & <- & Hx). exact (proj1 (Forall_forall _ _) IH x Hx).
  - intros s Hs. apply in_map_iff in Hs as (x & <- & Hx). exact (proj1 (Forall_forall _ _) IH x Hx).
  - intros k ss s Hk Hs. apply in_map_iff in Hk as ([k' ss'] & E & Hk). injection E as <- <-. apply in_map_iff in Hs as (x & <- & Hx).
    exact (proj1 (Forall_forall _ _) (proj1 (Forall_forall _ _) IH _ Hk) x Hx).
Qed.
Lemma bare_level s : level_names (bare s) = level_names s.
Proof.
  induction s as [h lt d y|h ts y|h pr cs IH|h k od cs IH|n c cases IH] using ystmt_ind'; try reflexivity.
  cbn [bare level_names]. induction IH as [|[k ss] cases H _ IHc]; [reflexivity|]. cbn [map flat_map]. rewrite IHc. f_equal. now apply flat_map_bare.
Qed.
Lemma bare_levels l : flat_map level_names (map bare l) = flat_map level_names l.
Proof. apply flat_map_bare. apply Forall_forall. intros s _. apply bare_level. Qed.
Lemma bare_wf s : ywf s -> ywf (bare s).
Proof.
  induction s as [h lt d y|h ts y|h pr cs IH|h k od cs IH|n c cases IH] using ystmt_ind'; intros H; inversion H as [| |? ? ? Hn Hs|? ? ? ? Hn Hs|? ? ? Hs]; subst; cbn [bare]; constructor; try (now rewrite bare_levels).
  - intros s Hx. apply in_map_iff in Hx as (x & <- & Hx). exact (proj1 (Forall_forall _ _) IH x Hx (Hs x Hx)).
  - intros s Hx. apply in_map_iff in Hx as (x & <- & Hx). exact (proj1 (Forall_forall _ _) IH x Hx (Hs x Hx)).
  - intros k ss s Hk Hx. apply in_map_iff in Hk as ([k' ss'] & E & Hk). injection E as <- <-. apply in_map_iff in Hx as (x & <- & Hx).
    exact (proj1 (Forall_forall _ _) (proj1 (Forall_forall _ _) IH _ Hk) x Hx (Hs _ _ _ Hk Hx)).
Qed.
Lemma bare_all ss : ywf_all ss -> ywf_all (map bare ss).
Proof.
  intros [Hn Hs]. split; [now rewrite bare_levels|]. intros s Hx. apply in_map_iff in Hx as (x & <- & Hx). apply bare_wf, Hs, Hx.
Qed.

(** The same nodes, with the config that counts. *)
Lemma own_bare ctx ss ns b : declared_own ctx ss ns b -> declared ctx (map bare ss) ns b.
Proof.
  induction 1 as [ctx ss h lt d y Hi|ctx ss h ts y Hi|ctx ss h pr cs Hi|ctx ss h key od cs Hi|ctx ss h pr cs ns b Hi _ IH|ctx ss h key od cs ns b Hi _ IH|ctx ss n c cases k cs ns b Hi Hk _ IH];
    apply (in_map bare) in Hi; cbn [bare] in Hi.
  - eapply DcLeaf; exact Hi.
  - eapply DcLeafList; exact Hi.
  - eapply DcCont; exact Hi.
  - eapply DcList; exact Hi.
  - eapply DcInCont; [exact Hi|exact IH].
  - eapply DcInList; [exact Hi|exact IH].
  - eapply DcInChoice; [exact Hi| |cbn [own_config andb]; exact IH]. apply in_map_iff. exists (k, cs). split; [reflexivity|exact Hk].
Qed.
Lemma bare_own ctx ss ns b : declared ctx ss ns b -> forall ss', ss = map bare ss' -> declared_own ctx ss' ns b.
Proof.
  induction 1 as [ctx ss h lt d y Hi|ctx ss h ts y Hi|ctx ss h pr cs Hi|ctx ss h key od cs Hi|ctx ss h pr cs ns b Hi _ IH|ctx ss h key od cs ns b Hi _ IH|ctx ss n c cases k cs ns b Hi Hk _ IH];
    intros ss' ->; apply in_map_iff in Hi as (x & E & Hx); destruct x; cbn [bare] in E; try discriminate E.
  - injection E as -> -> -> ->. eapply DoLeaf; exact Hx.
  - injection E as -> -> ->. eapply DoLeafList; exact Hx.
  - injection E as -> -> E. eapply DoCont; exact Hx.
  - injection E as -> -> -> E. eapply DoList; exact Hx.
  - injection E as -> -> E. eapply DoInCont; [exact Hx|]. apply IH. now symmetry.
  - injection E as -> -> -> E. eapply DoInList; [exact Hx|]. apply IH. now symmetry.
  - injection E as -> <- <-. apply in_map_iff in Hk as ([k' cs'] & E & Hk). injection E as -> <-. eapply DoInChoice; [exact Hx|exact Hk|]. now apply IH.
Qed.
Lemma declared_more ctx ss ns b : declared ctx ss ns b -> forall ctx', (ctx = true -> ctx' = true) -> exists b', declared_own ctx' ss ns b' /\ (b = true -> b' = true).
Proof.
  assert (A : forall o c c' : bool, (c = true -> c' = true) -> (o && c)%bool = true -> (o && c')%bool = true).
  { intros [|] c c' H; cbn [andb]; [exact H|discriminate]. }
  induction 1 as [ctx ss h lt d y Hi|ctx ss h ts y Hi|ctx ss h pr cs Hi|ctx ss h key od cs Hi|ctx ss h pr cs ns b Hi _ IH|ctx ss h key od cs ns b Hi _ IH|ctx ss n c cases k cs ns b Hi Hk _ IH]; intros ctx' Hc.
  - eexists. split; [eapply DoLeaf; exact Hi|]. now apply A.
  - eexists. split; [eapply DoLeafList; exact Hi|]. now apply A.
  - eexists. split; [eapply DoCont; exact Hi|]. now apply A.
  - eexists. split; [eapply DoList; exact Hi|]. now apply A.
  - destruct (IH (own_config (y_config h) && ctx')%bool (A _ _ _ Hc)) as (b' & Hb & Hi'). exists b'. split; [eapply DoInCont; [exact Hi|exact Hb]|exact Hi'].
  - destruct (IH (own_config (y_config h) && ctx')%bool (A _ _ _ Hc)) as (b' & Hb & Hi'). exists b'. split; [eapply DoInList; [exact Hi|exact Hb]|exact Hi'].
  - destruct (IH ctx') as (b' & Hb & Hi'); [intros E; apply andb_prop in E; now apply Hc|]. exists b'. split; [eapply DoInChoice; [exact Hi|exact Hk|exact Hb]|exact Hi'].
Qed.

Section M.
Context (O : oracle) (po : bool) (ss : list ystmt).
Lemma own_thm p s dp kids x a : ywf_all ss ->
  shaped (compile_module po ss) kids -> ends_kid p ->
  schema_at (compile_module po ss) p = Some s -> at_path kids p = Some x -> named_at (compile_module po ss) p = Some dp ->
  exists b, declared_own true ss (plain_names dp) b /\ (forall b', declared_own true ss (plain_names dp) b' -> b' = b) /\
    (b = true -> module_exec O (compile_module po ss) kids p (ASet Attr a) = module_exec O (compile_module po ss) kids p (ASet (Priv false) a)) /\
    (b = false -> module_exec O (compile_module po ss) kids p (ASet Attr a) = (kids, Raise AttributeError)).
Proof.
  rewrite <- (module_bare po ss). intros Hwf Hs He Hsc Hx Hn.
  destruct (config_main O po (map bare ss) p s dp kids x a) as (b & Hb & Hu & Ht & Hf); try assumption.
  - intros y Hy. apply in_map_iff in Hy as (z & <- & _). apply bare_free.
  - now apply bare_all.
  - exists b. split; [exact (bare_own _ _ _ _ Hb ss eq_refl)|]. split; [intros b' Hb'; apply Hu; now apply own_bare|]. split; assumption.
Qed.
Lemma writable_thm p s dp kids x a : ywf_all ss ->
  shaped (compile_module po ss) kids -> ends_kid p ->
  schema_at (compile_module po ss) p = Some s -> at_path kids p = Some x -> named_at (compile_module po ss) p = Some dp ->
  declared true ss (plain_names dp) true ->
  module_exec O (compile_module po ss) kids p (ASet Attr a) = module_exec O (compile_module po ss) kids p (ASet (Priv false) a).
Proof.
  intros Hwf Hs He Hsc Hx Hn Hd. destruct (own_thm p s dp kids x a Hwf Hs He Hsc Hx Hn) as (b & Hb & Hu & Ht & _). apply Ht.
  destruct (declared_more _ _ _ _ Hd true (fun H => H)) as (b' & Hb' & H). rewrite <- (Hu b' Hb'). now apply H.
Qed.
End M.
