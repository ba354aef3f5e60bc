(** Proofs about the files of split classes. *)
From Verif Require Import PyStr PyStr_facts PyVal SafeName Tree Compile Compile_proofs Split Spec_Split.
From Coq Require Import Lia.
Import ListNotations.

Lemma last_cons_gen {A} (p : list A) : forall b d, last (b :: p) d = last p b.
Proof. induction p as [|c p IH]; intros b d; [reflexivity|]. change (last (b :: c :: p) d) with (last (c :: p) d). now rewrite !IH. Qed.
Lemma dirs_from_app m p : forall top prev a, dirs_from m top prev (p ++ [a]) =
  dirs_from m top prev p ++ dirs_from m (match p with [] => top | _ => false end) (last p prev) [a].
Proof.
  induction p as [|b p IH]; intros top prev a; [reflexivity|]. cbn [app dirs_from]. rewrite IH. f_equal. rewrite last_cons_gen. destruct p; reflexivity.
Qed.
Lemma dirs_snoc (m : str) (path : list str) (a : str) : a <> [] -> dirs m (path ++ [a]) = dirs m path ++ [fst (use_of (@last str path m) a)].
Proof.
  intros Ha. unfold dirs. rewrite dirs_from_app. f_equal. cbn [dirs_from use_of fst]. destruct path as [|b path].
  - cbn [last]. destruct (str_eqb_spec a []) as [->|_]; [easy|]. reflexivity.
  - rewrite !last_cons_gen. unfold use_of. cbn [andb fst]. reflexivity.
Qed.
Lemma last_snoc {A} (l : list A) a d : last (l ++ [a]) d = a.
Proof. apply last_last. Qed.

Lemma nodup_apart {A} (a b : list A) x : NoDup (a ++ b) -> In x a -> ~ In x b.
Proof.
  induction a as [|y a IH]; intros H Ha Hb; [easy|]. cbn [app] in H. apply NoDup_cons_iff in H as [Hn H]. destruct Ha as [->|Ha]; [|now apply IH].
  apply Hn. apply in_or_app. now right.
Qed.
Lemma nodup_right {A} (a b : list A) : NoDup (a ++ b) -> NoDup b.
Proof. induction a as [|y a IH]; intros H; [exact H|]. apply NoDup_cons_iff in H. now apply IH. Qed.
Lemma nodup_left {A} (a b : list A) : NoDup (a ++ b) -> NoDup a.
Proof.
  induction a as [|y a IH]; intros H; [constructor|]. apply NoDup_cons_iff in H as [Hn H]. constructor; [|now apply IH]. intros Hi. apply Hn. apply in_or_app. now left.
Qed.
(* ------------------------------------------------------------------ which files there are *)
Section Files.
Context (po : bool) (m : str).
Lemma class_names_node s a : In a (class_names po s) -> (forall n c cases, s <> YChoice n c cases) -> exists cs, node_of s a cs /\ has_class po s = true.
Proof.
  intros H Hc. destruct s; cbn [class_names] in H; try easy.
  - destruct (has_class po (YCont h presence cs)) eqn:E; [|easy]. destruct H as [<-|[]]. exists cs. split; [left; eauto|reflexivity].
  - destruct (has_class po (YList h key ordered cs)) eqn:E; [|easy]. destruct H as [<-|[]]. exists cs. split; [right; eauto|reflexivity].
  - edestruct Hc. reflexivity.
Qed.
(** Every child with a class has a file. *)
Lemma emitted s : forall path a, In a (class_names po s) -> exists cs, In (file_of po m a (path ++ [a]) cs) (emit po m path s).
Proof.
  induction s as [h lt d yt|h ts yt|h pr cs _|h k od cs _|n c cases IH] using ystmt_ind'; intros path a H; cbn [class_names] in H; try easy.
  - cbn [emit]. destruct (has_class po (YCont h pr cs)); [|easy]. destruct H as [<-|[]]. exists cs. now left.
  - cbn [emit]. destruct (has_class po (YList h k od cs)); [|easy]. destruct H as [<-|[]]. exists cs. now left.
  - apply in_flat_map in H as ([k ss] & Hk & H). apply in_flat_map in H as (s & Hs & H). rewrite Forall_forall in IH. specialize (IH _ Hk). cbn [snd] in IH.
    rewrite Forall_forall in IH. destruct (IH _ Hs path a H) as (cs & Hf). exists cs. cbn [emit]. apply in_flat_map. exists (k, ss). split; [exact Hk|]. apply in_flat_map. now exists s.
Qed.
Lemma emitted_all ss path a : In a (flat_map (class_names po) ss) -> exists cs, In (file_of po m a (path ++ [a]) cs) (flat_map (emit po m path) ss).
Proof. intros H. apply in_flat_map in H as (s & Hs & H). apply (emitted s path) in H as (cs & H). exists cs. apply in_flat_map. now exists s. Qed.

(** Every file is that of some node; its children are among the files too.  [Q] holds of all nodes with a class. *)
Definition closed (Q : str -> list ystmt -> Prop) : Prop :=
  forall n cs, Q n cs -> forall s n' sub, child_of cs s -> node_of s n' sub -> has_class po s = true -> Q n' sub.
Definition from_node (Q : str -> list ystmt -> Prop) (fs : list pyfile) (f : pyfile) : Prop :=
  exists n path cs, f = file_of po m n path cs /\ @last str path m = n /\ Q n cs /\ (forall g, In g (flat_map (emit po m path) cs) -> In g fs).
Lemma child_in ss s s' : In s ss -> child_of [s] s' -> child_of ss s'.
Proof.
  intros Hs H. inversion H; subst.
  - destruct H0 as [<-|[]]. now apply ch_here.
  - destruct H0 as [->|[]]. eapply ch_case; eassumption.
Qed.
Lemma from_stmt Q : closed Q -> forall s path fs,
  (forall s' n sub, child_of [s] s' -> node_of s' n sub -> has_class po s' = true -> Q n sub) -> (forall g, In g (emit po m path s) -> In g fs) ->
  forall f, In f (emit po m path s) -> from_node Q fs f.
Proof.
  intros HQ s. induction s as [h lt d yt|h ts yt|h pr cs IH|h k od cs IH|n c cases IH] using ystmt_ind'; intros path fs Hn Hfs f Hf; cbn [emit] in Hf, Hfs; try easy.
  - destruct (has_class po (YCont h pr cs)) eqn:Ec; [|easy]. assert (Hs : Q (y_name h) cs).
    { eapply (Hn _ (y_name h) cs); [apply ch_here; [now left|discriminate]|left; eauto|exact Ec]. }
    destruct Hf as [<-|Hf].
    + exists (y_name h), (path ++ [y_name h]), cs. split; [reflexivity|]. split; [apply last_snoc|]. split; [assumption|]. intros g Hg. apply Hfs. now right.
    + apply in_flat_map in Hf as (s & Hi & Hf). rewrite Forall_forall in IH. apply (IH s Hi (path ++ [y_name h])); [| |exact Hf].
      * intros s' n sub Hc. apply (HQ _ _ Hs). now apply (child_in cs s).
      * intros g Hg. apply Hfs. right. apply in_flat_map. now exists s.
  - destruct (has_class po (YList h k od cs)) eqn:Ec; [|easy]. assert (Hs : Q (y_name h) cs).
    { eapply (Hn _ (y_name h) cs); [apply ch_here; [now left|discriminate]|right; eauto|exact Ec]. }
    destruct Hf as [<-|Hf].
    + exists (y_name h), (path ++ [y_name h]), cs. split; [reflexivity|]. split; [apply last_snoc|]. split; [assumption|]. intros g Hg. apply Hfs. now right.
    + apply in_flat_map in Hf as (s & Hi & Hf). rewrite Forall_forall in IH. apply (IH s Hi (path ++ [y_name h])); [| |exact Hf].
      * intros s' n sub Hc. apply (HQ _ _ Hs). now apply (child_in cs s).
      * intros g Hg. apply Hfs. right. apply in_flat_map. now exists s.
  - apply in_flat_map in Hf as ([k ss] & Hk & Hf). apply in_flat_map in Hf as (s & Hs & Hf). rewrite Forall_forall in IH. specialize (IH _ Hk). cbn [snd] in IH.
    rewrite Forall_forall in IH. apply (IH s Hs path); [| |exact Hf].
    + intros s' n0 sub Hc. apply Hn. eapply ch_case; [now left|exact Hk|]. now apply (child_in ss s).
    + intros g Hg. apply Hfs. apply in_flat_map. exists (k, ss). split; [exact Hk|]. apply in_flat_map. now exists s.
Qed.
Lemma from_module Q ss f : closed Q -> Q m ss -> In f (emit_module po m ss) -> from_node Q (emit_module po m ss) f.
Proof.
  intros HQ Hn Hf. destruct Hf as [<-|Hf].
  - exists m, [], ss. split; [reflexivity|]. split; [reflexivity|]. split; [assumption|]. intros g Hg. now right.
  - apply in_flat_map in Hf as (s & Hs & Hf). apply (from_stmt Q HQ s []); [| |exact Hf].
    + intros s' n sub Hc. apply (HQ _ _ Hn). now apply (child_in ss s).
    + intros g Hg. right. apply in_flat_map. now exists s.
Qed.
Lemma named_closed : closed (fun _ cs => named po cs).
Proof. intros n cs H s n' sub Hc Hn _. inversion H; subst. now apply (H1 s n'). Qed.
(** The module of a class that is used is the directory of a file with that class. *)
Theorem module_is_dir ss f md c : named po ss -> In f (emit_module po m ss) -> In (md, c) (f_uses f) ->
  exists g, In g (emit_module po m ss) /\ f_dir g = f_dir f ++ [md] /\ f_class g = c.
Proof.
  intros Hn Hf Hu. destruct (from_module _ ss f named_closed Hn Hf) as (n & path & cs & -> & Hl & Hn' & Hin). inversion Hn' as [cs0 Hne _ E0]; subst cs0. cbn [f_uses file_of] in Hu.
  apply in_map_iff in Hu as (a & Ea & Ha). destruct (emitted_all cs path a Ha) as (cs' & Hg). exists (file_of po m a (path ++ [a]) cs'). split; [now apply Hin|].
  cbn [f_dir f_class file_of]. rewrite dirs_snoc by now apply Hne. rewrite Hl, Ea. unfold use_of in Ea. injection Ea as <- <-. now split.
Qed.

(* ------------------------------------------------------------------ no two in one place *)
Notation dname n a := (fst (use_of n a)).
Definition headed (n : str) (path names : list str) (f : pyfile) : Prop :=
  exists a rest, In a names /\ f_dir f = dirs m path ++ dname n a :: rest.
Lemma flat_apart {A} (names : A -> list str) (files : A -> list pyfile) n path l :
  (forall x, In x l -> NoDup (map (fun a => dname n a) (names x)) -> NoDup (map f_dir (files x)) /\ forall f, In f (files x) -> headed n path (names x) f) ->
  NoDup (map (fun a => dname n a) (flat_map names l)) ->
  NoDup (map f_dir (flat_map files l)) /\ forall f, In f (flat_map files l) -> headed n path (flat_map names l) f.
Proof.
  induction l as [|x l IH]; intros H Hd; [split; [constructor|easy]|]. cbn [flat_map] in *. rewrite map_app in Hd.
  destruct (H x (or_introl eq_refl) (nodup_left _ _ Hd)) as [H1 H2]. destruct IH as [H3 H4]; [intros y Hy; apply H; now right|now apply nodup_right in Hd|].
  assert (Hh : forall f, In f (files x ++ flat_map files l) -> headed n path (names x ++ flat_map names l) f).
  { intros f Hf. apply in_app_or in Hf as [Hf|Hf]; [destruct (H2 f Hf) as (a & r & Ha & E)|destruct (H4 f Hf) as (a & r & Ha & E)]; exists a, r; (split; [apply in_or_app; tauto|exact E]). }
  split; [|exact Hh]. rewrite map_app. clear Hh. assert (Hx : forall d, In d (map f_dir (files x)) -> ~ In d (map f_dir (flat_map files l))).
  { intros d Hd1 Hd2. apply in_map_iff in Hd1 as (f & <- & Hf). apply in_map_iff in Hd2 as (g & E & Hg). destruct (H2 f Hf) as (a & r & Ha & Ef). destruct (H4 g Hg) as (b & r' & Hb & Eg).
    rewrite Ef, Eg in E. apply app_inv_head in E. assert (E' : dname n b = dname n a) by (now injection E). apply (nodup_apart _ _ (dname n a) Hd).
    - now apply (in_map (fun a => dname n a)).
    - rewrite <- E'. now apply (in_map (fun a => dname n a)). }
  revert Hx H1 H3. generalize (map f_dir (files x)) (map f_dir (flat_map files l)). clear. intros a b Hx Ha Hb. induction a as [|d a IH]; [exact Hb|].
  apply NoDup_cons_iff in Ha as [Hd Ha]. cbn [app]. constructor; [|apply IH; [intros d' H; apply Hx; now right|exact Ha]].
  intros H. apply in_app_or in H as [H|H]; [easy|]. apply (Hx d); [now left|exact H].
Qed.
Definition below (s : ystmt) : Prop := forall s' n' sub, child_of [s] s' -> node_of s' n' sub -> tidy po n' sub.
Lemma below_in n cs s : tidy po n cs -> In s cs -> below s.
Proof. intros H Hs s' n' sub Hc. inversion H; subst. apply H3. now apply (child_in cs s). Qed.
Lemma dname_eq n : fst (use_of n n) = safe_name n ++ lit "_".
Proof. unfold use_of. cbn [fst]. now rewrite str_eqb_refl. Qed.
Lemma dname_neq n a : a <> n -> fst (use_of n a) = safe_name a.
Proof. intros H. unfold use_of. cbn [fst]. now destruct (str_eqb_spec a n). Qed.
(** In a tidy node the directories of the children differ. *)
Lemma tidy_dirs n cs : tidy po n cs -> NoDup (map (fun a => dname n a) (flat_map (class_names po) cs)).
Proof.
  intros H. inversion H; subst. clear H H3. rename H0 into Hd, H1 into Ha, H2 into Hn. revert Hd Hn. clear Ha. generalize (flat_map (class_names po) cs). intros l Hd Hn.
  assert (Hinj : forall a b, In a l -> In b l -> dname n a = dname n b -> safe_name a = safe_name b).
  { intros a b Hia Hib E. destruct (str_eqb_spec a n) as [->|Ea], (str_eqb_spec b n) as [->|Eb]; try reflexivity.
    - rewrite dname_eq, dname_neq in E by assumption. edestruct (proj2 (proj2 (Hn Hia)) b Hib). now symmetry.
    - rewrite dname_eq, dname_neq in E by assumption. edestruct (proj2 (proj2 (Hn Hib)) a Hia). assumption.
    - now rewrite !dname_neq in E by assumption. }
  clear Hn. revert Hd Hinj. induction l as [|a l IH]; intros Hd Hinj; [constructor|]. cbn [map] in *. apply NoDup_cons_iff in Hd as [Hna Hd]. constructor.
  - intros Hi. apply in_map_iff in Hi as (b & E & Hb). apply Hna. apply in_map_iff. exists b. split; [|exact Hb]. apply Hinj; [now right|now left|exact E].
  - apply IH; [exact Hd|]. intros x y Hx Hy. apply Hinj; now right.
Qed.
Lemma emit_apart : forall s n path, @last str path m = n -> below s -> (forall a, In a (class_names po s) -> a <> []) ->
  NoDup (map (fun a => dname n a) (class_names po s)) ->
  NoDup (map f_dir (emit po m path s)) /\ forall f, In f (emit po m path s) -> headed n path (class_names po s) f.
Proof.
  assert (Hnode : forall (a n : str) path cs, @last str path m = n -> a <> [] -> tidy po a cs ->
      Forall (fun s => forall n path, @last str path m = n -> below s -> (forall a, In a (class_names po s) -> a <> []) ->
        NoDup (map (fun a => dname n a) (class_names po s)) ->
        NoDup (map f_dir (emit po m path s)) /\ forall f, In f (emit po m path s) -> headed n path (class_names po s) f) cs ->
      NoDup (map f_dir (file_of po m a (path ++ [a]) cs :: flat_map (emit po m (path ++ [a])) cs)) /\
      forall f, In f (file_of po m a (path ++ [a]) cs :: flat_map (emit po m (path ++ [a])) cs) -> headed n path [a] f).
  { intros a n path cs Hl Ha Ht IH. rewrite Forall_forall in IH. assert (Ed : dirs m (path ++ [a]) = dirs m path ++ [dname n a]) by (rewrite <- Hl; now apply dirs_snoc).
    destruct (flat_apart (class_names po) (emit po m (path ++ [a])) a (path ++ [a]) cs) as [H1 H2].
    - intros s Hs Hd. apply (IH s Hs); [apply last_snoc|now apply (below_in a cs)| |exact Hd]. intros b Hb. inversion Ht; subst. apply H0. apply in_flat_map. now exists s.
    - now apply tidy_dirs.
    - split.
      + cbn [map]. constructor; [|exact H1]. cbn [f_dir file_of]. intros Hi. apply in_map_iff in Hi as (f & E & Hf). destruct (H2 f Hf) as (b & r & _ & Ef). rewrite Ef in E.
        apply (f_equal (@length str)) in E. rewrite app_length in E. cbn [length] in E. lia.
      + intros f [<-|Hf]; [exists a, []; split; [now left|exact Ed]|]. destruct (H2 f Hf) as (b & r & _ & Ef). exists a, (dname a b :: r). split; [now left|].
        rewrite Ef, Ed, <- app_assoc. reflexivity. }
  induction s as [h lt d yt|h ts yt|h pr cs IH|h k od cs IH|nm c cases IH] using ystmt_ind'; intros n path Hl Hb Hne Hd; cbn [emit class_names] in *; try (split; [constructor|easy]).
  - destruct (has_class po (YCont h pr cs)); [|split; [constructor|easy]]. apply Hnode; [exact Hl|apply Hne; now left| |exact IH].
    eapply Hb; [apply ch_here; [now left|discriminate]|left; eauto].
  - destruct (has_class po (YList h k od cs)); [|split; [constructor|easy]]. apply Hnode; [exact Hl|apply Hne; now left| |exact IH].
    eapply Hb; [apply ch_here; [now left|discriminate]|right; eauto].
  - rewrite Forall_forall in IH. apply flat_apart; [|exact Hd]. intros [k ss] Hk Hdk. specialize (IH _ Hk). cbn [snd] in IH. rewrite Forall_forall in IH.
    apply flat_apart; [|exact Hdk]. intros s Hs Hds. apply IH; [exact Hs|exact Hl| | |exact Hds].
    + intros s' n' sub Hc. apply Hb. eapply ch_case; [now left|exact Hk|]. now apply (child_in ss s).
    + intros a Ha. apply Hne. apply in_flat_map. exists (k, ss). split; [exact Hk|]. apply in_flat_map. now exists s.
Qed.
Theorem dirs_differ ss : tidy po m ss -> NoDup (map f_dir (emit_module po m ss)).
Proof.
  intros Ht. destruct (flat_apart (class_names po) (emit po m []) m [] ss) as [H1 H2].
  - intros s Hs Hd. apply (emit_apart s m []); [reflexivity|now apply (below_in m ss)| |exact Hd]. intros b Hb. inversion Ht; subst. apply H0. apply in_flat_map. now exists s.
  - now apply tidy_dirs.
  - unfold emit_module. cbn [map]. constructor; [|exact H1]. cbn [f_dir file_of]. intros Hi. apply in_map_iff in Hi as (f & E & Hf). destruct (H2 f Hf) as (b & r & _ & Ef). rewrite Ef in E. discriminate.
Qed.
Lemma tidy_named n cs : tidy po n cs -> named po cs.
Proof.
  intros H. induction H as [n cs Hd Ha Hn _ IH]. constructor; [intros a Hi; now apply Ha|]. intros s n' sub Hc Hs. now apply (IH s n').
Qed.
Lemma child_named cs s : child_of cs s -> forall n sub, node_of s n sub -> has_class po s = true -> In n (flat_map (class_names po) cs).
Proof.
  induction 1 as [s ss Hs Hc|n' c cases k ss ss' s Hs Hk Hc IH]; intros n sub Hn Hp.
  - apply in_flat_map. exists s. split; [exact Hs|]. destruct Hn as [(h & pr & -> & <-)|(h & k & od & -> & <-)]; cbn [class_names]; rewrite Hp; now left.
  - apply in_flat_map. exists (YChoice n' c cases). split; [exact Hs|]. cbn [class_names]. apply in_flat_map. exists (k, ss'). split; [exact Hk|]. now apply (IH n sub).
Qed.
Lemma tidy_closed : closed (fun n cs => tidy po n cs /\ ~ In (safe_name n) header_names).
Proof.
  intros n cs [H Hh] s n' sub Hc Hn Hp. inversion H as [n0 cs0 Hd Ha Hs Hb]; subst. split; [now apply (Hb s n')|]. apply Ha. now apply (child_named cs s Hc n' sub).
Qed.
Lemma fresh_reserved : forallb (fun r => negb (N.eqb (last r 0%N) 95)) reserved_name = true.
Proof. vm_compute. reflexivity. Qed.
Lemma replace_snoc a b : forall n, replace_ch a b (n ++ [95%N]) = replace_ch a b n ++ replace_ch a b [95%N].
Proof. intros n. unfold replace_ch. apply map_app. Qed.
Lemma safe_underscore n : ~ reserved n -> safe_name (n ++ lit "_") = safe_name n ++ lit "_".
Proof.
  unfold reserved, safe_name. intros H. cbn zeta. change (lit "_") with [95%N]. rewrite replace_snoc. change (replace_ch 45 95 [95%N]) with [95%N]. rewrite replace_snoc. change (replace_ch 46 95 [95%N]) with [95%N].
  set (x := replace_ch 46 95 (replace_ch 45 95 n)) in *. rewrite (proj2 (str_in_false x _) H). destruct (str_in (x ++ [95%N]) reserved_name) eqn:E; [|reflexivity].
  apply str_in_In in E. pose proof fresh_reserved as F. rewrite forallb_forall in F. specialize (F _ E). rewrite last_last in F. discriminate.
Qed.
(** All of it. *)
Theorem split_importable ss : tidy po m ss -> ~ In (safe_name m) header_names -> importable (emit_module po m ss).
Proof.
  intros Ht Hm. pose proof (dirs_differ ss Ht) as Hnd. pose proof (fun f => from_module _ ss f tidy_closed (conj Ht Hm)) as Hnode.
  assert (Himp : forall n cs a, tidy po n cs -> In a (flat_map (class_names po) cs) -> import_name n a = fst (use_of n a)).
  { intros n cs a H Ha. inversion H as [n0 cs0 Hd Hal Hs Hb]; subst. unfold import_name, use_of. cbn [fst]. destruct (str_eqb_spec a n) as [->|]; [|reflexivity].
    apply safe_underscore. now apply Hs. }
  assert (Hone : forall g g', In g (emit_module po m ss) -> In g' (emit_module po m ss) -> f_dir g' = f_dir g -> g' = g).
  { intros g g' Hg Hg' E. revert Hg Hg' E Hnd. generalize (emit_module po m ss). clear. intros l Hg Hg' E Hnd.
    induction l as [|x l IH]; [easy|]. cbn [map] in Hnd. apply NoDup_cons_iff in Hnd as [Hx Hnd]. destruct Hg as [->|Hg], Hg' as [->|Hg'].
    - reflexivity.
    - destruct Hx. rewrite <- E. now apply in_map.
    - destruct Hx. rewrite E. now apply in_map.
    - now apply IH. }
  split.
  - intros f md c Hf Hu. destruct (module_is_dir ss f md c (tidy_named _ _ Ht) Hf Hu) as (g & Hg & Ed & Ec).
    destruct (Hnode f Hf) as (n & path & cs & Ef & Hl & [Htn Hh] & Hin). rewrite Ef in Hu. cbn [f_uses file_of] in Hu. apply in_map_iff in Hu as (a & Ea & Ha).
    assert (Emd : md = fst (use_of n a)) by (now rewrite Ea). split; [|split].
    + rewrite Ef. cbn [f_imports file_of]. apply in_map_iff. exists a. split; [|exact Ha]. rewrite Emd. now apply (Himp n cs).
    + intros f' Hf' E'. rewrite (Hone f f' Hf Hf' E'), Ef. cbn [f_class file_of]. rewrite Emd. inversion Htn as [n0 cs0 Hd Hal Hs Hb]; subst n0 cs0. destruct (str_eqb_spec a n) as [->|Ean].
      * rewrite dname_eq. intros E. apply (f_equal (@length N)) in E. rewrite app_length in E. cbn in E. lia.
      * rewrite dname_neq by exact Ean. intros E. symmetry in E. revert E. now apply Hal.
    + exists g. split; [exact Hg|]. split; [exact Ed|]. split; [exact Ec|]. intros g' Hg' E _. now apply Hone.
  - intros f h Hf Hh. destruct (Hnode f Hf) as (n & path & cs & -> & Hl & [Htn Hhn] & Hin). cbn [f_imports f_class file_of]. split.
    + intros Hi. apply in_map_iff in Hi as (a & Ea & Ha). rewrite (Himp n cs) in Ea by assumption. inversion Htn as [n0 cs0 Hd Hal Hs Hb]; subst n0 cs0. subst h.
      destruct (str_eqb_spec a n) as [->|Ean]; [rewrite dname_eq in Hh; now apply (Hs Ha)|]. rewrite dname_neq in Hh by exact Ean. now apply (Hal a Ha).
    + intros E. subst h. now apply Hhn.
Qed.
End Files.
(* ------------------------------------------------------------------ for the cases *)
Lemma child_nil s : ~ child_of [] s.
Proof. intros H. inversion H; subst; match goal with G : In _ [] |- _ => destruct G end. Qed.
Lemma child_cons s ss x : child_of (s :: ss) x -> (x = s /\ forall n c cases, s <> YChoice n c cases) \/ (exists n c cases k l, s = YChoice n c cases /\ In (k, l) cases /\ child_of l x) \/ child_of ss x.
Proof.
  intros H. inversion H; subst.
  - destruct H0 as [->|Hi]; [left; now split|]. right. right. now apply ch_here.
  - destruct H0 as [->|Hi]; [right; left; now exists n, c, cases, k, ss'|]. right. right. eapply ch_case; eassumption.
Qed.
Lemma tidy_leaves po n cs : (forall s, In s cs -> exists h lt d yt, s = YLeaf h lt d yt) -> tidy po n cs.
Proof.
  intros H. assert (E : flat_map (class_names po) cs = []).
  { induction cs as [|s cs IH]; [reflexivity|]. cbn [flat_map]. destruct (H s (or_introl eq_refl)) as (h & lt & d & yt & ->). apply IH. intros x Hx. apply H. now right. }
  constructor; rewrite ?E; try easy; [constructor|]. intros s n' sub Hc Hn. inversion Hc; subst.
  - destruct (H s H0) as (h & lt & d & yt & ->). destruct Hn as [(a & b & E' & _)|(a & b & c & E' & _)]; discriminate.
  - destruct (H _ H0) as (h & lt & d & yt & E'). discriminate.
Qed.
