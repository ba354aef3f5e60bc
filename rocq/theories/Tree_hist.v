(** What the flags say about the history of operations. *)
From Verif Require Import PyStr PyStr_facts PyVal Restricted Spec_Lists TypedList TypedList_proofs YList YList_proofs
  Tree Spec_Tree Tree_proofs Tree_frame Tree_main.
From Coq Require Import Lia.
Import ListNotations.

Section T.
Context (O : oracle).

Lemma run_app cs os1 : forall kids os2,
  module_run O cs kids (os1 ++ os2) = module_run O cs (module_run O cs kids os1) os2.
Proof. induction os1 as [|[p o] os1 IH]; intros kids os2; [reflexivity|]. cbn [app module_run]. apply IH. Qed.

Lemma kid_path_app p q : kid_path (p ++ q) -> kid_path p /\ kid_path q.
Proof. intros H. apply Forall_app in H. exact H. Qed.

Lemma nth_fresh cs n : nth_error (map (fresh O) cs) n = option_map (fresh O) (nth_error cs n).
Proof. revert n; induction cs; intros [|n]; cbn; auto. Qed.

Lemma fresh_node q : kid_path q -> forall s t, sub s q = Some t -> node (fresh O s) q = Some (fresh O t).
Proof.
  induction 1 as [|a q [n ->] Hq IH]; intros s t H; [injection H as <-; reflexivity|].
  cbn [sub] in H. destruct s; try discriminate. cbn [fresh node]. rewrite nth_fresh.
  destruct (nth_error cs n) as [u|]; [|discriminate]. cbn. now apply IH.
Qed.
Lemma new_node cs q s : kid_path q -> q <> [] -> schema_at cs q = Some s -> at_path (module_new O cs) q = Some (fresh O s).
Proof. intros Hq _ H. unfold at_path, module_new. exact (fresh_node q Hq _ _ H). Qed.

Lemma unset_put s x : put O s x AUnset = fresh O s.
Proof. reflexivity. Qed.

(** What a value assigned to a container that has children does: nothing there. *)
Lemma cont_val_put i pr cs x w v n : nth_error cs n <> None ->
  put O (SCont i pr cs) x (ASet w (AVal v)) = x.
Proof.
  intros Hn. unfold put. cbn [apply]. unfold assign. destruct cs as [|c cs]; [destruct n; contradiction|].
  destruct w as [|[]]; cbn [s_info is_key andb]; [destruct (e_rw i)| |]; reflexivity.
Qed.
Lemma cont_val_fail i pr cs x w v n : nth_error cs n <> None ->
  f_out (apply O (SCont i pr cs) x (ASet w (AVal v))) <> Ok tt.
Proof.
  intros Hn. cbn [apply]. unfold assign. destruct cs as [|c cs]; [destruct n; contradiction|].
  destruct w as [|[]]; cbn [s_info is_key andb]; [destruct (e_rw i)| |]; discriminate.
Qed.

(** An operation on an ancestor leaves what is below alone, unless it is unset. *)
Lemma below_put s x o n q t : conf s x -> simple_op o -> sub s (Kid n :: q) = Some t -> o <> AUnset ->
  node (put O s x o) (Kid n :: q) = node x (Kid n :: q).
Proof.
  intros Hc Ho Hs Hu. cbn [sub] in Hs. destruct s as [| |i pr cs|]; try discriminate.
  inversion Hc as [| |? ? ? ch pres kids Hf|]; subst.
  destruct (nth_error cs n) as [u|] eqn:En; [|discriminate].
  destruct o as [w [v|y]| |b|lo|uid yo]; try contradiction; [| |reflexivity|reflexivity].
  - rewrite (cont_val_put _ _ _ _ _ _ n); congruence.
  - destruct b; reflexivity.
Qed.

Definition leaf_changed (kids : list obj) (q : list pstep) : option bool :=
  match at_path kids q with Some (OLeaf ch _) => Some ch | _ => None end.

Definition sets_leaf q (p : list pstep) (o : op) (r : res unit) : Prop :=
  p = q /\ r = Ok tt /\ exists w a, o = ASet w (AVal a).
Definition unsets q (p : list pstep) (o : op) : Prop := o = AUnset /\ p <> [] /\ prefix p q.

Lemma leaf_step cs kids p o q i lt d y k ch v :
  choice_free cs -> shaped cs kids -> kid_path q -> schema_at cs q = Some (SLeaf i lt d y k) -> simple_op o ->
  at_path kids q = Some (OLeaf ch v) ->
  let kids' := fst (module_exec O cs kids p o) in let r := snd (module_exec O cs kids p o) in
  exists ch' v', at_path kids' q = Some (OLeaf ch' v') /\
    ((sets_leaf q p o r /\ ch' = true) \/ (unsets q p o /\ ch' = false) \/
     (~ sets_leaf q p o r /\ ~ unsets q p o /\ ch' = ch /\ v' = v)).
Proof.
  intros Hcf Hs Hq Hsc Ho Hx. cbv zeta.
  assert (Hq0 : q <> []) by (intros ->; discriminate).
  pose proof (seen_step O cs kids p o q Hcf Hs Hq Hq0) as Hseen.
  destruct (module_exec O cs kids p o) as [kids' r] eqn:Em. cbn [fst snd] in *.
  destruct Hseen as [e E1 E2|Ha E|s x q' -> Hsp Hxp Hcx E Er|s x Hp Hne Hsp Hxp Hcx Hm Er].
  - exists ch, v. rewrite E1. split; [exact Hx|]. right. right.
    split; [intros (_ & H & _); congruence|]. split; [|auto].
    intros (-> & Hp0 & Hp). destruct Hp as [q' ->].
    destruct (at_path kids p) as [x|] eqn:Hxp.
    2:{ unfold at_path in *. rewrite node_app, Hxp in Hx. discriminate. }
    destruct (at_path_conf cs kids p x Hs Hxp) as (s & Hsp & _).
    assert (He : ends_kid p).
    { destruct (last_step p Hp0) as (p0 & b & ->). apply kid_path_app in Hq. destruct Hq as [Hq _].
      apply kid_path_app in Hq. destruct Hq as [_ Hb]. inversion Hb as [|? ? [n ->]]; subst. now exists p0, n. }
    destruct (unset_effect O cs kids p s x Hs He Hsp Hxp) as (k2 & Ek & _).
    rewrite Ek in Em. congruence.
  - exists ch, v. rewrite E. split; [exact Hx|]. right. right.
    assert (Hnp : forall z, apart p (p ++ z) -> False).
    { clear. induction p as [|a p IH]; intros z; [intros []|]. cbn. intros [H|H]; [apply H, step_eq_refl|eauto]. }
    split; [intros (-> & _ & _); rewrite <- (app_nil_r q) in Ha at 2; eauto|]. split; [|auto].
    intros (_ & _ & [z ->]). eauto.
  - destruct q' as [|[n|k0] q'].
    + rewrite app_nil_r in *. rewrite Hsc in Hsp. injection Hsp as <-. rewrite Hx in Hxp. injection Hxp as <-.
      rewrite E. cbn [node].
      destruct o as [w [a|z]| |b|lo|uid yo]; try contradiction.
      * destruct r as [u|e] eqn:Er0.
        -- destruct u. destruct (leaf_set_ok O i lt d y k (OLeaf ch v) w a (eq_sym Er)) as (u & _ & Ha).
           unfold put. rewrite Ha. cbn [f_new]. exists true, u. split; [reflexivity|]. left. split; [|reflexivity].
           split; [reflexivity|]. split; [reflexivity|]. now exists w, a.
        -- exists ch, v. split.
           { unfold put. cbn [apply] in *. unfold assign in *.
             assert (Hno : forall e', f_out (set_any O (SLeaf i lt d y k) (AVal a)) = Raise e' ->
                           f_new (set_any O (SLeaf i lt d y k) (AVal a)) = None).
             { intros e'. cbn [set_any]. unfold set_leaf. destruct (d_out (leaf_assign O lt a)); [discriminate|reflexivity]. }
             destruct w as [|[|]]; cbn [s_info is_key negb andb] in *; try destruct (e_rw i); try destruct k; cbn [andb] in *;
               try reflexivity; now rewrite (Hno e (eq_sym Er)). }
           right. right. split; [intros (_ & H & _); discriminate|]. split; [intros (H & _); discriminate|auto].
      * rewrite unset_put. cbn [fresh]. eexists false, _. split; [reflexivity|]. right. left. split; [|reflexivity].
        split; [reflexivity|]. split; [exact Hq0|]. exists []. now rewrite app_nil_r.
      * exists ch, v. split; [reflexivity|]. right. right. split; [intros (_ & _ & w & a & H); discriminate|].
        split; [intros (H & _); discriminate|auto].
      * exists ch, v. split; [reflexivity|]. right. right. split; [intros (_ & _ & w & a & H); discriminate|].
        split; [intros (H & _); discriminate|auto].
      * exists ch, v. split; [reflexivity|]. right. right. split; [intros (_ & _ & w & a & H); discriminate|].
        split; [intros (H & _); discriminate|auto].
    + assert (Hsub : sub s (Kid n :: q') = Some (SLeaf i lt d y k)).
      { unfold schema_at in *. rewrite sub_app, Hsp in Hsc. exact Hsc. }
      assert (Hnode : node x (Kid n :: q') = Some (OLeaf ch v)).
      { unfold at_path in *. rewrite node_app, Hxp in Hx. exact Hx. }
      assert (Hd : o = AUnset \/ o <> AUnset) by (destruct o; auto; right; discriminate).
      destruct Hd as [->|Hd].
      * rewrite unset_put in E. apply kid_path_app in Hq. destruct Hq as [Hqp Hq].
        rewrite (fresh_node _ Hq _ _ Hsub) in E. rewrite E. cbn [fresh].
        eexists false, _. split; [reflexivity|]. 
        destruct p as [|a p].
        { exfalso. cbn in Em. injection Em as _ <-. cbn in Er. discriminate. }
        right. left. split; [|reflexivity]. split; [reflexivity|]. split; [discriminate|]. now exists (Kid n :: q').
      * rewrite (below_put s x o n q' _ Hcx Ho Hsub Hd) in E. exists ch, v. rewrite E. split; [exact Hnode|].
        right. right. split; [|split; [intros (H & _); contradiction|auto]].
        intros (H & _). assert (Hl : length (p ++ Kid n :: q') = length p) by congruence.
        rewrite app_length in Hl. cbn in Hl. lia.
    + exfalso. apply kid_path_app in Hq. destruct Hq as [_ Hq]. inversion Hq as [|? ? [n Hn]]; discriminate.
  - unfold marked in Hm. rewrite Hx in Hm. destruct (at_path kids' q) as [[]|]; contradiction.
Qed.

(** A leaf outside list entries is marked changed iff it was successfully assigned a value and since
    then neither it nor anything above it has been unset. *)
Theorem leaf_history cs q i lt d y k os ch v :
  choice_free cs -> kid_path q -> schema_at cs q = Some (SLeaf i lt d y k) ->
  Forall (fun po => simple_op (snd po)) os ->
  at_path (module_run O cs (module_new O cs) os) q = Some (OLeaf ch v) ->
  (ch = true <->
   exists os1 w a os2, os = os1 ++ (q, ASet w (AVal a)) :: os2 /\
     snd (module_exec O cs (module_run O cs (module_new O cs) os1) q (ASet w (AVal a))) = Ok tt /\
     forall p, In (p, AUnset) os2 -> p <> [] -> ~ prefix p q).
Proof.
  intros Hcf Hq Hsc. revert ch v.
  induction os as [|[p o] os IH] using rev_ind; intros ch v Ho Hx.
  - assert (Hn : at_path (module_new O cs) q = Some (fresh O (SLeaf i lt d y k))).
    { apply new_node; auto. intros ->; discriminate. }
    cbn [module_run] in Hx. rewrite Hn in Hx. injection Hx as <- <-.
    split; [discriminate|]. intros (os1 & w & a & os2 & H & _). destruct os1; discriminate.
  - apply Forall_app in Ho. destruct Ho as [Ho Ho1]. inversion Ho1 as [|? ? Ho2 _]; subst. cbn [snd] in Ho2.
    rewrite run_app in Hx. cbn [module_run] in Hx.
    assert (Hs : shaped cs (module_run O cs (module_new O cs) os)) by (apply module_run_shaped, fresh_shaped).
    destruct (at_path (module_run O cs (module_new O cs) os) q) as [x0|] eqn:Hx0.
    2:{ exfalso.
        assert (Hall : forall os, at_path (module_run O cs (module_new O cs) os) q <> None).
        { intros os'. assert (Hs' : shaped cs (module_run O cs (module_new O cs) os')) by (apply module_run_shaped, fresh_shaped).
          clear - Hq Hsc Hs'. revert Hs' Hsc. generalize (module_run O cs (module_new O cs) os') as kk. unfold at_path, schema_at.
          intros kk Hs'. assert (Hc : conf (entry_schema cs) (OCont false false kk)) by now constructor.
          revert Hc. generalize (entry_schema cs) (OCont false false kk). clear - Hq.
          induction Hq as [|a q [n ->] Hq IH]; intros s x Hc Hsub; [discriminate|].
          cbn [sub node] in *. destruct s; try discriminate. inversion Hc as [| |? ? ? ? ? ? Hf|]; subst.
          destruct (nth_error cs n) as [u|] eqn:E; [|discriminate].
          destruct (Forall2_nth _ _ _ _ _ Hf E) as (z & Hz & Hcz). rewrite Hz. now apply (IH u). }
        exact (Hall os Hx0). }
    destruct (at_path_conf cs _ q x0 Hs Hx0) as (s' & Hs1 & Hc1). rewrite Hsc in Hs1. injection Hs1 as <-.
    inversion Hc1 as [? ? ? ? ? ch0 v0| | |]; subst.
    destruct (leaf_step cs _ p o q i lt d y k ch0 v0 Hcf Hs Hq Hsc Ho2 Hx0) as (ch' & v' & Hx' & Hcase).
    rewrite Hx' in Hx. injection Hx as -> ->.
    specialize (IH ch0 v0 Ho eq_refl).
    destruct Hcase as [[(-> & Hr & w & a & ->) ->]|[[(-> & Hp0 & Hp) ->]|(Hns & Hnu & -> & ->)]].
    + split; [intros _|reflexivity]. exists os, w, a, []. split; [reflexivity|]. split; [exact Hr|]. intros ? [].
    + split; [discriminate|]. intros (os1 & w & a & os2 & E & _ & Hu). exfalso.
      destruct (exists_last (l := (q, ASet w (AVal a)) :: os2)) as (l' & z & El); [discriminate|].
      rewrite El, app_assoc in E. apply app_inj_tail in E. destruct E as [_ <-].
      destruct os2 as [|b os2].
      * assert (l' = []) as -> by (destruct l' as [|? [|]]; [reflexivity|discriminate|discriminate]).
        injection El as _ El. discriminate.
      * apply (Hu p); auto. destruct l' as [|b' l']; [discriminate|]. injection El as _ El. rewrite El. apply in_or_app. right. now left.
    + rewrite IH. split.
      * intros (os1 & w & a & os2 & -> & Hr & Hu). exists os1, w, a, (os2 ++ [(p, o)]).
        split; [now rewrite <- app_assoc|]. split; [exact Hr|].
        intros p1 Hin Hp1. apply in_app_or in Hin. destruct Hin as [Hin|[Hin|[]]]; [now apply Hu|].
        injection Hin as -> ->. intros Hp. apply Hnu. repeat split; auto.
      * intros (os1 & w & a & os2 & E & Hr & Hu).
        destruct os2 as [|b os2] using rev_ind.
        -- apply app_inj_tail in E. destruct E as [-> E]. injection E as -> ->. exfalso. apply Hns.
           split; [reflexivity|]. split; [exact Hr|]. now exists w, a.
        -- clear IHos2. rewrite app_comm_cons, app_assoc in E. apply app_inj_tail in E. destruct E as [-> E].
           exists os1, w, a, os2. split; [reflexivity|]. split; [exact Hr|].
           intros p1 Hin Hp1. apply Hu; auto. apply in_or_app. now left.
Qed.

(* ------------------------------------------------------------------ presence *)
Lemma setter_ok evs r : f_out (setter evs r) = Ok tt -> f_post (setter evs r) = [None].
Proof. unfold setter. destruct r; [reflexivity|discriminate]. Qed.
Lemma set_val_ok s v : f_out (set_any O s (AVal v)) = Ok tt -> f_post (set_any O s (AVal v)) = [None].
Proof. destruct s as [| |i pr [|c cs]|]; cbn [set_any]; apply setter_ok. Qed.
Lemma assign_ok s w v : f_out (assign O s w (AVal v)) = Ok tt -> f_post (assign O s w (AVal v)) = [None].
Proof.
  unfold assign. destruct w; [destruct (e_rw _)|]; try destruct (is_key s && _); try discriminate; apply set_val_ok.
Qed.

Lemma prefix_antisym (p q : list pstep) : prefix p q -> prefix q p -> p = q.
Proof.
  intros [a ->] [b Hb]. rewrite <- app_assoc in Hb. rewrite <- (app_nil_r p) in Hb at 1.
  apply app_inv_head in Hb. symmetry in Hb. apply app_eq_nil in Hb. destruct Hb as [-> _]. now rewrite app_nil_r.
Qed.

Lemma pres_step cs kids p o q i cs' ch pres kk kids' :
  choice_free cs -> shaped cs kids -> kid_path q -> q <> [] -> schema_at cs q = Some (SCont i true cs') -> basic_op o ->
  at_path kids q = Some (OCont ch pres kk) -> module_exec O cs kids p o = (kids', Ok tt) ->
  exists ch' pres' kk', at_path kids' q = Some (OCont ch' pres' kk') /\
    ((marks q p o /\ pres' = true) \/ (unmarks q p o /\ pres' = false) \/
     (~ marks q p o /\ ~ unmarks q p o /\ pres' = pres)).
Proof.
  intros Hcf Hs Hq Hq0 Hsc Ho Hx Em.
  pose proof (seen_step O cs kids p o q Hcf Hs Hq Hq0) as Hseen. rewrite Em in Hseen. cbn [fst snd] in Hseen.
  destruct Hseen as [e E1 E2|Ha E|s x q' -> Hsp Hxp Hcx E Er|s x Hp Hne Hsp Hxp Hcx Hm Er].
  - discriminate.
  - exists ch, pres, kk. rewrite E. split; [exact Hx|]. right. right.
    assert (Hnp : forall z, apart p (p ++ z) -> False).
    { clear. induction p as [|a p IH]; intros z; [intros []|]. cbn. intros [H|H]; [apply H, step_eq_refl|eauto]. }
    assert (Hnq : forall p z, apart (p ++ z) p -> False).
    { clear. induction p as [|a p IH]; intros z; [destruct z; intros []|]. cbn. intros [H|H]; [apply H, step_eq_refl|eauto]. }
    split; [intros ([z ->] & _); eauto|]. split; [|reflexivity].
    intros [(_ & _ & [z ->])|(_ & ->)]; [eauto|]. rewrite <- (app_nil_r q) in Ha at 2; eauto.
  - destruct q' as [|[n|k0] q'].
    + rewrite app_nil_r in *. rewrite Hsc in Hsp. injection Hsp as <-. rewrite Hx in Hxp. injection Hxp as <-.
      rewrite E. cbn [node].
      assert (Hpp : prefix p p) by (exists []; now rewrite app_nil_r).
      destruct o as [w [a|z]| |[]|lo|uid yo]; try contradiction.
      * destruct cs' as [|c cs'].
        2:{ exfalso. apply (cont_val_fail i true (c :: cs') (OCont ch pres kk) w a 0); [discriminate|now symmetry]. }
        eexists true, true, _. split.
        { unfold put. cbn [apply] in *. unfold assign in *. cbn [s_info is_key andb] in *.
          destruct w; [destruct (e_rw i)|]; try discriminate; reflexivity. }
        left. split; [|reflexivity]. split; [exact Hpp|]. right. now exists w, a.
      * rewrite unset_put. cbn [fresh]. eexists false, false, _. split; [reflexivity|]. right. left. split; [|reflexivity].
        left. auto.
      * eexists true, true, _. split; [reflexivity|]. left. split; [|reflexivity]. split; auto.
      * eexists false, false, _. split; [reflexivity|]. right. left. split; [|reflexivity]. right. auto.
    + assert (Hsub : sub s (Kid n :: q') = Some (SCont i true cs')).
      { unfold schema_at in *. rewrite sub_app, Hsp in Hsc. exact Hsc. }
      assert (Hnode : node x (Kid n :: q') = Some (OCont ch pres kk)).
      { unfold at_path in *. rewrite node_app, Hxp in Hx. exact Hx. }
      assert (Hlen : prefix (p ++ Kid n :: q') p -> False).
      { intros Hp. apply prefix_len in Hp. rewrite app_length in Hp. cbn in Hp. lia. }
      destruct o as [w [a|z]| |b|lo|uid yo]; try contradiction.
      * exfalso. cbn [sub] in Hsub. destruct s as [| |si sp scs|]; try discriminate.
        apply (cont_val_fail si sp scs x w a n); [destruct (nth_error scs n); discriminate|now symmetry].
      * rewrite unset_put in E. apply kid_path_app in Hq. destruct Hq as [Hqp Hq].
        rewrite (fresh_node _ Hq _ _ Hsub) in E. rewrite E. cbn [fresh].
        eexists false, false, _. split; [reflexivity|].
        destruct p as [|a p]; [cbn in Em; discriminate|].
        right. left. split; [|reflexivity]. left. split; [reflexivity|]. split; [discriminate|]. now exists (Kid n :: q').
      * rewrite (below_put s x (APresent b) n q' _ Hcx I Hsub) in E by discriminate.
        exists ch, pres, kk. rewrite E. split; [exact Hnode|]. right. right.
        split; [intros (H & _); auto|]. split; [|reflexivity].
        intros [(H & _)|(_ & H)]; [discriminate|]. apply Hlen. rewrite <- H. exists []. now rewrite app_nil_r.
    + exfalso. apply kid_path_app in Hq. destruct Hq as [_ Hq]. inversion Hq as [|? ? [n Hn]]; discriminate.
  - unfold marked in Hm. rewrite Hx, Hsc in Hm. destruct (at_path kids' q) as [[]|]; try contradiction.
    destruct Hm as [-> ->]. eexists _, _, _. split; [reflexivity|].
    assert (Hnu : forall o, o <> APresent false \/ p <> q -> ~ unmarks q p o).
    { intros o' Ho' [(_ & _ & H)|(H1 & H2)]; [apply Hne, prefix_antisym; assumption|destruct Ho'; contradiction]. }
    destruct o as [w [a|z]| |[]|lo|uid yo]; try contradiction; cbn [apply] in *.
    + left. split; [split; [exact Hp|right; now exists w, a]|].
      unfold base_events. cbn [apply]. rewrite (assign_ok s w a) by (now symmetry).
      destruct (f_pre (assign O s w (AVal a))); cbn [app mark_present]; now rewrite orb_true_r.
    + right. right. split; [intros (_ & [H|(w & v & H)]); discriminate|]. split; [|reflexivity].
      apply Hnu. left; discriminate.
    + left. split; [split; auto|]. unfold base_events. cbn [apply].
      inversion Hcx; subst; try discriminate. cbn [f_pre f_post app mark_present]. now rewrite orb_true_r.
    + right. right. split; [intros (_ & [H|(w & v & H)]); discriminate|]. split; [apply Hnu; auto|].
      unfold base_events. cbn [apply]. inversion Hcx; subst; reflexivity.
Qed.

Lemma kid_exists cs q s os : kid_path q -> schema_at cs q = Some s ->
  exists x, at_path (module_run O cs (module_new O cs) os) q = Some x /\ conf s x.
Proof.
  intros Hq Hsc.
  assert (Hs' : shaped cs (module_run O cs (module_new O cs) os)) by (apply module_run_shaped, fresh_shaped).
  revert Hs'. generalize (module_run O cs (module_new O cs) os) as kk. intros kk Hs'. unfold at_path, schema_at in *.
  assert (Hc : conf (entry_schema cs) (OCont false false kk)) by now constructor.
  revert Hc Hsc. generalize (entry_schema cs) (OCont false false kk). clear - Hq.
  induction Hq as [|a q [n ->] Hq IH]; intros s0 x Hc Hsub.
  - injection Hsub as <-. now exists x.
  - cbn [sub node] in *. destruct s0; try discriminate. inversion Hc as [| |? ? ? ? ? ? Hf|]; subst.
    destruct (nth_error cs n) as [u|] eqn:E; [|discriminate].
    destruct (Forall2_nth _ _ _ _ _ Hf E) as (z & Hz & Hcz). rewrite Hz. now apply (IH u).
Qed.

Theorem presence_history cs q i cs' os ch pres kk :
  choice_free cs -> kid_path q -> q <> [] -> schema_at cs q = Some (SCont i true cs') ->
  all_ok O cs os -> Forall (fun po => basic_op (snd po)) os ->
  at_path (module_run O cs (module_new O cs) os) q = Some (OCont ch pres kk) ->
  (pres = true <->
   exists os1 p o os2, os = os1 ++ (p, o) :: os2 /\ marks q p o /\
     Forall (fun po => ~ unmarks q (fst po) (snd po)) os2).
Proof.
  intros Hcf Hq Hq0 Hsc Hok. revert ch pres kk.
  induction Hok as [|os p o Hok IH Hr]; intros ch pres kk Ho Hx.
  - cbn [module_run] in Hx. rewrite (new_node cs q _ Hq Hq0 Hsc) in Hx. injection Hx as <- <- <-.
    split; [discriminate|]. intros (os1 & p & o & os2 & H & _). destruct os1; discriminate.
  - apply Forall_app in Ho. destruct Ho as [Ho Ho1]. inversion Ho1 as [|? ? Ho2 _]; subst. cbn [snd] in Ho2.
    rewrite run_app in Hx. cbn [module_run] in Hx.
    assert (Hs : shaped cs (module_run O cs (module_new O cs) os)) by (apply module_run_shaped, fresh_shaped).
    destruct (kid_exists cs q _ os Hq Hsc) as (x0 & Hx0 & Hc0).
    inversion Hc0 as [| |? ? ? ch0 pres0 kk0 _|]; subst.
    destruct (module_exec O cs (module_run O cs (module_new O cs) os) p o) as [kids' r] eqn:Em.
    cbn [fst snd] in *. subst r.
    destruct (pres_step cs _ p o q i cs' ch0 pres0 kk0 kids' Hcf Hs Hq Hq0 Hsc Ho2 Hx0 Em) as (ch' & pres' & kk' & Hx' & Hcase).
    rewrite Hx' in Hx. injection Hx as -> -> ->.
    specialize (IH ch0 pres0 kk0 Ho Hx0).
    destruct Hcase as [[Hm ->]|[[Hm ->]|(Hns & Hnu & ->)]].
    + split; [intros _|reflexivity]. exists os, p, o, []. auto.
    + split; [discriminate|]. intros (os1 & p1 & o1 & os2 & E & Hm1 & Hu). exfalso.
      destruct os2 as [|b os2] using rev_ind.
      * apply app_inj_tail in E. destruct E as [_ E]. injection E as -> ->.
        destruct Hm1 as [Hp1 Hm1]. destruct Hm as [(Hm & _ & Hp)|(Hm & _)]; destruct Hm1 as [Hm1|(w & v & Hm1)]; congruence.
      * clear IHos2. rewrite app_comm_cons, app_assoc in E. apply app_inj_tail in E. destruct E as [_ <-].
        apply Forall_app in Hu. destruct Hu as [_ Hu]. inversion Hu as [|? ? Hu1 _]; subst. exact (Hu1 Hm).
    + rewrite IH. split.
      * intros (os1 & p1 & o1 & os2 & -> & Hm & Hu). exists os1, p1, o1, (os2 ++ [(p, o)]).
        split; [now rewrite <- app_assoc|]. split; [exact Hm|]. apply Forall_app. split; [exact Hu|]. now constructor.
      * intros (os1 & p1 & o1 & os2 & E & Hm & Hu).
        destruct os2 as [|b os2] using rev_ind.
        -- apply app_inj_tail in E. destruct E as [-> E]. injection E as -> ->. contradiction.
        -- clear IHos2. rewrite app_comm_cons, app_assoc in E. apply app_inj_tail in E. destruct E as [-> _].
           apply Forall_app in Hu. exists os1, p1, o1, os2. repeat split; try apply Hm. apply Hu.
Qed.
End T.
