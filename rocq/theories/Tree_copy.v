(** Assigning a whole container. *)
From Verif Require Import PyStr PyStr_facts PyVal Restricted Spec_Lists TypedList YList
  Tree Spec_Tree Tree_proofs Tree_frame Tree_main Tree_dump Tree_choice.
From Coq Require Import Lia.
Import ListNotations.

Section T.
Context (O : oracle).

Definition bare (s : schema) : Prop := forall p t, sub s p = Some t -> s_tag t = None.

Lemma bare_kid i pr cs n s : bare (SCont i pr cs) -> nth_error cs n = Some s -> bare s.
Proof. intros H Hn p t Hp. apply (H (Kid n :: p)). cbn [sub]. now rewrite Hn. Qed.

Lemma clear_untagged cs ev : forall kids, Forall (fun s => s_tag s = None) cs -> clear O cs kids ev = kids.
Proof.
  induction cs as [|s cs IH]; intros kids H; [reflexivity|]. inversion H as [|? ? H1 H2]; subst.
  destruct kids as [|x kids]; [reflexivity|]. cbn [clear]. unfold other_case. rewrite H1, (IH kids H2). destruct ev as [[]|]; reflexivity.
Qed.
Lemma clears_untagged cs evs : forall kids, Forall (fun s => s_tag s = None) cs -> clears O cs kids evs = kids.
Proof. induction evs as [|e evs IH]; intros kids H; [reflexivity|]. unfold clears in *. cbn [fold_left]. now rewrite (clear_untagged cs e kids H), IH. Qed.
Lemma absorb_untagged cs kids n f y : Forall (fun s => s_tag s = None) cs -> f_new f = Some y ->
  absorb O true cs kids n f = set_nth n y kids.
Proof. intros H Hf. unfold absorb. now rewrite Hf, !clears_untagged. Qed.

Lemma set_nth_app {A} (pre : list A) x y l : set_nth (length pre) y (pre ++ x :: l) = pre ++ y :: l.
Proof. induction pre as [|a pre IH]; cbn; [reflexivity|]. now rewrite IH. Qed.

(** A setter that succeeds. *)
Definition works (f : effect) (y : obj) : Prop := f_new f = Some y /\ f_out f = Ok tt.

Lemma copy_kids_ok cs :
  Forall (fun s => s_tag s = None) cs ->
  forall cs' pre src done_,
  cs = pre ++ cs' -> length done_ = length pre ->
  Forall2 (fun s x => get_kid true s x = None /\ o_changed x = false \/
                      o_changed x = true /\ exists y, works (set_obj O s x) y /\ get_kid true s y = get_kid true s x) cs' src ->
  exists ys evs, copy_kids O cs (length pre) cs' src (done_ ++ map (fresh O) cs') = (done_ ++ ys, evs, Ok tt) /\
    get_kids true cs' ys = get_kids true cs' src.
Proof.
  intros Hut. induction cs' as [|s cs' IH]; intros pre src dn Hcs Hlen HF.
  - inversion HF; subst. exists [], []. split; reflexivity.
  - inversion HF as [|? x ? src' Hx HF']; subst.
    assert (Hpre : pre ++ s :: cs' = (pre ++ [s]) ++ cs') by (rewrite <- app_assoc; reflexivity).
    assert (Hl : S (length pre) = length (pre ++ [s])) by (rewrite app_length; cbn; lia).
    cbn [copy_kids map]. destruct Hx as [[Hd Hc]|(Hc & y & (Hn & Ho) & Hg)]; rewrite Hc.
    + specialize (IH (pre ++ [s]) src' (dn ++ [fresh O s]) Hpre). rewrite <- Hl in IH.
      rewrite app_length in IH; cbn [length] in IH.
      destruct IH as (ys & evs & E & Eg); [lia|exact HF'|]. rewrite <- app_assoc in E. cbn [app] in E.
      exists (fresh O s :: ys), evs. split.
      * fold (copy_kids O (pre ++ s :: cs')) in *. rewrite E. now rewrite <- app_assoc.
      * cbn [get_kids]. now rewrite Hd, (fresh_nodata O s), Eg.
    + specialize (IH (pre ++ [s]) src' (dn ++ [y]) Hpre). rewrite <- Hl in IH.
      rewrite app_length in IH; cbn [length] in IH.
      destruct IH as (ys & evs & E & Eg); [lia|exact HF'|]. rewrite <- app_assoc in E. cbn [app] in E.
      rewrite (absorb_untagged _ _ _ _ y Hut Hn), Ho, <- Hlen, set_nth_app, Hlen.
      exists (y :: ys). eexists. split.
      * fold (copy_kids O (pre ++ s :: cs')) in *. rewrite E. rewrite <- app_assoc. reflexivity.
      * cbn [get_kids]. now rewrite Hg, Eg.
Qed.

Lemma none_or {A} (o : option A) : o = None \/ o <> None.
Proof. destruct o; [right; discriminate|now left]. Qed.

Lemma set_obj_copy s : forall x, bare s -> copyable O s x ->
  match s, x with SCont _ pr _, OCont _ pres _ => pr = true -> pres = true | _, _ => o_changed x = true end ->
  exists y, works (set_obj O s x) y /\ get_kid true s y = get_kid true s x.
Proof.
  induction s as [i lt d yt k|i ts yt|i pr cs HF|i ks od cs HF] using schema_ind'; intros x Hb Hc Hch.
  - inversion Hc as [? ? ? ? ? ch v Hv| | |]; subst. cbn in Hch. subst ch. exists (OLeaf true v). split.
    + cbn [set_obj]. unfold set_leaf. rewrite (Hv eq_refl). split; reflexivity.
    + reflexivity.
  - inversion Hc; subst. discriminate Hch.
  - inversion Hc as [| | |? ? ? ch pres kids Hk Hd Hp]; subst.
    assert (Hut : Forall (fun s => s_tag s = None) cs).
    { rewrite Forall_forall. intros s Hs. apply In_nth_error in Hs. destruct Hs as [n Hn]. apply (Hb [Kid n]). cbn [sub]. now rewrite Hn. }
    assert (Hbs : Forall bare cs).
    { rewrite Forall_forall. intros s Hs. apply In_nth_error in Hs. destruct Hs as [n Hn]. eapply bare_kid; eauto. }
    assert (HF2 : Forall2 (fun s x => get_kid true s x = None /\ o_changed x = false \/
              o_changed x = true /\ exists y, works (set_obj O s x) y /\ get_kid true s y = get_kid true s x) cs kids).
    { clear - HF Hk Hbs. induction Hk as [|s x cs kids Hsx Hk IH]; constructor.
      - inversion HF as [|? ? H1 _]; inversion Hbs as [|? ? B1 _]; subst.
        destruct (o_changed x) eqn:Hx; [right|left].
        + split; [reflexivity|]. apply H1; auto. destruct Hsx; auto.
        + split; [|reflexivity]. destruct Hsx as [? ? ? ? ? ch v Hv| | |i pr cs0 ch pres kk Hkk Hd Hp]; cbn in Hx; subst; try reflexivity.
          destruct (none_or (get_kid true (SCont i pr cs0) (OCont false pres kk))) as [E|E]; [exact E|]. now specialize (Hd E).
      - apply IH; [now inversion HF|now inversion Hbs]. }
    destruct (copy_kids_ok cs Hut cs [] kids [] eq_refl eq_refl HF2) as (ys & evs & E & Eg). cbn [length app] in E.
    exists (OCont true pr ys). rewrite set_obj_cont, E. split; [split; reflexivity|].
    rewrite !get_cont, Eg. destruct pr; [|reflexivity]. rewrite (Hch eq_refl). reflexivity.
  - inversion Hc; subst. exists (OList true []). split; [split; reflexivity|reflexivity].
Qed.

Theorem assign_container cs kids p w x x0 i pr cs' :
  choice_free cs -> shaped cs kids -> ends_kid p ->
  schema_at cs p = Some (SCont i pr cs') -> at_path kids p = Some x0 ->
  (w = Attr -> e_rw i = true) -> copyable O (SCont i pr cs') x ->
  match x with OCont _ pres _ => pr = true -> pres = true | _ => False end ->
  exists kids' y, module_exec O cs kids p (ASet w (AObj x)) = (kids', Ok tt) /\ at_path kids' p = Some y /\
    get_kid true (SCont i pr cs') y = get_kid true (SCont i pr cs') x.
Proof.
  intros Hcf Hs He Hsc Hx0 Hw Hc Hp.
  assert (Hb : bare (SCont i pr cs')).
  { intros q t Hq. apply (Hcf (p ++ q)). unfold schema_at in *. now rewrite sub_app, Hsc. }
  destruct (set_obj_copy _ x Hb Hc) as (y & (Hn & Ho) & Hg).
  { inversion Hc; subst; exact Hp. }
  destruct (module_exec_ok O cs kids p (ASet w (AObj x)) _ x0 Hs He Hsc Hx0) as (evs & R).
  destruct (module_exec O cs kids p (ASet w (AObj x))) as [kids' r] eqn:E. cbn [fst snd] in R.
  assert (Ha : apply O (SCont i pr cs') x0 (ASet w (AObj x)) = set_obj O (SCont i pr cs') x).
  { cbn [apply]. unfold assign, is_key. cbn [andb s_info]. destruct w; [rewrite (Hw eq_refl)|]; destruct cs'; reflexivity. }
  pose proof (run_out _ _ _ _ _ _ _ _ _ _ _ R) as Hout. rewrite Ha, Ho in Hout. subst r.
  exists kids', y. split; [reflexivity|]. split; [|exact Hg].
  eapply run_target; [exact R|exact Hs|now apply cf_clash|]. now rewrite Ha.
Qed.
End T.
