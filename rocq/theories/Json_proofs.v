(** Facts about documents: names and scalars of the IETF format, unknown members, ordering, overwriting. *)
From Coq Require Import Lia.
From Verif Require Import PyStr PyStr_facts PyVal Base64 Restricted Restricted_proofs Spec_Types IntTypes StrTypes StrTypes_proofs
  Scalars_proofs Bits Spec_Lists TypedList TypedList_proofs MemberTypes Member_proofs YList YList_proofs SafeName
  Tree Spec_Tree Tree_proofs Serialise Spec_Serialise Serialise_proofs Load_proofs.
Local Open Scope Z_scope.

Section J.
Context (O : oracle) (im : einfo -> str -> option str) (flt : bool) (wd : with_defaults).

(* ------------------------------------------------------------------ IETF documents *)
Lemma gens_eq ns cs : forall kids,
  (fix gens cs kids := match cs, kids with
    | s :: cs', x :: kids' => match gen_kid flt wd ns s x with
                              | Some m => m :: gens cs' kids'
                              | None => gens cs' kids'
                              end
    | _, _ => []
    end) cs kids = gen_kids flt wd ns cs kids.
Proof. induction cs as [|s cs IH]; intros [|x kids]; cbn [gen_kids]; try reflexivity. destruct (gen_kid flt wd ns s x); now rewrite IH. Qed.

Lemma gen_cont ns i pr cs c pres kids : gen_kid flt wd ns (SCont i pr cs) (OCont c pres kids) =
  match gen_kids flt wd (Some (e_ns i)) cs kids with
  | [] => if pres then Some (qualified ns i, IDict []) else None
  | l => Some (qualified ns i, IDict l)
  end.
Proof. cbn [gen_kid s_info]. now rewrite gens_eq. Qed.

Definition entry_itree i cs (e : pyval * obj) : itree :=
  match snd e with OCont _ _ kids => IDict (gen_kids flt wd (Some (e_ns i)) cs kids) | _ => IDict [] end.
Lemma gen_list ns i keys od cs c es : gen_kid flt wd ns (SList i keys od cs) (OList c es) =
  match es with [] => None | _ => Some (qualified ns i, IList (map (entry_itree i cs) es)) end.
Proof.
  cbn [gen_kid s_info]. destruct es as [|e es]; [reflexivity|]. f_equal. f_equal. f_equal. apply map_ext. intros e'.
  unfold entry_itree. destruct (snd e'); try reflexivity. now rewrite gens_eq.
Qed.

Lemma gen_name ns s x n t : gen_kid flt wd ns s x = Some (n, t) -> n = qualified ns (s_info s).
Proof.
  destruct s as [i lt d yt k|i ts yt|i pr cs|i keys od cs], x as [c v|c l|c ps kids|c es]; try discriminate.
  - cbn [gen_kid s_info]. destruct (match wd with WNone => _ | WIfSet => _ end); intros H; [now injection H|discriminate].
  - cbn [gen_kid s_info]. destruct (match wd with WNone => _ | WIfSet => _ end); intros H; [now injection H|discriminate].
  - rewrite gen_cont. destruct (gen_kids _ _ _ _ _); [destruct ps|]; intros H; (now injection H) || discriminate.
  - rewrite gen_list. destruct es; intros H; [discriminate|now injection H].
Qed.
Lemma qualified_name ns i : member_name ns i (qualified ns i).
Proof.
  unfold member_name, qualified. destruct ns as [n|]; split; intros H; try congruence.
  - injection H as ->. now rewrite str_eqb_refl.
  - destruct (str_eqb (e_ns i) n) eqn:E; [|reflexivity]. apply str_eqb_eq in E. congruence.
Qed.

Definition member_enc (nt : str * itree) : res (str * json) := j <- enc_itree O im (snd nt) ;; Ok (fst nt, j).
Lemma enc_dict l : enc_itree O im (IDict l) = (ms <- map_res member_enc l ;; Ok (JObj ms)).
Proof. reflexivity. Qed.

Context (L : schema -> obj -> json -> Prop).
Context (HL1 : forall i lt d yt k c v j, enc_leaf O im true i lt yt v = Ok j -> L (SLeaf i lt d yt k) (OLeaf c v) j).
Context (HL2 : forall i ts yt c l j, enc_members O true ts l = Ok j -> L (SLeafList i ts yt) (OLeafList c l) j).

Definition val_ok s := forall ns x n t j, gen_kid flt wd ns s x = Some (n, t) -> enc_itree O im t = Ok j -> ietf_val L s x j.

Lemma doc_kids cs : Forall val_ok cs -> forall ns kids ms,
  map_res member_enc (gen_kids flt wd ns cs kids) = Ok ms -> ietf_doc L cs ns kids (JObj ms).
Proof.
  intros HP ns kids ms H. constructor.
  assert (G : forall cs2 kids2 n0 ms2, (forall n s, nth_error cs2 n = Some s -> nth_error cs (n0 + n) = Some s) ->
    (forall n x, nth_error kids2 n = Some x -> nth_error kids (n0 + n) = Some x) ->
    map_res member_enc (gen_kids flt wd ns cs2 kids2) = Ok ms2 ->
    Forall (fun kj => exists n s x, nth_error cs n = Some s /\ nth_error kids n = Some x /\
              member_name ns (s_info s) (fst kj) /\ ietf_val L s x (snd kj)) ms2).
  { induction cs2 as [|s cs2 IH]; intros [|x kids2] n0 ms2 H1 H2 H3; try (injection H3 as <-; constructor).
    cbn [gen_kids] in H3.
    assert (Ht : forall ms2, map_res member_enc (gen_kids flt wd ns cs2 kids2) = Ok ms2 ->
      Forall (fun kj => exists n s x, nth_error cs n = Some s /\ nth_error kids n = Some x /\
              member_name ns (s_info s) (fst kj) /\ ietf_val L s x (snd kj)) ms2).
    { intros ms3. apply (IH kids2 (S n0)); intros n y Hn; rewrite Nat.add_succ_comm; auto. }
    destruct (gen_kid flt wd ns s x) as [[n t]|] eqn:E; [|auto].
    rewrite map_res_cons in H3. unfold member_enc at 1 in H3. cbn [fst snd] in H3.
    destruct (enc_itree O im t) as [j|] eqn:Ej; [|discriminate]. cbn [bind] in H3.
    destruct (map_res member_enc (gen_kids flt wd ns cs2 kids2)) as [ms3|] eqn:Em; [|discriminate].
    injection H3 as <-. constructor; auto.
    pose proof (H1 0%nat s eq_refl) as Hs. pose proof (H2 0%nat x eq_refl) as Hx. rewrite Nat.add_0_r in Hs, Hx.
    exists n0, s, x. repeat (split; [assumption|]). cbn [fst snd]. split.
    - rewrite (gen_name _ _ _ _ _ E). apply qualified_name.
    - rewrite Forall_forall in HP. exact (HP s (nth_error_In _ _ Hs) ns x n t j E Ej). }
  apply (G cs kids 0%nat); auto.
Qed.

Lemma all_val_ok s : val_ok s.
Proof.
  induction s as [i lt d yt k|i ts yt|i pr cs IH|i keys od cs IH] using schema_ind'; intros ns [c v|c l|c ps kids|c es] n t j H Hj;
    try discriminate.
  - cbn [gen_kid] in H. destruct (match wd with WNone => _ | WIfSet => _ end); [|discriminate]. injection H as <- <-.
    constructor. now apply HL1.
  - cbn [gen_kid] in H. destruct (match wd with WNone => _ | WIfSet => _ end); [|discriminate]. injection H as <- <-.
    constructor. now apply HL2.
  - rewrite gen_cont in H. constructor.
    assert (Ht : t = IDict (gen_kids flt wd (Some (e_ns i)) cs kids)).
    { destruct (gen_kids flt wd (Some (e_ns i)) cs kids); [destruct ps|]; (now injection H) || discriminate. }
    subst t. rewrite enc_dict in Hj. destruct (map_res member_enc _) as [ms|] eqn:E; [|discriminate]. injection Hj as <-.
    now apply doc_kids.
  - rewrite gen_list in H. destruct es as [|e0 es0] eqn:Ees; [discriminate|]. rewrite <- Ees in *. injection H as <- <-.
    cbn [enc_itree] in Hj. destruct (map_res (enc_itree O im) (map (entry_itree i cs) es)) as [js|] eqn:E; [|discriminate].
    injection Hj as <-. constructor. clear Ees. revert js E. induction es as [|e es IHe]; intros js E; [injection E as <-; constructor|].
    cbn [map] in E. rewrite map_res_cons in E. destruct (enc_itree O im (entry_itree i cs e)) as [j|] eqn:Ej; [|discriminate].
    cbn [bind] in E. destruct (map_res (enc_itree O im) (map (entry_itree i cs) es)) as [js'|] eqn:Em; [|discriminate].
    injection E as <-. constructor; auto. intros c' ps' kids' Hs. unfold entry_itree in Ej. rewrite Hs in Ej.
    rewrite enc_dict in Ej. destruct (map_res member_enc _) as [ms|] eqn:E2; [|discriminate]. injection Ej as <-.
    now apply doc_kids.
Qed.

Theorem dumps_doc cs kids j : dumps_ietf O im flt wd cs kids = Ok j -> ietf_doc L cs None kids j.
Proof.
  unfold dumps_ietf. rewrite enc_dict. intros H. destruct (map_res member_enc _) as [ms|] eqn:E; [|discriminate]. injection H as <-.
  apply doc_kids; [|assumption]. apply Forall_forall. intros s _. apply all_val_ok.
Qed.
End J.

(* ------------------------------------------------------------------ scalars *)
Section Scalars.
Context (O : oracle) (im : einfo -> str -> option str).

Lemma wide_class levels : wide levels -> int64_class (int_chain levels) = true.
Proof. intros [->| ->]; vm_compute; reflexivity. Qed.
Lemma narrow_class levels : narrow levels -> int64_class (int_chain levels) = false.
Proof.
  intros [H|H].
  - destruct levels as [|l1 [|l2 ls]]; cbn in H; try lia. reflexivity.
  - cbn in H. repeat (destruct H as [<-|H]; [vm_compute; reflexivity|]). contradiction.
Qed.
Lemma wide_not_narrow yt : In yt wide_names -> In yt narrow_names -> False.
Proof.
  intros H1 H2. cbn in H1. destruct H1 as [<-|[<-|[]]]; cbn in H2;
    repeat (destruct H2 as [H2|H2]; [vm_compute in H2; discriminate|]); contradiction.
Qed.
Lemma wide_known yt : In yt wide_names -> In yt known_names.
Proof. intros H. unfold known_names. apply in_or_app. now left. Qed.
Lemma narrow_known yt : In yt narrow_names -> In yt known_names.
Proof. intros H. unfold known_names. apply in_or_app. right. apply in_or_app. now left. Qed.

Lemma enc_wide ietf i lt yt v : In yt wide_names -> enc_leaf O im ietf i lt yt v = enc_long O ietf v.
Proof. intros H. cbn in H. destruct H as [<-|[<-|[]]]; reflexivity. Qed.
Lemma enc_narrow ietf i lt yt v : In yt narrow_names -> enc_leaf O im ietf i lt yt v = enc_int v.
Proof. intros H. cbn in H. repeat (destruct H as [<-|H]; [reflexivity|]). contradiction. Qed.

Lemma leaf_scalars_hold i lt d yt k c v j : enc_leaf O im true i lt yt v = Ok j ->
  leaf_scalars O (SLeaf i lt d yt k) (OLeaf c v) j.
Proof.
  intros H t -> Hn Hwf Hv. destruct t as [levels|levels| | |names| |n]; try exact I.
  - destruct Hv as (z & -> & _). cbn [scalar_form]. split; intros [Hy|[Hy Hl]].
    + rewrite enc_wide in H by assumption. cbn in H. congruence.
    + rewrite (enc_unknown O im true i _ yt _ Hy) in H. unfold enc_class in H. cbn [leaf_class pty_of] in H.
      rewrite base_int, (wide_class levels Hl) in H. cbn in H. congruence.
    + rewrite enc_narrow in H by assumption. cbn in H. congruence.
    + rewrite (enc_unknown O im true i _ yt _ Hy) in H. unfold enc_class in H. cbn [leaf_class pty_of] in H.
      rewrite base_int, (narrow_class levels Hl) in H. cbn in H. congruence.
  - destruct Hv as (b & ->). cbn [scalar_form]. destruct Hn as [Hn|Hn].
    + cbn in Hn. destruct Hn as [<-|[]]. split; [intros Hy; now destruct Hy|]. intros _ ->. vm_compute in H. congruence.
    + split; intros Hy.
      * rewrite (enc_unknown O im true i _ yt _ Hn) in H. cbn in H. destruct b; congruence.
      * exfalso. apply Hn. subst yt. cbn. tauto.
  - destruct Hv as (q & ->). cbn [scalar_form]. destruct Hn as [Hn|Hn].
    + cbn in Hn. destruct Hn as [<-|[]]. cbn in H. congruence.
    + rewrite (enc_unknown O im true i _ yt _ Hn) in H. cbn in H. congruence.
Qed.

Lemma list_scalars_hold i ts yt c l j : enc_members O true ts l = Ok j ->
  leaf_scalars O (SLeafList i ts yt) (OLeafList c l) j.
Proof.
  unfold enc_members. intros H. destruct (map_res (enc_member O true ts) l) as [js|] eqn:E; [|discriminate]. injection H as <-.
  exists js. split; [reflexivity|]. intros t -> Hwf. revert js E. induction l as [|v l IH]; intros js E.
  { injection E as <-. constructor. }
  rewrite map_res_cons in E. destruct (enc_member O true [pty_of t] v) as [j|] eqn:Ej; [|discriminate]. cbn [bind] in E.
  destruct (map_res _ l) as [js'|]; [|discriminate]. injection E as <-. constructor; auto. intros Hv.
  unfold enc_member in Ej. cbn [member_class] in Ej. destruct t as [levels|levels| | |names| |n]; try exact I.
  - rewrite (try_own O (MInt levels) v Hwf Hv ltac:(discriminate) I) in Ej. destruct Hv as (z & -> & _).
    unfold enc_class in Ej. cbn [pty_of] in Ej. rewrite base_int in Ej. split; intros Hl.
    + rewrite (wide_class levels Hl) in Ej. cbn in Ej. congruence.
    + rewrite (narrow_class levels Hl) in Ej. cbn in Ej. congruence.
  - destruct Hv as (q & ->). intros Hq. rewrite (try_own O (MDec n) (VDec q (- n)) Hwf (ex_intro _ q eq_refl) ltac:(discriminate) Hq) in Ej.
    cbn in Ej. congruence.
Qed.

Lemma identity_holds i lt d yt k c v j : enc_leaf O im true i lt yt v = Ok j ->
  identity_form im (SLeaf i lt d yt k) (OLeaf c v) j.
Proof.
  intros H. destruct v; try exact I. cbn [identity_form]. intros -> m Hm. cbn in H. injection H as <-.
  unfold enc_identity. cbn [py_str]. rewrite Hm. split.
  - intros Hne Hs. destruct (str_eqb m (e_mod i)) eqn:E; [apply str_eqb_eq in E; congruence|]. now rewrite Hs.
  - intros ->. now rewrite str_eqb_refl.
Qed.
End Scalars.
