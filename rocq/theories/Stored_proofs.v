(** Trees built by proper operations survive being written and read. *)
From Verif Require Import PyStr PyStr_facts PyVal Restricted Spec_Types Spec_Lists IntTypes StrTypes MemberTypes Bits Bits_proofs
  Range_proofs Restricted_proofs StrTypes_proofs Scalars_proofs Types_main
  Member_proofs TypedList TypedList_proofs YList YList_proofs Tree Spec_Tree Tree_proofs Tree_main Serialise Spec_Serialise Serialise_proofs Load_proofs
  ValuesTypes_proofs Spec_Stored.
From Verif Require Rival_proofs Tree_case IetfRound_proofs.
From Coq Require Import Lia.
Import ListNotations.
Local Open Scope Z_scope.

Section T.
Context (O : oracle) (f : fmt).

(* ------------------------------------------------------------------ values *)
Lemma accepted_sats levels s : mtype_wf (MStr levels) -> accepted O levels s = true ->
  Forall (Forall (fun r => sat (o_match O) wrap_anchors r s)) levels.
Proof.
  intros (Hn & Hwf & Hs) H. apply accepted_iff in H. destruct H as [H1 H2]. destruct Hs as [Hs|Hs].
  - destruct levels as [|l [|]]; cbn in Hs; try lia. constructor; [exact H2|constructor].
  - clear H2. induction H1 as [|l ls H1 _ IH]; constructor.
    + inversion Hs; subst. destruct l as [|r [|]]; cbn in *; try lia. inversion H1 as [? ? Hr|? ? Hr]; subst; [|inversion Hr].
      constructor; [exact Hr|constructor].
    + inversion Hs; subst. inversion Hwf; subst. destruct ls as [|l' ls]; [constructor|]. apply IH; auto. discriminate.
Qed.

Lemma meant_leaf t a v w : mtype_wf t -> shallow t -> stands t a v -> d_out (leaf_assign O (LOne (pty_of t)) a) = Ok w -> w = v /\ is_value (o_match O) t v.
Proof.
  intros Hwf Hsh Hst H.
  destruct t as [levels|levels| | |names| |n]; cbn [stands] in Hst.
  - destruct Hst as (z & -> & Ha). destruct Hwf as [Hn Hwf]. destruct levels as [|l ls]; [congruence|]. cbn [pty_of is_value] in *.
    assert (Hz : a = VInt 0 \/ truthy a = true /\ py_int a = Ok z).
    { destruct Ha as [-> | ->].
      - destruct (Z.eq_dec z 0) as [->|Hz]; [now left|right]. split; [|reflexivity]. cbn. destruct (Z.eqb_spec z 0); [congruence|reflexivity].
      - right. split; [apply truthy_print|apply py_int_print]. }
    destruct Hz as [->|[Ht Hp]].
    + destruct Ha as [Ha|Ha]; [|discriminate]. injection Ha as <-. rewrite (int_assign_zero O l ls Hwf) in H.
      destruct (in_levelsb 0 (l :: ls)) eqn:E; cbn in H; [|discriminate]. injection H as <-. split; [reflexivity|]. exists 0. split; [reflexivity|].
      now apply in_levelsb_iff.
    + rewrite (int_assign_exact O l ls a Hwf Ht) in H. unfold int_assign_spec in H. rewrite Hp in H.
      destruct (in_levelsb z (l :: ls)) eqn:E.
      * cbn in H. injection H as <-. split; [reflexivity|]. exists z. split; [reflexivity|]. now apply in_levelsb_iff.
      * destruct (in_levelsb z ls); [discriminate|]. destruct ls as [|l1 [|l2 ls]]; cbn in Hsh; [discriminate|discriminate|lia].
  - destruct Hst as [(s & ->) ->]. cbn [pty_of is_value] in *. rewrite (str_assign O levels s (proj1 (proj2 Hwf))) in H. cbn [d_out] in H.
    destruct (accepted O levels s) eqn:E; [|discriminate]. injection H as <-. split; [reflexivity|]. exists s. split; [reflexivity|].
    now apply accepted_sats.
  - destruct Hst as [(s & ->) ->]. cbn in H. injection H as <-. split; [reflexivity|]. now exists s.
  - destruct Hst as (b & -> & Hb). cbn [pty_of] in H. rewrite bool_assign in H. apply bool_spells_meaning in Hb. rewrite Hb in H. cbn in H.
    injection H as <-. split; [reflexivity|]. now exists b.
  - destruct Hst as [(s & ->) ->]. cbn [pty_of is_value] in *. rewrite enum_assign in H. cbn [d_out py_str] in H.
    destruct (str_in s names) eqn:E; [|discriminate]. injection H as <-. split; [reflexivity|]. exists s. split; [reflexivity|].
    now apply str_in_In.
  - destruct Hst as [(l & ->) ->]. cbn in H. injection H as <-. split; [reflexivity|]. now exists l.
  - destruct Hst as [Hs ->]. split; [eapply spelled_leaf; eauto|exact Hs].
Qed.
Lemma given_leaf t yt a v w : given O f t yt a v -> d_out (leaf_assign O (LOne (pty_of t)) a) = Ok w -> w = v /\ value_ok O f t yt w.
Proof. intros (Hwf & Hsh & _ & Hst & Hok) H. destruct (meant_leaf t a v w Hwf Hsh Hst H) as [-> Hv]. auto. Qed.

Lemma own_leaf w yt a v x : leaf_ok O f w yt v -> own_text w a v -> d_out (leaf_assign O (ltype_of w) a) = Ok x -> x = v.
Proof.
  intros Hv Ha H. destruct w as [t|al| |ts]; cbn [leaf_ok own_text ltype_of] in *.
  - subst a. destruct Hv as [Hwf [Hval Hok]]. rewrite (assign_own O t v Hwf Hval) in H; [now injection H|].
    destruct t; try exact I. destruct v; try exact I. destruct Hok as [_ Hq]. destruct f; [|exact Hq].
    eapply Z.lt_le_trans; [exact Hq|]. vm_compute. discriminate.
  - destruct Hv as (l & -> & Hl & Hw & Hs). destruct Ha as (l' & E & ->). injection E as <-.
    unfold leaf_assign in H. cbn [dyn_ltype] in H. unfold dyn_leaf in H. cbn [ty_new ty_init] in H. unfold yang_bits in H.
    rewrite split_ws_join in H.
    + rewrite add_all_fresh in H; [cbn in H; now injection H|cbn; apply Hl|apply Hl].
    + apply Forall_forall. intros b Hb. unfold words in Hw. rewrite Forall_forall in Hw. apply Hw. now apply Hl.
  - subst a. destruct Hv as (s & [->|(z & ->)]); cbn in H; now injection H.
  - subst a. destruct Hv as (t & Hi & Hp & Hwf & Hval & Has). unfold leaf_assign in H. cbn [dyn_ltype] in H. rewrite Hp in H.
    rewrite (dyn_leaf_call O (pty_of t) v v) in H; [now injection H|]. apply call_own; auto. destruct t; try exact I. contradiction.
Qed.

(* ------------------------------------------------------------------ types with the same class *)
Lemma int_chain_form l ls : exists b rs, int_chain (l :: ls) = TRestr b rs.
Proof. cbn. eauto. Qed.
Lemma same_kind t t' : mtype_wf t -> mtype_wf t' -> pty_of t = pty_of t' ->
  match t, t' with
  | MInt _, MInt _ | MStr _, MStr _ | MText, MText | MBool, MBool | MEnum _, MEnum _ | MBin, MBin => True
  | MDec n, MDec n' => n = n'
  | _, _ => False
  end.
Proof.
  intros Hw Hw' E. assert (Eb := f_equal base_of E).
  destruct t as [levels|levels| | |names| |n], t' as [levels'|levels'| | |names'| |n']; cbn [pty_of] in *; auto;
    rewrite ?base_int, ?base_str in Eb; try discriminate Eb; try discriminate E.
  all: try (destruct Hw as [Hn Hw]; destruct levels as [|l ls]; [congruence|]); try (destruct Hw' as [Hn' Hw']; destruct levels' as [|l' ls']; [congruence|]);
    cbn in E; try discriminate E.
  - injection E as _ E. destruct Hw as [Hw _]. inversion Hw as [|? ? Hl _]; subst. destruct l as [|[]]; cbn in E; discriminate E.
  - injection E as _ E. destruct Hw' as [Hw' _]. inversion Hw' as [|? ? Hl _]; subst. destruct l' as [|[]]; cbn in E; discriminate E.
  - injection E as E. exact E.
Qed.

Lemma same_value t t' yt v : mtype_wf t -> mtype_wf t' -> pty_of t = pty_of t' -> member_ok O f t' yt v -> member_ok O f t yt v.
Proof.
  intros Hw Hw' E [[Hv Hok] Hm]. assert (K := same_kind t t' Hw Hw' E).
  assert (Hval : is_value (o_match O) t v).
  { apply (call_value O t v v Hw).
    - destruct t as [levels|levels| | |names| |n], t' as [levels'|levels'| | |names'| |n']; try contradiction K; try exact I.
      + destruct Hv as (z & -> & _). cbn. destruct levels as [|? [|]]; try exact I. discriminate.
      + destruct Hv as (z & -> & _). cbn. destruct levels as [|? [|]]; exact I.
    - rewrite E. apply call_own; auto. destruct t' as [| | | | | |n]; try exact I. destruct v; try exact I.
      destruct Hm as [Hf _]. destruct f; [discriminate|]. apply Hok. }
  destruct t as [levels|levels| | |names| |n], t' as [levels'|levels'| | |names'| |n']; try contradiction K; (split; [split; [exact Hval|]|]); try exact I; try exact Hm; exact Hok || (subst; exact Hok).
Qed.

Lemma given_members ts t yt a w : ts = [pty_of t] -> mtype_wf t -> given_member O f t yt a -> member_value O ts a = Some w -> member_ok O f t yt w.
Proof.
  intros -> Hw [Hs Hok] H. assert (Ew : w = a) by exact (spelled_canon O t a Hw Hs w H). subst w.
  apply Hok. cbn in H. destruct (member_try O (pty_of t) a) eqn:E; [|discriminate]. injection H as ->.
  eapply member_is_value; [exact Hw| |exact E].
  destruct t as [[|? [|]]|[|? [|]]| | | | |]; try exact I; destruct Hs as (? & ->); try exact I; discriminate.
Qed.

(* ------------------------------------------------------------------ fresh objects *)
Lemma fresh_untouched s : untouched s (fresh O s).
Proof.
  induction s using schema_ind'; cbn [fresh untouched]; auto. split; [reflexivity|]. induction H; cbn [map]; auto.
Qed.
Lemma fresh_untoucheds cs : Forall2 untouched cs (map (fresh O) cs).
Proof. induction cs; constructor; auto using fresh_untouched. Qed.
Lemma fresh_storable s : suited s -> storable O f s (fresh O s).
Proof.
  induction s as [i lt d yt k|i ts yt|i pr cs HF|i ks od cs HF] using schema_ind'; intros H; inversion H; subst; cbn [fresh].
  - constructor. discriminate.
  - constructor; auto. intros n m x y Hx. now destruct n.
  - constructor.
    + clear H. match goal with [H : Forall suited _ |- _] => revert H end. induction HF; cbn; intros H'; inversion H'; subst; constructor; auto.
    + intros _ _. right. apply fresh_untoucheds.
  - constructor; auto. intros n m x y Hx. now destruct n.
Qed.
Lemma fresh_storables cs : Forall suited cs -> Forall2 (storable O f) cs (map (fresh O) cs).
Proof. induction 1; constructor; auto using fresh_storable. Qed.
Lemma clear_storable cs kids ev : Forall suited cs -> Forall2 (storable O f) cs kids -> Forall2 (storable O f) cs (clear O cs kids ev).
Proof. intros Hs H. revert Hs. induction H; cbn; intros Hs; inversion Hs; subst; constructor; auto. destruct (other_case ev x); auto using fresh_storable. Qed.
Lemma clears_storable cs evs : Forall suited cs -> forall kids, Forall2 (storable O f) cs kids -> Forall2 (storable O f) cs (clears O cs kids evs).
Proof. intros Hs. unfold clears. induction evs; cbn; intros; auto using clear_storable. Qed.
Lemma absorb_storable live cs kids n e s : Forall suited cs ->
  Forall2 (storable O f) cs kids -> nth_error cs n = Some s -> (forall x, f_new e = Some x -> storable O f s x) ->
  Forall2 (storable O f) cs (absorb O live cs kids n e).
Proof.
  intros Hs H Hn Hf. rewrite absorb_eq.
  assert (St : forall ks evs, Forall2 (storable O f) cs ks -> Forall2 (storable O f) cs (stepc O live cs ks evs))
    by (intros; destruct live; cbn; auto using clears_storable).
  apply St. destruct (f_new e); [|auto]. eapply Forall2_set_nth; eauto.
Qed.

(* ------------------------------------------------------------------ without data and without notifications *)
Lemma untouched_cont i pr cs ch pres kids : untouched (SCont i pr cs) (OCont ch pres kids) <-> pres = false /\ Forall2 untouched cs kids.
Proof.
  cbn [untouched]. apply and_iff_compat_l. revert kids. induction cs as [|s cs IH]; intros [|x kids]; split; intros H; try contradiction; auto; try now inversion H.
  - constructor; [apply H|]. now apply IH.
  - inversion H; subst. split; [assumption|]. now apply IH.
Qed.
Lemma set_any_quiet s a : f_pre (set_any O s a) ++ f_post (set_any O s a) = [] -> f_new (set_any O s a) = None.
Proof.
  assert (Hs : forall evs r, f_pre (setter evs r) ++ f_post (setter evs r) = [] -> f_new (setter evs r) = None).
  { intros evs [x|e]; cbn; [|reflexivity]. intros H. now apply app_eq_nil in H as [_ H]. }
  destruct a as [v|x].
  - destruct s as [| |i pr [|c cs]|]; cbn [set_any]; try apply Hs.
  - assert (Ho : f_pre (set_obj O s x) ++ f_post (set_obj O s x) = [] -> f_new (set_obj O s x) = None).
    { destruct s as [i lt d yt k|i ts yt|i pr cs|i ks od cs], x as [c0 v0|c0 l0|c0 p0 k0|c0 es0]; try (cbn [set_obj]; first [apply Hs|intros _; reflexivity]).
      all: try (destruct cs; cbn [set_obj]; apply Hs).
      rewrite set_obj_cont. destruct (copy_kids _ _ _ _ _ _) as [[? ?] ?]. apply Hs. }
    destruct s as [| |i pr [|c cs]|]; exact Ho.
Qed.
Lemma assign_quiet s w a : f_pre (assign O s w a) ++ f_post (assign O s w a) = [] -> f_new (assign O s w a) = None.
Proof. unfold assign. destruct w; [destruct (e_rw (s_info s))|]; try destruct (is_key s && _); cbn [no_effect f_new]; auto using set_any_quiet. Qed.
Lemma tl_op_nil ts lo : tl_notifies lo = false -> fst (tl_op O ts true [] lo) = [].
Proof. destruct lo; cbn; try discriminate. intros _. destruct (index_pos 0 i) as [k|]; [|reflexivity]. cbn. unfold list_delete. now rewrite firstn_nil, skipn_nil. Qed.
Lemma list_op_quiet keys cs uid yo es' evs r : keys <> [] ->
  list_op O keys cs uid [] yo = (es', evs, r) -> yl_notifies yo = false -> evs = [] -> es' = [].
Proof.
  intros Hk H Hn ->. destruct r as [[]|e]; [|unfold list_op in H; eapply fail_keeps; exact H].
  destruct yo as [k| |kw|k a|a|k|kw]; try discriminate Hn.
  - exfalso. exact (add_events O keys cs uid [] (YAdd k) es' [] Hk H eq_refl).
  - unfold list_op in H. cbn [yl_op] in H. unfold yl_add in H. cbn in H. destruct keys; [congruence|discriminate].
  - exfalso. exact (add_events O keys cs uid [] (YAddKw kw) es' [] Hk H eq_refl).
  - unfold list_op in H. cbn [yl_op] in H. unfold yl_delete in H. destruct (negb _); [discriminate|]. cbn in H. discriminate.
  - unfold list_op in H. cbn [yl_op] in H. destruct kw; [unfold yl_delete in H; cbn in H; discriminate|]. destruct keys; [congruence|].
    destruct (kw_keys _ _); [|discriminate]. unfold yl_delete in H. cbn in H. discriminate.
Qed.

Lemma apply_quiet s x o y : suited s -> untouched s x -> f_pre (apply O s x o) ++ f_post (apply O s x o) = [] ->
  f_new (apply O s x o) = Some y -> untouched s y.
Proof.
  intros Hs Hu Hq Hy. destruct o as [w a| |b|lo|uid yo]; cbn [apply] in *.
  - rewrite (assign_quiet s w a Hq) in Hy. discriminate.
  - injection Hy as <-. apply fresh_untouched.
  - destruct s as [| |i pr cs|]; try discriminate. destruct x as [| |ch pres kids|]; try discriminate. destruct b; [discriminate Hq|].
    injection Hy as <-. apply untouched_cont. split; [reflexivity|]. now apply untouched_cont in Hu.
  - destruct s as [|i ts yt| |]; try discriminate. destruct x as [|ch l| |]; try discriminate.
    destruct Hu as [-> ->]. assert (Hl := tl_op_nil ts lo). destruct (tl_op O ts true [] lo) as [l' r]. destruct (tl_notifies lo); [discriminate Hq|].
    injection Hy as <-. cbn. auto.
  - destruct s as [| | |i keys od cs]; try discriminate. destruct x as [| | |ch es]; try discriminate. cbn in Hu. subst es.
    inversion Hs; subst. destruct (list_op O keys cs uid [] yo) as [[es' evs] r] eqn:E. destruct (yl_notifies yo) eqn:En; [discriminate Hq|].
    injection Hy as <-. cbn in Hq. cbn. eapply list_op_quiet; eauto.
Qed.
Lemma stepc_nil live cs kids : stepc O live cs kids [] = kids.
Proof. now destruct live. Qed.
Lemma exec_quiet N : forall p live cs kids o k r, (length p <= N)%nat -> Forall suited cs -> Forall2 untouched cs kids ->
  exec O live cs kids p o = (k, [], r) -> Forall2 untouched cs k.
Proof.
  induction N as [|N IH]; intros p live cs kids o k r Hl Hs Hu H; (destruct p as [|[n|v] p]; [cbn in H; now injection H as <- _| |cbn in H; now injection H as <- _]);
    [cbn in Hl; lia|].
  destruct (nth_error cs n) as [s|] eqn:En; [|cbn in H; rewrite En in H; now injection H as <- _].
  destruct (Forall2_nth _ _ _ _ _ Hu En) as (x & Ex & Hx).
  rewrite (exec_kid O live cs kids n p o s x En Ex) in H. cbn zeta in H. injection H as <- He _.
  assert (Hss : suited s) by (rewrite Forall_forall in Hs; eapply Hs, nth_error_In; eauto).
  rewrite absorb_eq. apply app_eq_nil in He as He'. destruct He' as [E1 E2]. rewrite E1, E2, !stepc_nil.
  destruct (f_new (down O s x p o)) as [y|] eqn:Ey; [|exact Hu]. eapply Forall2_set_nth; eauto.
  destruct p as [|[m|v] p]; cbn [down] in *.
  - eapply apply_quiet; eauto.
  - destruct s as [| |i pr cs'|]; try discriminate. destruct x as [| |ch pres kids'|]; try discriminate.
    destruct (exec O true cs' kids' (Kid m :: p) o) as [[k' e'] r'] eqn:Ee. cbn [f_new f_pre f_post] in *.
    apply map_eq_nil in E2. subst e'. injection Ey as <-. apply untouched_cont in Hx. destruct Hx as [-> Hx]. apply untouched_cont. split; [reflexivity|].
    inversion Hss; subst. eapply IH; [| | |exact Ee]; auto. cbn in Hl |- *. lia.
  - destruct s as [| | |i keys od cs']; try discriminate. destruct x as [| | |ch es]; try discriminate. cbn in Hx. subst es. discriminate.
Qed.

(* ------------------------------------------------------------------ notifications where there is one case *)
Definition one_tag (tg : event) (cs : list schema) : Prop := forall q t, schema_at cs q = Some t -> s_tag t = None \/ s_tag t = tg.
Lemma one_tag_nth tg cs n s : one_tag tg cs -> nth_error cs n = Some s -> s_tag s = None \/ s_tag s = tg.
Proof. intros H Hn. apply (H [Kid n]). cbn. now rewrite Hn. Qed.
Lemma one_tag_cont tg cs n i pr cs' : one_tag tg cs -> nth_error cs n = Some (SCont i pr cs') -> one_tag tg cs'.
Proof.
  intros H Hn [|st q] t Hq; [left; now injection Hq as <-|]. apply (H (Kid n :: st :: q)). unfold schema_at in *. cbn [sub entry_schema] in *. now rewrite Hn.
Qed.
Lemma one_tag_entry tg cs n i keys od cs' : one_tag tg cs -> nth_error cs n = Some (SList i keys od cs') -> one_tag tg cs'.
Proof. intros H Hn q t Hq. apply (H (Kid n :: Ent VNone :: q)). unfold schema_at in *. cbn [sub entry_schema] in *. now rewrite Hn. Qed.

Lemma set_events s v e : In e (f_pre (set_any O s (AVal v)) ++ f_post (set_any O s (AVal v))) -> e = None \/ e = s_tag s.
Proof.
  assert (A : forall evs r, (forall e, In e evs -> e = s_tag s) -> In e (f_pre (setter evs r) ++ f_post (setter evs r)) -> e = None \/ e = s_tag s).
  { intros evs r H. unfold setter. destruct r; cbn [f_pre f_post]; intros Hi; apply in_app_or in Hi as [Hi|Hi]; auto; [|contradiction].
    destruct Hi as [<-|[]]. now left. }
  destruct s as [i lt d yt k|i ts yt|i pr [|c cs]|i keys od cs]; cbn [set_any]; unfold set_leaf, set_leaf_list; apply A; intros e'; try (intros [<-|[]]; reflexivity).
  destruct (d_notified _); [|intros []]. intros [<-|[]]. reflexivity.
Qed.
Lemma fill_tags tg cs : (forall n s, nth_error cs n = Some s -> s_tag s = None \/ s_tag s = tg) ->
  forall kd kids e, In e (snd (fst (fill_keys O cs kids kd))) -> e = None \/ e = tg.
Proof.
  intros H. induction kd as [|[n v] kd IH]; intros kids e; [intros []|]. cbn [fill_keys].
  destruct (kid_index n cs) as [j|]; [|intros []]. destruct (nth_error cs j) as [s|] eqn:Es; [|intros []].
  assert (Hs : forall e, In e (f_pre (set_any O s (AVal v)) ++ f_post (set_any O s (AVal v))) -> e = None \/ e = tg).
  { intros e' He. destruct (set_events s v e' He) as [->| ->]; [now left|]. exact (H j s Es). }
  destruct (f_out (set_any O s (AVal v))); [|exact (Hs e)].
  specialize (IH (absorb O true cs kids j (set_any O s (AVal v)))). destruct (fill_keys O cs _ kd) as [[k1 e1] r1]. cbn [fst snd] in *.
  rewrite app_assoc. intros Hin. apply in_app_or in Hin as [Hin|Hin]; auto.
Qed.
Lemma list_tags tg keys cs uid es yo e : (forall n s, nth_error cs n = Some s -> s_tag s = None \/ s_tag s = tg) ->
  match yo with YSet _ _ | YAppend _ => False | _ => True end ->
  In e (snd (fst (list_op O keys cs uid es yo))) -> e = None \/ e = tg.
Proof.
  intros H Hy. assert (Hst : forall k kd, In e (snd (fst (store k es (mk_entry O cs kd)))) -> e = None \/ e = tg).
  { intros k kd. pose proof (fill_tags tg cs H kd (map (fresh O) cs) e) as Hf. unfold mk_entry. destruct (fill_keys O cs (map (fresh O) cs) kd) as [[k1 e1] r1].
    cbn [fst snd] in Hf. destruct r1; cbn; exact Hf. }
  assert (Hadd : forall k, In e (snd (fst (list_op O keys cs uid es (YAdd k)))) -> e = None \/ e = tg).
  { intros k. unfold list_op. cbn [yl_op]. unfold yl_add. destruct (negb _); [intros []|]. destruct (mhas k es); [intros []|]. destruct keys as [|n ks]; [intros []|].
    destruct k; try (intros []; fail); (destruct (key_dict (n :: ks) _); [apply Hst|intros []]). }
  assert (Hdel : forall k, In e (snd (fst (yl_delete (E:=event) es k))) -> e = None \/ e = tg).
  { intros k. unfold yl_delete. destruct (negb _); [intros []|]. destruct (mhas k es); intros []. }
  destruct yo as [k| |kw|k a|a|k|kw]; try contradiction.
  - apply Hadd.
  - exact (Hadd VNone).
  - destruct kw as [|nv kw]; [exact (Hadd VNone)|]. unfold list_op. cbn [yl_op]. unfold yl_add_kw. destruct keys as [|n ks]; [intros []|].
    destruct (kw_keys (n :: ks) (nv :: kw)) as [kd|]; [|intros []]. cbv zeta. destruct (mhas _ es); [intros []|]. apply Hst.
  - apply Hdel.
  - unfold list_op. cbn [yl_op]. destruct kw as [|nv kw]; [apply Hdel|]. destruct keys as [|n ks]; [intros []|].
    destruct (kw_keys (n :: ks) (nv :: kw)); [apply Hdel|intros []].
Qed.
(** Operations that take no objects. *)
Definition on_values (o : op) : Prop :=
  match o with ASet _ (AObj _) | AList _ (YSet _ _) | AList _ (YAppend _) => False | _ => True end.
Lemma apply_tags tg s x o e : on_values o -> s_tag s = None \/ s_tag s = tg ->
  match s with SList _ _ _ cs => one_tag tg cs | _ => True end ->
  In e (f_pre (apply O s x o) ++ f_post (apply O s x o)) -> e = None \/ e = tg.
Proof.
  intros Ho Hs Hl Hin. assert (Hown : choice_op o -> e = None \/ e = tg).
  { intros Hc. destruct e as [[c k]|]; [|now left]. rewrite (own_events O s x o Hc c k Hin) in Hs. destruct Hs as [Hs|Hs]; [discriminate|now right]. }
  destruct o as [w [v|z]| |b|lo|u yo]; try (apply Hown; exact I); try contradiction.
  destruct s as [| | |i keys od cs]; [now cbn in Hin..|]. destruct x as [| | |ch es]; [now cbn in Hin..|]. cbn [apply] in Hin.
  destruct (list_op O keys cs u es yo) as [[es' evs] r] eqn:E. cbn [f_pre f_post app] in Hin.
  apply in_app_or in Hin as [Hin|Hin].
  - destruct (yl_notifies yo); [|contradiction]. destruct Hin as [<-|[]]. exact Hs.
  - apply (list_tags tg keys cs u es yo e); [intros n t; apply one_tag_nth; exact Hl| |now rewrite E]. destruct yo; auto.
Qed.
Lemma exec_tags tg N : forall p live cs kids o e, (length p <= N)%nat -> one_tag tg cs -> (forall t, schema_at cs p = Some t -> on_values o) ->
  In e (snd (fst (exec O live cs kids p o))) -> e = None \/ e = tg.
Proof.
  induction N as [|N IH]; intros p live cs kids o e Hl Ht Ho; (destruct p as [|[n|v] p]; [intros []| |intros []]); [cbn in Hl; lia|].
  destruct (nth_error cs n) as [s|] eqn:En; [|cbn; rewrite En; intros []].
  destruct (nth_error kids n) as [x|] eqn:Ex; [|cbn; rewrite En, Ex; intros []].
  rewrite (exec_kid O live cs kids n p o s x En Ex). cbn [fst snd].
  assert (Hs := one_tag_nth tg cs n s Ht En).
  destruct p as [|[m|v] p]; cbn [down].
  - apply apply_tags; auto; [apply (Ho s); cbn; now rewrite En|]. destruct s; auto. eapply one_tag_entry; eauto.
  - destruct s as [| |i pr cs'|]; try (intros []; fail). destruct x as [| |ch pres ks|]; try (intros []; fail).
    specialize (IH (Kid m :: p) true cs' ks o). destruct (exec O true cs' ks (Kid m :: p) o) as [[k' e'] r']. cbn [fst snd f_pre f_post app] in *.
    intros Hin. apply in_map_iff in Hin as (e0 & E & Hin). unfold forward in E. destruct e0 as [c0|]; [|subst e; exact Hs]. subst e.
    apply IH; auto; [cbn in Hl |- *; lia|eapply one_tag_cont; eauto|]. intros t Hm. apply (Ho t). cbn. rewrite En. exact Hm.
  - destruct s as [| | |i keys od cs']; try (intros []; fail). destruct x as [| | |ch es]; try (intros []; fail).
    destruct (mget v es) as [y|]; [|intros []]. destruct y as [| |ec ep ks|]; try (intros []; fail).
    specialize (IH p true cs' ks o e). destruct (exec O true cs' ks p o) as [[k' e'] r']. cbn [fst snd f_pre f_post app] in *.
    intros Hin. apply IH; auto; [cbn in Hl; lia|eapply one_tag_entry; eauto|]. intros t Hm. apply (Ho t). cbn. rewrite En. exact Hm.
Qed.

(* ------------------------------------------------------------------ key leaves stay *)
Lemma proper_values s o : proper O f s o -> on_values o.
Proof. intros H. now inversion H. Qed.
Lemma exec_key tg live cs kids p o j i lt d yt v : nth_error cs j = Some (SLeaf i lt d yt true) ->
  e_choice i = None \/ e_choice i = tg -> (tg <> None -> one_tag tg cs) ->
  length kids = length cs ->
  nth_error kids j = Some v -> (forall s, schema_at cs p = Some s -> proper O f s o) ->
  nth_error (fst (fst (exec O live cs kids p o))) j = Some v.
Proof.
  intros Hj Hc Htg Hlen Hv Hp. destruct p as [|[n|k0] p]; [exact Hv| |exact Hv].
  destruct (nth_error cs n) as [s|] eqn:En; [|cbn; rewrite En; exact Hv].
  destruct (nth_error kids n) as [x|] eqn:Ex; [|cbn; rewrite En, Ex; exact Hv].
  rewrite (exec_kid O live cs kids n p o s x En Ex). cbn [fst].
  destruct (Nat.eq_dec n j) as [->|Hn].
  - assert (s = SLeaf i lt d yt true) by congruence. subst s. assert (x = v) by congruence. subst x.
    assert (Hd : f_new (down O (SLeaf i lt d yt true) v p o) = None /\ f_pre (down O (SLeaf i lt d yt true) v p o) = [] /\ f_post (down O (SLeaf i lt d yt true) v p o) = []).
    { destruct p as [|[m|k1] p]; cbn [down]; [|now auto|now auto].
      assert (Hpr : proper O f (SLeaf i lt d yt true) o) by (apply Hp; cbn; now rewrite En).
      assert (Ha : forall w a, w <> Priv true -> let e := assign O (SLeaf i lt d yt true) w a in f_new e = None /\ f_pre e = [] /\ f_post e = []).
      { intros w a Hw. destruct w as [|[|]]; [|congruence|]; cbn; [destruct (e_rw i); cbn; auto|auto]. }
      inversion Hpr; subst; cbn [apply].
      - apply Ha. auto.
      - apply Ha. auto.
      - discriminate. }
    destruct Hd as (D1 & D2 & D3). rewrite absorb_eq, D1, D2, D3, !stepc_nil. exact Hv.
  - rewrite (absorb_other O live cs kids n j _ _ _ Hn Hj Hv). destruct live; [|reflexivity].
    destruct (hit (f_pre (down O s x p o) ++ f_post (down O s x p o)) (SLeaf i lt d yt true)) eqn:Eh; [|reflexivity].
    destruct (hit_ex _ _ Eh) as (c & k1 & k2 & Hin & Ht & Hne). unfold s_tag in Ht. cbn [s_info] in Ht.
    rewrite Ht in Hc. destruct Hc as [Hc|Hc]; [discriminate|]. assert (Ho : one_tag tg cs) by (apply Htg; congruence).
    destruct (exec_tags tg _ (Kid n :: p) true cs kids o (Some (c, k1)) (le_n _) Ho (fun t Ht => proper_values t o (Hp t Ht))) as [X|X]; [|discriminate|congruence].
    rewrite (exec_kid O true cs kids n p o s x En Ex). exact Hin.
Qed.

(* ------------------------------------------------------------------ new entries *)
Lemma set_key_leaf tg cs kids j i lt d yt k a : nth_error cs j = Some (SLeaf i lt d yt k) -> e_choice i = None \/ e_choice i = tg -> kept_apart O tg cs kids ->
  absorb O true cs kids j (set_leaf O i lt a) =
  match d_out (leaf_assign O lt a) with Ok w => set_nth j (OLeaf true w) kids | Raise _ => kids end.
Proof.
  intros Hj Hc Hu. pose proof (key_events O tg i lt a Hc) as Hq. pose proof (own_case tg (SLeaf i lt d yt k) Hc) as Ho.
  destruct (d_out (leaf_assign O lt a)) as [w|e] eqn:Ew.
  - apply (absorb_same O tg cs kids j (SLeaf i lt d yt k)); auto. unfold set_leaf. rewrite Ew. reflexivity.
  - unfold absorb, set_leaf in *. rewrite Ew in *. cbn [bind setter f_pre f_new f_post] in *. unfold clears at 1. cbn [fold_left]. apply (clears_same O tg); [|exact Hu].
    intros c k0 Hi. apply Hq. now rewrite app_nil_r.
Qed.

Lemma Forall2_len {A B} (R : A -> B -> Prop) l l' : Forall2 R l l' -> length l = length l'.
Proof. induction 1; cbn; congruence. Qed.
Definition key_at (cs : list schema) (n : str) (a : pyval) (R : mtype -> str -> pyval -> pyval -> Prop) : Prop :=
  exists j i t d yt v, nth_error cs j = Some (SLeaf i (LOne (pty_of t)) d yt true) /\ e_py i = n /\ given O f t yt a v /\ R t yt v a.
Lemma fill_spec tg cs K R : NoDup (map (fun s => e_py (s_info s)) cs) ->
  (forall s, In s cs -> In (e_py (s_info s)) K -> s_tag s = None \/ s_tag s = tg) ->
  forall keys vals kids k e, incl keys K -> NoDup keys -> Forall2 (fun n a => key_at cs n a R) keys vals ->
  Forall2 (storable O f) cs kids -> kept_apart O tg cs kids ->
  fill_keys O cs kids (combine keys vals) = (k, e, Ok tt) ->
  Forall2 (storable O f) cs k /\
  (forall j s, nth_error cs j = Some s -> ~ In (e_py (s_info s)) keys -> nth_error k j = nth_error kids j) /\
  Forall2 (fun n a => exists t yt v, key_leaf O f cs k n t yt v /\ type_name (WVal t) yt /\ R t yt v a) keys vals.
Proof.
  intros Hnd Htag. induction keys as [|n keys IH]; intros vals kids k e HK Hk HF Hst Hun H; inversion HF as [|? a ? vals' Ha HF']; subst; cbn [combine fill_keys] in H.
  { injection H as <- _. auto. }
  destruct Ha as (j & i & t & d & yt & v & Hj & Hi & Hg & HR). inversion Hk as [|? ? Hni Hk']; subst.
  assert (Hx := kid_index_nth cs Hnd j _ Hj). cbn [s_info] in Hx. rewrite Hx, Hj in H. cbn [set_any] in H.
  assert (Hc : e_choice i = None \/ e_choice i = tg) by (apply (Htag _ (nth_error_In _ _ Hj)), HK; now left).
  rewrite (set_key_leaf tg cs kids j i _ d yt true a Hj Hc Hun) in H. unfold set_leaf in H.
  destruct (d_out (leaf_assign O (LOne (pty_of t)) a)) as [w|ex] eqn:Ew; cbn [bind setter f_out f_pre f_post] in H; [|discriminate].
  destruct (given_leaf t yt a v w Hg Ew) as [-> Hv].
  destruct (fill_keys O cs (set_nth j (OLeaf true v) kids) (combine keys vals')) as [[k1 e1] r1] eqn:E1. injection H as <- _ ->.
  assert (Hst1 : Forall2 (storable O f) cs (set_nth j (OLeaf true v) kids)).
  { eapply Forall2_set_nth; eauto. refine (SbLeaf O f i (WVal t) d yt true true v _). intros _. split; [apply Hg|]. split; [apply Hg|exact Hv]. }
  assert (Hlj : (j < length kids)%nat).
  { rewrite <- (Forall2_len _ _ _ Hst). apply nth_error_Some. congruence. }
  destruct (IH vals' (set_nth j (OLeaf true v) kids) k1 e1 (fun y Hy => HK y (or_intror Hy)) Hk' HF' Hst1 (kept_set O tg cs kids j _ _ Hun Hj (own_case tg (SLeaf i _ d yt true) Hc)) E1) as (A & B & C). split; [exact A|]. split.
  - intros m s Hm Hn. rewrite (B m s Hm) by (intros X; apply Hn; now right). apply set_nth_other. intros <-. apply Hn. left.
    rewrite Hj in Hm. injection Hm as <-. reflexivity.
  - constructor; [|exact C]. exists t, yt, v. split; [|split; [apply Hg|exact HR]]. exists j, i, d, true. split; [exact Hj|]. split; [reflexivity|].
    split; [|split; [apply Hg|exact Hv]]. rewrite (B j _ Hj) by (exact Hni). now apply set_nth_same.
Qed.

(** What is needed of the lists of a schema. *)
Definition lists_ok (cs : list schema) : Prop :=
  forall p i keys od cs', schema_at cs p = Some (SList i keys od cs') ->
    NoDup (map (fun s => e_py (s_info s)) cs') /\ (exists tg, (forall s, In s cs' -> In (e_py (s_info s)) keys -> s_tag s = None \/ s_tag s = tg) /\ (tg <> None -> one_tag tg cs')).
Lemma lists_cont cs n i pr cs' : lists_ok cs -> nth_error cs n = Some (SCont i pr cs') -> lists_ok cs'.
Proof.
  intros H Hn p i' keys od cs'' Hp. destruct p as [|st p]; [discriminate|]. apply (H (Kid n :: st :: p) i' keys od cs'').
  unfold schema_at in *. cbn [sub entry_schema] in *. now rewrite Hn.
Qed.
Lemma lists_entry cs n i keys od cs' : lists_ok cs -> nth_error cs n = Some (SList i keys od cs') -> lists_ok cs'.
Proof.
  intros H Hn p i' keys' od' cs'' Hp. apply (H (Kid n :: Ent VNone :: p) i' keys' od' cs'').
  unfold schema_at in *. cbn [sub entry_schema]. now rewrite Hn.
Qed.

Definition entry_ok (keys : list str) (cs : list schema) (e : pyval * obj) : Prop :=
  exists c ps kids, snd e = OCont c ps kids /\ Forall2 (storable O f) cs kids /\
    match f with Plain => plain_key O keys cs kids (fst e) | Ietf => ietf_key O keys cs kids (fst e) end.

Lemma mk_spec keys cs vals R ev x : NoDup (map (fun s => e_py (s_info s)) cs) -> NoDup keys ->
  (exists tg, forall s, In s cs -> In (e_py (s_info s)) keys -> s_tag s = None \/ s_tag s = tg) -> Forall suited cs ->
  Forall2 (fun n a => key_at cs n a R) keys vals ->
  mk_entry O cs (combine keys vals) = (ev, Ok x) ->
  exists c ps kids, x = OCont c ps kids /\ Forall2 (storable O f) cs kids /\
    Forall2 (fun n a => exists t yt v, key_leaf O f cs kids n t yt v /\ type_name (WVal t) yt /\ R t yt v a) keys vals.
Proof.
  intros Hnd Hk [tg Htag] Hsu HF H. unfold mk_entry in H.
  destruct (fill_keys O cs (map (fresh O) cs) (combine keys vals)) as [[k e] r] eqn:E. destruct r as [[]|]; cbn [bind] in H; [|discriminate].
  injection H as _ <-. do 3 eexists. split; [reflexivity|].
  destruct (fill_spec tg cs keys R Hnd Htag keys vals _ k e (incl_refl _) Hk HF (fresh_storables cs Hsu) (kept_fresh O tg cs) E) as (A & _ & B). auto.
Qed.
End T.

Lemma Forall2_map_r {A B C} (R : A -> C -> Prop) (g : B -> C) l l' : Forall2 (fun x y => R x (g y)) l l' -> Forall2 R l (map g l').
Proof. induction 1; constructor; auto. Qed.
Lemma Forall2_unmap_r {A B C} (R : A -> C -> Prop) (g : B -> C) l : forall l', Forall2 R l (map g l') -> Forall2 (fun x y => R x (g y)) l l'.
Proof. induction l as [|a l IH]; intros [|b l'] H; inversion H; subst; constructor; auto. Qed.
Lemma Forall2_imp {A B} (R R' : A -> B -> Prop) l l' : (forall x y, R x y -> R' x y) -> Forall2 R l l' -> Forall2 R' l l'.
Proof. intros HR. induction 1; constructor; auto. Qed.
Section E.
Context (O : oracle).

Definition list_ready (keys : list str) (cs : list schema) : Prop :=
  NoDup (map (fun s => e_py (s_info s)) cs) /\ NoDup keys /\
  (exists tg, forall s, In s cs -> In (e_py (s_info s)) keys -> s_tag s = None \/ s_tag s = tg) /\ Forall suited cs.

Lemma arg_entry keys cs k ev x n : keys = [n] -> list_ready keys cs -> key_arg O Ietf cs n k (fun t yt v => ietf_single t yt v k) ->
  mk_entry O cs [(n, k)] = (ev, Ok x) -> entry_ok O Ietf keys cs (k, x).
Proof.
  intros -> (H1 & H2 & H3 & H4) Ha H.
  destruct (mk_spec O Ietf [n] cs [k] (fun t yt v a => ietf_single t yt v a) ev x H1 H2 H3 H4) as (c & ps & kids & -> & Hst & HF).
  { constructor; [|constructor]. exact Ha. } { exact H. }
  exists c, ps, kids. split; [reflexivity|]. split; [exact Hst|]. cbn [fst ietf_key]. now inversion HF.
Qed.
Lemma texts_entry f keys cs parts ev x : list_ready keys cs -> key_texts O f keys cs parts ->
  mk_entry O cs (combine keys (map VStr parts)) = (ev, Ok x) -> entry_ok O f keys cs (VStr (join [32%N] parts), x).
Proof.
  intros HL Ht H. assert (HL' := HL). destruct HL' as (H1 & H2 & H3 & H4). destruct f.
  - cbn [key_texts] in Ht. destruct Ht as [Hsh Ht].
    destruct (mk_spec O Plain keys cs (map VStr parts) (fun t yt v a => exists p, a = VStr p /\ key_part t v p) ev x H1 H2 H3 H4) as (c & ps & kids & -> & Hst & HF).
    { apply Forall2_map_r. eapply Forall2_imp; [|exact Ht]. intros n p (j & i & t & d & yt & v & A & B & C & D). exists j, i, t, d, yt, v. eauto 7. }
    { exact H. }
    exists c, ps, kids. split; [reflexivity|]. split; [exact Hst|]. exists parts. split; [reflexivity|]. split; [exact Hsh|].
    apply Forall2_unmap_r in HF. eapply Forall2_imp; [|exact HF]. intros n p (t & yt & v & A & _ & q & E & B). injection E as <-. exists t, yt, v. auto.
  - cbn [key_texts] in Ht. destruct keys as [|n [|n' keys]].
    + destruct Ht as (A & B & C). inversion C; subst. cbn in H. unfold mk_entry in H. cbn in H. injection H as _ <-.
      do 3 eexists. split; [reflexivity|]. split; [now apply fresh_storables|]. exists []. auto.
    + destruct Ht as (p & -> & Ha). cbn in H. eapply arg_entry; eauto.
    + destruct Ht as (A & B & C).
      destruct (mk_spec O Ietf (n :: n' :: keys) cs (map VStr parts) (fun t yt v a => exists p, a = VStr p /\ ietf_text t yt v p) ev x H1 H2 H3 H4) as (c & ps & kids & -> & Hst & HF).
      { apply Forall2_map_r. eapply Forall2_imp; [|exact C]. intros m p (j & i & t & d & yt & v & D1 & D2 & D3 & D4). exists j, i, t, d, yt, v. eauto 7. }
      { exact H. }
      exists c, ps, kids. split; [reflexivity|]. split; [exact Hst|]. exists parts. split; [reflexivity|]. split; [exact A|].
      apply Forall2_unmap_r in HF. eapply Forall2_imp; [|exact HF]. intros m p (t & yt & v & D & Hn & q & E & F). injection E as <-. exists t, yt, v. auto.
Qed.

Lemma texts_dict f keys cs parts kd : keys <> [] -> key_texts O f keys cs parts -> key_dict keys (VStr (join [32%N] parts)) = Ok kd ->
  kd = combine keys (map VStr parts).
Proof.
  intros Hk Ht H.
  assert (Hs : (exists n p, keys = [n] /\ parts = [p]) \/ length keys = length parts /\ (2 <= length keys)%nat /\ Forall no_space parts).
  { destruct f; cbn [key_texts] in Ht.
    - destruct Ht as [Hsh HF]. assert (Hl := Forall2_len _ _ _ HF). destruct keys as [|n [|n' keys]]; [congruence| |].
      + destruct parts as [|p [|]]; try discriminate. left. eauto.
      + right. split; [exact Hl|]. split; [cbn; lia|]. destruct parts as [|p [|]]; try discriminate. exact Hsh.
    - destruct keys as [|n [|n' keys]]; [congruence| |].
      + destruct Ht as (p & -> & _). left. eauto.
      + destruct Ht as (_ & Hsp & HF). right. split; [exact (Forall2_len _ _ _ HF)|]. split; [cbn; lia|exact Hsp]. }
  destruct Hs as [(n & p & -> & ->)|(Hl & Hl2 & Hsp)].
  - unfold key_dict in H. cbn [join] in H. destruct p; [discriminate|]. now injection H as <-.
  - destruct keys as [|n [|n' keys]]; cbn in Hl2; try lia. cbn [key_dict] in H. rewrite split_join in H.
    + rewrite <- Hl, Nat.eqb_refl in H. now injection H as <-.
    + intros ->. discriminate.
    + exact Hsp.
Qed.

Lemma kw_texts keys kw parts : Forall2 (fun n p => kw_get n kw = Some (VStr p)) keys parts -> kw_keys keys kw = Ok (combine keys (map VStr parts)).
Proof. induction 1 as [|n p keys parts H _ IH]; cbn [kw_keys combine map]; [reflexivity|]. now rewrite H, IH. Qed.
Lemma key_text_combine keys parts : length keys = length parts -> key_text O (combine keys (map VStr parts)) = join [32%N] parts.
Proof.
  intros H. unfold key_text. f_equal. revert parts H. induction keys as [|n keys IH]; intros [|p parts] H; try discriminate; [reflexivity|].
  cbn [combine map snd]. cbn [py_str]. f_equal. apply IH. cbn in H. congruence.
Qed.

Lemma list_storable f keys cs uid es yo i od : list_ready keys cs -> keys <> [] -> proper O f (SList i keys od cs) (AList uid yo) ->
  Forall (entry_ok O f keys cs) es -> all_distinct (map fst es) ->
  Forall (entry_ok O f keys cs) (fst (fst (list_op O keys cs uid es yo))) /\ all_distinct (map fst (fst (fst (list_op O keys cs uid es yo)))).
Proof.
  intros HL Hk Hp He Hd. split.
  2: { apply all_distinct_iff. apply all_distinct_iff in Hd. destruct (list_op O keys cs uid es yo) as [[es' ev] r] eqn:E.
       unfold list_op in E. cbn [fst]. eapply effect_kdist; [eapply op_effect; exact E|exact Hd]. }
  assert (Hstore : forall k kd, (forall ev x, mk_entry O cs kd = (ev, Ok x) -> entry_ok O f keys cs (k, x)) -> ~ has_key es k ->
     Forall (entry_ok O f keys cs) (fst (fst (store k es (mk_entry O cs kd))))).
  { intros k kd Hm Hn. destruct (mk_entry O cs kd) as [ev [x|e]] eqn:E; cbn; [|exact He]. rewrite mput_add by exact Hn.
    apply Forall_app. split; [exact He|]. constructor; [|constructor]. eapply Hm; reflexivity. }
  assert (Hdel : forall k, Forall (entry_ok O f keys cs) (fst (fst (yl_delete (E:=event) es k)))).
  { intros k. unfold yl_delete. destruct (negb _); [exact He|]. destruct (mhas k es) eqn:Eh; [|exact He]. cbn [fst].
    destruct (mdel_remove es k) as [l1 k' a' l2 _]; [now apply mhas_key|].
    apply Forall_app in He as [He1 He2]. inversion He2; subst. apply Forall_app. auto. }
  unfold list_op. inversion Hp as [| | | | | | |? ? ? ? ? k Hg|? ? ? ? ? kw parts Hkw Ht|? ? ? ? ? k|? ? ? ? ? kw]; subst; cbn [yl_op].
  - unfold yl_add. destruct (negb (hashable k)); [exact He|]. destruct (mhas k es) eqn:Eh; [exact He|]. apply mhas_not in Eh.
    destruct keys as [|n0 ks] eqn:Ek; [congruence|]. rewrite <- Ek in *. destruct k as [|b|z|m e|s|s|c e|l|l|l]; try exact He.
    all: match goal with |- context [key_dict ?a ?b] => destruct (key_dict a b) as [kd|ex] eqn:Ed end; [|exact He].
    all: apply Hstore; [|exact Eh]; intros ev x Hm; destruct Hg as [(parts & Ep & Ht)|(n & -> & En & Ha)].
    all: try discriminate Ep; try (rewrite Ep in *; rewrite (texts_dict f keys cs parts kd Hk Ht Ed) in Hm; eapply texts_entry; eauto).
    all: eapply (arg_entry keys cs _ ev x n); eauto; rewrite En in Ed; cbn [key_dict] in Ed; try (injection Ed as <-; exact Hm).
    destruct s; [discriminate|]. injection Ed as <-. exact Hm.
  - destruct kw as [|nv kw].
    { destruct keys; [congruence|]. inversion Hkw as [|? ? ? ? X]; subst. discriminate X. }
    unfold yl_add_kw. rewrite (kw_texts _ _ _ Hkw).
    rewrite (key_text_combine keys parts (Forall2_len _ _ _ Hkw)).
    destruct keys as [|n0 ks] eqn:Ek; [congruence|]. rewrite <- Ek in *.
    destruct (mhas (VStr (join [32%N] parts)) es) eqn:Eh; [exact He|]. apply mhas_not in Eh.
    apply Hstore; [|exact Eh]. intros ev x Hm. eapply texts_entry; eauto.
  - apply Hdel.
  - destruct kw as [|nv kw]; [apply Hdel|]. destruct keys as [|n0 ks] eqn:Ek; [congruence|].
    destruct (kw_keys (n0 :: ks) (nv :: kw)); [apply Hdel|exact He].
Qed.

Lemma assign_new s w a y : f_new (assign O s w a) = Some y -> f_new (set_any O s a) = Some y.
Proof. unfold assign. destruct w; [destruct (e_rw (s_info s))|]; try destruct (is_key s && _); cbn [no_effect f_new]; auto; discriminate. Qed.

Lemma all_distinct_nil : all_distinct [].
Proof. intros n m x y Hx. now destruct n. Qed.

Lemma apply_storable f s x o y : suited s -> (forall i keys od cs, s = SList i keys od cs -> list_ready keys cs) ->
  storable O f s x -> proper O f s o -> f_new (apply O s x o) = Some y -> storable O f s y.
Proof.
  intros Hs HL Hx Hp Hy.
  assert (Op : forall i keys od cs uid yo, s = SList i keys od cs -> o = AList uid yo -> storable O f (SList i keys od cs) y).
  { intros i keys od cs uid yo -> ->. inversion Hx as [| | |? ? ? ? ch es Hk Hd He]; subst. cbn [apply] in Hy.
    destruct (list_storable f keys cs uid es yo i od (HL _ _ _ _ eq_refl) Hk Hp He Hd) as [A B].
    destruct (list_op O keys cs uid es yo) as [[es' evs] r]. injection Hy as <-. constructor; auto. }
  inversion Hp; subst; cbn [apply] in Hy.
  - apply assign_new in Hy. cbn [set_any] in Hy. apply setter_new in Hy.
    destruct (d_out (leaf_assign O (LOne (pty_of t)) a)) as [w'|] eqn:E; cbn in Hy; [injection Hy as <-|discriminate].
    destruct (given_leaf O f t yt a v w' H E) as [-> Hv]. refine (SbLeaf O f i (WVal t) d yt k true v _). intros _. split; [apply H|]. split; [apply H|exact Hv].
  - apply assign_new in Hy. cbn [set_any] in Hy. apply setter_new in Hy.
    destruct (d_out (leaf_assign O (ltype_of t) a)) as [w'|] eqn:E; cbn in Hy; [injection Hy as <-|discriminate].
    rewrite (own_leaf O f t yt a v w' H0 H1 E). constructor. auto.
  - injection Hy as <-. now apply fresh_storable.
  - apply assign_new in Hy. cbn [set_any] in Hy. unfold set_leaf_list in Hy. apply setter_new in Hy.
    destruct (tl_init O [pty_of t] true a) as [l|] eqn:E; cbn [bind] in Hy; [injection Hy as <-|discriminate].
    assert (Hyt : yt <> lit "empty") by (inversion Hs; assumption). apply (SbLeafList O f i t yt); auto; try discriminate.
    2: { apply (unique_init O t a l); auto. eapply Forall_impl; [|exact H0]. intros v Hv. apply Hv. }
    assert (P : forall v w, given_member O f t yt v -> member_value O [pty_of t] v = Some w -> member_ok O f t yt w) by (intros; eapply given_members; eauto).
    assert (One : forall a, given_member O f t yt a -> (w <- tl_check O [pty_of t] true [] a ;; Ok [w]) = Ok l -> Forall (member_ok O f t yt) l).
    { intros b Hb Eb. destruct (tl_check O [pty_of t] true [] b) as [w'|] eqn:Ew; cbn in Eb; [|discriminate]. injection Eb as <-.
      constructor; [|constructor]. eapply (check_safe O [pty_of t] true _ _ P); eauto. }
    destruct a; cbn [tl_init] in E; try (eapply One; [|exact E]; now inversion H0).
    eapply (build_safe O [pty_of t] true _ _ P); [exact H0|constructor|exact E].
  - inversion Hx; subst. destruct (tl_op O [pty_of t] true l lo) as [l' r] eqn:E. injection Hy as <-.
    assert (El : l' = fst (tl_op O [pty_of t] true l lo)) by now rewrite E.
    assert (Hyt : yt <> lit "empty") by (inversion Hs; assumption). subst l'.
    match goal with [Ht : pty_of ?t0 = pty_of t |- _] => rewrite ?Ht end. apply (SbLeafList O f i t yt); auto.
    + apply (op_safe O [pty_of t] true (member_ok O f t yt) (given_member O f t yt)); [intros; eapply given_members; eauto|exact H0|].
      match goal with [Ht : pty_of ?t0 = pty_of t, Hm : Forall (member_ok O f ?t0 yt) l |- _] =>
        eapply Forall_impl; [|exact Hm]; intros v; apply same_value; auto end.
    + change (fst (tl_op O [pty_of t] true l lo)) with (tl_run O [pty_of t] true l [lo]). apply unique_spelled; auto.
      constructor; [|constructor]. eapply Forall_impl; [|exact H0]. intros v Hv. apply Hv.
    + intros Hf Hch. apply orb_false_elim in Hch as [-> Hn].
      match goal with [Hl : f = Ietf -> false = false -> l = [] |- _] => rewrite (Hl Hf eq_refl) end. now apply tl_op_nil.
  - inversion Hx; subst. destruct b; injection Hy as <-; constructor; auto; try (intros Hf; specialize (H Hf); discriminate).
  - apply assign_new in Hy. cbn [set_any] in Hy. apply setter_new in Hy. injection Hy as <-. inversion Hs; subst. constructor; auto using all_distinct_nil.
  - now eapply Op.
  - now eapply Op.
  - now eapply Op.
  - now eapply Op.
Qed.

Lemma key_leaf_same f cs kids kids' n t yt v : (forall j i lt d yt k, nth_error cs j = Some (SLeaf i lt d yt k) -> e_py i = n ->
    forall x, nth_error kids j = Some x -> nth_error kids' j = Some x) ->
  key_leaf O f cs kids n t yt v -> key_leaf O f cs kids' n t yt v.
Proof. intros H (j & i & d & k & A & B & C & D). exists j, i, d, k. split; [exact A|]. split; [exact B|]. split; [eapply H; eauto|exact D]. Qed.
Lemma entry_key_same f keys cs kids kids' k : (forall n j i lt d yt k, In n keys -> nth_error cs j = Some (SLeaf i lt d yt k) -> e_py i = n ->
    forall x, nth_error kids j = Some x -> nth_error kids' j = Some x) ->
  match f with Plain => plain_key O keys cs kids k | Ietf => ietf_key O keys cs kids k end ->
  match f with Plain => plain_key O keys cs kids' k | Ietf => ietf_key O keys cs kids' k end.
Proof.
  intros H. assert (F2 : forall (R R' : str -> str -> Prop) parts, (forall n p, In n keys -> R n p -> R' n p) -> Forall2 R keys parts -> Forall2 R' keys parts).
  { clear. intros R R' parts HR HF. induction HF as [|n p keys parts Hr _ IH]; constructor; [apply HR; [now left|exact Hr]|]. apply IH. intros. apply HR; [now right|assumption]. }
  destruct f.
  - intros (parts & A & B & C). exists parts. split; [exact A|]. split; [exact B|]. eapply F2; [|exact C].
    intros n p Hn (t & yt & v & D & E). exists t, yt, v. split; [|exact E]. eapply key_leaf_same; [|exact D]. intros; eapply H; eauto.
  - unfold ietf_key. destruct keys as [|n [|n' keys]].
    + intros (parts & A & B & C). exists parts. inversion C; subst. auto.
    + intros (t & yt & v & D & E). exists t, yt, v. split; [|exact E]. eapply key_leaf_same; [|exact D]. intros; eapply (H n); eauto. now left.
    + intros (parts & A & B & C). exists parts. split; [exact A|]. split; [exact B|]. eapply F2; [|exact C].
      intros m p Hn (t & yt & v & D & E). exists t, yt, v. split; [|exact E]. eapply key_leaf_same; [|exact D]. intros; eapply H; eauto.
Qed.

Lemma exec_storable f N : forall p live cs kids o, (length p <= N)%nat -> Forall suited cs -> lists_ok cs -> Forall2 (storable O f) cs kids ->
  (forall s, schema_at cs p = Some s -> proper O f s o) -> Forall2 (storable O f) cs (fst (fst (exec O live cs kids p o))).
Proof.
  induction N as [|N IH]; intros p live cs kids o Hl Hs HL Hst Hp; (destruct p as [|[n|v] p]; [exact Hst| |exact Hst]); [cbn in Hl; lia|].
  destruct (nth_error cs n) as [s|] eqn:En; [|cbn; rewrite En; exact Hst].
  destruct (Forall2_nth _ _ _ _ _ Hst En) as (x & Ex & Hx).
  rewrite (exec_kid O live cs kids n p o s x En Ex). cbn [fst].
  assert (Hss : suited s) by (rewrite Forall_forall in Hs; eapply Hs, nth_error_In; eauto).
  eapply absorb_storable; eauto. intros y Hy.
  destruct p as [|[m|v] p]; cbn [down] in Hy.
  - eapply apply_storable; eauto.
    + intros i keys od cs' ->. assert (A : schema_at cs [Kid n] = Some (SList i keys od cs')) by (cbn; now rewrite En).
      destruct (HL _ _ _ _ _ A) as [B (tg & C & _)]. inversion Hss; subst. split; [auto|]. split; [auto|]. split; [now exists tg|auto].
    + apply Hp. cbn. now rewrite En.
  - destruct s as [| |i pr cs'|]; try discriminate. inversion Hx; subst.
    destruct (exec O true cs' kids0 (Kid m :: p) o) as [[k' e'] r'] eqn:Ee. cbn [f_new] in Hy. injection Hy as <-.
    inversion Hss; subst. constructor.
    + specialize (IH (Kid m :: p) true cs' kids0 o). rewrite Ee in IH. apply IH; auto.
      * cbn in Hl |- *. lia.
      * eapply lists_cont; eauto.
      * intros s Hm. apply Hp. cbn. rewrite En. exact Hm.
    + intros Hf Hpr. match goal with [H : f = Ietf -> _ -> pres = true \/ _ |- _] => destruct (H Hf Hpr) as [->|Hu] end.
      { left. destruct e'; reflexivity. }
      destruct e' as [|ev e']; [|left; cbn; rewrite Hpr; apply orb_true_r].
      right. eapply (exec_quiet O (length (Kid m :: p))); [| | |exact Ee]; auto.
  - destruct s as [| | |i keys od cs']; try discriminate. inversion Hx as [| | |? ? ? ? ch es Hk Hd He]; subst.
    destruct (mget v es) as [e|] eqn:Ev; [|discriminate]. destruct e as [| |ech epres ekids|]; try discriminate.
    destruct (exec O true cs' ekids p o) as [[k' e'] r'] eqn:Ee. cbn [f_new] in Hy. injection Hy as <-.
    inversion Hss; subst.
    assert (HL' : lists_ok cs') by (eapply lists_entry; eauto).
    destruct (mget_split _ _ _ Ev) as (l1 & k1 & l2 & El & Ek).
    assert (Hput : map fst (mput v (OCont (mark e' ech) epres k') es) = map fst es) by (eapply mput_keys; eauto).
    constructor; auto; [now rewrite Hput|].
    assert (Hpp : forall s, schema_at cs' p = Some s -> proper O f s o).
    { intros s Hm. apply Hp. cbn. rewrite En. exact Hm. }
    assert (Hmp : forall k0, entry_ok O f keys cs' (k0, OCont ech epres ekids) -> entry_ok O f keys cs' (k0, OCont (mark e' ech) epres k')).
    { intros k0 (c & ps & ks & E1 & E2 & E3). cbn [snd fst] in *. injection E1 as <- <- <-. exists (mark e' ech), epres, k'. split; [reflexivity|].
      assert (Hk' : k' = fst (fst (exec O true cs' ekids p o))) by now rewrite Ee.
      split.
      - rewrite Hk'. apply IH; auto. cbn in Hl. lia.
      - eapply entry_key_same; [|exact E3]. intros nm j i' lt d yt k2 Hn Hj Hi y Hy. rewrite Hk'.
        assert (HLn : schema_at cs [Kid n] = Some (SList i keys od cs')) by (cbn; now rewrite En).
        assert (Hkey : k2 = true).
        { match goal with [H : forall s, In s cs' -> In (e_py (s_info s)) keys -> is_key s = true |- _] =>
            apply (H (SLeaf i' lt d yt k2)) end; [eapply nth_error_In; eauto|]. cbn. now subst nm. }
        subst k2. destruct (HL _ _ _ _ _ HLn) as [_ (tg & Ht & Hto)]. apply (exec_key O f tg true cs' ekids p o j i' lt d yt); auto.
        + apply (Ht (SLeaf i' lt d yt true)); [eapply nth_error_In; eauto|]. cbn. now subst nm.
        + symmetry. exact (Forall2_len _ _ _ E2). }
    clear - He Ev Hmp. revert Ev. change (Forall (entry_ok O f keys cs') es) in He.
    induction es as [|[k1 a1] es IH]; cbn [mget mput]; [discriminate|]. inversion He; subst. destruct (py_eq v k1).
    + intros E. injection E as ->. constructor; [|assumption]. now apply Hmp.
    + intros E. constructor; auto.
Qed.

Lemma program_storable f cs os : Forall suited cs -> lists_ok cs -> program O f cs os ->
  Forall2 (storable O f) cs (module_run O cs (module_new O cs) os).
Proof.
  intros Hs HL Hp. assert (H : Forall2 (storable O f) cs (module_new O cs)) by now apply fresh_storables.
  revert H. generalize (module_new O cs). induction Hp as [|[p o] os Hpo _ IH]; intros kids H; [exact H|]. cbn [module_run]. apply IH.
  unfold module_exec. assert (Hpo' : forall s, schema_at cs p = Some s -> proper O f s o).
  { intros s Es. destruct Hpo as (s' & Es' & Hp'). cbn [fst snd] in *. now replace s with s' by congruence. }
  assert (E := exec_storable f (length p) p false cs kids o (le_n _) Hs HL H Hpo').
  destruct (exec O false cs kids p o) as [[k e] r]. exact E.
Qed.

Lemma names_lists cs : plain_keys cs -> uniform cs -> python_names cs -> lists_ok cs.
Proof.
  intros Hp Hu Hn p i keys od cs' H. split.
  - destruct (Hn (p ++ [Ent VNone]) plain false cs') as [A _]; [|exact A]. unfold schema_at in *. rewrite sub_app, H. reflexivity.
  - exists (e_choice i). split; [intros s Hi; apply In_nth_error in Hi as (n & Hi); eapply Hp; eauto|].
    intros He q t Hq. destruct (s_tag t) as [tg|] eqn:Et; [right|now left]. destruct (e_choice i) as [tg'|] eqn:Ei; [|congruence]. f_equal.
    apply (Hu p (Ent VNone :: q) (SList i keys od cs') t tg' tg); auto. unfold schema_at in *. rewrite sub_app, H. exact Hq.
Qed.
Lemma leaf_plain cs : leaf_keys cs -> plain_keys cs.
Proof. intros H p i keys od cs' n s Hp Hn Hi. destruct (H p i keys od cs' n s Hp Hn Hi) as (i' & lt & d & y & k & -> & E). now right.
Qed.
Lemma suited_at p : forall s t, suited s -> sub s p = Some t -> suited t.
Proof.
  induction p as [|[n|k] p IH]; intros s t Hs H; cbn [sub] in H; [now injection H as <-| |].
  - destruct s as [| |i pr cs|]; try discriminate. destruct (nth_error cs n) as [y|] eqn:E; [|discriminate]. eapply IH; [|exact H].
    inversion Hs as [| |? ? ? HF|]; subst. rewrite Forall_forall in HF. eapply HF, nth_error_In; eauto.
  - destruct s as [| | |i keys od cs]; try discriminate. eapply IH; [|exact H]. inversion Hs; subst. now constructor.
Qed.
Lemma program_case f cs os : Forall suited cs -> program O f cs os -> Forall (fun po => case_op cs (fst po) (snd po)) os.
Proof.
  intros Hs. apply Forall_impl. intros [p o] (s & Es & Hp). cbn [fst snd] in *.
  assert (Hss : suited s) by (eapply (suited_at p (entry_schema cs)); [now constructor|exact Es]).
  inversion Hp; subst; (split; [exact I|]); try exact I; intros i' keys' od' cs' E; rewrite Es in E; injection E as <- <- <- <-; now inversion Hss.
Qed.

Theorem plain_programs im uid cs os : Forall suited cs -> leaf_keys cs -> uniform cs -> own_choices cs -> python_names cs ->
  program O Plain cs os ->
  exists j m', dumps O im cs (module_run O cs (module_new O cs) os) = Ok j /\ loads O uid cs j = (m', Ok tt) /\
    get_kids true cs m' = get_kids true cs (module_run O cs (module_new O cs) os).
Proof.
  intros Hs Hlk Hu Ho Hn Hp. assert (Hk := leaf_plain cs Hlk). assert (Hst := program_storable Plain cs os Hs (names_lists cs Hk Hu Hn) Hp).
  apply plain_round_trip; auto. apply Rival_proofs.one_case_unrivalled; auto; [exact (storables_shaped O Plain cs _ Hst)|].
  apply Tree_case.one_case_past; auto. eapply program_case; eauto.
Qed.
Theorem ietf_programs im uid cs os : (forall i s m, im i s = Some m -> no_colon m) ->
  Forall suited cs -> leaf_keys cs -> uniform cs -> own_choices cs -> python_names cs -> ietf_names cs -> key_leaves cs ->
  program O Ietf cs os ->
  exists j m', dumps_ietf O im true WNone cs (module_run O cs (module_new O cs) os) = Ok j /\ loads_ietf O uid cs j = (m', Ok tt) /\
    get_kids true cs m' = get_kids true cs (module_run O cs (module_new O cs) os).
Proof.
  intros Him Hs Hlk Hu Ho Hn Hin Hkl Hp. assert (Hk := leaf_plain cs Hlk). assert (Hst := program_storable Ietf cs os Hs (names_lists cs Hk Hu Hn) Hp).
  apply (IetfRound_proofs.ietf_round_trip O im Him); auto.
  apply Rival_proofs.one_case_unrivalled; auto; [exact (storables_shaped O Ietf cs _ Hst)|].
  apply Tree_case.one_case_past; auto. eapply program_case; eauto.
Qed.
End E.
