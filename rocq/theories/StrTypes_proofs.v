(** Lemmas about string types, enumerations, booleans, unions. *)
From Verif Require Import PyStr PyStr_facts PyVal Base64 Restricted Spec_Types Range_proofs IntTypes
  Restricted_proofs StrTypes.
From Coq Require Import Lia ZifyBool ZifyN ZifyNat.
Local Open Scope Z_scope.

Section Str.
Context (O : oracle).

Definition satb (r : srestr) (s : str) : bool :=
  match r with
  | SPattern p => o_match O (wrap_anchors p) s
  | SLength ps => in_partsb (Z.of_nat (length s)) ps
  end.

Lemma satb_iff r s : satb r s = true <-> sat (o_match O) wrap_anchors r s.
Proof. destruct r; cbn; [tauto|apply in_partsb_iff]. Qed.

Lemma replace_str_none c rep s : ~ In c s -> replace_str c rep s = s.
Proof.
  induction s as [|x s IH]; intros H; [reflexivity|]. cbn.
  destruct (N.eqb x c) eqn:E; [apply N.eqb_eq in E; subst; exfalso; apply H; now left|].
  cbn. f_equal. apply IH. intros H'; apply H; now right.
Qed.

Lemma convert_regexp_wf p : p <> [] -> ~ In 36%N p -> ~ In 94%N p ->
  convert_regexp p = Ok (wrap_anchors p).
Proof.
  intros Hn Hd Hc. unfold convert_regexp. destruct (rev p) as [|c rp] eqn:E.
  - apply (f_equal (@rev N)) in E. rewrite rev_involutive in E. contradiction.
  - assert (Hcin : In c p) by (apply in_rev; rewrite E; now left).
    destruct (N.eqb c 36) eqn:E1; [apply N.eqb_eq in E1; subst; contradiction|].
    rewrite (replace_str_none 36 _ p Hd).
    assert (Hs : startswith [94%N] p = false).
    { destruct p as [|x p]; [contradiction|]. cbn [startswith].
      destruct (N.eqb 94 x) eqn:E2; [|reflexivity]. apply N.eqb_eq in E2. subst. exfalso. apply Hc. now left. }
    rewrite Hs. cbn [rev]. rewrite E. cbn [app startswith].
    rewrite N.eqb_sym, E1. reflexivity.
Qed.

Lemma conv_len_print z : conv_len (print_Z z) = Ok (VInt z).
Proof. unfold conv_len. now rewrite py_int_print. Qed.

Definition test_of (r : srestr) : test :=
  match r with
  | SPattern p => pattern_test O p
  | SLength ps => length_test (map part_tuple ps)
  end.

Lemma build_str callb l val : Forall srestr_wf l ->
  build O callb (map restr_of l) val = Ok (map test_of l, val).
Proof.
  induction l as [|r l IH]; intros H; [reflexivity|]. inversion H; subst.
  destruct r as [p|ps]; cbn [map restr_of build].
  - rewrite IH by assumption. reflexivity.
  - rewrite range_tuples_show.
    + cbn [bind]. rewrite IH by assumption. reflexivity.
    + apply Forall_forall; intros p _. apply Forall_forall; intros b _. apply conv_len_print.
Qed.

Lemma test_of_str r s : srestr_wf r -> test_of r (VStr s) = Ok (satb r s).
Proof.
  destruct r as [p|ps]; cbn [test_of srestr_wf satb].
  - intros (H1 & H2 & H3). unfold pattern_test. now rewrite convert_regexp_wf.
  - intros H. unfold length_test. cbn [py_len bind]. now apply check_tuples_parts.
Qed.

Lemma any_pass_str l s : Forall srestr_wf l ->
  any_pass (map test_of l) (VStr s) = Ok (existsb (fun r => satb r s) l).
Proof.
  induction l as [|r l IH]; intros H; [reflexivity|]. inversion H; subst.
  cbn [map any_pass existsb]. rewrite test_of_str by assumption. cbn [bind].
  destruct (satb r s); [reflexivity|]. now apply IH.
Qed.

Lemma all_pass_str l s : Forall srestr_wf l ->
  all_pass (map test_of l) (VStr s) = Ok (forallb (fun r => satb r s) l).
Proof.
  induction l as [|r l IH]; intros H; [reflexivity|]. inversion H; subst.
  cbn [map all_pass forallb]. rewrite test_of_str by assumption. cbn [bind].
  destruct (satb r s); [now apply IH|reflexivity].
Qed.

(** The code's acceptance condition: some restriction of every level, and all restrictions of
    the innermost level. *)
Definition some_each (levels : list (list srestr)) (s : str) : bool :=
  forallb (fun l => existsb (fun r => satb r s) l) levels.
Definition all_last (levels : list (list srestr)) (s : str) : bool :=
  forallb (fun r => satb r s) (last levels []).

Lemma str_new levels s : slevels_wf levels ->
  ty_new O (str_chain levels) (Some (VStr s)) = if some_each levels s then Ok (VStr s) else Raise ValueError.
Proof.
  induction levels as [|l ls IH]; intros H; [reflexivity|].
  inversion H as [|? ? [Hne Hl] Hls]; subst.
  cbn [str_chain]. rewrite ty_new_restr, build_str by assumption.
  cbn [bind fst snd is_False]. destruct l as [|r l]; [contradiction|].
  change (map test_of (r :: l)) with (test_of r :: map test_of l) at 1. cbv iota beta.
  change (test_of r :: map test_of l) with (map test_of (r :: l)).
  rewrite any_pass_str by assumption. cbn [bind].
  unfold some_each in *. cbn [forallb].
  destruct (existsb (fun r0 => satb r0 s) (r :: l)); [|reflexivity].
  cbn [andb bind]. rewrite IH by assumption.
  destruct (forallb _ ls); reflexivity.
Qed.

Lemma str_tests l ls : slevels_wf (l :: ls) ->
  ty_tests O (str_chain (l :: ls)) = Ok (map test_of (last (l :: ls) [])).
Proof.
  revert l; induction ls as [|l' ls IH]; intros l H; inversion H as [|? ? [_ Hl] Hls]; subst.
  - cbn [str_chain]. rewrite ty_tests_restr. cbn [is_restr]. now rewrite build_str by assumption.
  - change (str_chain (l :: l' :: ls)) with (TRestr (str_chain (l' :: ls)) (map restr_of l)).
    rewrite ty_tests_restr. cbn [str_chain is_restr]. exact (IH l' Hls).
Qed.

Lemma last_wf l ls : slevels_wf (l :: ls) -> Forall srestr_wf (last (l :: ls) []).
Proof.
  revert l; induction ls as [|l' ls IH]; intros l H; inversion H as [|? ? [_ Hl] Hls]; subst; [exact Hl|].
  exact (IH l' Hls).
Qed.

Definition accepted (levels : list (list srestr)) (s : str) : bool := some_each levels s && all_last levels s.

Lemma str_init levels s o : slevels_wf levels ->
  ty_init O (str_chain levels) o (VStr s) =
  if some_each (tl levels) s && all_last levels s then Ok o else Raise ValueError.
Proof.
  revert o. induction levels as [|l ls IH]; intros o H; [reflexivity|].
  change (str_chain (l :: ls)) with (TRestr (str_chain ls) (map restr_of l)).
  rewrite ty_init_restr. change (TRestr (str_chain ls) (map restr_of l)) with (str_chain (l :: ls)).
  inversion H as [|? ? [_ Hl] Hls]; subst.
  unfold ty_call. rewrite str_new by assumption. cbn [tl].
  destruct (some_each ls s) eqn:E; [|reflexivity].
  rewrite IH by assumption. rewrite str_tests by assumption.
  destruct ls as [|l' ls].
  - cbn [tl]. cbn [some_each forallb andb all_last last bind].
    rewrite all_pass_str by assumption. cbn [bind].
    unfold all_last. cbn [last forallb]. destruct (forallb _ l); reflexivity.
  - cbn [tl]. unfold some_each in E. cbn [forallb] in E. apply andb_prop in E. destruct E as [_ E].
    change (forallb (fun l0 => existsb (fun r => satb r s) l0) ls) with (some_each ls s) in E. rewrite E.
    cbn [andb]. change (all_last (l :: l' :: ls) s) with (all_last (l' :: ls) s).
    destruct (all_last (l' :: ls) s) eqn:E2; [|reflexivity].
    cbn [bind]. rewrite all_pass_str by now apply last_wf. cbn [bind].
    change (last (l :: l' :: ls) []) with (last (l' :: ls) []).
    unfold all_last in E2. now rewrite E2.
Qed.

Lemma str_call levels s : slevels_wf levels ->
  ty_call O (str_chain levels) (VStr s) = if accepted levels s then Ok (VStr s) else Raise ValueError.
Proof.
  intros H. unfold ty_call, accepted. rewrite str_new by assumption.
  destruct (some_each levels s) eqn:E; [|reflexivity].
  rewrite str_init by assumption.
  destruct levels as [|l ls]; [reflexivity|]. cbn [tl].
  unfold some_each in *. cbn [forallb] in E. apply andb_prop in E. destruct E as [_ E]. now rewrite E.
Qed.

Lemma str_assign levels s : slevels_wf levels ->
  leaf_assign O (LOne (str_chain levels)) (VStr s) =
  {| d_notified := some_each levels s;
     d_out := if accepted levels s then Ok (VStr s) else Raise ValueError |}.
Proof.
  intros H. unfold leaf_assign. cbn [dyn_ltype]. unfold dyn_leaf. rewrite str_new by assumption.
  unfold accepted. destruct (some_each levels s) eqn:E; [|reflexivity].
  rewrite str_init by assumption.
  assert (Htl : some_each (tl levels) s = true).
  { destruct levels as [|l ls]; [reflexivity|]. unfold some_each in *. cbn [forallb tl] in *.
    apply andb_prop in E. now destruct E. }
  rewrite Htl. cbn [andb]. destruct (all_last levels s); reflexivity.
Qed.

Lemma accepted_iff levels s : accepted levels s = true <->
  (Forall (Exists (fun r => sat (o_match O) wrap_anchors r s)) levels /\
   Forall (fun r => sat (o_match O) wrap_anchors r s) (last levels [])).
Proof.
  unfold accepted, some_each, all_last. rewrite andb_true_iff, !forallb_forall, !Forall_forall.
  split; intros [H1 H2]; split; intros x Hx.
  - specialize (H1 x Hx). apply existsb_exists in H1. destruct H1 as (r & Hr & Hs).
    apply Exists_exists. exists r. split; [assumption|now apply satb_iff].
  - apply satb_iff. now apply H2.
  - specialize (H1 x Hx). apply Exists_exists in H1. destruct H1 as (r & Hr & Hs).
    apply existsb_exists. exists r. split; [assumption|now apply satb_iff].
  - apply satb_iff. now apply H2.
Qed.

(* ---------------------------------------------------------------- enumerations *)
Lemma enum_assign names v :
  leaf_assign O (LOne (enum_type names)) v =
  {| d_notified := orb (is_False v) (str_in (py_str O v) names);
     d_out := if str_in (py_str O v) names then Ok (VStr (py_str O v)) else Raise ValueError |}.
Proof.
  unfold leaf_assign, enum_type. cbn [dyn_ltype]. unfold dyn_leaf.
  cbn [ty_new build bind fst snd any_pass]. unfold dict_test.
  destruct (is_False v) eqn:Ef.
  - cbn [bind ty_init is_restr ty_new]. cbn [build bind fst snd all_pass]. unfold dict_test.
    cbn [bind orb d_notified d_out].
    change (py_str O (VStr (py_str O v))) with (py_str O v).
    destruct (str_in (py_str O v) names); reflexivity.
  - cbn [bind orb]. destruct (str_in (py_str O v) names) eqn:Es; [|reflexivity].
    cbn [bind ty_init is_restr ty_new]. cbn [build bind fst snd all_pass]. unfold dict_test.
    cbn [bind d_notified d_out].
    change (py_str O (VStr (py_str O v))) with (py_str O v). now rewrite Es.
Qed.

(* ---------------------------------------------------------------- unions *)
Lemma union_pick_spec ts v :
  (forall t, union_pick O ts v = Some t ->
     exists ts1 ts2, ts = ts1 ++ t :: ts2 /\ (exists w, ty_call O t v = Ok w) /\
                     Forall (fun t' => exists e, ty_call O t' v = Raise e) ts1) /\
  (union_pick O ts v = None -> Forall (fun t' => exists e, ty_call O t' v = Raise e) ts).
Proof.
  induction ts as [|t ts [IH1 IH2]]; split; [intros t H; discriminate|constructor| |].
  - intros t' H. cbn in H. destruct (ty_call O t v) as [w|e] eqn:E.
    + injection H as <-. exists [], ts. split; [reflexivity|]. split; [now exists w|constructor].
    + destruct (IH1 t' H) as (ts1 & ts2 & -> & Hw & Hall). exists (t :: ts1), ts2.
      split; [reflexivity|]. split; [assumption|]. constructor; [now exists e|assumption].
  - intros H. cbn in H. destruct (ty_call O t v) as [w|e] eqn:E; [discriminate|].
    constructor; [now exists e|auto].
Qed.

Lemma dyn_leaf_call t v w : ty_call O t v = Ok w -> dyn_leaf O t v = {| d_notified := true; d_out := Ok w |}.
Proof.
  unfold ty_call, dyn_leaf. destruct (ty_new O t (Some v)) as [o|e]; [|discriminate].
  intros H. now rewrite H.
Qed.

Lemma union_assign ts v :
  (forall ts1 t ts2 w, ts = ts1 ++ t :: ts2 ->
     Forall (fun t' => exists e, ty_call O t' v = Raise e) ts1 -> ty_call O t v = Ok w ->
     leaf_assign O (LUnion ts) v = {| d_notified := true; d_out := Ok w |}) /\
  (Forall (fun t' => exists e, ty_call O t' v = Raise e) ts ->
     leaf_assign O (LUnion ts) v = {| d_notified := false; d_out := Raise ValueError |}).
Proof.
  split.
  - intros ts1 t ts2 w -> Hall Hw.
    assert (Hp : union_pick O (ts1 ++ t :: ts2) v = Some t).
    { induction ts1 as [|t1 ts1 IH]; cbn; [now rewrite Hw|].
      inversion Hall as [|? ? [e He] Hall']; subst. rewrite He. now apply IH. }
    unfold leaf_assign. cbn [dyn_ltype]. rewrite Hp, (dyn_leaf_call _ _ _ Hw). reflexivity.
  - intros Hall.
    assert (Hp : union_pick O ts v = None).
    { induction ts as [|t1 ts IH]; [reflexivity|].
      inversion Hall as [|? ? [e He] Hall']; subst. cbn. rewrite He. now apply IH. }
    unfold leaf_assign. cbn [dyn_ltype]. now rewrite Hp.
Qed.

(* ---------------------------------------------------------------- C10, integers *)
Lemma int_new_falsy levels v w : truthy v = false -> ty_new O (int_chain levels) (Some v) = Ok w ->
  w = VInt 0.
Proof.
  revert w. induction levels as [|l ls IH]; intros w Ht H.
  - cbn in H. destruct v as [|[]|z|m e|[|]|[|]|c e|[|]|[|]|[|]]; cbn in *; try discriminate;
      try (injection H as <-; f_equal).
    + lia.
    + assert (m = 0) by lia. subst. unfold trunc. destruct (0 <=? e) eqn:Ee; [lia|apply Z.quot_0_l].
      apply Z.pow_nonzero; lia.
    + assert (c = 0) by lia. subst. unfold trunc. destruct (0 <=? e) eqn:Ee; [lia|apply Z.quot_0_l].
      apply Z.pow_nonzero; lia.
  - cbn [int_chain] in H. rewrite ty_new_restr in H.
    destruct (build _ _ _ _) as [r|e]; [|discriminate]. cbn [bind] in H.
    destruct (if is_False (snd r) then _ else _) as [[]|e]; [|discriminate]. cbn [bind] in H.
    destruct (ty_new O (int_chain ls) (Some v)) as [w'|e] eqn:E; [injection H as <-; now apply IH|].
    destruct e; try discriminate.
    revert H. clear. revert w. induction ls as [|l' ls IH]; intros w H; [cbn in H; congruence|].
    cbn [int_chain] in H. rewrite ty_new_restr in H.
    destruct (build _ _ _ _) as [r'|e]; [|discriminate]. cbn [bind] in H.
    destruct (if is_False (snd r') then _ else _) as [[]|e]; [|discriminate]. cbn [bind] in H.
    destruct (ty_new O (int_chain ls) None) as [w'|e] eqn:E; [injection H as <-; now apply IH|].
    destruct e; try discriminate.
Qed.

Lemma init_restr_val b rs o v w : ty_init O (TRestr b rs) o v = Ok w -> w = o.
Proof.
  rewrite ty_init_restr. destruct (bind _ _) as [[]|[]]; intros H; congruence.
Qed.

Lemma int_leaf_value l ls v w n : levels_wf (l :: ls) ->
  leaf_assign O (LOne (int_chain (l :: ls))) v = {| d_notified := n; d_out := Ok w |} ->
  w = VInt 0 \/ exists z, w = VInt z /\ py_int v = Ok z /\ in_levels z (l :: ls).
Proof.
  intros Hwf H. destruct (truthy v) eqn:Ht.
  - rewrite int_assign_exact in H by assumption. unfold int_assign_spec in H.
    destruct (py_int v) as [z|e] eqn:Hv.
    + destruct (in_levelsb z (l :: ls)) eqn:E1.
      * injection H as _ <-. right. exists z. split; [reflexivity|]. split; [reflexivity|now apply in_levelsb_iff].
      * destruct (in_levelsb z ls); [discriminate|].
        destruct (in_levelsb z (tl ls)); [discriminate|]. injection H as _ <-. now left.
    + destruct e; try (destruct ls; [discriminate|]); injection H as _ <-; now left.
  - left. unfold leaf_assign in H. cbn [dyn_ltype] in H. unfold dyn_leaf in H.
    destruct (ty_new O (int_chain (l :: ls)) (Some v)) as [o|e] eqn:E.
    + apply int_new_falsy in E; [|assumption]. subst o.
      apply (f_equal d_out) in H; cbn [d_out] in H.
      destruct (ty_init O (int_chain (l :: ls)) (VInt 0) v) as [o|e] eqn:E2; [|destruct e; cbn in H; congruence].
      apply init_restr_val in E2. congruence.
    + destruct e; cbn [d_out d_notified] in H; try discriminate.
      rewrite (chain_none O _ Hwf) in H. apply (f_equal d_out) in H; cbn [d_out] in H.
      destruct (ty_init O (int_chain (l :: ls)) (VInt 0) v) as [o|e] eqn:E2; [|destruct e; cbn in H; congruence].
      apply init_restr_val in E2. congruence.
Qed.
End Str.
