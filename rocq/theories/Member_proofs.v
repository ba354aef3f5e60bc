(** What a member type makes of any Python value is a value of the type. *)
From Verif Require Import PyStr PyStr_facts PyVal Base64 Restricted Spec_Types Range_proofs IntTypes
  Restricted_proofs StrTypes StrTypes_proofs Scalars_proofs Spec_Lists TypedList MemberTypes.
From Coq Require Import Lia ZifyBool ZifyN ZifyNat QArith.
Local Open Scope Z_scope.

Section Members.
Context (O : oracle).

(** Inversion of a successful call of a restricted type. *)
Lemma restr_call_inv b rs v w : ty_call O (TRestr b rs) v = Ok w ->
  ty_new O (TRestr b rs) (Some v) = Ok w /\
  (forall v', ty_call O b v = Ok v' ->
     exists o, ty_new O b (Some v) = Ok o /\ w = o /\ ty_init O b o v = Ok v') .
Proof.
  unfold ty_call at 1. destruct (ty_new O (TRestr b rs) (Some v)) as [o|] eqn:E; [|discriminate].
  intros H. apply init_restr_val in H. subst o. split; [reflexivity|].
  intros v' Hv'. unfold ty_call in Hv'. destruct (ty_new O b (Some v)) as [o|] eqn:E2; [|discriminate].
  exists o. split; [reflexivity|]. split; [|assumption].
  rewrite ty_new_restr in E. destruct (build _ _ _ _) as [r|]; [|discriminate]. cbn [bind] in E.
  destruct (if is_False (snd r) then _ else _) as [[]|e]; [|discriminate]. cbn [bind] in E.
  rewrite E2 in E. congruence.
Qed.

(** Numeric zeros are tested like the integer 0. *)
Lemma qle_bool_compat a b c d : (a == b)%Q -> (c == d)%Q -> Qle_bool a c = Qle_bool b d.
Proof.
  intros H1 H2. destruct (Qle_bool a c) eqn:E; symmetry.
  - apply Qle_bool_iff in E. apply Qle_bool_iff. now rewrite <- H1, <- H2.
  - apply not_true_is_false. intros E2. apply Qle_bool_iff in E2. rewrite <- H1, <- H2 in E2.
    apply Qle_bool_iff in E2. congruence.
Qed.

Lemma py_lt_zero_l v x q : num_of v = Some q -> (q == 0)%Q -> py_lt v x = py_lt (VInt 0) x.
Proof.
  intros H Hq. unfold py_lt. rewrite H. cbn [num_of].
  destruct (num_of x); [|reflexivity]. do 2 f_equal. apply qle_bool_compat; [reflexivity|assumption].
Qed.
Lemma py_lt_zero_r v x q : num_of v = Some q -> (q == 0)%Q -> py_lt x v = py_lt x (VInt 0).
Proof.
  intros H Hq. unfold py_lt. rewrite H. cbn [num_of].
  destruct (num_of x); [|reflexivity]. do 2 f_equal. apply qle_bool_compat; [assumption|reflexivity].
Qed.
Lemma py_eq_zero v m e q : num_of v = Some q -> (q == 0)%Q -> py_eq v (VFloat m e) = py_eq (VInt 0) (VFloat m e).
Proof.
  intros H Hq. cbn [py_eq num_of].
  assert (Hc : Qeq_bool q (scaled 2 m e) = Qeq_bool 0 (scaled 2 m e)).
  { destruct (Qeq_bool 0 (scaled 2 m e)) eqn:E.
    - apply Qeq_bool_iff in E. apply Qeq_bool_iff. now rewrite Hq.
    - apply not_true_is_false. intros E2. apply Qeq_bool_iff in E2. rewrite Hq in E2.
      apply Qeq_bool_iff in E2. congruence. }
  destruct v; cbn [num_of] in *; try discriminate; injection H as <-; exact Hc.
Qed.

Lemma check_tuple_zero v q t : num_of v = Some q -> (q == 0)%Q -> check_tuple v t = check_tuple (VInt 0) t.
Proof.
  intros H Hq. destruct t as [lo hi|x]; cbn [check_tuple].
  - f_equal.
    + destruct lo; [|reflexivity]. now rewrite (py_lt_zero_l v p q).
    + destruct hi; [|reflexivity]. now rewrite (py_lt_zero_r v p q).
  - unfold neq_float. destruct (py_float x) as [[m e]|]; [|reflexivity].
    cbn [bind fst snd]. now rewrite (py_eq_zero v m e q).
Qed.
Lemma check_tuples_zero v q ts : num_of v = Some q -> (q == 0)%Q -> check_tuples v ts = check_tuples (VInt 0) ts.
Proof.
  intros H Hq. induction ts as [|t ts IH]; [reflexivity|]. cbn [check_tuples].
  now rewrite (check_tuple_zero v q), IH.
Qed.

Lemma scaled_zero b e : 0 < b -> (scaled b 0 e == 0)%Q.
Proof. intros Hb. unfold scaled. destruct (0 <=? e); unfold Qeq; cbn; lia. Qed.

(** Falsy values that [int()] accepts. *)
Lemma falsy_int v z : truthy v = false -> py_int v = Ok z ->
  z = 0 /\ exists q, num_of v = Some q /\ (q == 0)%Q.
Proof.
  destruct v as [|[]|x|m e|[|]|[|]|c e|[|]|[|]|[|]]; cbn; intros Ht H; try discriminate; injection H as <-.
  - split; [reflexivity|]. exists 0%Q. split; reflexivity.
  - assert (x = 0) by lia. subst. split; [reflexivity|]. exists (0 # 1)%Q. split; reflexivity.
  - assert (m = 0) by lia. subst. split; [|eexists; split; [reflexivity|apply scaled_zero; lia]].
    unfold trunc. destruct (0 <=? e) eqn:Ee; [lia|apply Z.quot_0_l, Z.pow_nonzero; lia].
  - assert (c = 0) by lia. subst. split; [|eexists; split; [reflexivity|apply scaled_zero; lia]].
    unfold trunc. destruct (0 <=? e) eqn:Ee; [lia|apply Z.quot_0_l, Z.pow_nonzero; lia].
Qed.

(** Calling a chain of integer ranges. *)
Lemma int_call_value levels v w : levels <> [] -> levels_wf levels -> ty_call O (int_chain levels) v = Ok w ->
  exists z, w = VInt z /\ py_int v = Ok z /\ in_parts z (last levels []) /\
    (v <> VBool false -> in_levels z levels).
Proof.
  destruct levels as [|l0 ls0]; [congruence|]. intros _. revert l0 w.
  induction ls0 as [|l1 ls IH]; intros l w Hwf H.
  - (* one level *)
    cbn [int_chain] in *. pose proof Hwf as [Hsm _].
    pose proof (chain_bounds O l [] Hwf) as Hb.
    destruct (restr_call_inv _ _ _ _ H) as [Hn Hinv].
    unfold ty_call in H. rewrite Hn in H. rewrite ty_init_restr, ty_tests_restr in H.
    cbn [is_restr] in H.
    destruct (ty_call O TInt v) as [v'|e] eqn:Hc.
    2:{ cbn [bind] in H. unfold ty_call in Hc. cbn [ty_new ty_init] in Hc.
        destruct (py_int v) as [z|e'] eqn:Hz; cbn [bind] in Hc; [discriminate|].
        injection Hc as <-. apply py_int_exn in Hz. destruct Hz; subst; discriminate. }
    destruct (Hinv _ eq_refl) as (o & Ho & -> & Hi). cbn [ty_new ty_init] in Ho, Hi.
    destruct (py_int v) as [z|] eqn:Hz; cbn [bind] in Ho; [|discriminate].
    injection Ho as <-. injection Hi as <-.
    cbn [bind] in H. rewrite (build_range _ _ _ _ Hb) in H. cbn [truthy bind fst] in H.
    rewrite (all_pass_range z l Hsm) in H. cbn [bind] in H.
    destruct (in_partsb z l) eqn:E; [|discriminate]. apply in_partsb_iff in E.
    exists z. split; [reflexivity|]. split; [reflexivity|]. split; [assumption|].
    intros _. constructor; [assumption|constructor].
  - pose proof Hwf as (Hsm & Hbd & Hwf').
    pose proof (chain_bounds O l (l1 :: ls) Hwf) as Hb.
    change (int_chain (l :: l1 :: ls)) with (TRestr (int_chain (l1 :: ls)) [RRange (map show_part l)]) in *.
    destruct (restr_call_inv _ _ _ _ H) as [Hn Hinv].
    unfold ty_call in H. rewrite Hn in H. rewrite ty_init_restr, ty_tests_restr in H.
    assert (Hr : is_restr (int_chain (l1 :: ls)) = true) by reflexivity. rewrite Hr in H.
    destruct (ty_call O (int_chain (l1 :: ls)) v) as [v'|e] eqn:Hc.
    2:{ exfalso. cbn [bind] in H. destruct e; try discriminate.
        clear - Hc Hwf'. (* no IndexError from integer chains *)
        revert Hc. generalize (l1 :: ls), Hwf'. clear. intros levels Hwf. induction levels as [|l ls IH].
        - unfold ty_call; cbn. destruct (py_int v) as [z|e] eqn:Hz; cbn; [discriminate|].
          apply py_int_exn in Hz. destruct Hz; subst; discriminate.
        - pose proof (chain_bounds O l ls Hwf) as Hb. destruct Hwf as (Hsm & Hbd & Hwf').
          specialize (IH Hwf'). cbn [int_chain]. unfold ty_call.
          rewrite ty_new_restr. rewrite (build_range _ _ _ _ Hb).
          destruct (if truthy v then _ else _) as [val|e] eqn:Ev; cbn [bind fst snd].
          + destruct (is_False val).
            * cbn [bind]. destruct (match ty_new O (int_chain ls) (Some v) with Raise TypeError => _ | r => r end) as [o|e] eqn:En.
              -- rewrite ty_init_restr. destruct (bind _ _) as [[]|[]]; discriminate.
              -- intros He; injection He as ->.
                 destruct (ty_new O (int_chain ls) (Some v)) as [o|e] eqn:En2; [discriminate|].
                 destruct e; try discriminate.
                 ++ rewrite (chain_none O _ Hwf') in En. discriminate.
                 ++ apply IH. unfold ty_call. now rewrite En2.
            * destruct (any_pass _ val) as [p|e] eqn:Ep; cbn [bind].
              -- destruct p; cbn [bind]; [|discriminate].
                 destruct (match ty_new O (int_chain ls) (Some v) with Raise TypeError => _ | r => r end) as [o|e] eqn:En.
                 ++ rewrite ty_init_restr. destruct (bind _ _) as [[]|[]]; discriminate.
                 ++ intros He; injection He as ->.
                    destruct (ty_new O (int_chain ls) (Some v)) as [o|e] eqn:En2; [discriminate|].
                    destruct e; try discriminate.
                    ** rewrite (chain_none O _ Hwf') in En. discriminate.
                    ** apply IH. unfold ty_call. now rewrite En2.
              -- intros He; injection He as ->. unfold range_test in Ep; cbn [any_pass bind] in Ep.
                 destruct (check_tuples val (map part_tuple l)) as [b|e] eqn:Ec; cbn [bind] in Ep; [destruct b; discriminate|].
                 injection Ep as ->. clear - Ec. induction l as [|p l IH]; cbn in Ec; [congruence|].
                 destruct (check_tuple val (part_tuple p)) as [b|e] eqn:E1; cbn [bind] in Ec.
                 ++ destruct (check_tuples val (map part_tuple l)); cbn [bind] in Ec; [discriminate|auto].
                 ++ injection Ec as ->. destruct p as [lo hi a b|n]; cbn in E1.
                    ** destruct lo as [lo|], hi as [hi|]; cbn in E1; unfold py_lt in E1;
                         destruct (num_of val); cbn in E1; discriminate.
                    ** unfold neq_float in E1. cbn in E1. destruct (round53 n 1); discriminate.
          + intros He; injection He as ->. destruct (truthy v); [|discriminate].
            destruct (ty_call O (int_chain ls) v); discriminate. }
    destruct (IH l1 v' Hwf' Hc) as (z & -> & Hz & Hlast & Hlev).
    destruct (Hinv _ eq_refl) as (o & Ho & -> & Hi).
    pose proof (init_restr_val O _ _ _ _ _ Hi) as He. subst o.
    exists z. split; [reflexivity|]. split; [assumption|]. split; [exact Hlast|].
    intros HF. specialize (Hlev HF).
    constructor; [|assumption].
    rewrite ty_new_restr, (build_range _ _ _ _ Hb) in Hn.
    destruct (truthy v) eqn:Ht.
    + rewrite Hc in Hn. cbn [bind fst snd is_False] in Hn.
      rewrite (any_pass_range z l Hsm) in Hn. cbn [bind] in Hn.
      destruct (in_partsb z l) eqn:E; [now apply in_partsb_iff|discriminate].
    + destruct (falsy_int v z Ht Hz) as (-> & q & Hq & Hq0).
      cbn [bind fst snd] in Hn.
      assert (HnF : is_False v = false) by (destruct v as [|[]| | | | | | | |]; try reflexivity; congruence).
      rewrite HnF in Hn. cbn [any_pass range_test] in Hn.
      unfold range_test in Hn. rewrite (check_tuples_zero v q) in Hn by assumption.
      rewrite (check_tuples_parts 0 l Hsm) in Hn. cbn [bind] in Hn.
      destruct (in_partsb 0 l) eqn:E; [now apply in_partsb_iff|discriminate].
Qed.

(* ---------------------------------------------------------------- strings *)
Lemma check_tuples_no_index v ts : check_tuples v ts <> Raise IndexError.
Proof.
  induction ts as [|t ts IH]; cbn; [discriminate|].
  destruct (check_tuple v t) as [b|e] eqn:E; cbn.
  - destruct (check_tuples v ts); cbn; congruence.
  - intros H; injection H as ->. destruct t as [lo hi|x]; cbn in E.
    + destruct lo as [lo|], hi as [hi|]; cbn in E; unfold py_lt in E; destruct (num_of v); cbn in E;
        try congruence; try destruct (num_of lo); try destruct (num_of hi); cbn in E; congruence.
    + unfold neq_float in E. destruct (py_float x) as [[m e]|e] eqn:Ef; cbn in E; [congruence|].
      destruct x; cbn in Ef; congruence.
Qed.

Lemma test_no_index r v : srestr_wf r -> test_of O r v <> Raise IndexError.
Proof.
  destruct r as [p|ps]; cbn [srestr_wf test_of]; intros H.
  - destruct H as (H1 & H2 & H3). unfold pattern_test. rewrite (convert_regexp_wf p H1 H2 H3). discriminate.
  - unfold length_test. destruct (py_len v) as [n|e] eqn:E; cbn [bind]; [apply check_tuples_no_index|].
    destruct v; cbn in E; congruence.
Qed.

Lemma any_pass_no_index l v : Forall srestr_wf l -> any_pass (map (test_of O) l) v <> Raise IndexError.
Proof.
  induction 1 as [|r l Hr _ IH]; cbn; [discriminate|].
  pose proof (test_no_index r v Hr). destruct (test_of O r v) as [[]|e]; cbn; [discriminate|assumption|congruence].
Qed.

Lemma str_new_none levels : slevels_wf levels -> ty_new O (str_chain levels) None = Ok (VStr []).
Proof.
  induction levels as [|l ls IH]; intros H; [reflexivity|]. inversion H as [|? ? [Hn Hl] Hls]; subst.
  cbn [str_chain]. rewrite ty_new_restr, build_str by assumption. cbn [bind snd is_False].
  now rewrite IH.
Qed.

Lemma str_new_cases levels v : slevels_wf levels ->
  match ty_new O (str_chain levels) (Some v) with
  | Ok w => w = VStr (py_str O v) \/ w = VStr []
  | Raise e => e <> IndexError
  end.
Proof.
  induction levels as [|l ls IH]; intros H; [cbn; now left|].
  inversion H as [|? ? [Hn Hl] Hls]; subst. specialize (IH Hls).
  cbn [str_chain]. rewrite ty_new_restr, build_str by assumption. cbn [bind fst snd].
  assert (Hfin : match match ty_new O (str_chain ls) (Some v) with
                       | Raise TypeError => ty_new O (str_chain ls) None | r => r end with
                 | Ok w => w = VStr (py_str O v) \/ w = VStr []
                 | Raise e => e <> IndexError end).
  { destruct (ty_new O (str_chain ls) (Some v)) as [o|[]]; try assumption; try congruence.
    rewrite str_new_none by assumption. now right. }
  destruct (is_False v); [exact Hfin|].
  destruct (map (test_of O) l) as [|t ts] eqn:E; [destruct l; [congruence|discriminate]|].
  rewrite <- E. pose proof (any_pass_no_index l v Hl).
  destruct (any_pass (map (test_of O) l) v) as [[]|e]; cbn [bind]; [exact Hfin|congruence|congruence].
Qed.

Lemma str_call_no_index levels v : slevels_wf levels -> ty_call O (str_chain levels) v <> Raise IndexError.
Proof.
  intros H. pose proof (str_new_cases levels v H) as Hc. unfold ty_call.
  destruct (ty_new O (str_chain levels) (Some v)) as [o|e]; [|congruence].
  destruct levels as [|l ls]; [discriminate|]. cbn [str_chain]. rewrite ty_init_restr.
  destruct (bind _ _) as [[]|[]]; discriminate.
Qed.

Definition scalar_arg (v : pyval) : Prop :=
  match v with VBool false | VList _ | VDict _ | VBytes _ | VBits _ => False | _ => True end.

Lemma any_pass_sat l v : scalar_arg v -> Forall srestr_wf l ->
  any_pass (map (test_of O) l) v = Ok true -> Exists (fun r => sat (o_match O) wrap_anchors r (py_str O v)) l.
Proof.
  intros Hv. induction 1 as [|r l Hr Hl IH]; cbn; [discriminate|].
  destruct (test_of O r v) as [[]|e] eqn:E; cbn; intros H; [|right; auto|discriminate].
  left. destruct r as [p|ps]; cbn [test_of sat] in *.
  - destruct Hr as (H1 & H2 & H3). unfold pattern_test in E. rewrite (convert_regexp_wf p H1 H2 H3) in E.
    cbn in E. congruence.
  - unfold length_test in E. destruct v; cbn in E; try discriminate; try contradiction.
    rewrite (check_tuples_parts _ ps Hr) in E. injection E as E. apply in_partsb_iff in E. exact E.
Qed.

Lemma str_call_value levels v w : levels <> [] -> slevels_wf levels -> ty_call O (str_chain levels) v = Ok w ->
  w = VStr (py_str O v) /\ Forall (fun r => sat (o_match O) wrap_anchors r (py_str O v)) (last levels []) /\
  (scalar_arg v -> Forall (Exists (fun r => sat (o_match O) wrap_anchors r (py_str O v))) levels).
Proof.
  destruct levels as [|l0 ls0]; [congruence|]. intros _. revert l0 w.
  induction ls0 as [|l1 ls IH]; intros l w Hwf H; inversion Hwf as [|? ? [Hn Hl] Hls]; subst.
  - cbn [str_chain] in *. destruct (restr_call_inv _ _ _ _ H) as [Hnw Hinv].
    unfold ty_call in H. rewrite Hnw in H. rewrite ty_init_restr, ty_tests_restr in H.
    assert (Hc : ty_call O TStr v = Ok (VStr (py_str O v))) by reflexivity.
    destruct (Hinv _ Hc) as (o & Ho & -> & Hi). cbn in Ho. injection Ho as <-.
    rewrite Hc in H. cbn [bind is_restr] in H. rewrite build_str in H by assumption. cbn [bind fst] in H.
    rewrite all_pass_str in H by assumption. cbn [bind] in H.
    destruct (forallb _ l) eqn:E; [|discriminate].
    assert (Hs : Forall (fun r => sat (o_match O) wrap_anchors r (py_str O v)) l).
    { apply Forall_forall. intros r Hr. rewrite forallb_forall in E. apply satb_iff. now apply E. }
    split; [reflexivity|]. split; [exact Hs|]. intros _. constructor; [|constructor].
    destruct l as [|r l]; [congruence|]. inversion Hs; subst. now left.
  - change (str_chain (l :: l1 :: ls)) with (TRestr (str_chain (l1 :: ls)) (map restr_of l)) in *.
    destruct (restr_call_inv _ _ _ _ H) as [Hnw Hinv].
    destruct (ty_call O (str_chain (l1 :: ls)) v) as [v'|e] eqn:Hc.
    2:{ exfalso. unfold ty_call in H. rewrite Hnw in H. rewrite ty_init_restr, Hc in H. cbn [bind] in H.
        destruct e; try discriminate. eapply str_call_no_index; eassumption. }
    destruct (IH l1 v' Hls Hc) as (-> & Hlast & Hex).
    destruct (Hinv _ eq_refl) as (o & Ho & -> & Hi). apply init_restr_val in Hi. subst o.
    split; [reflexivity|]. split; [exact Hlast|]. intros Hs. constructor; [|now apply Hex].
    rewrite ty_new_restr, build_str in Hnw by assumption. cbn [bind fst snd] in Hnw.
    assert (HF : is_False v = false) by (destruct v as [|[]| | | | | | | |]; try reflexivity; contradiction).
    rewrite HF in Hnw. destruct (map (test_of O) l) as [|t ts] eqn:E; [discriminate|]. rewrite <- E in Hnw.
    destruct (any_pass (map (test_of O) l) v) as [[]|] eqn:Ea; cbn [bind] in Hnw; try discriminate.
    now apply any_pass_sat.
Qed.

(* ---------------------------------------------------------------- all member types *)
Lemma member_is_value t v w : mtype_wf t -> arg_ok t v -> member_try O (pty_of t) v = Some w ->
  is_value (o_match O) t w.
Proof.
  destruct t as [levels|levels| | |names| |n]; cbn [mtype_wf arg_ok pty_of is_value]; intros Hwf Ha H.
  - destruct Hwf as [Hn Hwf]. assert (Hc : ty_call O (int_chain levels) v = Ok w).
    { unfold member_try in H. destruct levels; [congruence|]. cbn [int_chain] in *.
      destruct (ty_call _ _ v); congruence. }
    destruct (int_call_value levels v w Hn Hwf Hc) as (z & -> & _ & Hlast & Hlev).
    exists z. split; [reflexivity|]. destruct levels as [|l [|l1 ls]]; [congruence| |now apply Hlev].
    constructor; [exact Hlast|constructor].
  - destruct Hwf as (Hn & Hwf & Hone). assert (Hc : ty_call O (str_chain levels) v = Ok w).
    { unfold member_try in H. destruct levels; [congruence|]. cbn [str_chain] in *.
      destruct (ty_call _ _ v); congruence. }
    destruct (str_call_value levels v w Hn Hwf Hc) as (-> & Hlast & Hex).
    eexists. split; [reflexivity|]. destruct levels as [|l [|l1 ls]]; [congruence| |].
    + constructor; [exact Hlast|constructor].
    + destruct Hone as [Hone|Hone]; [discriminate|].
      specialize (Hex Ha). clear - Hex Hone.
      induction Hone as [|l' ls' Hl Hls IH]; [constructor|]. inversion Hex; subst.
      constructor; [|auto]. destruct l' as [|r [|]]; try discriminate.
      constructor; [|constructor]. match goal with E : Exists _ [r] |- _ => inversion E as [? ? Hr|? ? Hr]; subst end;
        [assumption|inversion Hr].
  - cbn in H. destruct v; try discriminate. injection H as <-. eauto.
  - cbn in H. destruct (ty_call O TBool v) as [w'|] eqn:E; [|discriminate]. injection H as ->.
    unfold ty_call in E. cbn in E. unfold yang_bool in E. destruct (py_in _ _); [|discriminate].
    injection E as <-. eauto.
  - cbn in H. destruct (ty_call O (enum_type names) v) as [w'|] eqn:E; [|discriminate]. injection H as ->.
    unfold enum_type in E. destruct (restr_call_inv _ _ _ _ E) as [Hnw Hinv].
    assert (Hc : ty_call O TStr v = Ok (VStr (py_str O v))) by reflexivity.
    destruct (Hinv _ Hc) as (o & Ho & -> & _). cbn in Ho. injection Ho as <-.
    exists (py_str O v). split; [reflexivity|].
    unfold ty_call in E. rewrite Hnw in E. rewrite ty_init_restr, ty_tests_restr, Hc in E.
    cbn [bind is_restr build fst all_pass dict_test py_str] in E. unfold dict_test in E. cbn [bind py_str] in E.
    destruct (str_in (py_str O v) names) eqn:Ei; [now apply str_in_In|discriminate].
  - cbn in H. destruct (ty_call O TBinary v) as [w'|] eqn:E; [|discriminate]. injection H as ->.
    unfold ty_call in E. cbn in E. destruct v; cbn in E; try discriminate.
    + destruct (b64decode s); cbn in E; [|discriminate]. injection E as <-. eauto.
    + injection E as <-. eauto.
  - cbn in H. destruct (ty_call O (TDecPrec n) v) as [w'|] eqn:E; [|discriminate]. injection H as ->.
    unfold ty_call in E. cbn [ty_new ty_init] in E. unfold yang_decprec in E.
    destruct (py_decimal v) as [[c e]|]; cbn [bind fst snd] in E; [|discriminate].
    unfold quantize in E. destruct (28 <? _); cbn in E; [discriminate|]. injection E as <-. eauto.
Qed.

(** Values given in the type's own spelling are left as they are. *)
Lemma spelled_id t v w : mtype_wf t -> spelled t v -> member_try O (pty_of t) v = Some w -> w = v.
Proof.
  destruct t as [levels|levels| | |names| |n]; cbn [mtype_wf spelled pty_of]; intros Hwf Hs H.
  - destruct Hwf as [Hn Hwf]. assert (Hc : ty_call O (int_chain levels) v = Ok w).
    { unfold member_try in H. destruct levels; [congruence|]. cbn [int_chain] in *.
      destruct (ty_call _ _ v); congruence. }
    destruct (int_call_value levels v w Hn Hwf Hc) as (z & -> & Hz & _).
    destruct Hs as (x & ->). cbn in Hz. congruence.
  - destruct Hwf as (Hn & Hwf & Hone). assert (Hc : ty_call O (str_chain levels) v = Ok w).
    { unfold member_try in H. destruct levels; [congruence|]. cbn [str_chain] in *.
      destruct (ty_call _ _ v); congruence. }
    destruct (str_call_value levels v w Hn Hwf Hc) as (-> & _). destruct Hs as (s & ->). reflexivity.
  - destruct Hs as (s & ->). cbn in H. congruence.
  - destruct Hs as (b & ->). destruct b; cbn in H; congruence.
  - destruct Hs as (s & ->). cbn in H. destruct (ty_call O (enum_type names) (VStr s)) as [w'|] eqn:E; [|discriminate].
    injection H as ->. unfold enum_type in E. destruct (restr_call_inv _ _ _ _ E) as [_ Hinv].
    destruct (Hinv (VStr s) eq_refl) as (o & Ho & -> & _). cbn in Ho. congruence.
  - destruct Hs as (l & ->). cbn in H. congruence.
  - destruct Hs as (q & ->). cbn in H. destruct (ty_call O (TDecPrec n) (VDec q (- n))) as [w'|] eqn:E; [|discriminate].
    injection H as ->. unfold ty_call in E. cbn [ty_new ty_init] in E. unfold yang_decprec in E.
    cbn [py_decimal bind fst snd] in E. unfold quantize in E. rewrite Z.leb_refl in E.
    replace (- n + n) with 0 in E by lia. rewrite Z.pow_0_r, Z.mul_1_r in E.
    destruct (28 <? _); cbn in E; congruence.
Qed.
End Members.
