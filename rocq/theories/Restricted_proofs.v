(** Lemmas about integer types. *)
From Verif Require Import PyStr PyStr_facts PyVal Base64 Restricted Spec_Types Range_proofs IntTypes.
From Coq Require Import Lia ZifyBool ZifyN ZifyNat.
Local Open Scope Z_scope.

Lemma truthy_print z : truthy (VStr (print_Z z)) = true.
Proof. cbn. pose proof (print_Z_nonnil z). destruct (print_Z z); [congruence|reflexivity]. Qed.

Lemma py_int_print z : py_int (VStr (print_Z z)) = Ok z.
Proof. cbn [py_int]. now rewrite parse_print_Z. Qed.

(** Values that [__new__] hands to the tests as the integer they denote. *)
Definition plain (v : pyval) : Prop := truthy v = true \/ v = VInt 0.

Lemma plain_not_False v : plain v -> is_False v = false.
Proof. intros [H| ->]; [|reflexivity]. destruct v as [|[]| | | | | | | |]; try reflexivity; discriminate. Qed.

Definition callb_of O t v := match ty_new O t (Some v) with Raise e => Raise e | Ok o => ty_init O t o v end.
Lemma callb_call O t v : callb_of O t v = ty_call O t v. Proof. reflexivity. Qed.

(** Unfolding equations. *)
Lemma ty_new_restr O b rs arg :
  ty_new O (TRestr b rs) arg =
  (r <- build O (ty_call O b) rs (match arg with None => VBool false | Some v => v end) ;;
   _ <- (if is_False (snd r) then Ok tt
         else match fst r with
              | [] => Raise NameError
              | ts => p <- any_pass ts (snd r) ;; if p then Ok tt else Raise ValueError
              end) ;;
   match ty_new O b arg with
   | Raise TypeError => ty_new O b None
   | r' => r'
   end).
Proof. reflexivity. Qed.

Lemma ty_init_restr O b rs o v :
  ty_init O (TRestr b rs) o v =
  match (v' <- ty_call O b v ;;
         ts <- ty_tests O (TRestr b rs) ;;
         p <- all_pass ts v' ;;
         if p then Ok tt else Raise ValueError) with
  | Ok _ => Ok o
  | Raise IndexError => Ok o
  | Raise e => Raise e
  end.
Proof. reflexivity. Qed.

Lemma ty_tests_restr O b rs :
  ty_tests O (TRestr b rs) =
  if is_restr b then ty_tests O b else (r <- build O (ty_call O b) rs (VBool false) ;; Ok (fst r)).
Proof. reflexivity. Qed.

(* ---------------------------------------------------------------- one level *)
Lemma build_range O callb ps val :
  Forall (fun p => Forall (fun b => callb (VStr (print_Z b)) = Ok (VInt b)) (part_bounds p)) ps ->
  build O callb [RRange (map show_part ps)] val =
  (val' <- (if truthy val then match callb val with Ok v => Ok v | Raise _ => Raise TypeError end
            else Ok val) ;;
   Ok ([range_test (map part_tuple ps)], val')).
Proof.
  intros H. cbn [build]. rewrite range_tuples_show by exact H. cbn [bind].
  destruct (truthy val); [|reflexivity]. destruct (callb val); reflexivity.
Qed.

Section Chain.
Context (O : oracle).

Lemma any_pass_range z ps : Forall small_single ps ->
  any_pass [range_test (map part_tuple ps)] (VInt z) = Ok (in_partsb z ps).
Proof.
  intros H. cbn [any_pass]. unfold range_test. rewrite check_tuples_parts by assumption.
  cbn [bind]. destruct (in_partsb z ps); reflexivity.
Qed.

Lemma all_pass_range z ps : Forall small_single ps ->
  all_pass [range_test (map part_tuple ps)] (VInt z) = Ok (in_partsb z ps).
Proof.
  intros H. cbn [all_pass]. unfold range_test. rewrite check_tuples_parts by assumption.
  cbn [bind]. destruct (in_partsb z ps); reflexivity.
Qed.

(** What a chain accepts, together with its innermost tests. *)
Definition chain_ok (levels : list (list part)) : Prop :=
  forall v z, py_int v = Ok z -> plain v -> in_levels z levels ->
    ty_new O (int_chain levels) (Some v) = Ok (VInt z) /\
    (forall o, ty_init O (int_chain levels) o v = Ok o).

Lemma bounds_ok ls l : chain_ok ls ->
  Forall (fun p => Forall (fun b => in_levels b ls) (part_bounds p)) l ->
  Forall (fun p => Forall (fun b => ty_call O (int_chain ls) (VStr (print_Z b)) = Ok (VInt b)) (part_bounds p)) l.
Proof.
  intros Hok H. eapply Forall_impl; [|exact H]. intros p Hp.
  eapply Forall_impl; [|exact Hp]. intros b Hb. unfold ty_call.
  destruct (Hok (VStr (print_Z b)) b) as [H1 H2]; [apply py_int_print|left; apply truthy_print|exact Hb|].
  now rewrite H1, H2.
Qed.

Definition chain_tests (levels : list (list part)) : Prop :=
  forall l ls, levels = l :: ls ->
    ty_tests O (int_chain levels) = Ok [range_test (map part_tuple (last levels []))].

Lemma last_in_levels z l ls : in_levels z (l :: ls) -> in_parts z (last (l :: ls) []).
Proof.
  revert l; induction ls as [|l' ls IH]; intros l H.
  - inversion H; subst. assumption.
  - inversion H as [|? ? H1 H2]; subst. exact (IH l' H2).
Qed.

Lemma last_small l ls : levels_wf (l :: ls) -> Forall small_single (last (l :: ls) []).
Proof.
  revert l; induction ls as [|l' ls IH]; intros l H.
  - exact (proj1 H).
  - destruct H as (_ & _ & H). exact (IH l' H).
Qed.

Lemma chain_all levels : levels_wf levels -> chain_ok levels /\ chain_tests levels.
Proof.
  induction levels as [|l ls IH]; intros Hwf.
  - split.
    + intros v z Hv _ _. cbn. rewrite Hv. split; reflexivity.
    + intros l ls E; discriminate.
  - pose proof Hwf as Hwf0. destruct Hwf as (Hs & Hb & Hwf). destruct (IH Hwf) as [Hok Ht].
    pose proof (bounds_ok ls l Hok Hb) as Hcb.
    assert (Htests : chain_tests (l :: ls)).
    { intros l0 ls0 _. cbn [int_chain]. rewrite ty_tests_restr.
      destruct ls as [|l' ls'].
      - cbn [int_chain is_restr]. rewrite (build_range O (ty_call O TInt) l (VBool false) Hcb). reflexivity.
      - cbn [is_restr]. exact (Ht l' ls' eq_refl). }
    split; [|exact Htests].
    intros v z Hv Hp Hin. pose proof Hin as Hin0. inversion Hin as [|? ? Hl Hls]; subst.
    destruct (Hok v z Hv Hp Hls) as [Hn Hi].
    assert (Hcall : ty_call O (int_chain ls) v = Ok (VInt z)) by (unfold ty_call; now rewrite Hn, Hi).
    split.
    + cbn [int_chain]. rewrite ty_new_restr, build_range by exact Hcb.
      assert (Hval : (if truthy v then match ty_call O (int_chain ls) v with Ok v => Ok v | Raise _ => Raise TypeError end
                      else Ok v) = Ok (VInt z)).
      { destruct Hp as [Hp| ->]; [rewrite Hp, Hcall; reflexivity|].
        cbn in *. congruence. }
      rewrite Hval. cbn [bind fst snd is_False]. rewrite any_pass_range by assumption.
      apply in_partsb_iff in Hl. rewrite Hl. cbn [bind]. now rewrite Hn.
    + intros o. change (int_chain (l :: ls)) with (TRestr (int_chain ls) [RRange (map show_part l)]).
      rewrite ty_init_restr, Hcall. cbn [bind].
      change (TRestr (int_chain ls) [RRange (map show_part l)]) with (int_chain (l :: ls)).
      rewrite (Htests l ls eq_refl). cbn [bind]. rewrite all_pass_range by now apply last_small.
      apply last_in_levels in Hin0. apply in_partsb_iff in Hin0. now rewrite Hin0.
Qed.

Lemma chain_bounds l ls : levels_wf (l :: ls) ->
  Forall (fun p => Forall (fun b => ty_call O (int_chain ls) (VStr (print_Z b)) = Ok (VInt b)) (part_bounds p)) l.
Proof. intros (Hs & Hb & Hwf). apply bounds_ok; [apply chain_all; assumption|assumption]. Qed.

Lemma chain_none levels : levels_wf levels -> ty_new O (int_chain levels) None = Ok (VInt 0).
Proof.
  induction levels as [|l ls IH]; intros Hwf; [reflexivity|].
  cbn [int_chain]. rewrite ty_new_restr, build_range by now apply chain_bounds.
  cbn [truthy bind fst snd is_False]. destruct Hwf as (_ & _ & Hwf). now rewrite (IH Hwf).
Qed.

Lemma chain_call_ok levels v z : levels_wf levels -> py_int v = Ok z -> plain v -> in_levels z levels ->
  ty_call O (int_chain levels) v = Ok (VInt z).
Proof.
  intros Hwf Hv Hp Hin. destruct (proj1 (chain_all levels Hwf) v z Hv Hp Hin) as [Hn Hi].
  unfold ty_call. now rewrite Hn, Hi.
Qed.

(** The exception with which the constructor of a chain rejects a truthy value. *)
Lemma chain_new_fail l ls v z : levels_wf (l :: ls) -> py_int v = Ok z -> truthy v = true ->
  ~ in_levels z (l :: ls) ->
  ty_new O (int_chain (l :: ls)) (Some v) = Raise (if in_levelsb z ls then ValueError else TypeError).
Proof.
  revert l; induction ls as [|l' ls IH]; intros l Hwf Hv Ht Hout.
  - cbn [int_chain]. rewrite ty_new_restr, build_range by now apply (chain_bounds l []).
    rewrite Ht. unfold ty_call; cbn [ty_new]. rewrite Hv. cbn [bind fst snd is_False ty_init].
    rewrite any_pass_range by apply Hwf.
    destruct (in_partsb z l) eqn:E; [|reflexivity].
    exfalso; apply Hout. constructor; [now apply in_partsb_iff|constructor].
  - cbn [int_chain]. change (TRestr (int_chain ls) [RRange (map show_part l')]) with (int_chain (l' :: ls)).
    rewrite ty_new_restr, build_range by now apply (chain_bounds l (l' :: ls)).
    rewrite Ht.
    destruct (in_levelsb z (l' :: ls)) eqn:E.
    + apply in_levelsb_iff in E. rewrite (chain_call_ok (l' :: ls) v z) by (try apply Hwf; auto; now left).
      cbn [bind fst snd is_False]. rewrite any_pass_range by apply Hwf.
      destruct (in_partsb z l) eqn:E2; [|reflexivity].
      exfalso; apply Hout. constructor; [now apply in_partsb_iff|assumption].
    + assert (Hn : ~ in_levels z (l' :: ls)).
      { intros H; apply in_levelsb_iff in H; congruence. }
      unfold ty_call. destruct Hwf as (_ & _ & Hwf). rewrite (IH l' Hwf Hv Ht Hn). reflexivity.
Qed.

Lemma chain_call_fail l ls v z : levels_wf (l :: ls) -> py_int v = Ok z -> truthy v = true ->
  ~ in_levels z (l :: ls) ->
  ty_call O (int_chain (l :: ls)) v = Raise (if in_levelsb z ls then ValueError else TypeError).
Proof. intros. unfold ty_call. erewrite chain_new_fail by eassumption. reflexivity. Qed.

(** The integer 0. *)
Lemma chain_zero_fail levels : levels_wf levels -> ~ in_levels 0 levels ->
  ty_new O (int_chain levels) (Some (VInt 0)) = Raise ValueError.
Proof.
  induction levels as [|l ls IH]; intros Hwf Hout; [exfalso; apply Hout; constructor|].
  cbn [int_chain]. rewrite ty_new_restr, build_range by now apply (chain_bounds l ls).
  cbn [truthy Z.eqb negb bind fst snd is_False]. rewrite any_pass_range by apply Hwf.
  destruct (in_partsb 0 l) eqn:E; [|reflexivity]. cbn [bind].
  rewrite IH; [reflexivity|apply Hwf|]. intros H; apply Hout. constructor; [now apply in_partsb_iff|assumption].
Qed.

(** Values that do not convert to an integer at all. *)
Lemma chain_new_unconv l ls v e : levels_wf (l :: ls) -> py_int v = Raise e -> truthy v = true ->
  ty_new O (int_chain (l :: ls)) (Some v) = Raise TypeError.
Proof.
  revert l; induction ls as [|l' ls IH]; intros l Hwf Hv Ht.
  - cbn [int_chain]. rewrite ty_new_restr, build_range by now apply (chain_bounds l []).
    rewrite Ht. unfold ty_call; cbn [ty_new]. rewrite Hv. reflexivity.
  - cbn [int_chain]. change (TRestr (int_chain ls) [RRange (map show_part l')]) with (int_chain (l' :: ls)).
    rewrite ty_new_restr, build_range by now apply (chain_bounds l (l' :: ls)).
    rewrite Ht. unfold ty_call. destruct Hwf as (_ & _ & Hwf). now rewrite (IH l' Hwf Hv Ht).
Qed.

Lemma chain_init_raise l ls o v e : ty_call O (int_chain ls) v = Raise e -> e <> IndexError ->
  ty_init O (int_chain (l :: ls)) o v = Raise e.
Proof.
  intros H He. cbn [int_chain]. rewrite ty_init_restr, H. cbn [bind]. destruct e; try reflexivity. congruence.
Qed.

(* ---------------------------------------------------------------- assignment *)
(** Complete description of an assignment to an integer leaf with a chain of ranges. *)
Definition int_assign_spec (l : list part) (ls : list (list part)) (v : pyval) : dyn :=
  match py_int v with
  | Ok z =>
      if in_levelsb z (l :: ls) then {| d_notified := true; d_out := Ok (VInt z) |}
      else if in_levelsb z ls then {| d_notified := false; d_out := Raise ValueError |}
      else if in_levelsb z (tl ls) then {| d_notified := true; d_out := Raise ValueError |}
      else {| d_notified := true; d_out := Ok (VInt 0) |}
  | Raise ValueError =>
      match ls with
      | [] => {| d_notified := true; d_out := Raise ValueError |}
      | _ :: _ => {| d_notified := true; d_out := Ok (VInt 0) |}
      end
  | Raise _ => {| d_notified := true; d_out := Ok (VInt 0) |}
  end.

Lemma py_int_exn v e : py_int v = Raise e -> e = ValueError \/ e = TypeError.
Proof.
  destruct v; cbn [py_int]; intros H; try discriminate; try (injection H as <-; auto);
  destruct (parse_int _); try discriminate; injection H as <-; auto.
Qed.

Lemma int_assign_exact l ls v : levels_wf (l :: ls) -> truthy v = true ->
  leaf_assign O (LOne (int_chain (l :: ls))) v = int_assign_spec l ls v.
Proof.
  intros Hwf Ht. unfold leaf_assign, int_assign_spec. cbn [dyn_ltype]. unfold dyn_leaf.
  pose proof (chain_none (l :: ls) Hwf) as Hnone.
  destruct (py_int v) as [z|e] eqn:Hv.
  - destruct (in_levelsb z (l :: ls)) eqn:E.
    + apply in_levelsb_iff in E.
      destruct (proj1 (chain_all _ Hwf) v z Hv (or_introl Ht) E) as [Hn Hi].
      rewrite Hn, Hi. reflexivity.
    + assert (Hout : ~ in_levels z (l :: ls)) by (intros H; apply in_levelsb_iff in H; congruence).
      rewrite (chain_new_fail l ls v z Hwf Hv Ht Hout).
      destruct (in_levelsb z ls) eqn:E1; [reflexivity|].
      rewrite Hnone. cbn [d_notified d_out].
      destruct ls as [|l' ls]; [discriminate|].
      assert (Hout' : ~ in_levels z (l' :: ls)) by (intros H; apply in_levelsb_iff in H; congruence).
      assert (Hcf := chain_call_fail l' ls v z (proj2 (proj2 Hwf)) Hv Ht Hout').
      rewrite (chain_init_raise l (l' :: ls) _ v _ Hcf) by (destruct (in_levelsb z ls); discriminate).
      cbn [tl]. destruct (in_levelsb z ls); reflexivity.
  - rewrite (chain_new_unconv l ls v e Hwf Hv Ht), Hnone. cbn [d_notified d_out].
    destruct ls as [|l' ls].
    + assert (Hcf : ty_call O (int_chain []) v = Raise e) by (unfold ty_call; cbn; now rewrite Hv).
      pose proof (py_int_exn v e Hv) as He.
      rewrite (chain_init_raise l [] _ v e Hcf) by (destruct He; congruence).
      destruct He; subst; reflexivity.
    + assert (Hcf : ty_call O (int_chain (l' :: ls)) v = Raise TypeError).
      { unfold ty_call. now rewrite (chain_new_unconv l' ls v e (proj2 (proj2 Hwf)) Hv Ht). }
      rewrite (chain_init_raise l (l' :: ls) _ v _ Hcf) by discriminate.
      destruct (py_int_exn v e Hv); subst; reflexivity.
Qed.

Lemma int_assign_zero l ls : levels_wf (l :: ls) ->
  leaf_assign O (LOne (int_chain (l :: ls))) (VInt 0) =
  if in_levelsb 0 (l :: ls) then {| d_notified := true; d_out := Ok (VInt 0) |}
  else {| d_notified := false; d_out := Raise ValueError |}.
Proof.
  intros Hwf. unfold leaf_assign. cbn [dyn_ltype]. unfold dyn_leaf.
  destruct (in_levelsb 0 (l :: ls)) eqn:E.
  - apply in_levelsb_iff in E.
    destruct (proj1 (chain_all _ Hwf) (VInt 0) 0 eq_refl (or_intror eq_refl) E) as [Hn Hi].
    rewrite Hn, Hi. reflexivity.
  - rewrite chain_zero_fail; [reflexivity|assumption|].
    intros H; apply in_levelsb_iff in H; congruence.
Qed.

(** Direct construction (as used for leaf-list members and union candidates) never zeroes. *)
Lemma chain_call_iff levels v z : levels_wf levels -> py_int v = Ok z -> plain v ->
  (in_levels z levels -> ty_call O (int_chain levels) v = Ok (VInt z)) /\
  (~ in_levels z levels -> exists e, ty_call O (int_chain levels) v = Raise e).
Proof.
  intros Hwf Hv Hp. split; [intros; now apply chain_call_ok|].
  intros Hout. destruct Hp as [Ht| ->].
  - destruct levels as [|l ls]; [exfalso; apply Hout; constructor|].
    eexists. apply (chain_call_fail l ls v z); assumption.
  - injection Hv as <-. exists ValueError. unfold ty_call. now rewrite chain_zero_fail.
Qed.
End Chain.
