(** Built-in integer types, alone and with one range statement. *)
From Verif Require Import PyStr PyStr_facts PyVal Base64 Restricted Spec_Types Range_proofs IntTypes
  Restricted_proofs StrTypes StrTypes_proofs.
From Coq Require Import Lia ZifyBool ZifyN ZifyNat.
Local Open Scope Z_scope.

Definition kind_part (k : int_kind) : part :=
  match k with
  | I8 => Between (Some (-128)) (Some 127) 0 0
  | I16 => Between (Some (-32768)) (Some 32767) 0 0
  | I32 => Between (Some (-2147483648)) (Some 2147483647) 0 0
  | I64 => Between (Some (-9223372036854775808)) (Some 9223372036854775807) 0 0
  | U8 => Between (Some 0) (Some 255) 0 0
  | U16 => Between (Some 0) (Some 65535) 0 0
  | U32 => Between (Some 0) (Some 4294967295) 0 0
  | U64 => Between (Some 0) (Some 18446744073709551615) 0 0
  end.

Lemma class_map_chain k : class_map_int (kind_name k) = Some (int_chain [[kind_part k]]).
Proof. destruct k; reflexivity. Qed.

Lemma kind_part_ok k z : in_part z (kind_part k) <-> kind_ok k z.
Proof. destruct k; cbn [kind_part in_part kind_ok]; lia. Qed.

Lemma kind_levels k z : in_levels z [[kind_part k]] <-> kind_ok k z.
Proof.
  rewrite <- kind_part_ok. split.
  - intros H. inversion H as [|? ? H1 _]; subst. inversion H1 as [? ? H2|? ? H2]; subst; [assumption|inversion H2].
  - intros H. constructor; [now constructor|constructor].
Qed.

Lemma kind_wf k : levels_wf [[kind_part k]].
Proof.
  cbn [levels_wf]. split; [|split; [|exact I]].
  - constructor; [destruct k; exact I|constructor].
  - constructor; [|constructor]. destruct k; cbn; repeat constructor.
Qed.

Lemma own_wf k own : Forall small_single own ->
  Forall (fun p => Forall (kind_ok k) (part_bounds p)) own -> levels_wf [own; [kind_part k]].
Proof.
  intros Hs Hb. split; [assumption|]. split; [|apply kind_wf].
  eapply Forall_impl; [|exact Hb]. intros p. apply Forall_impl. intros b. apply kind_levels.
Qed.

Lemma own_levels k own z : in_levels z [own; [kind_part k]] <-> in_parts z own /\ kind_ok k z.
Proof.
  split.
  - intros H. inversion H; subst. split; [assumption|]. now apply kind_levels.
  - intros [H1 H2]. constructor; [assumption|]. now apply kind_levels.
Qed.

Section S.
Context (O : oracle).

Lemma builtin_int k z :
  (kind_ok k z -> leaf_assign O (LOne (int_chain [[kind_part k]])) (VInt z) = {| d_notified := true; d_out := Ok (VInt z) |}) /\
  (~ kind_ok k z -> leaf_assign O (LOne (int_chain [[kind_part k]])) (VInt z) = {| d_notified := false; d_out := Raise ValueError |}).
Proof.
  pose proof (kind_levels k z) as Hk. rewrite <- in_levelsb_iff in Hk.
  destruct (Z.eq_dec z 0) as [->|Hz].
  - rewrite int_assign_zero by apply kind_wf.
    destruct (in_levelsb 0 [[kind_part k]]); split; intros H; try reflexivity; exfalso; intuition congruence.
  - rewrite int_assign_exact by (apply kind_wf || (cbn; lia)). unfold int_assign_spec. cbn [py_int].
    destruct (in_levelsb z [[kind_part k]]); split; intros H; try reflexivity; exfalso; intuition congruence.
Qed.

Lemma builtin_str k z :
  (kind_ok k z -> leaf_assign O (LOne (int_chain [[kind_part k]])) (VStr (print_Z z)) = {| d_notified := true; d_out := Ok (VInt z) |}) /\
  (~ kind_ok k z -> leaf_assign O (LOne (int_chain [[kind_part k]])) (VStr (print_Z z)) = {| d_notified := false; d_out := Raise ValueError |}).
Proof.
  pose proof (kind_levels k z) as Hk. rewrite <- in_levelsb_iff in Hk.
  rewrite int_assign_exact by (apply kind_wf || apply truthy_print). unfold int_assign_spec. rewrite py_int_print.
  destruct (in_levelsb z [[kind_part k]]); split; intros H; try reflexivity; exfalso; intuition congruence.
Qed.

Lemma own_range_int k own z : Forall small_single own ->
  Forall (fun p => Forall (kind_ok k) (part_bounds p)) own ->
  (in_parts z own /\ kind_ok k z ->
     leaf_assign O (LOne (int_chain [own; [kind_part k]])) (VInt z) = {| d_notified := true; d_out := Ok (VInt z) |}) /\
  (~ (in_parts z own /\ kind_ok k z) ->
     d_out (leaf_assign O (LOne (int_chain [own; [kind_part k]])) (VInt z)) = Raise ValueError).
Proof.
  intros Hs Hb. pose proof (own_wf k own Hs Hb) as Hwf.
  rewrite <- own_levels. rewrite <- in_levelsb_iff.
  destruct (Z.eq_dec z 0) as [->|Hz].
  - rewrite int_assign_zero by assumption.
    destruct (in_levelsb 0 _); split; intros H; try reflexivity; exfalso; congruence.
  - rewrite int_assign_exact by (assumption || (cbn; lia)). unfold int_assign_spec. cbn [py_int].
    destruct (in_levelsb z [own; [kind_part k]]); split; intros H; try reflexivity; try (exfalso; congruence).
    destruct (in_levelsb z [[kind_part k]]); reflexivity.
Qed.
End S.
