(** Property theorems about values given as text: C82. *)
From Verif Require Import PyStr PyVal Base64 Restricted IntTypes Spec_Types Spec_Defaults Spec_Lexical.
From Verif Require Lexical_proofs Scalars_proofs.
From Coq Require Import Lia ZArith.
Import ListNotations.
Local Open Scope Z_scope.

Lemma ordinary_checked s : forallb (fun c => (c <? 28) || (31 <? c) && (c <? 128))%N s = true -> ordinary s.
Proof. intros H. apply Forall_forall. intros c Hc. rewrite forallb_forall in H. specialize (H c Hc). lia. Qed.
(* ------------------------------------------------------------------ C82 *)
(** Every text that RFC 6020 allows for an integer is taken for that integer, if it is in the range of the type. *)
Theorem C82_integers : forall O k b s z, class_map_int (kind_name k) = Some b -> yang_int s z ->
  (kind_ok k z -> leaf_assign O (LOne b) (VStr s) = {| d_notified := true; d_out := Ok (VInt z) |}) /\
  (~ kind_ok k z -> leaf_assign O (LOne b) (VStr s) = {| d_notified := false; d_out := Raise ValueError |}).
Proof.
  intros O k b s z E H. apply Lexical_proofs.yang_python in H. destruct (Lexical_proofs.integer_leaf O k b s E) as (H1 & H2 & _). split; [exact (H1 z H)|exact (H2 z H)].
Qed.
Print Assumptions C82_integers.
(** Other texts are not all refused: spaces around, and single underscores between the digits, are allowed.  Nothing else is. *)
Theorem C82_integers_exact : forall O k b s, class_map_int (kind_name k) = Some b ->
  (forall z, python_int s z -> kind_ok k z -> leaf_assign O (LOne b) (VStr s) = {| d_notified := true; d_out := Ok (VInt z) |}) /\
  (forall z, python_int s z -> ~ kind_ok k z -> leaf_assign O (LOne b) (VStr s) = {| d_notified := false; d_out := Raise ValueError |}) /\
  (ordinary s -> (forall z, ~ python_int s z) -> leaf_assign O (LOne b) (VStr s) = {| d_notified := true; d_out := Raise ValueError |}).
Proof. exact Lexical_proofs.integer_leaf. Qed.
Print Assumptions C82_integers_exact.
Theorem C82_integers_refuted : forall O, exists b s, class_map_int (kind_name I32) = Some b /\ ordinary s /\ (forall z, ~ yang_int s z) /\
  leaf_assign O (LOne b) (VStr s) = {| d_notified := true; d_out := Ok (VInt 1000) |}.
Proof.
  intros O. eexists. exists (lit " 1_000"). split; [reflexivity|]. split; [apply ordinary_checked; vm_compute; reflexivity|]. split; [|vm_compute; reflexivity].
  intros z H. remember (lit " 1_000") as s eqn:Es. destruct H as [sg ds N H]. destruct sg; [|discriminate|discriminate]. destruct ds as [|d ds]; [contradiction|]. inversion H; subst. cbn [sign_text digits map app] in Es.
  change (lit " 1_000") with [32; 49; 95; 48; 48; 48]%N in Es. injection Es as E _. lia.
Qed.
Print Assumptions C82_integers_refuted.
(** Every text that RFC 6020 allows for a decimal with at most the declared fraction digits is taken for that decimal. *)
Theorem C82_decimals : forall O f d q n, dec_text d q n -> Z.of_nat n <= f -> Z.abs q * 10 ^ (f - Z.of_nat n) <= 2 ^ 63 ->
  leaf_assign O (LOne (TDecPrec f)) (VStr d) = {| d_notified := true; d_out := Ok (VDec (q * 10 ^ (f - Z.of_nat n)) (- f)) |}.
Proof. exact Lexical_proofs.yang_decimal_leaf. Qed.
Print Assumptions C82_decimals.
(** Other texts are not all refused: spaces, underscores, exponents, no digits on one side of the point.  What is refused
    raises decimal.InvalidOperation.  (Texts with the letter n may be NaN or infinities, which the model does not have.) *)
Theorem C82_decimals_exact : forall O f s, ordinary s ->
  (forall c e, python_dec s c e -> leaf_assign O (LOne (TDecPrec f)) (VStr s) = leaf_assign O (LOne (TDecPrec f)) (VDec c e)) /\
  (~ In 78%N s -> ~ In 110%N s -> (forall c e, ~ python_dec s c e) -> leaf_assign O (LOne (TDecPrec f)) (VStr s) = {| d_notified := false; d_out := Raise InvalidOperation |}).
Proof. intros O f s H. destruct (Lexical_proofs.decimal_leaf O f s H) as [H1 H2]. split; [exact H1|intros _ _; exact H2]. Qed.
Print Assumptions C82_decimals_exact.
Lemma no_exponent d q n : dec_text d q n -> ~ In 101%N d.
Proof.
  assert (D : forall ds, all_below 10 ds -> ~ In 101%N (digits ds)).
  { intros ds H C. apply in_map_iff in C. destruct C as (x & E & Hx). unfold all_below in H. rewrite Forall_forall in H. specialize (H x Hx). cbv beta in H. lia. }
  assert (Sg : forall sg, ~ In 101%N (sign_text sg)) by (intros sg; destruct sg; vm_compute; intuition discriminate).
  intros [sg ds N H|sg ds fs N1 N2 H1 H2] C; apply in_app_or in C; destruct C as [C|C]; try exact (Sg _ C); [exact (D _ H C)|].
  apply in_app_or in C. destruct C as [C|C]; [exact (D _ H1 C)|]. destruct C as [C|C]; [discriminate|exact (D _ H2 C)].
Qed.
Theorem C82_decimals_refuted : forall O, exists s, ordinary s /\ (forall q n, ~ dec_text s q n) /\ leaf_assign O (LOne (TDecPrec 2)) (VStr s) = {| d_notified := true; d_out := Ok (VDec 100000 (-2)) |}.
Proof.
  intros O. exists (lit "1e3"). split; [apply ordinary_checked; vm_compute; reflexivity|]. split; [|vm_compute; reflexivity]. intros q n H. apply no_exponent in H. apply H. vm_compute. auto.
Qed.
Print Assumptions C82_decimals_refuted.
(** A text that is no number is refused with another exception than the ValueError of all other types. *)
Theorem C82_error_refuted : forall O, exists s, ordinary s /\ (forall c e, ~ python_dec s c e) /\ d_out (leaf_assign O (LOne (TDecPrec 2)) (VStr s)) = Raise InvalidOperation.
Proof.
  intros O. exists (lit "abc"). assert (Od : ordinary (lit "abc")) by (apply ordinary_checked; vm_compute; reflexivity). split; [exact Od|]. split; [|vm_compute; reflexivity].
  intros c e H. apply (Lexical_proofs.dec_given _ _ _ Od) in H. vm_compute in H. discriminate.
Qed.
Print Assumptions C82_error_refuted.
(** Texts that are no base64 are taken for binaries. *)
Theorem C82_binary_refuted : forall O, exists s, ordinary s /\ (forall l, b64encode l <> s) /\ leaf_assign O (LOne TBinary) (VStr s) = {| d_notified := true; d_out := Ok (VBytes [0]%N) |}.
Proof.
  intros O. exists (lit "A#A=="). split; [apply ordinary_checked; vm_compute; reflexivity|]. split; [|vm_compute; reflexivity].
  intros l E. assert (L : length (b64encode l) = 5%nat) by (rewrite E; reflexivity). rewrite Scalars_proofs.b64encode_length in L. lia.
Qed.
Print Assumptions C82_binary_refuted.

(** -007, +0.50, and what Python takes besides. *)
Example C82_case : yang_int (lit "-007") (-7) /\ kind_ok I8 (-7) /\ python_int (lit " +1_0" ++ [10%N]) 10 /\ dec_text (lit "+0.50") 50 2 /\ python_dec (lit ".5E-1") 5 (-2) /\
  (forall O, d_out (leaf_assign O (LOne (TDecPrec 3)) (VStr (lit "+0.50"))) = Ok (VDec 500 (-3))) /\ (forall z, ~ python_int (lit "1__0") z) /\ ordinary (lit "1__0").
Proof.
  assert (B : forall b ds, forallb (fun d => (0 <=? d) && (d <? b)) ds = true -> all_below b ds) by (intros b ds H; apply Forall_forall; intros d Hd; rewrite forallb_forall in H; specialize (H d Hd); lia).
  split; [apply (YangInt Minus [0; 0; 7]); [discriminate|apply B; reflexivity]|]. split; [vm_compute; intuition discriminate|].
  split; [apply (PythonInt (lit " ") [10%N] Plus [1] [[0]]); [repeat constructor; vm_compute; tauto|repeat constructor; vm_compute; tauto|discriminate|intros h [<-|[]]; discriminate|apply B; reflexivity]|].
  split; [apply (DtPoint Plus [0] [5; 0]); [discriminate|discriminate|apply B; reflexivity|apply B; reflexivity]|].
  split. { apply (PythonDec [] [] (lit ".5E-1") NoSign (lit ".5") (lit "E-1") 5 1 (-1)); [constructor|constructor| |reflexivity|apply (Pointed [] [5]); [discriminate|apply B; reflexivity]|apply (Exp 69%N Minus [1]); [vm_compute; auto|discriminate|apply B; reflexivity]].
    intros c [H|H] W; vm_compute in H; injection H as <-; inversion W as [|? ? X]; vm_compute in X; intuition discriminate. }
  split; [intros O; vm_compute; reflexivity|]. split; [|apply ordinary_checked; vm_compute; reflexivity].
  intros z H. apply Lexical_proofs.int_given in H. vm_compute in H. discriminate.
Qed.
