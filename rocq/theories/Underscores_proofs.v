(** Lemmas about hexadecimal numbers with underscores. *)
From Coq Require Import String Lia ZArith.
From Verif Require Import PyStr PyStr_facts PyVal Restricted Defaults Spec_Defaults Defaults_proofs Spec_Underscores.
Import ListNotations.
Local Open Scope list_scope.
Local Open Scope Z_scope.

Lemma digit_hex c d : digit_in 16 c = Some d -> hex_char c d.
Proof.
  unfold digit_in, is_digit. destruct (N.leb 48 c && N.leb c 57)%bool eqn:E1.
  - apply andb_prop in E1. destruct E1 as [A B]. apply N.leb_le in A, B. destruct (_ <? 16) eqn:L; [|discriminate]. intros H. injection H as <-.
    replace c with (Z.to_N ((Z.of_N c - 48) + 48)) at 1 by lia. apply HcDigit. lia.
  - destruct (N.leb 97 c && N.leb c 122)%bool eqn:E2.
    + apply andb_prop in E2. destruct E2 as [A B]. apply N.leb_le in A, B. destruct (_ <? 16) eqn:L; [|discriminate]. apply Z.ltb_lt in L. intros H. injection H as <-.
      replace c with (Z.to_N ((Z.of_N c - 87) + 87)) at 1 by lia. apply HcLower. lia.
    + destruct (N.leb 65 c && N.leb c 90)%bool eqn:E3.
      * apply andb_prop in E3. destruct E3 as [A B]. apply N.leb_le in A, B. destruct (_ <? 16) eqn:L; [|discriminate]. apply Z.ltb_lt in L. intros H. injection H as <-.
        replace c with (Z.to_N ((Z.of_N c - 55) + 55)) at 1 by lia. apply HcUpper. lia.
      * intros H. discriminate H.
Qed.
Lemma underscore_no_digit : digit_in 16 95 = None.
Proof. reflexivity. Qed.
Definition value_from (acc : Z) (ds : list Z) : Z := fold_left (fun a d => a * 16 + d) ds acc.
Lemma based_iff s : forall acc z,
  (based 16 s true acc = Some z <-> exists ds, following s ds /\ z = value_from acc ds) /\
  (based 16 s false acc = Some z <-> exists ds, grouped s ds /\ z = value_from acc ds).
Proof.
  induction s as [|c s IH]; intros acc z.
  - cbn [based]. split.
    + split; [intros H; injection H as <-; exists []; split; [constructor|reflexivity]|]. intros (ds & F & ->). inversion F as [|? ? G|]; subst; [reflexivity|inversion G].
    + split; [discriminate|]. intros (ds & G & _). inversion G.
  - assert (Gr : forall prev, (exists d, digit_in 16 c = Some d) -> (based 16 (c :: s) prev acc = Some z <-> exists ds, grouped (c :: s) ds /\ z = value_from acc ds)).
    { intros prev [d D]. cbn [based]. rewrite D. rewrite (proj1 (IH (acc * 16 + d) z)). split.
      - intros (ds & F & ->). exists (d :: ds). split; [constructor; [now apply digit_hex|exact F]|reflexivity].
      - intros (ds & G & ->). inversion G as [? d' ? ds' Hc F]; subst. destruct (hex_digit c d' Hc) as [E _]. rewrite D in E. injection E as <-. exists ds'. split; [exact F|reflexivity]. }
    destruct (digit_in 16 c) as [d|] eqn:D.
    + split; [|apply Gr; now exists d]. rewrite (Gr true) by now exists d. split; intros (ds & G & E); exists ds; (split; [|exact E]); [now constructor|].
      inversion G as [|? ? G'|? ? G']; subst; [exact G'|]. rewrite underscore_no_digit in D. discriminate D.
    + assert (NG : forall ds, ~ grouped (c :: s) ds). { intros ds G. inversion G as [? d' ? ds' Hc F]; subst. destruct (hex_digit c d' Hc) as [E _]. rewrite D in E. discriminate E. }
      cbn [based]. rewrite D. rewrite Bool.andb_true_r, Bool.andb_false_r. split; [|split; [discriminate|intros (ds & G & _); destruct (NG ds G)]].
      destruct (N.eqb_spec c 95) as [->|Nc].
      * rewrite (proj2 (IH acc z)). split; intros (ds & G & E); exists ds; (split; [|exact E]); [now apply FollowUnderscore|]. inversion G as [|? ? G'|? ? G']; subst; [destruct (NG ds G')|exact G'].
      * split; [discriminate|]. intros (ds & G & _). inversion G as [|? ? G'|? ? G']; subst; [destruct (NG ds G')|contradiction].
Qed.
Lemma number_grouped s z : hd 0%N s <> 95%N -> (number (lit "0x" ++ s) = SVal (VInt z) <-> exists ds, grouped s ds /\ z = magnitude 16 ds).
Proof.
  intros Hs. replace (lit "0x" ++ s) with (48%N :: 120%N :: s) by reflexivity. replace (number (48%N :: 120%N :: s)) with (unsigned (48%N :: 120%N :: s)) by reflexivity.
  unfold unsigned. assert (E : parse_digits (48%N :: 120%N :: s) false 0 = None) by reflexivity. rewrite E. clear E.
  assert (Eb : base_of_letter 120%N = Some 16) by reflexivity. rewrite Eb. assert (E8 : N.eqb 48 48 = true) by reflexivity. rewrite E8.
  rewrite <- (proj2 (based_iff s 0 z)). destruct s as [|u s']; [|cbn [hd] in Hs; apply N.eqb_neq in Hs; rewrite Hs].
  - split; intros H; vm_compute in H; discriminate H.
  - destruct (based 16 (u :: s') false 0) as [z'|]; [split; intros H; injection H as ->; reflexivity|].
    split; [|intros H; discriminate H]. destruct (float_parts _) as [[c e]|]; [|intros H; discriminate H]. destruct (float_value c e). intros H; discriminate H.
Qed.
