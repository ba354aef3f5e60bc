(** Lemmas about booleans, binary and decimals. *)
From Verif Require Import PyStr PyStr_facts PyVal Base64 Restricted Spec_Types Range_proofs IntTypes
  Restricted_proofs StrTypes StrTypes_proofs.
From Coq Require Import Lia ZifyBool ZifyN ZifyNat QArith Qabs.
Local Open Scope Z_scope.

(* ---------------------------------------------------------------- base64 *)
Lemma b64_val_char n : (n < 64)%N -> b64_val (b64_char n) = Some n /\ b64_char n <> 61%N /\ (b64_char n < 128)%N.
Proof.
  intros H.
  assert (E : forallb (fun k => match b64_val (b64_char (N.of_nat k)) with
                                | Some m => (m =? N.of_nat k)%N | None => false end
                                && negb (b64_char (N.of_nat k) =? 61)%N && (b64_char (N.of_nat k) <? 128)%N)
                      (seq 0 64) = true) by reflexivity.
  rewrite forallb_forall in E. specialize (E (N.to_nat n)). rewrite N2Nat.id in E.
  assert (Hin : In (N.to_nat n) (seq 0 64)) by (apply in_seq; lia).
  specialize (E Hin). destruct (b64_val (b64_char n)) as [m|]; [|discriminate].
  split; [f_equal; lia|lia].
Qed.

Lemma loop_char n s q left pads : (n < 64)%N ->
  b64_loop (b64_char n :: s) q left pads =
  if N.eqb q 0 then b64_loop s 1 n 0
  else if N.eqb q 1 then r <- b64_loop s 2 (n mod 16) 0 ;; Ok ((left * 4 + n / 16)%N :: r)
  else if N.eqb q 2 then r <- b64_loop s 3 (n mod 4) 0 ;; Ok ((left * 16 + n / 4)%N :: r)
  else r <- b64_loop s 0 0 0 ;; Ok ((left * 64 + n)%N :: r).
Proof.
  intros H. destruct (b64_val_char n H) as (H1 & H2 & _). cbn [b64_loop].
  rewrite (proj2 (N.eqb_neq _ _) H2), H1. reflexivity.
Qed.

Lemma triple_ind {A} (P : list A -> Prop) :
  P [] -> (forall a, P [a]) -> (forall a b, P [a; b]) ->
  (forall a b c l, P l -> P (a :: b :: c :: l)) -> forall l, P l.
Proof.
  intros H0 H1 H2 H3. fix F 1. intros [|a [|b [|c l]]]; [apply H0|apply H1|apply H2|apply H3, F].
Qed.

Ltac Zify.zify_post_hook ::= Z.to_euclidean_division_equations.
Ltac nsolve := lia.

Lemma b64_roundtrip_loop l : Forall (fun b => (b < 256)%N) l -> b64_loop (b64encode l) 0 0 0 = Ok l.
Proof.
  induction l as [|a|a b|a b c l IH] using triple_ind; intros H.
  - reflexivity.
  - inversion H; subst. cbn [b64encode].
    rewrite loop_char by nsolve. cbn [N.eqb]. rewrite loop_char by nsolve.
    cbn -[N.mul N.div N.modulo]. repeat f_equal. nsolve.
  - inversion H as [|? ? ? H']; inversion H'; subst. cbn [b64encode].
    rewrite loop_char by nsolve. cbn [N.eqb]. rewrite loop_char by nsolve. cbn [N.eqb Pos.eqb].
    rewrite loop_char by nsolve.
    cbn -[N.mul N.div N.modulo]. repeat f_equal; nsolve.
  - inversion H as [|? ? ? H']; inversion H' as [|? ? ? H'']; inversion H''; subst. cbn [b64encode].
    rewrite loop_char by nsolve. cbn [N.eqb]. rewrite loop_char by nsolve. cbn [N.eqb Pos.eqb].
    rewrite loop_char by nsolve. cbn [N.eqb Pos.eqb]. rewrite loop_char by nsolve. cbn [N.eqb Pos.eqb].
    rewrite IH by assumption. cbn [bind]. repeat f_equal; nsolve.
Qed.

Lemma b64encode_ascii l : Forall (fun b => (b < 256)%N) l -> forallb (fun c => N.ltb c 128) (b64encode l) = true.
Proof.
  assert (Hc : forall n, (n < 64)%N -> (b64_char n <? 128)%N = true).
  { intros n Hn. destruct (b64_val_char n Hn) as (_ & _ & H). lia. }
  induction l as [|a|a b|a b c l IH] using triple_ind; intros H; cbn [b64encode forallb]; [reflexivity| | |].
  - inversion H; subst. rewrite !Hc by nsolve. reflexivity.
  - inversion H as [|? ? ? H']; inversion H'; subst. rewrite !Hc by nsolve. reflexivity.
  - inversion H as [|? ? ? H']; inversion H' as [|? ? ? H'']; inversion H''; subst.
    rewrite !Hc by nsolve. now rewrite IH by assumption.
Qed.

Lemma b64_roundtrip l : Forall (fun b => (b < 256)%N) l -> b64decode (b64encode l) = Ok l.
Proof. intros H. unfold b64decode. rewrite b64encode_ascii by assumption. now apply b64_roundtrip_loop. Qed.

Lemma b64encode_length l : length (b64encode l) = (4 * ((length l + 2) / 3))%nat.
Proof.
  induction l as [|a|a b|a b c l IH] using triple_ind; try reflexivity.
  cbn [b64encode length]. rewrite IH. cbn [Nat.add].
  replace (S (S (S (length l + 2))))%nat with (length l + 2 + 1 * 3)%nat by lia.
  rewrite Nat.div_add by lia. lia.
Qed.

Ltac Zify.zify_post_hook ::= idtac.

Section S.
Context (O : oracle).

Lemma binary_assign_text l : Forall (fun b => (b < 256)%N) l ->
  leaf_assign O (LOne TBinary) (VStr (b64encode l)) = {| d_notified := true; d_out := Ok (VBytes l) |}.
Proof.
  intros H. unfold leaf_assign. cbn [dyn_ltype]. unfold dyn_leaf. cbn [ty_new yang_binary].
  rewrite b64_roundtrip by assumption. reflexivity.
Qed.

Lemma build_len callb ps val :
  build O callb [RLength (map show_part ps)] val = Ok ([length_test (map part_tuple ps)], val).
Proof.
  cbn [build]. rewrite range_tuples_show; [reflexivity|].
  apply Forall_forall; intros p _. apply Forall_forall; intros b _. apply conv_len_print.
Qed.

Lemma length_test_ok ps v n : Forall small_single ps -> py_len v = Ok n ->
  length_test (map part_tuple ps) v = Ok (in_partsb n ps).
Proof. intros H Hn. unfold length_test. rewrite Hn. cbn [bind]. now apply check_tuples_parts. Qed.

Lemma bin_assign ps v n b : Forall small_single ps -> py_len v = Ok n -> yang_binary v = Ok (VBytes b) ->
  leaf_assign O (LOne (bin_len ps)) v =
  {| d_notified := in_partsb n ps;
     d_out := if in_partsb n ps && in_partsb (Z.of_nat (length b)) ps then Ok (VBytes b) else Raise ValueError |}.
Proof.
  intros Hs Hn Hb. unfold leaf_assign, bin_len. cbn [dyn_ltype]. unfold dyn_leaf.
  rewrite ty_new_restr, build_len. cbn [bind fst snd any_pass].
  assert (Hf : is_False v = false) by (destruct v as [|[]| | | | | | | |]; cbn in *; congruence).
  rewrite Hf. rewrite (length_test_ok ps v n) by assumption. cbn [bind].
  destruct (in_partsb n ps) eqn:E; [|reflexivity].
  cbn [bind andb ty_new]. rewrite Hb.
  rewrite ty_init_restr. unfold ty_call. cbn [ty_new]. rewrite Hb. cbn [ty_init bind].
  rewrite ty_tests_restr. cbn [is_restr]. rewrite build_len. cbn [bind fst all_pass].
  rewrite (length_test_ok ps (VBytes b) _) by (assumption || reflexivity).
  cbn [bind d_notified d_out].
  destruct (in_partsb (Z.of_nat (length b)) ps); reflexivity.
Qed.

(* ---------------------------------------------------------------- bool *)
Lemma py_in_app v l m : py_in v (l ++ m) = orb (py_in v l) (py_in v m).
Proof. unfold py_in. apply existsb_app. Qed.

Lemma py_eq_num v q : num_of v = Some q ->
  (forall b, py_eq v (VBool b) = Qeq_bool q (if b then 1 else 0)) /\
  (forall z, py_eq v (VInt z) = Qeq_bool q (z # 1)) /\ (forall s, py_eq v (VStr s) = false).
Proof. destruct v; cbn; intros H; try discriminate; injection H as <-; repeat split; intros; reflexivity. Qed.

Definition bool_meaning (v : pyval) : option bool :=
  match v with
  | VStr s => if str_in s [lit "false"; lit "False"; lit "0"] then Some false
              else if str_in s [lit "true"; lit "True"; lit "1"] then Some true else None
  | _ => match num_of v with
         | Some q => if Qeq_bool q 0 then Some false else if Qeq_bool q 1 then Some true else None
         | None => None
         end
  end.

Lemma yang_bool_meaning v :
  yang_bool v = match bool_meaning v with Some b => Ok (VBool b) | None => Raise ValueError end.
Proof.
  unfold yang_bool. rewrite py_in_app.
  destruct (num_of v) as [q|] eqn:Hq.
  - destruct (py_eq_num v q Hq) as (Hb & Hz & Hs).
    assert (Hf : py_in v bool_false_args = Qeq_bool q 0).
    { unfold py_in, bool_false_args. cbn [existsb]. rewrite !Hs, Hb, Hz. cbn. now destruct (Qeq_bool q 0). }
    assert (Ht : py_in v bool_true_args = Qeq_bool q 1).
    { unfold py_in, bool_true_args. cbn [existsb]. rewrite !Hs, Hb, Hz. cbn. now destruct (Qeq_bool q 1). }
    rewrite Hf, Ht.
    assert (Hm : bool_meaning v = if Qeq_bool q 0 then Some false else if Qeq_bool q 1 then Some true else None).
    { unfold bool_meaning. destruct v; cbn in Hq |- *; try discriminate; injection Hq as <-; reflexivity. }
    rewrite Hm. destruct (Qeq_bool q 0); [reflexivity|]. destruct (Qeq_bool q 1); reflexivity.
  - destruct v; cbn in Hq; try discriminate; try reflexivity.
    unfold bool_meaning, py_in, bool_false_args, bool_true_args. cbn [existsb py_eq num_of].
    rewrite !orb_false_r, !orb_false_l. unfold str_in. cbn [existsb].
    destruct (str_eqb s (lit "false")), (str_eqb s (lit "False")), (str_eqb s (lit "0")); try reflexivity.
    destruct (str_eqb s (lit "true")), (str_eqb s (lit "True")), (str_eqb s (lit "1")); reflexivity.
Qed.

Lemma bool_assign v :
  leaf_assign O (LOne TBool) v =
  match bool_meaning v with
  | Some b => {| d_notified := true; d_out := Ok (VBool b) |}
  | None => {| d_notified := false; d_out := Raise ValueError |}
  end.
Proof.
  unfold leaf_assign. cbn [dyn_ltype]. unfold dyn_leaf. cbn [ty_new]. rewrite yang_bool_meaning.
  destruct (bool_meaning v); reflexivity.
Qed.

(* ---------------------------------------------------------------- decimal *)
Lemma div_half_even_spec n d : 0 < d ->
  2 * Z.abs (div_half_even n d * d - n) <= d /\
  (2 * Z.abs (div_half_even n d * d - n) = d -> Z.even (div_half_even n d) = true).
Proof.
  intros Hd. unfold div_half_even.
  pose proof (Z.div_mod n d ltac:(lia)) as E. pose proof (Z.mod_pos_bound n d Hd) as B.
  set (q := n / d) in *. set (r := n mod d) in *.
  destruct (Z.ltb_spec (2 * r) d).
  - split; [nia|]. intros H'. nia.
  - destruct (Z.ltb_spec d (2 * r)).
    + split; [nia|]. intros H'. nia.
    + destruct (Z.even q) eqn:Ev.
      * split; [nia|auto].
      * split; [nia|]. intros _. rewrite Z.even_add, Ev. reflexivity.
Qed.

Lemma div_half_even_exact q d : 0 < d -> div_half_even (q * d) d = q.
Proof.
  intros Hd. unfold div_half_even. rewrite Z.div_mul, Z.mod_mul by lia.
  destruct (Z.ltb_spec (2 * 0) d); [reflexivity|lia].
Qed.

(** The value of a decimal is c*10^e; scaled by 10^n * 10^k with k large enough to be integral. *)
Definition coef c e n := if - n <=? e then c * 10 ^ (e + n) else div_half_even c (10 ^ (- n - e)).

Lemma coef_near c e n k : 0 <= k -> 0 <= e + n + k ->
    2 * Z.abs (coef c e n * 10 ^ k - c * 10 ^ (e + n + k)) <= 10 ^ k /\
    (2 * Z.abs (coef c e n * 10 ^ k - c * 10 ^ (e + n + k)) = 10 ^ k -> Z.even (coef c e n) = true).
Proof.
  unfold coef. intros Hk Hk2. destruct (Z.leb_spec (- n) e) as [Hle|Hlt].
  - replace (c * 10 ^ (e + n) * 10 ^ k) with (c * 10 ^ (e + n + k)) by (rewrite Z.pow_add_r by lia; ring).
    pose proof (Z.pow_pos_nonneg 10 k ltac:(lia) Hk). rewrite Z.sub_diag. cbn [Z.abs]. split; lia.
  - set (j := - n - e) in *.
    pose proof (Z.pow_pos_nonneg 10 j ltac:(lia) ltac:(lia)) as Hj.
    destruct (div_half_even_spec c (10 ^ j) Hj) as [H1 H2]. set (q := div_half_even c (10 ^ j)) in *.
    assert (Ek : k = j + (e + n + k)) by (unfold j; lia).
    set (i := e + n + k) in *. pose proof (Z.pow_pos_nonneg 10 i ltac:(lia) ltac:(lia)) as Hi.
    rewrite Ek, Z.pow_add_r by lia.
    replace (q * (10 ^ j * 10 ^ i) - c * 10 ^ i) with ((q * 10 ^ j - c) * 10 ^ i) by ring.
    rewrite Z.abs_mul, (Z.abs_eq (10 ^ i)) by lia. split; [nia|]. intros E. apply H2. nia.
Qed.

Lemma quantize_coef c e n :
  quantize c e n = if 28 <? Z.of_nat (ndigits (coef c e n)) then Raise InvalidOperation else Ok (coef c e n, - n).
Proof. reflexivity. Qed.

Lemma quantize_near c e n q m : quantize c e n = Ok (q, m) ->
  m = - n /\ forall k, 0 <= k -> 0 <= e + n + k ->
    2 * Z.abs (q * 10 ^ k - c * 10 ^ (e + n + k)) <= 10 ^ k /\
    (2 * Z.abs (q * 10 ^ k - c * 10 ^ (e + n + k)) = 10 ^ k -> Z.even q = true).
Proof.
  rewrite quantize_coef. destruct (28 <? _); [discriminate|]. intros H. injection H as <- <-.
  split; [reflexivity|]. intros; now apply coef_near.
Qed.

Lemma quantize_defined c e n : 
  (exists q, quantize c e n = Ok (q, - n)) \/ quantize c e n = Raise InvalidOperation.
Proof. unfold quantize. destruct (28 <? _); [now right|left; eauto]. Qed.

Lemma quantize_idem c e n q m : quantize c e n = Ok (q, m) -> quantize q m n = Ok (q, m).
Proof.
  unfold quantize at 1. destruct (28 <? _) eqn:E; [discriminate|]. intros H. injection H as <- <-.
  unfold quantize. rewrite Z.leb_refl. rewrite Z.add_opp_diag_l, Z.pow_0_r, Z.mul_1_r. now rewrite E.
Qed.

Lemma decprec_assign n v c e : py_decimal v = Ok (c, e) ->
  leaf_assign O (LOne (TDecPrec n)) v =
  match quantize c e n with
  | Ok (q, m) => {| d_notified := true; d_out := Ok (VDec q m) |}
  | Raise _ => {| d_notified := false; d_out := Raise InvalidOperation |}
  end.
Proof.
  intros H. unfold leaf_assign. cbn [dyn_ltype]. unfold dyn_leaf. cbn [ty_new]. unfold yang_decprec.
  rewrite H. cbn [bind fst snd]. destruct (quantize_defined c e n) as [[q ->]| ->]; reflexivity.
Qed.

(** The number of digits of a number below 10^k. *)
Lemma ndigits_le c k : (0 < k)%nat -> Z.abs c < 10 ^ Z.of_nat k -> (ndigits c <= k)%nat.
Proof.
  intros Hk Hc. unfold ndigits. destruct (print_N_spec (Z.to_N (Z.abs c))) as (Hne & Hd & Hv & Hl).
  set (s := print_N (Z.to_N (Z.abs c))) in *. rewrite Z2N.id in Hv by lia.
  destruct (Z.eq_dec c 0) as [->|Hc0]; [cbn in s; subst s; cbn; lia|].
  destruct Hl as (x & s' & Es & Hx); [lia|]. rewrite Es in *. cbn [length].
  inversion Hd as [|? ? Hdx Hd']; subst. cbn [dval] in Hv. rewrite dval_acc in Hv.
  assert (Hge : 10 ^ Z.of_nat (length s') <= Z.abs c).
  { assert (B : 0 <= dval s' 0).
    { clear -Hd'. assert (G : forall s acc, Forall digitN s -> 0 <= acc -> 0 <= dval s acc).
      { induction s as [|y s IH]; intros acc H Ha; [exact Ha|]. inversion H; subst. cbn. apply IH; [assumption|].
        unfold digit_val, digitN in *. lia. }
      apply G; [assumption|lia]. }
    unfold digit_val, digitN in *. pose proof (Z.pow_pos_nonneg 10 (Z.of_nat (length s')) ltac:(lia) ltac:(lia)). nia. }
  destruct (le_lt_dec (S (length s')) k) as [|Hlt]; [assumption|].
  assert (10 ^ Z.of_nat k <= 10 ^ Z.of_nat (length s')) by (apply Z.pow_le_mono_r; lia). lia.
Qed.

Lemma quantize_in_range c e n k : 0 <= k -> 0 <= e + n + k ->
  Z.abs (c * 10 ^ (e + n + k)) <= 2 ^ 63 * 10 ^ k -> exists q, quantize c e n = Ok (q, - n).
Proof.
  intros Hk Hk2 Hr. rewrite quantize_coef. destruct (coef_near c e n k Hk Hk2) as [H _].
  set (q := coef c e n) in *. pose proof (Z.pow_pos_nonneg 10 k ltac:(lia) Hk) as Hp.
  assert (Hq : Z.abs q <= 2 ^ 63).
  { set (X := c * 10 ^ (e + n + k)) in *. set (P := 10 ^ k) in *.
    assert (2 * Z.abs (q * P) <= 2 * (2 ^ 63 * P) + P) by lia.
    rewrite Z.abs_mul, (Z.abs_eq P) in H0 by lia. nia. }
  assert (Hd : (ndigits q <= 28)%nat).
  { apply ndigits_le; [lia|]. assert (2 ^ 63 < 10 ^ Z.of_nat 28) by reflexivity. lia. }
  destruct (Z.ltb_spec 28 (Z.of_nat (ndigits q))); [lia|eauto].
Qed.

Lemma quantize_exact c e n q m w k : quantize c e n = Ok (q, m) -> 0 <= k -> 0 <= e + n + k ->
  w * 10 ^ k = c * 10 ^ (e + n + k) -> q = w.
Proof.
  intros H Hk Hk2 E. destruct (quantize_near c e n q m H) as [_ Hn]. destruct (Hn k Hk Hk2) as [Hn' _].
  rewrite <- E in Hn'. pose proof (Z.pow_pos_nonneg 10 k ltac:(lia) Hk).
  replace (q * 10 ^ k - w * 10 ^ k) with ((q - w) * 10 ^ k) in Hn' by ring.
  rewrite Z.abs_mul, (Z.abs_eq (10 ^ k)) in Hn' by lia. nia.
Qed.
End S.
