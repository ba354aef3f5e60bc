(** Decimals written as JSON numbers: Decimal -> float -> Decimal. *)
From Coq Require Import Lia ZArith.
From Verif Require Import PyStr PyVal Restricted Scalars_proofs.
Local Open Scope Z_scope.

(** What [round53_pos] returns for 0 < n, 0 < d, scaled to integers: a mantissa of at least 52 bits
    within half a unit. *)
Lemma round53_pos_near n d m e : 0 < n -> 0 < d -> round53_pos n d = (m, e) -> e < 0 ->
  2 ^ 52 * d <= n * 2 ^ (- e) /\ 2 * Z.abs (m * d - n * 2 ^ (- e)) <= d.
Proof.
  intros Hn Hd H He. unfold round53_pos in H. injection H as Hm Hk.
  set (k := Z.log2 n - Z.log2 d - 52) in *.
  set (k' := if (if 0 <=? k then 2 ^ 52 * (d * 2 ^ k) <=? n else 2 ^ 52 * d <=? n * 2 ^ (- k)) then k else k - 1) in *.
  rewrite Hk in Hm. destruct (Z.leb_spec 0 e); [lia|]. subst m. split.
  - unfold k' in Hk. destruct (if 0 <=? k then _ else _) eqn:E.
    + subst e. destruct (Z.leb_spec 0 k); [lia|]. now apply Z.leb_le in E.
    + (* from the logarithms *)
      pose proof (Z.log2_spec n Hn) as [Hn1 _]. pose proof (Z.log2_spec d Hd) as [_ Hd2].
      assert (E2 : Z.log2 d + 1 + 52 = Z.log2 n + (- e)) by lia.
      pose proof (Z.log2_nonneg n). pose proof (Z.log2_nonneg d).
      assert (E3 : 2 ^ (Z.succ (Z.log2 d)) * 2 ^ 52 = 2 ^ Z.log2 n * 2 ^ (- e)).
      { rewrite <- !Z.pow_add_r by lia. f_equal. lia. }
      pose proof (Z.pow_pos_nonneg 2 (- e) ltac:(lia) ltac:(lia)).
      pose proof (Z.pow_pos_nonneg 2 52 ltac:(lia) ltac:(lia)). nia.
  - apply div_half_even_spec. assumption.
Qed.

Lemma round53_pos_neg n d m e : 0 < n < 2 ^ 52 -> 0 < d -> round53_pos n d = (m, e) -> e < 0.
Proof.
  intros [Hn Hn2] Hd H. unfold round53_pos in H. injection H as _ Hk.
  assert (Z.log2 n < 52) by (apply Z.log2_lt_pow2; lia).
  pose proof (Z.log2_nonneg d). destruct (if 0 <=? _ then _ else _); lia.
Qed.

Lemma dec_coef_pos n q m e : 0 <= n -> 0 < q < 2 ^ 52 -> round53_pos q (10 ^ n) = (m, e) ->
  e < 0 /\ 2 * Z.abs (q * 10 ^ (- e) - m * 5 ^ (- e) * 10 ^ n) < 10 ^ (- e).
Proof.
  intros Hn Hq H.
  pose proof (Z.pow_pos_nonneg 10 n ltac:(lia) Hn) as HD.
  pose proof (round53_pos_neg _ _ _ _ Hq HD H) as He. split; [assumption|].
  destruct (round53_pos_near q (10 ^ n) m e ltac:(lia) HD H He) as [H1 H2].
  set (D := 10 ^ n) in *. replace (10 ^ (- e)) with (2 ^ (- e) * 5 ^ (- e)) by (rewrite <- Z.pow_mul_l; reflexivity).
  pose proof (Z.pow_pos_nonneg 2 (- e) ltac:(lia) ltac:(lia)) as HP2.
  pose proof (Z.pow_pos_nonneg 5 (- e) ltac:(lia) ltac:(lia)) as HP5.
  set (P2 := 2 ^ (- e)) in *. set (P5 := 5 ^ (- e)) in *.
  replace (q * (P2 * P5) - m * P5 * D) with ((q * P2 - m * D) * P5) by ring.
  rewrite Z.abs_mul, (Z.abs_eq P5) by lia.
  assert (D < P2) by nia.
  assert (2 * Z.abs (q * P2 - m * D) < P2) by lia. nia.
Qed.

(** The number written for a decimal with at most 52 bits reads back as it. *)
Theorem dec_via_float n q : 0 <= n -> Z.abs q < 2 ^ 52 ->
  exists m e c x, py_float (VDec q (- n)) = Ok (m, e) /\ py_decimal (VFloat m e) = Ok (c, x) /\ quantize c x n = Ok (q, - n).
Proof.
  intros Hn Hq.
  assert (Hf : py_float (VDec q (- n)) = Ok (round53 q (10 ^ n))).
  { unfold py_float. destruct (Z.leb_spec 0 (- n)) as [Hz|Hz].
    - replace n with 0 by lia. cbn [Z.opp]. now rewrite Z.pow_0_r, Z.mul_1_r.
    - now rewrite Z.opp_involutive. }
  assert (Core : forall m e, e < 0 -> 2 * Z.abs (q * 10 ^ (- e) - m * 5 ^ (- e) * 10 ^ n) < 10 ^ (- e) ->
            exists c x, py_decimal (VFloat m e) = Ok (c, x) /\ quantize c x n = Ok (q, - n)).
  { intros m e He Hm. exists (m * 5 ^ (- e)), e. split.
    { unfold py_decimal. destruct (Z.leb_spec 0 e); [lia|reflexivity]. }
    pose proof (Z.pow_pos_nonneg 10 (- e) ltac:(lia) ltac:(lia)) as HP.
    assert (Hk : 0 <= - e) by lia. assert (Hk2 : 0 <= e + n + - e) by lia.
    destruct (quantize_in_range (m * 5 ^ (- e)) e n (- e) Hk Hk2) as [q' Hq'].
    { replace (e + n + - e) with n by lia.
      set (X := m * 5 ^ (- e) * 10 ^ n) in *. set (P := 10 ^ (- e)) in *.
      assert (Z.abs (q * P) = Z.abs q * P) by (rewrite Z.abs_mul, (Z.abs_eq P) by lia; reflexivity).
      assert (Z.abs q * P <= 2 ^ 52 * P) by nia.
      assert (2 ^ 52 * P + P <= 2 ^ 63 * P) by nia. lia. }
    rewrite Hq'. destruct (quantize_near _ _ _ _ _ Hq') as [_ Hnear]. destruct (Hnear (- e) Hk Hk2) as [H1 _].
    replace (e + n + - e) with n in H1 by lia.
    set (X := m * 5 ^ (- e) * 10 ^ n) in *. set (P := 10 ^ (- e)) in *.
    assert (Hd : 2 * Z.abs ((q' - q) * P) < 2 * P) by (replace ((q' - q) * P) with ((q' * P - X) - (q * P - X)) by ring; lia).
    rewrite Z.abs_mul, (Z.abs_eq P) in Hd by lia.
    assert (q' = q) by nia. congruence. }
  rewrite Hf. unfold round53. destruct (Z.eqb_spec q 0) as [->|Hq0].
  { exists 0, 0, 0, 0. split; [reflexivity|]. split; [reflexivity|]. rewrite quantize_coef.
    unfold coef. destruct (Z.leb_spec (- n) 0); [|lia]. rewrite Z.mul_0_l. reflexivity. }
  destruct (Z.ltb_spec 0 q) as [Hp|Hp].
  - destruct (round53_pos q (10 ^ n)) as [m e] eqn:E.
    assert (Hq2 : 0 < q < 2 ^ 52) by lia.
    destruct (dec_coef_pos n q m e Hn Hq2 E) as [He Hm].
    destruct (Core m e He Hm) as (c & x & H1 & H2). exists m, e, c, x. auto.
  - destruct (round53_pos (- q) (10 ^ n)) as [m e] eqn:E.
    assert (Hq2 : 0 < - q < 2 ^ 52) by lia.
    destruct (dec_coef_pos n (- q) m e Hn Hq2 E) as [He Hm].
    destruct (Core (- m) e He) as (c & x & H1 & H2); [|exists (- m), e, c, x; auto].
    set (P := 10 ^ (- e)) in *. set (F := 5 ^ (- e)) in *. set (D := 10 ^ n) in *.
    replace (q * P - - m * F * D) with (- (- q * P - m * F * D)) by ring.
    now rewrite Z.abs_opp.
Qed.
