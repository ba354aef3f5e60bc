(** Single numbers in ranges. *)
From Verif Require Import PyStr PyStr_facts PyVal Base64 Restricted Spec_Types Range_proofs IntTypes
  Restricted_proofs StrTypes StrTypes_proofs Scalars_proofs Ints_proofs Types_main Spec_SingleValues.
From Coq Require Import Lia ZifyBool QArith.
Local Open Scope Z_scope.

Lemma small_double n : Z.abs n <= 2 ^ 53 -> nearest_double n n.
Proof.
  intros H. split.
  - destruct (Z.eq_dec (Z.abs n) (2 ^ 53)) as [E|E]; [|exists n, 0; split; [lia|]; split; lia].
    exists (n / 2), 1. split; [lia|]. assert (n = n / 2 * 2). { assert (n = 2 ^ 53 \/ n = - 2 ^ 53) as [-> | ->] by lia; reflexivity. }
    split; [|change (2 ^ 1) with 2; assumption]. lia.
  - intros g Hg. split; [lia|]. intros Hne E. lia.
Qed.
Lemma opp_double n f : nearest_double n f -> nearest_double (- n) (- f).
Proof.
  assert (D : forall x, double_int x -> double_int (- x)).
  { intros x (m & e & He & Hm & ->). exists (- m), e. split; [exact He|]. split; lia. }
  intros [Hf H]. split; [now apply D|]. intros g Hg. destruct (H (- g) (D g Hg)) as [H1 H2]. split; [lia|]. intros Hne E.
  destruct H2 as (m & e & He & Ef & Hm & Hev); [lia|lia|]. exists (- m), e. split; [exact He|]. split; [lia|]. split; [lia|]. now rewrite Z.even_opp.
Qed.

Lemma big_double n : 2 ^ 53 < n -> exists m e, round53_pos n 1 = (m, e) /\ 0 <= e /\ nearest_double n (m * 2 ^ e).
Proof.
  intros Hn. assert (Hl := Z.log2_spec n ltac:(lia)). assert (H53 : 53 <= Z.log2 n) by (apply Z.log2_le_pow2; lia).
  unfold round53_pos. change (Z.log2 1) with 0. rewrite Z.sub_0_r. set (k := Z.log2 n - 52). assert (Hk : 1 <= k) by (unfold k; lia).
  assert (Ek : 2 ^ Z.log2 n = 2 ^ 52 * 2 ^ k) by (rewrite <- Z.pow_add_r by lia; f_equal; unfold k; lia).
  assert (Ek' : 2 ^ Z.succ (Z.log2 n) = 2 ^ 53 * 2 ^ k) by (rewrite <- Z.pow_add_r by lia; f_equal; unfold k; lia).
  destruct (Z.leb_spec 0 k) as [_|K]; [|lia]. rewrite Z.mul_1_l. destruct (Z.leb_spec (2 ^ 52 * 2 ^ k) n) as [_|K]; [|lia].
  destruct (Z.leb_spec 0 k) as [_|K]; [|lia]. rewrite ?Z.mul_1_l. set (d := 2 ^ k) in *. assert (Hd : 2 <= d) by (unfold d; apply (Z.pow_le_mono_r 2 1 k); lia).
  set (m := div_half_even n d). destruct (div_half_even_spec n d ltac:(lia)) as [Hr Hev]. fold m in Hr, Hev.
  exists m, k. split; [reflexivity|]. split; [lia|]. fold d.
  assert (Hm : 2 ^ 52 <= m <= 2 ^ 53). { clearbody m. nia. }
  assert (Hmul : forall j, j <> m -> d <= 2 * Z.abs (n - j * d)). { clearbody m. clear -Hr Hd. intros j Hj. assert (d <= Z.abs (j * d - m * d)) by nia. lia. }
  assert (Hbase : Z.abs (n - m * d) <= n - 2 ^ 52 * d). { destruct (Z.eq_dec (2 ^ 52) m) as [E|E]; [rewrite <- E in *; lia|]. specialize (Hmul (2 ^ 52) E). lia. }
  assert (Hg : forall g, double_int g -> (exists j, g = j * d) \/ g < 2 ^ 52 * d).
  { intros g (a & e & He & Ha & ->). destruct (Z.le_gt_cases k e) as [L|L].
    - left. exists (a * 2 ^ (e - k)). unfold d. rewrite <- Z.mul_assoc, <- Z.pow_add_r by lia. do 2 f_equal. lia.
    - right. assert (2 ^ e <= 2 ^ (k - 1)) by (apply Z.pow_le_mono_r; lia). assert (E : d = 2 * 2 ^ (k - 1)) by (unfold d; rewrite <- Z.pow_succ_r by lia; f_equal; lia).
      assert (0 < 2 ^ e) by (apply Z.pow_pos_nonneg; lia). rewrite E. replace (2 ^ 52 * (2 * 2 ^ (k - 1))) with (2 ^ 53 * 2 ^ (k - 1)) by lia. nia. }
  split.
  - destruct (Z.eq_dec m (2 ^ 53)) as [E|E].
    + exists (2 ^ 52), (k + 1). split; [lia|]. split; [lia|]. rewrite E. unfold d. rewrite Z.pow_add_r by lia. lia.
    + exists m, k. split; [lia|]. split; [lia|reflexivity].
  - intros g Hd'. destruct (Hg g Hd') as [[j ->]|L].
    + destruct (Z.eq_dec j m) as [->|Hj]; [split; [lia|intros []; reflexivity]|]. specialize (Hmul j Hj). split; [lia|]. intros _ E.
      exists m, k. split; [lia|]. split; [reflexivity|]. split; [lia|]. apply Hev. lia.
    + assert (Z.abs (n - m * d) < Z.abs (n - g)) by lia. split; [lia|]. intros _ E. lia.
Qed.

Lemma float_int n : exists f, nearest_double n f /\ forall z, neq_float (VInt z) (VInt n) = Ok (negb (z =? f)).
Proof.
  destruct (Z.le_gt_cases (Z.abs n) (2 ^ 53)) as [H|H].
  - exists n. split; [now apply small_double|]. intros z. now apply neq_float_int.
  - assert (S : forall m e, 0 <= e -> (scaled 2 m e == inject_Z (m * 2 ^ e))%Q).
    { intros m e He. unfold scaled. destruct (Z.leb_spec 0 e); [reflexivity|lia]. }
    destruct (Z.ltb_spec 0 n) as [P|P].
    + destruct (big_double n ltac:(lia)) as (m & e & E & He & Hn). exists (m * 2 ^ e). split; [exact Hn|]. intros z. unfold neq_float. cbn [py_float bind].
      unfold round53. destruct (Z.eqb_spec n 0); [lia|]. destruct (Z.ltb_spec 0 n); [|lia]. rewrite E. cbn [fst snd]. f_equal. f_equal. apply scaled_int_eq. now apply S.
    + destruct (big_double (- n) ltac:(lia)) as (m & e & E & He & Hn). exists (- m * 2 ^ e). split.
      { apply opp_double in Hn. rewrite Z.opp_involutive in Hn. now rewrite Z.mul_opp_l. }
      intros z. unfold neq_float. cbn [py_float bind].
      unfold round53. destruct (Z.eqb_spec n 0); [lia|]. destruct (Z.ltb_spec 0 n); [lia|]. rewrite E. cbn [fst snd]. f_equal. f_equal. apply scaled_int_eq. now apply S.
Qed.

Lemma even_norm f : 0 < f -> (exists m e, 0 <= e /\ f = m * 2 ^ e /\ 2 ^ 52 <= Z.abs m <= 2 ^ 53 /\ Z.even m = true) ->
  exists m e, 0 <= e /\ f = m * 2 ^ e /\ 2 ^ 52 <= m < 2 ^ 53 /\ Z.even m = true.
Proof.
  intros Hf (m & e & He & E & Hm & Hev). assert (Hp : 0 < 2 ^ e) by (apply Z.pow_pos_nonneg; lia). assert (0 < m) by nia.
  destruct (Z.eq_dec m (2 ^ 53)) as [Em|Em]; [|exists m, e; split; [exact He|]; split; [exact E|]; split; [lia|exact Hev]].
  exists (2 ^ 52), (e + 1). split; [lia|]. split; [rewrite E, Em, Z.pow_add_r by lia; lia|]. split; [lia|reflexivity].
Qed.
Lemma no_tie n f f' : 0 < f -> f < f' -> nearest_double n f -> nearest_double n f' -> False.
Proof.
  intros Hf Hlt [D H] [D' H']. destruct (H f' D') as [L T]. destruct (H' f D) as [L' T'].
  destruct (even_norm f Hf (T ltac:(lia) ltac:(lia))) as (a & e & He & Ef & Ha & Va).
  destruct (even_norm f' ltac:(lia) (T' ltac:(lia) ltac:(lia))) as (b & e' & He' & Ef' & Hb & Vb).
  assert (P : 0 < 2 ^ e) by (apply Z.pow_pos_nonneg; lia). assert (P' : 0 < 2 ^ e') by (apply Z.pow_pos_nonneg; lia).
  assert (Le : e <= e'). { destruct (Z.le_gt_cases e e') as [X|X]; [exact X|]. assert (2 ^ (e' + 1) <= 2 ^ e) by (apply Z.pow_le_mono_r; lia). rewrite Z.pow_add_r in H0 by lia. nia. }
  assert (Ep : 2 ^ e' = 2 ^ (e' - e) * 2 ^ e) by (rewrite <- Z.pow_add_r by lia; f_equal; lia).
  assert (Odd : a + 1 < 2 ^ 53). { destruct (Z.eq_dec (a + 1) (2 ^ 53)) as [X|X]; [|lia]. assert (a = 2 ^ 53 - 1) by lia. subst a. discriminate. }
  assert (G : double_int ((a + 1) * 2 ^ e)) by (exists (a + 1), e; split; [lia|]; split; [lia|reflexivity]).
  destruct (H _ G) as [Lg _]. assert (Hge : f' <= f + 2 ^ e) by lia.
  assert (Eb : b * 2 ^ (e' - e) = a + 1). { rewrite Ep in Ef'. set (q := 2 ^ (e' - e)) in *. assert (b * q * 2 ^ e <= (a + 1) * 2 ^ e) by lia. assert (a * 2 ^ e < b * q * 2 ^ e) by lia. nia. }
  apply (f_equal Z.even) in Eb. rewrite Z.even_mul, Vb in Eb. cbn [orb] in Eb. rewrite Z.add_1_r, Z.even_succ, <- Z.negb_even, Va in Eb. discriminate.
Qed.
Lemma nearest_unique n f f' : nearest_double n f -> nearest_double n f' -> f = f'.
Proof.
  assert (Z0 : double_int 0) by (exists 0, 0; split; [lia|]; split; [lia|reflexivity]).
  assert (W : forall n f f', f < f' -> nearest_double n f -> nearest_double n f' -> False).
  { clear n f f'. intros n f f' Hlt H H'. destruct (Z.lt_ge_cases 0 f) as [P|P]; [exact (no_tie n f f' P Hlt H H')|].
    destruct (Z.lt_ge_cases f' 0) as [Q|Q]; [exact (no_tie (- n) (- f') (- f) ltac:(lia) ltac:(lia) (opp_double _ _ H') (opp_double _ _ H))|].
    destruct H as [D H], H' as [D' H']. destruct (H f' D') as [L T]. destruct (H' f D) as [L' T']. destruct (H 0 Z0) as [L0 _]. destruct (H' 0 Z0) as [L0' _].
    assert (E : Z.abs (n - f) = Z.abs (n - f')) by lia. destruct (Z.eq_dec f 0) as [->|Nf].
    - destruct (T ltac:(lia) E) as (m & e & He & Ef & Hm & _). assert (0 < 2 ^ e) by (apply Z.pow_pos_nonneg; lia). nia.
    - destruct (Z.eq_dec f' 0) as [->|Nf']; [|lia]. destruct (T' ltac:(lia) ltac:(lia)) as (m & e & He & Ef & Hm & _). assert (0 < 2 ^ e) by (apply Z.pow_pos_nonneg; lia). nia. }
  intros H H'. destruct (Z.lt_trichotomy f f') as [X|[X|X]]; [destruct (W n f f' X H H')|exact X|destruct (W n f' f X H' H)].
Qed.

Lemma rounded_tuples ps : exists ps', Forall2 rounded ps ps' /\ forall z, check_tuples (VInt z) (map part_tuple ps) = Ok (in_partsb z ps').
Proof.
  induction ps as [|p ps (ps' & H & E)]; [exists []; split; [constructor|reflexivity]|].
  destruct p as [lo hi a b|n].
  - exists (Between lo hi a b :: ps'). split; [constructor; [reflexivity|exact H]|]. intros z. cbn [map check_tuples in_partsb existsb].
    rewrite check_tuple_part by exact I. cbn [bind]. rewrite E. reflexivity.
  - destruct (float_int n) as (f & Hf & Ef). exists (Exactly f :: ps'). split; [constructor; [exact Hf|exact H]|]. intros z. cbn [map check_tuples in_partsb existsb].
    cbn [part_tuple check_tuple]. rewrite Ef. cbn [bind in_partb]. rewrite negb_involutive, E. reflexivity.
Qed.

Section S.
Context (O : oracle) (k : int_kind).
Notation K := (int_chain [[kind_part k]]).
Lemma kind_call z : kind_ok k z -> ty_new O K (Some (VInt z)) = Ok (VInt z) /\ ty_call O K (VInt z) = Ok (VInt z).
Proof.
  intros Hz. apply kind_levels in Hz. assert (P : plain (VInt z)).
  { unfold plain. destruct (Z.eq_dec z 0) as [->|N]; [now right|left]. cbn [truthy]. now destruct (Z.eqb_spec z 0). }
  split; [exact (proj1 (proj1 (chain_all O _ (kind_wf k)) (VInt z) z eq_refl P Hz))|]. apply chain_call_ok; auto. apply kind_wf.
Qed.
Lemma kind_zero : kind_ok k 0.
Proof. destruct k; cbn; lia. Qed.

Lemma exact_thm b own : class_map_int (kind_name k) = Some b -> Forall (fun p => Forall (kind_ok k) (part_bounds p)) own ->
  exists own', Forall2 rounded own own' /\ forall z,
    (in_parts z own' /\ kind_ok k z -> d_out (leaf_assign O (leaf_of b own) (VInt z)) = Ok (VInt z)) /\
    (~ (in_parts z own' /\ kind_ok k z) -> d_out (leaf_assign O (leaf_of b own) (VInt z)) = Raise ValueError).
Proof.
  intros Hb Hk. rewrite class_map_chain in Hb. assert (Eb : K = b) by exact (f_equal (fun o => match o with Some x => x | None => b end) Hb). rewrite <- Eb. clear Hb Eb b. destruct (rounded_tuples own) as (own' & HR & HE). exists own'. split; [exact HR|]. intros z.
  assert (Hcb : Forall (fun p => Forall (fun b => ty_call O K (VStr (print_Z b)) = Ok (VInt b)) (part_bounds p)) own).
  { apply bounds_ok; [apply chain_all, kind_wf|]. eapply Forall_impl; [|exact Hk]. intros p. apply Forall_impl. intros b. apply kind_levels. }
  assert (Hany : any_pass [range_test (map part_tuple own)] (VInt z) = Ok (in_partsb z own')).
  { cbn [any_pass]. unfold range_test. rewrite HE. cbn [bind]. destruct (in_partsb z own'); reflexivity. }
  unfold leaf_of, leaf_assign. cbn [dyn_ltype]. unfold dyn_leaf.
  assert (Init : kind_ok k z -> ty_init O (TRestr K [RRange (map show_part own)]) (VInt z) (VInt z) = Ok (VInt z)).
  { intros Hz. rewrite ty_init_restr. rewrite (proj2 (kind_call z Hz)). cbn [bind]. rewrite ty_tests_restr. assert (Er : is_restr K = true) by reflexivity. rewrite Er.
    rewrite (proj2 (chain_all O _ (kind_wf k)) _ _ eq_refl). cbn [bind last]. rewrite all_pass_range; [|apply (proj1 (kind_wf k))].
    apply kind_levels in Hz. apply (last_in_levels z _ []) in Hz. apply in_partsb_iff in Hz. cbn [last] in Hz. rewrite Hz. reflexivity. }
  assert (Hpass : kind_ok k z -> ty_new O (TRestr K [RRange (map show_part own)]) (Some (VInt z)) = if in_partsb z own' then Ok (VInt z) else Raise ValueError).
  { intros Hz. rewrite ty_new_restr, build_range by exact Hcb. rewrite (proj2 (kind_call z Hz)).
    assert (Ev : (val' <- (if truthy (VInt z) then Ok (VInt z) else Ok (VInt z));; Ok ([range_test (map part_tuple own)], val')) = Ok ([range_test (map part_tuple own)], VInt z)) by (destruct (truthy (VInt z)); reflexivity).
    rewrite Ev. cbn [bind fst snd is_False]. rewrite Hany. cbn [bind]. destruct (in_partsb z own'); [|reflexivity]. cbn [bind]. now rewrite (proj1 (kind_call z Hz)). }
  assert (Dec : kind_ok k z \/ ~ kind_ok k z) by (destruct k; cbn [kind_ok]; lia). split.
  - intros [Hz Hkz]. apply in_partsb_iff in Hz. rewrite (Hpass Hkz), Hz. cbn [d_out]. now rewrite (Init Hkz).
  - intros Hout. destruct Dec as [Hkz|Hkz].
    + rewrite (Hpass Hkz). destruct (in_partsb z own') eqn:E; [|reflexivity]. exfalso. apply Hout. split; [now apply in_partsb_iff|exact Hkz].
    + assert (Hz0 : truthy (VInt z) = true). { cbn [truthy]. destruct (Z.eqb_spec z 0) as [->|]; [destruct (Hkz kind_zero)|reflexivity]. }
      assert (Hcf := chain_call_fail O [kind_part k] [] (VInt z) z (kind_wf k) eq_refl Hz0 ltac:(now rewrite kind_levels)). cbn [in_levelsb] in Hcf.
      rewrite ty_new_restr, build_range by exact Hcb. rewrite Hz0, Hcf. cbn [bind].
      rewrite ty_new_restr, build_range by exact Hcb. cbn [truthy bind fst snd is_False]. rewrite (chain_none O _ (kind_wf k)). cbn [d_out].
      rewrite ty_init_restr, Hcf. reflexivity.
Qed.
End S.

Lemma single_exact O k b n : class_map_int (kind_name k) = Some b -> kind_ok k n ->
  exists f, nearest_double n f /\ (forall g, nearest_double n g -> g = f) /\ forall z,
    (z = f /\ kind_ok k z -> d_out (leaf_assign O (leaf_of b [Exactly n]) (VInt z)) = Ok (VInt z)) /\
    (~ (z = f /\ kind_ok k z) -> d_out (leaf_assign O (leaf_of b [Exactly n]) (VInt z)) = Raise ValueError).
Proof.
  intros Hb Hn. destruct (exact_thm O k b [Exactly n] Hb) as (own' & HR & H).
  { constructor; [|constructor]. cbn [part_bounds]. constructor; [exact Hn|constructor]. }
  inversion HR as [|p p' ps ps' H1 H2]; subst. inversion H2; subst. destruct p' as [? ? ? ?|f]; [destruct H1|]. cbn [rounded] in H1.
  exists f. split; [exact H1|]. split; [intros g Hg; exact (nearest_unique n g f Hg H1)|]. intros z. specialize (H z).
  assert (E : in_parts z [Exactly f] <-> z = f). { unfold in_parts. split; [intros X; inversion X as [? ? Y|? ? Y]; subst; [exact Y|inversion Y]|intros ->; left; reflexivity]. }
  rewrite E in H. exact H.
Qed.

Lemma top_double : nearest_double (2 ^ 64 - 1) (2 ^ 64).
Proof.
  split; [exists 1, 64; split; [lia|]; split; [lia|reflexivity]|]. intros g (m & e & He & Hm & ->).
  assert (N : m * 2 ^ e <> 2 ^ 64 - 1).
  { intros E. destruct (Z.eq_dec e 0) as [->|P]; [rewrite Z.pow_0_r in E; lia|]. apply (f_equal Z.even) in E. rewrite Z.even_mul, Z.even_pow, orb_true_r in E by lia. discriminate. }
  split; [lia|]. intros _ _. exists (2 ^ 53), 11. split; [lia|]. split; [reflexivity|]. split; [lia|reflexivity].
Qed.
Lemma top_refuted O : exists b, class_map_int (kind_name U64) = Some b /\ kind_ok U64 (2 ^ 64 - 1) /\
  forall z, d_out (leaf_assign O (leaf_of b [Exactly (2 ^ 64 - 1)]) (VInt z)) = Raise ValueError.
Proof.
  assert (Hk : kind_ok U64 (2 ^ 64 - 1)) by (cbn [kind_ok]; lia). eexists. split; [apply class_map_chain|]. split; [exact Hk|].
  destruct (single_exact O U64 _ _ (class_map_chain U64) Hk) as (f & Hf & Hu & H). intros z. apply H. rewrite <- (Hu _ top_double). intros [-> X]. cbn [kind_ok] in X. lia.
Qed.
