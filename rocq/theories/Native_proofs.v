(** Lemmas about values that are not given as text. *)
From Coq Require Import QArith Qabs Lia Qpower Lqa.
From Verif Require Import PyStr PyStr_facts PyVal Restricted IntTypes Spec_Types Spec_Defaults Spec_Lexical Spec_Native.
From Verif Require Decimal_proofs Lexical_proofs Restricted_proofs Ints_proofs Range_proofs Member_proofs Types_main.
Local Open Scope Z_scope.

(* ------------------------------------------------------------------ numbers *)
Lemma power_pos b e : 0 < b -> 0 <= e -> (inject_Z b ^ e == inject_Z (b ^ e))%Q.
Proof. intros Hb He. symmetry. now apply Zpower_Qpower. Qed.
Lemma power_neg b e : 0 < b -> e < 0 -> (inject_Z b ^ e == / inject_Z (b ^ (- e)))%Q.
Proof. intros Hb He. replace e with (- (- e)) at 1 by lia. rewrite Qpower_opp. rewrite <- Zpower_Qpower by lia. reflexivity. Qed.
Lemma quot_bounds m d : 0 < d -> Z.abs (Z.quot m d) * d <= Z.abs m < (Z.abs (Z.quot m d) + 1) * d /\ 0 <= m * Z.quot m d.
Proof.
  intros Hd. assert (P : forall m, 0 <= m -> 0 <= Z.quot m d /\ Z.quot m d * d <= m < (Z.quot m d + 1) * d).
  { clear m. intros m Hm. rewrite Z.quot_div_nonneg by lia. pose proof (Z.div_mod m d ltac:(lia)). pose proof (Z.mod_pos_bound m d Hd). pose proof (Z.div_pos m d Hm Hd). nia. }
  destruct (Z.le_gt_cases 0 m) as [H|H]; [specialize (P m H); rewrite !Z.abs_eq by lia; split; [lia|nia]|].
  specialize (P (- m) ltac:(lia)). rewrite Z.quot_opp_l in P by lia. rewrite (Z.abs_neq m), (Z.abs_neq (Z.quot m d)) by lia. split; [lia|nia].
Qed.
Lemma truncated b m e : 0 < b -> toward_zero (inject_Z m * inject_Z b ^ e) (trunc b m e).
Proof.
  intros Hb. unfold trunc. destruct (Z.leb_spec 0 e) as [He|He].
  - assert (E : (inject_Z m * inject_Z b ^ e == inject_Z (m * b ^ e))%Q) by (rewrite power_pos, inject_Z_mult by assumption; reflexivity). generalize dependent (m * b ^ e). intros z E.
    unfold toward_zero. rewrite E. split; [apply Qle_refl|]. split; [rewrite <- Qplus_0_r at 1; apply Qplus_lt_r; reflexivity|]. rewrite <- inject_Z_mult. change 0%Q with (inject_Z 0). rewrite <- Zle_Qle. nia.
  - set (d := b ^ (- e)). assert (Hd : 0 < d) by (apply Z.pow_pos_nonneg; lia). destruct (quot_bounds m d Hd) as [[H1 H2] H3]. set (z := Z.quot m d) in *.
    assert (E : (inject_Z m * inject_Z b ^ e == m # Z.to_pos d)%Q). { rewrite power_neg by assumption. fold d. unfold Qeq, inject_Z, Qmult, Qinv. cbn [Qnum Qden]. destruct d as [|p|p]; [lia| |lia]. cbn [Qnum Qden Z.to_pos]. lia. }
    unfold toward_zero. rewrite E. unfold Qle, Qlt, Qabs, Qplus, Qmult, inject_Z. cbn [Qnum Qden]. rewrite !Z.mul_1_r, ?Pos2Z.inj_mul, ?Z2Pos.id by assumption. repeat split; nia.
Qed.
Lemma number_int v q : number v q -> exists z, py_int v = Ok z /\ toward_zero q z.
Proof.
  destruct 1 as [b|z|m e|c e]; cbn [py_int]; eexists; (split; [reflexivity|]).
  - destruct b; unfold toward_zero, Qle, Qlt; cbn; lia.
  - pose proof (truncated 10 z 0 ltac:(lia)) as H. unfold trunc in H. cbn [Z.leb Z.compare] in H. rewrite Z.pow_0_r, Z.mul_1_r in H. unfold toward_zero in *. cbn [Qpower] in H. rewrite Qmult_1_r in H. exact H.
  - apply (truncated 2). lia.
  - apply (truncated 10). lia.
Qed.
Lemma number_decimal v q : number v q -> exists c e, py_decimal v = Ok (c, e) /\ (q == inject_Z c * 10 ^ e)%Q.
Proof.
  destruct 1 as [b|z|m e|c e]; cbn [py_decimal].
  - eexists _, _. split; [reflexivity|]. destruct b; reflexivity.
  - eexists _, _. split; [reflexivity|]. cbn [Qpower]. now rewrite Qmult_1_r.
  - destruct (Z.leb_spec 0 e) as [He|He]; eexists _, _; (split; [reflexivity|]).
    + cbn [Qpower]. rewrite Qmult_1_r, inject_Z_mult. change 2%Q with (inject_Z 2). now rewrite power_pos by lia.
    + change 2%Q with (inject_Z 2). change 10%Q with (inject_Z 10). rewrite !power_neg by lia. rewrite inject_Z_mult. replace (10 ^ (- e)) with (5 ^ (- e) * 2 ^ (- e)) by (rewrite <- Z.pow_mul_l; reflexivity).
      rewrite inject_Z_mult. assert (H5 : 0 < 5 ^ (- e)) by (apply Z.pow_pos_nonneg; lia). assert (H2 : 0 < 2 ^ (- e)) by (apply Z.pow_pos_nonneg; lia).
      field. split; intros C; [change 0%Q with (inject_Z 0) in C; apply (proj1 (inject_Z_injective _ _)) in C; lia..].
  - eexists _, _. split; [reflexivity|reflexivity].
Qed.

(* ------------------------------------------------------------------ integers *)
Lemma falsy_leaf O k v q : number v q -> truthy v = false -> leaf_assign O (LOne (int_chain [[Ints_proofs.kind_part k]])) v = {| d_notified := true; d_out := Ok (VInt 0) |}.
Proof.
  intros Hn Ht. destruct (number_int v q Hn) as (z & Hz & _). destruct (Member_proofs.falsy_int v z Ht Hz) as (-> & q0 & Hq & E0).
  pose proof (Restricted_proofs.chain_bounds O [Ints_proofs.kind_part k] [] (Ints_proofs.kind_wf k)) as Hb. assert (Hwf := Ints_proofs.kind_wf k). destruct Hwf as (Hs & _).
  assert (K : in_partsb 0 [Ints_proofs.kind_part k] = true) by (destruct k; reflexivity).
  unfold leaf_assign. cbn [dyn_ltype]. unfold dyn_leaf. cbn [int_chain] in *. rewrite Restricted_proofs.ty_new_restr, (Restricted_proofs.build_range _ _ _ _ Hb), Ht. cbn [bind fst snd].
  assert (A : any_pass [range_test (map Range_proofs.part_tuple [Ints_proofs.kind_part k])] v = Ok true).
  { cbn [any_pass]. unfold range_test. rewrite (Member_proofs.check_tuples_zero v q0 _ Hq E0). pose proof (Restricted_proofs.any_pass_range 0 _ Hs) as A. cbn [any_pass] in A. unfold range_test in A. rewrite K in A. exact A. }
  assert (N : ty_new O TInt (Some v) = Ok (VInt 0)) by (cbn [ty_new]; rewrite Hz; reflexivity). rewrite A, N. cbn [bind].
  assert (I : ty_init O (TRestr TInt [RRange (map show_part [Ints_proofs.kind_part k])]) (VInt 0) v = Ok (VInt 0)).
  { rewrite Restricted_proofs.ty_init_restr, Restricted_proofs.ty_tests_restr. unfold ty_call at 1. cbn [ty_new ty_init is_restr]. rewrite Hz. cbn [bind]. rewrite (Restricted_proofs.build_range _ _ _ _ Hb). cbn [truthy bind fst]. rewrite (Restricted_proofs.all_pass_range 0 _ Hs), K. reflexivity. }
  destruct (is_False v); cbn [bind]; rewrite I; reflexivity.
Qed.
Theorem native_integer O k b v q : class_map_int (kind_name k) = Some b -> number v q -> exists z, toward_zero q z /\
  (kind_ok k z -> leaf_assign O (LOne b) v = {| d_notified := true; d_out := Ok (VInt z) |}) /\
  (~ kind_ok k z -> leaf_assign O (LOne b) v = {| d_notified := false; d_out := Raise ValueError |}).
Proof.
  rewrite Ints_proofs.class_map_chain. intros E Hn. injection E as <-. destruct (number_int v q Hn) as (z & Hz & Hq). exists z. split; [exact Hq|]. destruct (truthy v) eqn:Ht.
  - rewrite (Restricted_proofs.int_assign_exact O [Ints_proofs.kind_part k] []); [|apply Ints_proofs.kind_wf|exact Ht]. unfold Restricted_proofs.int_assign_spec. rewrite Hz. split; intros K.
    + apply Ints_proofs.kind_levels, Range_proofs.in_levelsb_iff in K. rewrite K. reflexivity.
    + destruct (in_levelsb z [[Ints_proofs.kind_part k]]) eqn:L; [destruct K; apply Ints_proofs.kind_levels, Range_proofs.in_levelsb_iff, L|]. reflexivity.
  - destruct (Member_proofs.falsy_int v z Ht Hz) as (-> & _). split; [intros _; exact (falsy_leaf O k v q Hn Ht)|]. intros K. destruct K. apply Ints_proofs.kind_levels, Range_proofs.in_levelsb_iff. destruct k; reflexivity.
Qed.
Theorem bytes_integer O k b l : class_map_int (kind_name k) = Some b -> leaf_assign O (LOne b) (VBytes l) = leaf_assign O (LOne b) (VStr l).
Proof.
  rewrite Ints_proofs.class_map_chain. intros E. injection E as <-. destruct l as [|x l]; [destruct k; reflexivity|].
  rewrite !(Restricted_proofs.int_assign_exact O [Ints_proofs.kind_part k] []) by (try reflexivity; apply Ints_proofs.kind_wf). reflexivity.
Qed.
Theorem thing_integer O k b v : class_map_int (kind_name k) = Some b -> thing v -> leaf_assign O (LOne b) v = {| d_notified := true; d_out := Ok (VInt 0) |}.
Proof.
  rewrite Ints_proofs.class_map_chain. intros E Hv. injection E as <-. destruct (truthy v) eqn:Ht.
  - rewrite (Restricted_proofs.int_assign_exact O [Ints_proofs.kind_part k] []); [|apply Ints_proofs.kind_wf|exact Ht]. unfold Restricted_proofs.int_assign_spec. now destruct v.
  - destruct v as [| | | | | | |[|]|[|]|[|]]; try contradiction; try discriminate; destruct k; reflexivity.
Qed.

(* ------------------------------------------------------------------ decimals *)
Lemma qabs_scaled x n : (Qabs (inject_Z x * 10 ^ n) == inject_Z (Z.abs x) * 10 ^ n)%Q.
Proof. rewrite Qabs_Qmult. rewrite (Qabs_pos (10 ^ n)) by (apply Qpower_pos; discriminate). reflexivity. Qed.
Lemma ten_pos n : (0 < 10 ^ n)%Q.
Proof. assert (H : (0 <= 10 ^ n)%Q) by (apply Qpower_pos; discriminate). apply Qle_lteq in H as [H|H]; [exact H|]. exfalso. symmetry in H. revert H. apply Qpower_not_0. discriminate. Qed.
Theorem native_decimal O n v q : number v q ->
  (forall w, d_out (leaf_assign O (LOne (TDecPrec n)) v) = Ok w -> exists m, w = VDec m (- n) /\ (2 * Qabs (inject_Z m * 10 ^ (- n) - q) <= 10 ^ (- n))%Q) /\
  ((Qabs q <= inject_Z (2 ^ 63) * 10 ^ (- n))%Q -> exists w, d_out (leaf_assign O (LOne (TDecPrec n)) v) = Ok w).
Proof.
  intros Hn. destruct (number_decimal v q Hn) as (c & e & Hd & Hq). destruct (Types_main.dec_main O n v c e Hd) as [H1 H2].
  set (k := Z.max 0 (- (e + n))). assert (Hk : 0 <= k /\ 0 <= e + n + k) by (unfold k; lia). destruct Hk as [Hk0 Hk1].
  assert (T : (10 ^ (- n) == 10 ^ k * 10 ^ (- n - k))%Q) by (rewrite <- Qpower_plus by discriminate; replace (k + (- n - k)) with (- n) by lia; reflexivity).
  assert (Tk : (10 ^ k == inject_Z (10 ^ k))%Q) by (change 10%Q with (inject_Z 10); apply power_pos; lia).
  assert (Eq : (q == inject_Z (c * 10 ^ (e + n + k)) * 10 ^ (- n - k))%Q).
  { rewrite Hq, inject_Z_mult. rewrite <- (power_pos 10 (e + n + k)) by lia. change (inject_Z 10) with 10%Q. rewrite <- Qmult_assoc, <- Qpower_plus by discriminate. replace (e + n + k + (- n - k)) with e by lia. reflexivity. }
  split.
  - intros w Hw. destruct (H1 w Hw) as (m & -> & Hm & _). exists m. split; [reflexivity|]. destruct (Hm k Hk0 Hk1) as (Hb & _).
    assert (Ed : (inject_Z m * 10 ^ (- n) - q == inject_Z (m * 10 ^ k - c * 10 ^ (e + n + k)) * 10 ^ (- n - k))%Q).
    { assert (Sb : forall a b, (inject_Z (a - b) == inject_Z a - inject_Z b)%Q) by (intros a b; unfold Z.sub; rewrite inject_Z_plus, inject_Z_opp; reflexivity). rewrite T, Eq, Tk, Sb, !inject_Z_mult. ring. }
    rewrite Ed, qabs_scaled, T, Tk. rewrite Qmult_assoc. apply Qmult_le_compat_r; [|apply Qlt_le_weak, ten_pos]. change 2%Q with (inject_Z 2). rewrite <- inject_Z_mult, <- Zle_Qle. exact Hb.
  - intros Hle. apply (H2 k Hk0 Hk1). rewrite Eq, qabs_scaled, T, Tk, Qmult_assoc, <- inject_Z_mult in Hle. apply Qmult_le_r in Hle; [|apply ten_pos]. rewrite <- Zle_Qle in Hle. exact Hle.
Qed.
Theorem thing_decimal O n v : thing v \/ (exists l, v = VBytes l) -> leaf_assign O (LOne (TDecPrec n)) v = match v with VList _ => {| d_notified := false; d_out := Raise ValueError |} | _ => {| d_notified := true; d_out := Ok (VDec 0 0) |} end.
Proof. intros [H|(l & ->)]; [|reflexivity]. destruct v; try contradiction; reflexivity. Qed.

(* ------------------------------------------------------------------ texts *)
Lemma digit_ordinary D : Forall digitN D -> ordinary D.
Proof. intros H. eapply Forall_impl; [|exact H]. unfold digitN. intros a Ha. cbv beta in *. lia. Qed.
Lemma print_Z_ordinary z : ordinary (print_Z z).
Proof.
  destruct z as [|p|p]; cbn [print_Z]; [repeat constructor; lia|..]; destruct (print_N_spec (N.pos p)) as (_ & Hd & _); [|constructor; [lia|]]; now apply digit_ordinary.
Qed.
Lemma ordinary_app a b : ordinary a -> ordinary b -> ordinary (a ++ b).
Proof. intros. now apply Forall_app. Qed.
Lemma ordinary_part s n : ordinary s -> ordinary (firstn n s) /\ ordinary (skipn n s).
Proof. intros H. rewrite <- (firstn_skipn n s) in H. now apply Forall_app in H. Qed.
Lemma print_dec_ordinary c e : ordinary (print_dec c e).
Proof.
  unfold print_dec. destruct (print_N_spec (Z.to_N (Z.abs c))) as (_ & Hd & _). apply digit_ordinary in Hd. cbv zeta. set (D := print_N _) in *.
  assert (Hz : forall n, ordinary (zeros n)) by (intros n; apply digit_ordinary, Decimal_proofs.zeros_digits).
  apply ordinary_app; [destruct (c <? 0); repeat constructor; lia|]. apply ordinary_app.
  - destruct (_ <=? 0); [apply ordinary_app; [repeat constructor; lia|apply ordinary_app; [apply Hz|assumption]]|]. destruct (_ <=? _); [apply ordinary_app; [assumption|apply Hz]|].
    match goal with |- ordinary (firstn ?n D ++ _) => destruct (ordinary_part D n Hd) as [P1 P2] end. apply ordinary_app; [assumption|]. apply ordinary_app; [repeat constructor; lia|assumption].
  - destruct (_ =? 0); [constructor|]. apply ordinary_app; [repeat constructor; lia|]. apply ordinary_app; [destruct (0 <? _); repeat constructor; lia|apply print_Z_ordinary].
Qed.
Theorem native_string O v : exists s, leaf_assign O (LOne TStr) v = {| d_notified := true; d_out := Ok (VStr s) |} /\
  match v with
  | VNone => s = lit "None"
  | VBool b => s = if b then lit "True" else lit "False"
  | VInt z => python_int s z
  | VDec c e => python_dec s c e
  | VStr t => s = t
  | _ => True
  end.
Proof.
  exists (py_str O v). split; [reflexivity|]. destruct v; try exact Logic.I; try reflexivity; cbn [py_str].
  - apply Lexical_proofs.int_read; [apply print_Z_ordinary|apply parse_print_Z].
  - apply Lexical_proofs.dec_read; [apply print_dec_ordinary|apply Decimal_proofs.parse_print_dec].
Qed.
