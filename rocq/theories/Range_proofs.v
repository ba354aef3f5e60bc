(** Lemmas about parsing and testing ranges. *)
From Verif Require Import PyStr PyStr_facts PyVal Base64 Restricted Spec_Types.
From Coq Require Import Lia ZifyBool ZifyN ZifyNat QArith.
Local Open Scope Z_scope.

(* ---------------------------------------------------------------- syntax *)
Lemma skip_sp_spaces n s : skip_sp (spaces n ++ s) = skip_sp s.
Proof. induction n as [|n IH]; cbn; [reflexivity|exact IH]. Qed.

Lemma skip_sp_incl c s : In c (skip_sp s) -> In c s.
Proof.
  induction s as [|x s IH]; cbn [skip_sp]; [auto|].
  destruct (N.eqb x 32); intros H; [right; auto|assumption].
Qed.

Lemma match_tail_nodot s : ~ In 46%N s -> match_tail s = None.
Proof.
  intros H. unfold match_tail. destruct (skip_sp s) as [|c1 [|c2 s']] eqn:E; try reflexivity.
  destruct (N.eqb_spec c1 46) as [->|Hne]; [|reflexivity].
  exfalso; apply H. apply (skip_sp_incl 46 s). rewrite E. now left.
Qed.

Lemma try_low_search k0 : forall k sg s1 h rest,
  (1 <= k0 <= k)%nat ->
  (forall j, (k0 < j <= k)%nat -> match_tail (skipn j s1) = None) ->
  match_tail (skipn k0 s1) = Some (h, rest) ->
  try_low k sg s1 = Some (sg ++ firstn k0 s1, h, rest).
Proof.
  intros k; induction k as [|k IH]; intros sg s1 h rest Hk Hnone Hsome; [lia|].
  change (try_low (S k) sg s1) with
    (match match_tail (skipn (S k) s1) with
     | Some (h, rest) => Some (sg ++ firstn (S k) s1, h, rest)
     | None => try_low k sg s1 end).
  destruct (Nat.eq_dec k0 (S k)) as [->|Hne].
  - now rewrite Hsome.
  - rewrite Hnone by lia. apply IH; [lia| |assumption]. intros j Hj; apply Hnone; lia.
Qed.

Lemma try_low_none : forall k sg s1,
  (forall j, (1 <= j <= k)%nat -> match_tail (skipn j s1) = None) -> try_low k sg s1 = None.
Proof.
  intros k; induction k as [|k IH]; intros sg s1 H; [reflexivity|].
  change (try_low (S k) sg s1) with
    (match match_tail (skipn (S k) s1) with
     | Some (h, rest) => Some (sg ++ firstn (S k) s1, h, rest)
     | None => try_low k sg s1 end).
  rewrite H by lia. apply IH. intros j Hj; apply H; lia.
Qed.

Lemma digit_rchar c : digitN c -> is_rchar c = true.
Proof. unfold digitN, is_rchar, is_digit. lia. Qed.

Lemma rrun_app D s : Forall digitN D -> fst (rrun (D ++ s)) = D ++ fst (rrun s) /\ snd (rrun (D ++ s)) = snd (rrun s).
Proof.
  induction D as [|c D IH]; intros H; [split; reflexivity|].
  inversion H as [|? ? Hc HD]; subst. cbn [app rrun].
  rewrite (digit_rchar _ Hc). destruct (IH HD) as [H1 H2].
  destruct (rrun (D ++ s)) as [a b]. cbn in *. rewrite H1, H2. split; reflexivity.
Qed.

Lemma rrun_digits D : Forall digitN D -> rrun D = (D, []).
Proof.
  intros H. destruct (rrun_app D [] H) as [H1 H2]. rewrite app_nil_r in H1, H2.
  cbn [rrun fst snd] in H1, H2. 
  destruct (rrun D) as [a b]; cbn [fst snd] in H1, H2. rewrite app_nil_r in H1. subst. reflexivity.
Qed.

(** The sign and the digits of a printed integer. *)
Lemma print_Z_parts z : exists sg D,
  print_Z z = sg ++ D /\ (sg = [] \/ sg = [45%N]) /\ D <> [] /\ Forall digitN D.
Proof.
  destruct z as [|p|p]; cbn [print_Z].
  - exists [], [48%N]. repeat split; auto; try discriminate.
    constructor; [unfold digitN; lia|constructor].
  - destruct (print_N_spec (Npos p)) as (Hne & Hd & _). exists [], (print_N (Npos p)). auto.
  - destruct (print_N_spec (Npos p)) as (Hne & Hd & _). exists [45%N], (print_N (Npos p)). auto.
Qed.

Lemma opt_minus_parts sg D s : (sg = [] \/ sg = [45%N]) -> D <> [] -> Forall digitN D ->
  opt_minus (sg ++ D ++ s) = (sg, D ++ s).
Proof.
  intros Hsg Hne HD. destruct D as [|c D]; [congruence|]. inversion HD as [|? ? Hc _]; subst.
  destruct Hsg as [->| ->]; cbn.
  - destruct (N.eqb_spec c 45); [unfold digitN in Hc; lia|reflexivity].
  - reflexivity.
Qed.

Lemma match_high_print z : match_high (print_Z z) = Some (print_Z z, []).
Proof.
  destruct (print_Z_parts z) as (sg & D & -> & Hsg & Hne & HD).
  unfold match_high. rewrite <- (app_nil_r D) at 1. rewrite opt_minus_parts by assumption.
  rewrite app_nil_r, rrun_digits by assumption. destruct D; [congruence|]. reflexivity.
Qed.

Lemma match_high_show hi : match_high (show_high hi) = Some (show_high hi, []).
Proof. destruct hi; cbn [show_high]; [apply match_high_print|reflexivity]. Qed.

Lemma show_high_nodot hi : ~ In 46%N (show_high hi).
Proof.
  destruct hi as [z|]; cbn [show_high].
  - intros H. pose proof (print_Z_chars z) as Hc. rewrite Forall_forall in Hc.
    destruct (Hc _ H) as [E|E]; [discriminate|]. unfold digitN in E; lia.
  - apply ch_in_false. reflexivity.
Qed.

Lemma show_high_nospace hi : skip_sp (show_high hi) = show_high hi.
Proof.
  destruct hi as [z|]; cbn [show_high]; [|reflexivity].
  destruct (print_Z_parts z) as (sg & D & -> & Hsg & Hne & HD).
  destruct D as [|c D]; [congruence|]. inversion HD as [|? ? Hc _]; subst.
  destruct Hsg as [->| ->]; cbn.
  - destruct (N.eqb_spec c 32); [unfold digitN in Hc; lia|reflexivity].
  - reflexivity.
Qed.

Lemma match_tail_show a b hi :
  match_tail (spaces a ++ lit ".." ++ spaces b ++ show_high hi) = Some (show_high hi, []).
Proof.
  unfold match_tail. rewrite skip_sp_spaces. 
  change (match_high (skip_sp (spaces b ++ show_high hi)) = Some (show_high hi, [])).
  rewrite skip_sp_spaces, show_high_nospace. apply match_high_show.
Qed.

Lemma in_spaces c n : In c (spaces n) -> c = 32%N.
Proof. intros H. symmetry. now apply repeat_spec in H. Qed.

Lemma first_not_dot b hi : exists c s, spaces b ++ show_high hi = c :: s /\ c <> 46%N.
Proof.
  destruct b as [|b]; cbn [spaces repeat app].
  - pose proof (show_high_nodot hi) as H.
    destruct (show_high hi) as [|c s] eqn:E.
    + destruct hi as [z|]; cbn in E; [now apply print_Z_nonnil in E|discriminate].
    + exists c, s. split; [reflexivity|]. intros ->; apply H; now left.
  - exists 32%N, (spaces b ++ show_high hi). split; [reflexivity|lia].
Qed.

Lemma skipn_incl {A} (x : A) n l : In x (skipn n l) -> In x l.
Proof.
  revert l; induction n as [|n IH]; intros l H; [assumption|].
  destruct l as [|y l]; [destruct H|]. right. now apply IH.
Qed.

Lemma tail_suffix_none a b hi j : (1 <= j)%nat -> a = O ->
  match_tail (skipn j (spaces a ++ lit ".." ++ spaces b ++ show_high hi)) = None.
Proof.
  intros Hj ->. cbn [spaces repeat app].
  destruct j as [|[|j]]; [lia| |].
  - destruct (first_not_dot b hi) as (c & s & E & Hc).
    change (skipn 1 (lit ".." ++ spaces b ++ show_high hi)) with (lit "." ++ spaces b ++ show_high hi).
    rewrite E. unfold match_tail. cbn. destruct (N.eqb_spec c 46); [contradiction|reflexivity].
  - apply match_tail_nodot. intros H.
    change (skipn (S (S j)) (lit ".." ++ spaces b ++ show_high hi)) with (skipn j (spaces b ++ show_high hi)) in H.
    apply skipn_incl in H. apply in_app_or in H. destruct H as [H|H].
    + apply in_spaces in H; discriminate.
    + now apply show_high_nodot in H.
Qed.

Lemma match_range_show lo hi a b :
  match_range (show_part (Between lo hi a b)) = Some (show_low lo, show_high hi, []).
Proof.
  cbn [show_part]. set (T := spaces a ++ lit ".." ++ spaces b ++ show_high hi).
  destruct lo as [z|]; cbn [show_low].
  - destruct (print_Z_parts z) as (sg & D & -> & Hsg & Hne & HD).
    unfold match_range. rewrite <- app_assoc, opt_minus_parts by assumption.
    assert (HT : match_tail T = Some (show_high hi, [])) by apply match_tail_show.
    destruct (rrun_app D T HD) as [Hr _].
    rewrite Hr, app_length.
    rewrite (try_low_search (length D)) with (h := show_high hi) (rest := []).
    + rewrite firstn_app, Nat.sub_diag, firstn_all. cbn [firstn]. now rewrite app_nil_r.
    + destruct D; [congruence|]. cbn [length]. lia.
    + intros j Hj. rewrite skipn_app, (skipn_all2 D) by lia. cbn [app].
      destruct a as [|a].
      * apply tail_suffix_none; [lia|reflexivity].
      * exfalso. assert (Hz : length (fst (rrun T)) = O); [|lia].
        unfold T. cbn [spaces repeat app rrun]. reflexivity.
    + rewrite skipn_app, Nat.sub_diag, skipn_all. exact HT.
  - unfold match_range.
    change (opt_minus (lit "min" ++ T)) with (@nil N, lit "min" ++ T). cbn [fst].
    change (rrun (lit "min" ++ T)) with (@nil N, lit "min" ++ T). cbn [fst length try_low].
    rewrite startswith_app. change (skipn 3 (lit "min" ++ T)) with T.
    unfold T. now rewrite match_tail_show.
Qed.

Lemma sub_all_nil f : sub_all f [] = [].
Proof. destruct f; reflexivity. Qed.

Lemma show_part_nonnil lo hi a b : exists c s, show_part (Between lo hi a b) = c :: s.
Proof.
  cbn [show_part]. destruct lo as [z|]; cbn [show_low].
  - pose proof (print_Z_nonnil z). destruct (print_Z z) as [|c s]; [congruence|]. eexists; eexists; reflexivity.
  - eexists; eexists; reflexivity.
Qed.

Lemma show_no_comma_low lo : ~ In 44%N (show_low lo).
Proof.
  destruct lo as [z|]; cbn [show_low]; [|apply ch_in_false; reflexivity].
  intros H. pose proof (print_Z_chars z) as Hc. rewrite Forall_forall in Hc.
  destruct (Hc _ H) as [E|E]; [discriminate|]. unfold digitN in E; lia.
Qed.
Lemma show_no_comma_high lo : ~ In 44%N (show_high lo).
Proof.
  destruct lo as [z|]; cbn [show_high]; [|apply ch_in_false; reflexivity].
  intros H. pose proof (print_Z_chars z) as Hc. rewrite Forall_forall in Hc.
  destruct (Hc _ H) as [E|E]; [discriminate|]. unfold digitN in E; lia.
Qed.

Lemma sub_show lo hi a b :
  split_on 44 (sub_all (length (show_part (Between lo hi a b))) (show_part (Between lo hi a b)))
  = [show_low lo; show_high hi].
Proof.
  destruct (show_part_nonnil lo hi a b) as (c & s & E).
  pose proof (match_range_show lo hi a b) as Hm.
  rewrite E in *. cbn [length sub_all]. rewrite Hm, sub_all_nil.
  cbn [app]. rewrite app_nil_r. rewrite split_on_app by apply show_no_comma_low.
  rewrite split_on_no by apply show_no_comma_high. reflexivity.
Qed.

Lemma match_range_print z : match_range (print_Z z) = None.
Proof.
  unfold match_range.
  assert (Hnd : ~ In 46%N (print_Z z)) by (apply (show_high_nodot (Some z))).
  destruct (print_Z_parts z) as (sg & D & E & Hsg & Hne & HD).
  rewrite E in *. rewrite <- (app_nil_r D) at 1. rewrite opt_minus_parts by assumption. rewrite app_nil_r.
  rewrite try_low_none.
  - destruct D as [|c D]; [congruence|]. inversion HD as [|? ? Hc _]; subst.
    destruct Hsg as [->| ->]; cbn; [|reflexivity].
    destruct c as [|p]; [reflexivity|]. unfold digitN in Hc.
    destruct (Pos.eqb_spec 109 p); [lia|reflexivity].
  - intros j Hj. apply match_tail_nodot. intros H. apply skipn_incl in H. apply Hnd.
    apply in_or_app; now right.
Qed.

Lemma match_single_print z : match_single (print_Z z) = true.
Proof.
  destruct (print_Z_parts z) as (sg & D & -> & Hsg & Hne & HD).
  unfold match_single. rewrite <- (app_nil_r D). rewrite opt_minus_parts by assumption.
  rewrite app_nil_r, rrun_digits by assumption. destruct D; [congruence|reflexivity].
Qed.

Lemma show_low_not_min z : str_eqb (print_Z z) (lit "min") = false.
Proof.
  apply str_eqb_neq. intros E. pose proof (print_Z_chars z) as Hc. rewrite E in Hc.
  inversion Hc as [|? ? [H|H] _]; subst; [discriminate|]. unfold digitN in H; cbn in H; lia.
Qed.
Lemma show_high_not_max z : str_eqb (print_Z z) (lit "max") = false.
Proof.
  apply str_eqb_neq. intros E. pose proof (print_Z_chars z) as Hc. rewrite E in Hc.
  inversion Hc as [|? ? [H|H] _]; subst; [discriminate|]. unfold digitN in H; cbn in H; lia.
Qed.

(** The tuple that a part denotes. *)
Definition part_tuple (p : part) : rtuple :=
  match p with
  | Between lo hi _ _ => RTwo (option_map VInt lo) (option_map VInt hi)
  | Exactly z => ROne (VInt z)
  end.

Lemma range_tuple_show conv p :
  Forall (fun b => conv (print_Z b) = Ok (VInt b)) (part_bounds p) ->
  range_tuple conv (show_part p) = Ok (part_tuple p).
Proof.
  intros H. unfold range_tuple. destruct p as [lo hi a b|z].
  - rewrite match_range_show, sub_show.
    cbn [part_bounds] in H. apply Forall_app in H as [Hlo Hhi].
    destruct hi as [h|]; cbn [show_high].
    + rewrite show_high_not_max. inversion Hhi as [|? ? Eh _]; subst. rewrite Eh. cbn [bind].
      destruct lo as [l|]; cbn [show_low].
      * rewrite show_low_not_min. inversion Hlo as [|? ? El _]; subst. rewrite El. reflexivity.
      * reflexivity.
    + change (str_eqb (lit "max") (lit "max")) with true. cbn [bind].
      destruct lo as [l|]; cbn [show_low].
      * rewrite show_low_not_min. inversion Hlo as [|? ? El _]; subst. rewrite El. reflexivity.
      * reflexivity.
  - cbn [show_part]. rewrite match_range_print, match_single_print.
    inversion H as [|? ? E _]; subst. rewrite E. reflexivity.
Qed.

Lemma range_tuples_show conv ps :
  Forall (fun p => Forall (fun b => conv (print_Z b) = Ok (VInt b)) (part_bounds p)) ps ->
  range_tuples conv (map show_part ps) = Ok (map part_tuple ps).
Proof.
  induction ps as [|p ps IH]; intros H; [reflexivity|].
  inversion H as [|? ? Hp Hps]; subst. cbn [map range_tuples].
  rewrite range_tuple_show by assumption. cbn [bind]. rewrite IH by assumption. reflexivity.
Qed.

(* ---------------------------------------------------------------- comparisons *)
Lemma py_lt_int a b : py_lt (VInt a) (VInt b) = Ok (a <? b).
Proof.
  unfold py_lt; cbn [num_of]. f_equal.
  unfold Qle_bool; cbn. rewrite !Z.mul_1_r. lia.
Qed.

Lemma div_half_even_mult n d k : 0 < d -> n = k * d -> div_half_even n d = k.
Proof.
  intros Hd ->. unfold div_half_even. rewrite Z.div_mul, Z.mod_mul by lia.
  cbn. destruct (0 <? d) eqn:E; [reflexivity|lia].
Qed.

(** A double holds every integer of absolute value at most 2^53 exactly. *)
Lemma log2_bounds n : 0 < n -> 2 ^ Z.log2 n <= n < 2 ^ (Z.log2 n + 1).
Proof. intros H. pose proof (Z.log2_spec n H). replace (Z.log2 n + 1) with (Z.succ (Z.log2 n)) by lia. lia. Qed.

Lemma round53_pos_small n : 0 < n -> n <= 2 ^ 53 ->
  let '(m, e) := round53_pos n 1 in scaled 2 m e == inject_Z n.
Proof.
  intros Hn Hle. unfold round53_pos.
  change (Z.log2 1) with 0. rewrite Z.sub_0_r.
  pose proof (log2_bounds n Hn) as [Hl Hu].
  assert (Hlog : 0 <= Z.log2 n <= 53).
  { split; [apply Z.log2_nonneg|]. apply Z.log2_le_mono in Hle.
    rewrite Z.log2_pow2 in Hle by lia. lia. }
  set (k := Z.log2 n - 52) in *.
  destruct (Z.leb_spec 0 k) as [Hk|Hk].
  - (* n is 2^52 .. 2^53 *)
    assert (Hkk : k = 0 \/ k = 1) by lia. destruct Hkk as [Hkk|Hkk].
    + rewrite Hkk. assert (E : (2 ^ 52 * (1 * 2 ^ 0) <=? n) = true).
      { replace (Z.log2 n) with 52 in Hl by lia. lia. }
      rewrite E. change (0 <=? 0) with true. cbn iota.
      rewrite (div_half_even_mult _ _ n) by lia.
      unfold scaled. change (0 <=? 0) with true. cbn iota. rewrite Z.mul_1_r. reflexivity.
    + assert (Hn53 : n = 2 ^ 53).
      { replace (Z.log2 n) with 53 in Hl by lia. lia. }
      rewrite Hkk, Hn53. vm_compute. reflexivity.
  - assert (E : (2 ^ 52 * 1 <=? n * 2 ^ (- k)) = true).
    { apply Z.leb_le. unfold k. replace (- (Z.log2 n - 52)) with (52 - Z.log2 n) by lia.
      replace (2 ^ 52 * 1) with (2 ^ Z.log2 n * 2 ^ (52 - Z.log2 n)).
      - apply Z.mul_le_mono_nonneg_r; [apply Z.pow_nonneg; lia|lia].
      - rewrite <- Z.pow_add_r by lia. replace (Z.log2 n + (52 - Z.log2 n)) with 52 by lia. lia. }
    rewrite E. destruct (Z.leb_spec 0 k) as [Hk2|Hk2]; [lia|].
    rewrite (div_half_even_mult _ _ (n * 2 ^ (- k))) by lia.
    unfold scaled. destruct (Z.leb_spec 0 k); [lia|].
    unfold Qeq; cbn [Qnum Qden inject_Z]. rewrite Z2Pos.id by (apply Z.pow_pos_nonneg; lia). lia.
Qed.

Lemma round53_small n : Z.abs n <= 2 ^ 53 ->
  scaled 2 (fst (round53 n 1)) (snd (round53 n 1)) == inject_Z n.
Proof.
  intros H. unfold round53. destruct (Z.eqb_spec n 0) as [->|H0]; [reflexivity|].
  destruct (Z.ltb_spec 0 n) as [Hp|Hp].
  - pose proof (round53_pos_small n Hp) as Hr. destruct (round53_pos n 1) as [m e]. apply Hr. lia.
  - assert (Hp2 : 0 < - n) by lia. pose proof (round53_pos_small (- n) Hp2) as Hr.
    destruct (round53_pos (- n) 1) as [m e]. cbn [fst snd].
    assert (Hr' : scaled 2 m e == inject_Z (- n)) by (apply Hr; lia). clear Hr.
    unfold scaled in *. destruct (0 <=? e).
    + unfold Qeq in *; cbn in *. lia.
    + unfold Qeq in *; cbn [Qnum Qden inject_Z] in *. lia.
Qed.

Lemma scaled_int_eq m e n : scaled 2 m e == inject_Z n -> forall z, py_eq (VInt z) (VFloat m e) = (z =? n).
Proof.
  intros H z. cbn [py_eq num_of].
  destruct (Qeq_bool (z # 1) (scaled 2 m e)) eqn:E.
  - apply Qeq_bool_iff in E. rewrite H in E. unfold Qeq in E; cbn in E. lia.
  - apply Qeq_bool_neq in E. destruct (Z.eqb_spec z n) as [->|]; [|reflexivity].
    exfalso; apply E. rewrite H. reflexivity.
Qed.

Lemma neq_float_int z n : Z.abs n <= 2 ^ 53 -> neq_float (VInt z) (VInt n) = Ok (negb (z =? n)).
Proof.
  intros H. unfold neq_float. cbn [py_float bind]. f_equal. f_equal.
  apply scaled_int_eq. now apply round53_small.
Qed.

Lemma in_partb_iff z p : in_partb z p = true <-> in_part z p.
Proof. destruct p as [[l|] [h|] ? ?|n]; cbn; lia. Qed.
Lemma in_partsb_iff z ps : in_partsb z ps = true <-> in_parts z ps.
Proof.
  unfold in_partsb, in_parts. rewrite existsb_exists, Exists_exists.
  split; intros (p & Hp & H); exists p; split; try assumption; now apply in_partb_iff.
Qed.

Lemma check_tuple_part z p : small_single p -> check_tuple (VInt z) (part_tuple p) = Ok (in_partb z p).
Proof.
  destruct p as [[l|] [h|] a b|n]; cbn [part_tuple option_map check_tuple small_single]; intros Hs.
  - rewrite !py_lt_int. cbn [bind in_partb]. f_equal. lia.
  - rewrite !py_lt_int. cbn [bind in_partb]. f_equal. lia.
  - rewrite !py_lt_int. cbn [bind in_partb]. f_equal. lia.
  - reflexivity.
  - rewrite neq_float_int by assumption. cbn [bind in_partb]. now rewrite negb_involutive.
Qed.

Lemma check_tuples_parts z ps : Forall small_single ps ->
  check_tuples (VInt z) (map part_tuple ps) = Ok (in_partsb z ps).
Proof.
  induction ps as [|p ps IH]; intros H; [reflexivity|]. inversion H as [|? ? Hp Hps]; subst.
  cbn [map check_tuples in_partsb existsb]. rewrite check_tuple_part by assumption. cbn [bind].
  rewrite IH by assumption. reflexivity.
Qed.

Lemma in_levelsb_iff z ls : in_levelsb z ls = true <-> in_levels z ls.
Proof.
  unfold in_levelsb, in_levels. rewrite forallb_forall, Forall_forall.
  split; intros H p Hp; specialize (H p Hp); now apply in_partsb_iff.
Qed.
