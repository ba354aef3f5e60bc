(** The order of bits. *)
From Verif Require Import PyStr PyStr_facts PyVal Restricted Bits Bits_proofs Spec_Types Types_main Spec_BitsOrder.
From Coq Require Import Lia ZArith List Permutation Sorted.
Import ListNotations.
Local Open Scope Z_scope.

Lemma digits_cmp s : forall t, Forall digitN s -> Forall digitN t ->
  (str_leb s t = true <-> dval s 0 * 10 ^ Z.of_nat (length t) < dval t 0 * 10 ^ Z.of_nat (length s) \/
    (dval s 0 * 10 ^ Z.of_nat (length t) = dval t 0 * 10 ^ Z.of_nat (length s) /\ (length s <= length t)%nat)).
Proof.
  induction s as [|x s IH]; intros [|y t] Hs Ht.
  - cbn. split; [intros _; right; lia|reflexivity].
  - pose proof (dval_bound _ Ht) as B. cbn [str_leb]. split; [|reflexivity]. intros _. change (dval [] 0) with 0. change (Z.of_nat (length (@nil N))) with 0. rewrite Z.mul_0_l, Z.pow_0_r, Z.mul_1_r. cbn [length]. lia.
  - pose proof (dval_bound _ Hs) as B. cbn [str_leb]. change (dval [] 0) with 0. change (length (@nil N)) with 0%nat. cbn [length] in *. rewrite Z.mul_0_l. split; [discriminate|]. intros [H|[_ H]]; [|lia]. rewrite Z.pow_0_r in H. lia.
  - inversion Hs as [|? ? Hx Hs']; inversion Ht as [|? ? Hy Ht']; subst. specialize (IH t Hs' Ht').
    pose proof (dval_bound s Hs') as B1. pose proof (dval_bound t Ht') as B2. cbn [str_leb dval length]. rewrite (dval_acc s), (dval_acc t). rewrite !Nat2Z.inj_succ, !Z.pow_succ_r by lia.
    set (S0 := dval s 0) in *. set (T0 := dval t 0) in *. set (P := 10 ^ Z.of_nat (length s)) in *. set (Q := 10 ^ Z.of_nat (length t)) in *. unfold digit_val, digitN in *.
    assert (HP : 0 < P) by lia. assert (HQ : 0 < Q) by lia. clearbody S0 T0 P Q.
    assert (EL : (0 * 10 + (Z.of_N x - 48)) * P = (Z.of_N x - 48) * P) by ring. assert (ER : (0 * 10 + (Z.of_N y - 48)) * Q = (Z.of_N y - 48) * Q) by ring. rewrite EL, ER. clear EL ER.
    destruct (N.eqb_spec x y) as [->|Hn].
    + rewrite IH. set (c := Z.of_N y - 48). clearbody c. assert (E1 : (c * P + S0) * (10 * Q) = 10 * (c * P * Q) + 10 * (S0 * Q)) by ring. assert (E2 : (c * Q + T0) * (10 * P) = 10 * (c * P * Q) + 10 * (T0 * P)) by ring. rewrite E1, E2. split; lia.
    + assert (K : forall c d S T P Q : Z, 0 < P -> 0 < Q -> 0 <= S < P -> 0 <= T < Q -> c < d -> (c * P + S) * (10 * Q) < (d * Q + T) * (10 * P)).
      { clear. intros c d S T P Q HP HQ HS HT H. assert ((c * P + S) * Q < (c + 1) * P * Q) by nia. assert ((c + 1) * P * Q <= d * P * Q) by nia. assert (0 <= T * P) by nia. nia. }
      destruct (N.ltb_spec x y) as [L|L].
      * split; [|reflexivity]. intros _. left. apply K; lia.
      * split; [discriminate|]. pose proof (K (Z.of_N y - 48) (Z.of_N x - 48) T0 S0 Q P HQ HP B2 B1 ltac:(lia)). lia.
Qed.

Lemma print_digits_count p : has_digits p (N.of_nat (length (print_N p))).
Proof.
  destruct (print_N_spec p) as (Hne & Hd & Hv & Hz). pose proof (dval_bound _ Hd) as B. rewrite Hv in B.
  destruct (N.eq_dec p 0) as [->|N0]; [left; split; reflexivity|right].
  destruct (Hz N0) as (c & s & E & Hc). rewrite E in *. cbn [length] in *. inversion Hd as [|? ? Hx Hs]; subst. cbn [dval] in Hv. rewrite dval_acc in Hv. pose proof (dval_bound _ Hs) as Bs.
  split; [lia|]. unfold digitN, digit_val in *. rewrite Nat2N.inj_succ.
  replace (N.succ (N.of_nat (length s)) - 1)%N with (N.of_nat (length s)) by lia.
  assert (EP : Z.of_N (10 ^ N.of_nat (length s))%N = 10 ^ Z.of_nat (length s)) by (rewrite N2Z.inj_pow, nat_N_Z; reflexivity).
  assert (EQ : Z.of_N (10 ^ N.succ (N.of_nat (length s)))%N = 10 ^ Z.of_nat (S (length s))) by (rewrite N2Z.inj_pow, N2Z.inj_succ, nat_N_Z, Nat2Z.inj_succ; reflexivity).
  assert (1 <= Z.of_N c - 48) by lia. set (P := 10 ^ Z.of_nat (length s)) in *. split; [|lia]. clearbody P. nia.
Qed.
Lemma digits_unique p a b : has_digits p a -> has_digits p b -> a = b.
Proof.
  assert (W : forall a b, (0 < a -> a < b -> 10 ^ (b - 1) <= p -> p < 10 ^ a -> False)%N).
  { intros c d Hc H L U. assert (10 ^ c <= 10 ^ (d - 1))%N by (apply N.pow_le_mono_r; lia). lia. }
  intros [[-> ->]|[Ha [L U]]] [[E ->]|[Hb [L' U']]].
  - reflexivity.
  - exfalso. assert (10 ^ (b - 1) <> 0)%N by (apply N.pow_nonzero; lia). lia.
  - exfalso. assert (10 ^ (a - 1) <> 0)%N by (apply N.pow_nonzero; lia). lia.
  - destruct (N.lt_trichotomy a b) as [H|[H|H]]; [destruct (W a b Ha H L' U)|exact H|destruct (W b a Hb H L U')].
Qed.

Lemma print_cmp p q : str_leb (print_N p) (print_N q) = true <-> fraction_le p q.
Proof.
  destruct (print_N_spec p) as (_ & Hp & Vp & _). destruct (print_N_spec q) as (_ & Hq & Vq & _). rewrite (digits_cmp _ _ Hp Hq), Vp, Vq.
  pose proof (print_digits_count p) as Dp. pose proof (print_digits_count q) as Dq.
  set (a := length (print_N p)) in *. set (b := length (print_N q)) in *. clearbody a b.
  assert (EA : 10 ^ Z.of_nat a = Z.of_N (10 ^ N.of_nat a)%N) by (rewrite N2Z.inj_pow, nat_N_Z; reflexivity).
  assert (EB : 10 ^ Z.of_nat b = Z.of_N (10 ^ N.of_nat b)%N) by (rewrite N2Z.inj_pow, nat_N_Z; reflexivity). rewrite EA, EB, <- !N2Z.inj_mul. clear EA EB Vp Vq Hp Hq.
  assert (Eq : (p * 10 ^ N.of_nat b = q * 10 ^ N.of_nat a)%N -> ((a <= b)%nat <-> (p <= q)%N)).
  { intros E. split.
    - intros L. assert (10 ^ N.of_nat a <= 10 ^ N.of_nat b)%N by (apply N.pow_le_mono_r; lia). assert (0 < 10 ^ N.of_nat a)%N by (apply N.neq_0_lt_0, N.pow_nonzero; lia). nia.
    - intros L. destruct (Nat.le_gt_cases a b) as [H|H]; [exact H|]. exfalso. assert (10 ^ N.of_nat b < 10 ^ N.of_nat a)%N by (apply N.pow_lt_mono_r; lia).
      destruct (N.eq_dec q 0) as [->|N0]; [assert (p = 0)%N by lia; subst p; pose proof (digits_unique _ _ _ Dp Dq); lia|]. nia. }
  split.
  - intros H. exists (N.of_nat a), (N.of_nat b). split; [exact Dp|]. split; [exact Dq|]. destruct H as [H|[E H]]; [left; lia|right; split; [lia|]]. apply Eq; [lia|exact H].
  - intros (a' & b' & Da & Db & H). rewrite (digits_unique _ _ _ Da Dp), (digits_unique _ _ _ Db Dq) in H. destruct H as [H|[E H]]; [left; lia|right; split; [lia|]]. now apply Eq.
Qed.

Lemma pos_decl d b : In b (map fst d) -> pos_of (decl d) b = print_N (declared_pos d b).
Proof.
  induction d as [|[n p] d IH]; [intros []|]. intros H. cbn [decl map fst snd pos_of declared_pos]. destruct (str_eqb n b) eqn:E; [reflexivity|].
  apply IH. destruct H as [H|H]; [|exact H]. cbn [fst] in H. subst n. rewrite str_eqb_refl in E. discriminate.
Qed.
Lemma sorted_in {A} (R R' : A -> A -> Prop) l : (forall x y, In x l -> In y l -> R x y -> R' x y) -> StronglySorted R l -> StronglySorted R' l.
Proof.
  intros H S. induction S as [|x l S IH F]; [constructor|]. constructor; [apply IH; intros; apply H; [now right|now right|assumption]|].
  apply Forall_forall. intros y Hy. apply H; [now left|now right|]. rewrite Forall_forall in F. exact (F y Hy).
Qed.
Lemma sorted_pair {A} (R : A -> A -> Prop) l x y : StronglySorted R l -> In x l -> In y l -> x = y \/ R x y \/ R y x.
Proof.
  intros S. induction S as [|z l S IH F]; [intros []|]. rewrite Forall_forall in F. intros [->|Hx] [->|Hy]; [now left|right; left; auto|right; right; auto|auto].
Qed.
Lemma both_sorted {A} (R R' : A -> A -> Prop) l x y : StronglySorted R l -> StronglySorted R' l -> In x l -> In y l -> x = y \/ (R x y /\ R' x y) \/ (R y x /\ R' y x).
Proof.
  intros S. induction S as [|z l S IH F]; [intros _ []|]. intros S' . inversion S' as [|? ? S2 F']; subst. rewrite Forall_forall in F, F'. intros [->|Hx] [->|Hy]; [now left|right; left; auto|right; right; auto|auto].
Qed.
Lemma fraction_antisym p q : fraction_le p q -> fraction_le q p -> p = q.
Proof.
  intros (a & b & Da & Db & H) (b' & a' & Db' & Da' & H'). rewrite (digits_unique _ _ _ Da' Da), (digits_unique _ _ _ Db' Db) in H'. lia.
Qed.

Lemma order_thm d l : words (map fst d) -> legal (decl d) l ->
  let shown := split_ws (bits_str (decl d) l) in
  Permutation shown l /\ StronglySorted (fun x y => fraction_le (declared_pos d x) (declared_pos d y)) shown /\
  (StronglySorted (fun x y => (declared_pos d x <= declared_pos d y)%N) shown <->
   forall x y, In x l -> In y l -> fraction_le (declared_pos d x) (declared_pos d y) -> (declared_pos d x <= declared_pos d y)%N).
Proof.
  intros Hw Hl shown. unfold shown. rewrite bits_str_words; [|assumption|now rewrite decl_names]. pose proof (sort_by_perm (pos_of (decl d)) l) as P.
  assert (Hin : forall x, In x (sort_by (pos_of (decl d)) l) -> In x (map fst d)). { intros x Hx. destruct Hl as [_ Hl]. rewrite <- decl_names. apply Hl. exact (Permutation_in _ P Hx). }
  assert (S : StronglySorted (fun x y => fraction_le (declared_pos d x) (declared_pos d y)) (sort_by (pos_of (decl d)) l)).
  { apply (sorted_in (kle (pos_of (decl d)))); [|apply sort_by_sorted]. intros x y Hx Hy H. unfold kle in H. rewrite !pos_decl in H by auto. now apply print_cmp. }
  split; [exact P|]. split; [exact S|]. split.
  - intros S' x y Hx Hy H. apply (Permutation_in _ (Permutation_sym P)) in Hx, Hy. destruct (both_sorted _ _ _ x y S S' Hx Hy) as [->|[[_ K]|[K1 K2]]]; [lia|exact K|].
    rewrite (fraction_antisym _ _ H K1). lia.
  - intros H. apply (sorted_in (fun x y => fraction_le (declared_pos d x) (declared_pos d y))); [|exact S]. intros x y Hx Hy. apply H; eapply Permutation_in; eassumption.
Qed.
