(** The numbers of enumerations. *)
From Coq Require Import Lia.
From Verif Require Import PyStr PyStr_facts PyVal Enum Enum_proofs Spec_Types Types_main Spec_EnumNumbers.
Import ListNotations.
Local Open Scope Z_scope.

Lemma used_given l z : In z (used_values l) <-> given l z.
Proof.
  unfold given. induction l as [|[n [v|]] l IH]; cbn [used_values In].
  - split; [intros []|intros (n & [])].
  - rewrite IH. split.
    + intros [->|(m & H)]; [exists n; now left|exists m; now right].
    + intros (m & [E|H]); [injection E as -> ->; now left|right; now exists m].
  - rewrite IH. split; intros (m & H); exists m; [now right|]. destruct H as [E|H]; [discriminate E|exact H].
Qed.

Lemma nth_free_unique l z z' k : nth_free l z k -> nth_free l z' k -> z = z'.
Proof.
  assert (A : forall z z', nth_free l z k -> nth_free l z' k -> z < z' -> False).
  { clear. intros z z' (Hz & Hg & fs & Hn & Hl & Hi) (Hz' & Hg' & fs' & Hn' & Hl' & Hi') Hlt.
    assert (H : (length (z :: fs) <= length fs')%nat).
    { apply NoDup_incl_length.
      - constructor; [|exact Hn]. intros K. apply Hi in K. lia.
      - intros x [<-|Hx]; apply Hi'; [split; [lia|exact Hg]|]. apply Hi in Hx. split; [lia|apply Hx]. }
    cbn [length] in H. lia. }
  intros H H'. destruct (Z.lt_trichotomy z z') as [L|[E|L]]; [destruct (A _ _ H H' L)|exact E|destruct (A _ _ H' H L)].
Qed.

Section L.
Context (l : list (str * option Z)).
Lemma bump_free c k : 0 <= c -> free_below l c k -> exists c', bump (S (length (used_values l))) (used_values l) c = Ok c' /\ nth_free l c' k.
Proof.
  intros Hc (fs & Hn & Hl & Hi). destruct (bump_fuel_enough (used_values l) c) as (n & E & Hu & Hb). exists (c + Z.of_nat n). split; [exact E|].
  split; [lia|]. split; [now rewrite <- used_given|]. exists fs. split; [exact Hn|]. split; [exact Hl|]. intros x. rewrite Hi. split.
  - intros [Hx Hg]. split; [lia|exact Hg].
  - intros [Hx Hg]. split; [|exact Hg]. destruct (Z.lt_ge_cases x c) as [L|L]; [lia|]. exfalso. apply Hg, used_given, Hb. lia.
Qed.
Lemma free_next c k : nth_free l c k -> free_below l (c + 1) (S k).
Proof.
  intros (Hc & Hg & fs & Hn & Hl & Hi). exists (c :: fs). split; [constructor; [|exact Hn]; intros K; apply Hi in K; lia|]. split; [cbn [length]; now rewrite Hl|].
  intros x. cbn [In]. rewrite Hi. split.
  - intros [<-|[Hx Hf]]; (split; [lia|assumption]).
  - intros [Hx Hf]. destruct (Z.eq_dec c x) as [->|Hne]; [now left|right]. split; [lia|exact Hf].
Qed.
Lemma number_loop l' : forall c k, 0 <= c -> free_below l c k -> exists r, number_from (used_values l) c l' = Ok r /\ map fst r = map fst l' /\
  forall i n ov v, nth_error l' i = Some (n, ov) -> nth_error r i = Some (n, v) -> match ov with Some w => v = w | None => nth_free l v (k + i) end.
Proof.
  induction l' as [|[n ov] l' IH]; intros c k Hc Hf.
  - exists []. split; [reflexivity|]. split; [reflexivity|]. intros [|i] m ov v E; discriminate E.
  - destruct (bump_free c k Hc Hf) as (c' & Eb & Hn). destruct (IH (c' + 1) (S k)) as (r & Er & Em & Hr); [destruct Hn; lia|now apply free_next|].
    cbn [number_from]. rewrite Eb. cbn [bind]. rewrite Er. cbn [bind]. eexists. split; [reflexivity|]. split; [cbn [map fst]; now rewrite Em|].
    intros [|i] m ov' v E1 E2; cbn [nth_error] in E1, E2.
    + injection E1 as <- <-. injection E2 as <-. rewrite Nat.add_0_r. destruct ov; [reflexivity|exact Hn].
    + specialize (Hr i m ov' v E1 E2). destruct ov'; [exact Hr|]. now rewrite Nat.add_succ_r.
Qed.
End L.

Lemma numbers_thm l : no_at l -> exists r, enum_values l = Ok r /\ map fst r = map fst l /\
  forall i n ov v, nth_error l i = Some (n, ov) -> nth_error r i = Some (n, v) -> match ov with Some w => v = w | None => nth_free l v i end.
Proof.
  intros Hat. unfold enum_values. rewrite filter_no_at by assumption. apply (number_loop l l 0 0%nat); [lia|].
  exists []. split; [constructor|]. split; [reflexivity|]. intros x. split; [intros []|intros [H _]; lia].
Qed.

Lemma rfc_names l : forall c, map fst (rfc_numbers c l) = map fst l.
Proof. induction l as [|[n ov] l IH]; intros c; [reflexivity|]. cbn [rfc_numbers map fst]. now rewrite IH. Qed.
Lemma rfc_nth l : forall c i n w v, nth_error l i = Some (n, Some w) -> nth_error (rfc_numbers c l) i = Some (n, v) -> v = w.
Proof.
  induction l as [|[m ov] l IH]; intros c [|i] n w v E1 E2; try discriminate E1; cbn [nth_error rfc_numbers] in E1, E2.
  - injection E1 as -> ->. now injection E2.
  - exact (IH _ _ _ _ _ E1 E2).
Qed.
Lemma pairs_ext {A} (a b : list (str * A)) : map fst a = map fst b -> (forall i n v w, nth_error a i = Some (n, v) -> nth_error b i = Some (n, w) -> v = w) -> a = b.
Proof.
  revert b. induction a as [|[n v] a IH]; intros [|[m w] b] Hm H; try discriminate Hm; [reflexivity|]. cbn [map fst] in Hm. injection Hm as <- Hm.
  rewrite (H 0%nat n v w eq_refl eq_refl). f_equal. apply IH; [exact Hm|]. intros i k x y E1 E2. exact (H (S i) k x y E1 E2).
Qed.
Lemma fst_nth {A B} (a : list (str * A)) (b : list (str * B)) i n v : map fst a = map fst b -> nth_error a i = Some (n, v) -> exists w, nth_error b i = Some (n, w).
Proof.
  revert b i. induction a as [|[m x] a IH]; intros [|[m' y] b] [|i] Hm E; try discriminate; cbn [map fst] in Hm; injection Hm as <- Hm; cbn [nth_error] in *.
  - injection E as -> ->. now exists y.
  - exact (IH _ _ Hm E).
Qed.

Lemma exact_thm l : no_at l ->
  (enum_values l = Ok (rfc_numbers 0 l) <->
   forall i n r, nth_error l i = Some (n, None) -> nth_error (rfc_numbers 0 l) i = Some (n, r) -> nth_free l r i).
Proof.
  intros Hat. destruct (numbers_thm l Hat) as (vs & E & Em & Hv). split.
  - intros E' i n r H1 H2. rewrite E in E'. injection E' as ->. exact (Hv i n None r H1 H2).
  - intros H. rewrite E. f_equal. apply pairs_ext; [now rewrite Em, rfc_names|]. intros i n v w H1 H2.
    destruct (fst_nth _ l _ _ _ Em H1) as ([x|] & Hl).
    + rewrite (Hv i n _ v Hl H1). symmetry. exact (rfc_nth l 0 i n x w Hl H2).
    + exact (nth_free_unique l v w i (Hv i n _ v Hl H1) (H i n w Hl H2)).
Qed.

(** Names without numbers first. *)
Lemma rfc_first l l' : forall c, (forall p, In p l -> snd p = None) -> forall i n, nth_error l i = Some (n, None) ->
  nth_error (rfc_numbers c (l ++ l')) i = Some (n, c + Z.of_nat i).
Proof.
  induction l as [|[m ov] l IH]; intros c H [|i] n E; try discriminate E; cbn [nth_error app rfc_numbers] in *.
  - injection E as -> ->. now rewrite Z.add_0_r.
  - assert (ov = None) as -> by (apply (H (m, ov)); now left). rewrite Z.max_r by lia. rewrite (IH (c + 1)) with (n := n); [f_equal; f_equal; lia| |exact E].
    intros p Hp. apply H. now right.
Qed.
Lemma first_thm l l' : no_at (l ++ l') -> (forall p, In p l -> snd p = None) -> (forall p, In p l' -> snd p <> None) ->
  NoDup (map snd (rfc_numbers 0 (l ++ l'))) -> enum_values (l ++ l') = Ok (rfc_numbers 0 (l ++ l')).
Proof.
  intros Hat H H' Hd. apply exact_thm; [exact Hat|]. intros i n r E1 E2.
  assert (Hi : (i < length l)%nat).
  { destruct (Nat.lt_ge_cases i (length l)) as [K|K]; [exact K|]. rewrite nth_error_app2 in E1 by exact K. apply nth_error_In, H' in E1. now destruct E1. }
  assert (Hfree : forall j, (j < length l)%nat -> ~ given (l ++ l') (Z.of_nat j)).
  { intros j Hj (m & Hm). apply In_nth_error in Hm as [k Hk].
    destruct (nth_error l j) as [[a oa]|] eqn:Ea; [|apply nth_error_None in Ea; lia].
    assert (oa = None) as -> by (apply (H (a, oa)); now apply nth_error_In in Ea). pose proof (rfc_first l l' 0 H j a Ea) as Hr. rewrite Z.add_0_l in Hr.
    destruct (fst_nth _ (rfc_numbers 0 (l ++ l')) _ _ _ (eq_sym (rfc_names (l ++ l') 0)) Hk) as (w & Hw). pose proof (rfc_nth _ _ _ _ _ _ Hk Hw) as ->.
    assert (j = k).
    { apply (proj1 (NoDup_nth_error _) Hd); [rewrite map_length; apply nth_error_Some; now rewrite Hr|]. rewrite !nth_error_map, Hr, Hw. reflexivity. }
    subst k. rewrite nth_error_app1 in Hk by exact Hj. rewrite Ea in Hk. discriminate Hk. }
  rewrite nth_error_app1 in E1 by exact Hi. rewrite (rfc_first l l' 0 H i n E1) in E2. injection E2 as E2. assert (r = Z.of_nat i) as -> by lia. clear E1 E2.
  split; [lia|]. split; [now apply Hfree|]. exists (map Z.of_nat (seq 0 i)). split; [|split].
  - apply FinFun.Injective_map_NoDup; [intros a b; lia|apply seq_NoDup].
  - now rewrite map_length, seq_length.
  - intros x. rewrite in_map_iff. split.
    + intros (j & <- & Hj). apply in_seq in Hj. split; [lia|]. apply Hfree. lia.
    + intros [Hx _]. exists (Z.to_nat x). split; [lia|]. apply in_seq. lia.
Qed.
