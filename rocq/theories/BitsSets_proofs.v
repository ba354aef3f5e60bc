(** Lemmas about bits leaves as sets. *)
From Verif Require Import PyStr PyStr_facts PyVal Restricted Bits Bits_proofs Spec_Types BitsSets Spec_BitsSets.
From Coq Require Import Permutation.
Import ListNotations.
Local Open Scope list_scope.

Lemma union_In u : forall l x, In x (set_union l u) <-> In x l \/ In x u.
Proof.
  induction u as [|b u IH]; intros l x; cbn [set_union fold_left In]; [tauto|]. fold (set_union (if str_in b l then l else l ++ [b]) u). rewrite IH.
  destruct (str_in b l) eqn:E.
  - apply str_in_In in E. split; [tauto|]. intros [H|[<-|H]]; auto.
  - rewrite in_app_iff. cbn [In]. tauto.
Qed.
Lemma union_NoDup u : forall l, NoDup l -> NoDup (set_union l u).
Proof.
  induction u as [|b u IH]; intros l H; [exact H|]. cbn [set_union fold_left]. fold (set_union (if str_in b l then l else l ++ [b]) u). apply IH.
  destruct (str_in b l) eqn:E; [exact H|]. apply NoDup_snoc; [exact H|]. now apply str_in_false.
Qed.
Lemma minus_In l u x : In x (set_minus l u) <-> In x l /\ ~ In x u.
Proof. unfold set_minus. rewrite filter_In. destruct (str_in x u) eqn:E; cbn [negb]; [apply str_in_In in E|apply str_in_false in E]; intuition discriminate. Qed.
Lemma inter_In l u x : In x (set_inter l u) <-> In x l /\ In x u.
Proof. unfold set_inter. rewrite filter_In, str_in_In. tauto. Qed.

Lemma own_fst allowed l o l' : bits_op allowed l o = (l', Ok tt) -> forall x, In x l' <-> meaning (Own o) l x.
Proof.
  intros E x. pose proof (op_members allowed l o x) as H. rewrite E in H. cbn [fst] in H. rewrite H. pose proof (op_refused allowed l o) as R. rewrite E in R. cbn [snd] in R.
  destruct o as [b|b|b| |i]; cbn [meaning]; try tauto.
  - destruct R as [_ R]. destruct (in_dec (list_eq_dec N.eq_dec) b (map fst allowed)) as [D|D]; [tauto|]. specialize (R D). discriminate R.
  - destruct R as [_ R]. destruct (in_dec (list_eq_dec N.eq_dec) b (map fst allowed)) as [D|D]; [tauto|]. specialize (R D). discriminate R.
Qed.
Lemma own_raise allowed l o l' e : bits_op allowed l o = (l', Raise e) -> l' = l.
Proof.
  intros E. destruct o as [b|b|b| |i]; cbn [bits_op] in E.
  - destruct (bits_add allowed l b); inversion E; reflexivity.
  - destruct (str_in _ _); inversion E; reflexivity.
  - destruct (str_in _ _); inversion E; reflexivity.
  - inversion E.
  - destruct (nth_error l i); inversion E; reflexivity.
Qed.
Lemma step_members allowed helper s o :
  (forall r, snd (set_step allowed helper s o) = Ok r -> forall x, In x (held (fst (set_step allowed helper s o))) <-> meaning o (held s) x) /\
  (forall e, snd (set_step allowed helper s o) = Raise e -> held (fst (set_step allowed helper s o)) = held s).
Proof.
  destruct o as [o|u|u|u|u].
  - assert (G : (forall l', bits_op allowed (held s) o = (l', Ok tt) -> forall x, In x l' <-> meaning (Own o) (held s) x) /\ (forall l' e, bits_op allowed (held s) o = (l', Raise e) -> l' = held s))
      by (split; [exact (own_fst allowed (held s) o)|exact (own_raise allowed (held s) o)]).
    destruct G as [G1 G2]. remember (bits_op allowed (held s) o) as p eqn:Ep. destruct p as [l' [[]|e']]; symmetry in Ep.
    + specialize (G1 l' eq_refl). clear G2.
      destruct o as [b|b|b| |i]; cbn [set_step]; try destruct helper; try rewrite Ep; cbn [fst snd held]; (split; [intros r Hr; try discriminate Hr; exact G1|intros e He; try discriminate He; reflexivity]).
    + specialize (G2 l' e' eq_refl). clear G1. subst l'.
      destruct o as [b|b|b| |i]; cbn [set_step]; try destruct helper; try rewrite Ep; cbn [fst snd held]; (split; [intros r Hr; discriminate Hr|intros e He; reflexivity]).
  - cbn [set_step fst snd held meaning]. split; [intros r _ x; apply union_In|discriminate].
  - cbn [set_step fst snd held meaning]. split; [intros r _ x; apply inter_In|discriminate].
  - cbn [set_step fst snd held meaning]. split; [intros r _ x; apply minus_In|discriminate].
  - cbn [set_step fst snd held meaning]. split; [intros r _ x; rewrite union_In, !minus_In; tauto|discriminate].
Qed.

Lemma step_own_legal allowed helper s o : legal allowed (held s) -> legal allowed (held (fst (set_step allowed helper s (Own o)))).
Proof.
  intros H. pose proof (op_legal allowed (held s) o H) as L. remember (bits_op allowed (held s) o) as p eqn:Ep. destruct p as [l' [[]|e']]; symmetry in Ep; cbn [fst] in L;
    destruct o as [b|b|b| |i]; cbn [set_step]; try destruct helper; try rewrite Ep; cbn [fst held]; assumption.
Qed.
Lemma step_legal allowed helper s o : legal allowed (held s) ->
  (legal allowed (held (fst (set_step allowed helper s o))) <-> forall x, brings o (held s) x -> In x (map fst allowed)).
Proof.
  intros H. destruct o as [o|u|u|u|u].
  - split; [intros _ x []|]. intros _. now apply step_own_legal.
  - cbn [set_step fst held brings]. destruct H as [H1 H2]. split.
    + intros [_ L] x [Hx _]. apply L, union_In. now right.
    + intros G. split; [now apply union_NoDup|]. intros x Hx. apply union_In in Hx. destruct (in_dec (list_eq_dec N.eq_dec) x (held s)) as [D|D]; [now apply H2|].
      apply G. split; [tauto|exact D].
  - cbn [set_step fst held brings]. destruct H as [H1 H2]. split; [intros _ x []|]. intros _. split; [now apply NoDup_filter|]. intros x Hx. apply inter_In in Hx. now apply H2.
  - cbn [set_step fst held brings]. destruct H as [H1 H2]. split; [intros _ x []|]. intros _. split; [now apply NoDup_filter|]. intros x Hx. apply minus_In in Hx. now apply H2.
  - cbn [set_step fst held brings]. destruct H as [H1 H2]. split.
    + intros [_ L] x Hx. apply L, union_In. right. now apply minus_In.
    + intros G. split; [apply union_NoDup; now apply NoDup_filter|]. intros x Hx. apply union_In in Hx. rewrite !minus_In in Hx. destruct Hx as [[Hx _]|Hx]; [now apply H2|now apply G].
Qed.
Lemma run_sets allowed helper ops : forall s, legal allowed (held s) ->
  Forall (fun o => match o with Update u | SymUpdate u => forall x, In x u -> In x (map fst allowed) | _ => True end) ops ->
  legal allowed (held (set_run allowed helper s ops)).
Proof.
  induction ops as [|o ops IH]; intros s H F; [exact H|]. inversion F as [|? ? Fo F']; subst. cbn [set_run fold_left]. apply IH; [|exact F'].
  apply step_legal; [exact H|]. intros x Hx. destruct o as [o|u|u|u|u]; cbn [brings] in Hx; try destruct Hx; now apply Fo.
Qed.

Lemma step_flags allowed helper s o :
  (inherited o = true -> mchanged (fst (set_step allowed helper s o)) = mchanged s) /\
  (inherited o = false -> forall r, snd (set_step allowed helper s o) = Ok r -> mchanged (fst (set_step allowed helper s o)) = true) /\
  (forall e, snd (set_step allowed helper s o) = Raise e -> mchanged (fst (set_step allowed helper s o)) = (mchanged s || through_leaf o)%bool) /\
  told (fst (set_step allowed helper s o)) = (told s || through_leaf o)%bool.
Proof.
  destruct o as [o|u|u|u|u]; cbn [inherited through_leaf]; try (cbn [set_step fst mchanged told]; rewrite ?Bool.orb_false_r; split; [reflexivity|]; split; [discriminate|]; split; [discriminate|reflexivity]).
  split; [discriminate|]. remember (bits_op allowed (held s) o) as p eqn:Ep. destruct p as [l' [[]|e']]; symmetry in Ep;
    destruct o as [b|b|b| |i]; cbn [set_step]; try destruct helper; try rewrite Ep; cbn [fst snd mchanged told]; rewrite ?Bool.orb_false_r, ?Bool.orb_true_r; (split; [intros _ r Hr; try discriminate Hr; reflexivity|]); (split; [intros e He; try discriminate He; reflexivity|reflexivity]).
Qed.

Lemma text_thm allowed l : ((exists t, bits_text allowed l = Ok t) <-> forall b, In b l -> In b (map fst allowed)) /\
  ((forall b, In b l -> In b (map fst allowed)) -> bits_text allowed l = Ok (bits_str allowed l)) /\
  (forall b, In b l -> ~ In b (map fst allowed) -> bits_text allowed l = Raise KeyError).
Proof.
  unfold bits_text. destruct (forallb _ l) eqn:E.
  - rewrite forallb_forall in E. assert (A : forall b, In b l -> In b (map fst allowed)) by (intros b Hb; apply str_in_In, E, Hb).
    split; [split; [intros _; exact A|intros _; eexists; reflexivity]|]. split; [reflexivity|]. intros b Hb N. destruct (N (A b Hb)).
  - assert (A : ~ forall b, In b l -> In b (map fst allowed)). { intros A. assert (forallb (fun b => str_in b (map fst allowed)) l = true) as T by (apply forallb_forall; intros b Hb; apply str_in_In, A, Hb). rewrite T in E. discriminate E. }
    split; [split; [intros [t Ht]; discriminate Ht|intros B; destruct (A B)]|]. split; [intros B; destruct (A B)|reflexivity].
Qed.

Lemma step_returns allowed helper s o : snd (set_step allowed helper s o) = Ok None <-> returns allowed helper (held s) o.
Proof.
  destruct o as [o|u|u|u|u]; cbn [returns]; try (cbn [set_step snd]; tauto).
  pose proof (op_refused allowed (held s) o) as R. destruct o as [b|b|b| |i].
  - destruct R as [R1 R2]. cbn [set_step]. destruct (in_dec (list_eq_dec N.eq_dec) b (map fst allowed)) as [D|D].
    + specialize (R1 D). destruct (bits_op allowed (held s) (BAdd b)) as [l' r]. cbn [snd] in R1. subst r. cbn [snd]. tauto.
    + rewrite (R2 D). cbn [snd]. split; [discriminate|tauto].
  - destruct R as [R1 R2]. cbn [set_step]. destruct (in_dec (list_eq_dec N.eq_dec) b (map fst allowed)) as [D|D].
    + specialize (R1 D). destruct (bits_op allowed (held s) (BDiscard b)) as [l' r]. cbn [snd] in R1. subst r. cbn [snd]. tauto.
    + rewrite (R2 D). cbn [snd]. split; [discriminate|tauto].
  - destruct R as [R1 R2]. cbn [set_step]. destruct helper; [cbn [snd]; split; [discriminate|intros [H _]; discriminate H]|]. destruct (in_dec (list_eq_dec N.eq_dec) b (held s)) as [D|D].
    + specialize (R1 D). destruct (bits_op allowed (held s) (BRemove b)) as [l' r]. cbn [snd] in R1. subst r. cbn [snd]. tauto.
    + rewrite (R2 D). cbn [snd]. split; [discriminate|tauto].
  - cbn [set_step bits_op snd]. tauto.
  - cbn [set_step bits_op]. destruct (nth_error (held s) i) as [b|] eqn:E; cbn [snd].
    + split; [intros _|reflexivity]. apply nth_error_Some. rewrite E. discriminate.
    + apply nth_error_None in E. split; [discriminate|]. intros H. apply PeanoNat.Nat.lt_nge in H. destruct (H E).
Qed.
Lemma removes_thm allowed bs : forall s,
  held (set_run allowed true s (map (fun b => Own (BRemove b)) bs)) = held s /\
  forall x, In x (held (set_run allowed false s (map (fun b => Own (BRemove b)) bs))) <-> In x (held s) /\ ~ In x bs.
Proof.
  induction bs as [|b bs IH]; intros s; [split; [reflexivity|cbn [map set_run fold_left In]; tauto]|]. cbn [map set_run fold_left].
  destruct (IH (fst (set_step allowed true s (Own (BRemove b))))) as [A _]. destruct (IH (fst (set_step allowed false s (Own (BRemove b))))) as [_ B].
  split; [exact A|]. intros x. unfold set_run in B. rewrite B. assert (E : In x (held (fst (set_step allowed false s (Own (BRemove b))))) <-> In x (held s) /\ x <> b).
  { cbn [set_step bits_op]. destruct (str_in b (held s)) eqn:E; cbn [fst held]; [apply remove_str_In|]. apply str_in_false in E. split; [intros H; split; [exact H|intros ->; contradiction]|tauto]. }
  rewrite E. cbn [In]. split; [intros [[H1 H2] H3]; split; [exact H1|intros [G|G]; [symmetry in G|]; contradiction]|intros [H1 H2]; split; [split; [exact H1|intros ->; apply H2; now left]|tauto]].
Qed.

Lemma stmt_thm allowed s o : inherited o = true ->
  snd (set_stmt allowed s o) = Raise AttributeError /\ (forall x, In x (held (fst (set_stmt allowed s o))) <-> meaning o (held s) x) /\
  mchanged (fst (set_stmt allowed s o)) = mchanged s /\ told (fst (set_stmt allowed s o)) = true.
Proof.
  intros H. unfold set_stmt. cbn [yang_bits fst snd held mchanged told]. split; [reflexivity|]. split; [|split; [exact (proj1 (step_flags allowed false s o) H)|reflexivity]].
  apply (proj1 (step_members allowed false s o) None). apply step_returns. destruct o; [discriminate H|exact I..].
Qed.
