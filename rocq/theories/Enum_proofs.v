From Verif Require Import PyStr PyStr_facts PyVal Enum.
From Coq Require Import Lia ZifyBool ZifyNat Permutation.
Local Open Scope Z_scope.

Lemma Forall2_weaken {A B} (P Q : A -> B -> Prop) l m :
  (forall a b, P a b -> Q a b) -> Forall2 P l m -> Forall2 Q l m.
Proof. intros H F. induction F; constructor; auto. Qed.

Lemma z_in_In c l : z_in c l = true <-> In c l.
Proof. induction l as [|x l IH]; cbn; [intuition discriminate|]. rewrite orb_true_iff, IH. intuition lia. Qed.

(** All of c, c+1, ..., c+n-1 used means at least n used values. *)
Lemma run_length used : forall n c, (forall i, c <= i < c + Z.of_nat n -> In i used) -> (n <= length used)%nat.
Proof.
  intros n c H.
  set (run := map (fun k => c + Z.of_nat k) (seq 0 n)).
  assert (Hnd : NoDup run).
  { apply FinFun.Injective_map_NoDup; [intros a b E; lia|apply seq_NoDup]. }
  assert (Hincl : incl run used).
  { intros x Hx. apply in_map_iff in Hx. destruct Hx as (k & <- & Hk). apply in_seq in Hk. apply H. lia. }
  pose proof (NoDup_incl_length Hnd Hincl) as Hl. unfold run in Hl. now rewrite map_length, seq_length in Hl.
Qed.

Lemma bump_spec used : forall fuel c,
  (exists k, bump fuel used c = Ok (c + Z.of_nat k) /\ (k < fuel)%nat /\ ~ In (c + Z.of_nat k) used /\
             forall i, c <= i < c + Z.of_nat k -> In i used) \/
  (bump fuel used c = Raise OutOfFuel /\ forall i, c <= i < c + Z.of_nat fuel -> In i used).
Proof.
  induction fuel as [|f IH]; intros c; [right; split; [reflexivity|lia]|].
  cbn [bump]. destruct (z_in c used) eqn:E.
  - apply z_in_In in E. destruct (IH (c + 1)) as [(k & Hk & Hf & Hn & Hall)|[Hr Hall]].
    + left. exists (S k). replace (c + Z.of_nat (S k)) with (c + 1 + Z.of_nat k) by lia.
      split; [assumption|]. split; [lia|]. split; [assumption|].
      intros i Hi. destruct (Z.eq_dec i c); [subst; assumption|]. apply Hall. lia.
    + right. split; [assumption|]. intros i Hi. destruct (Z.eq_dec i c); [subst; assumption|]. apply Hall. lia.
  - left. exists 0%nat. rewrite Z.add_0_r. split; [reflexivity|]. split; [lia|]. split.
    + intros H. apply z_in_In in H. congruence.
    + intros i Hi. lia.
Qed.

Lemma bump_fuel_enough used c : exists k : nat,
  bump (S (length used)) used c = Ok (c + Z.of_nat k) /\ ~ In (c + Z.of_nat k) used /\
  forall i, c <= i < c + Z.of_nat k -> In i used.
Proof.
  destruct (bump_spec used (S (length used)) c) as [(k & H1 & _ & H2 & H3)|[_ H]]; [now exists k|].
  apply run_length in H. lia.
Qed.

(** Independent description of the numbers given to the names without value. *)

Lemma number_from_spec used : forall l c, (forall v, In v (used_values l) -> In v used) ->
  exists r,
  number_from used c l = Ok r /\ map fst r = map fst l /\
  Forall2 (fun p q => match snd p with Some v => snd q = v | None => c <= snd q /\ ~ In (snd q) used end) l r /\
  (NoDup (used_values l) -> NoDup (map snd r)).
Proof.
  induction l as [|[n ov] l IH]; intros c Hu.
  - exists []. cbn. repeat split; try constructor.
  - cbn [number_from]. destruct (bump_fuel_enough used c) as (k & Hb & Hn & _). rewrite Hb. cbn [bind].
    assert (Hu' : forall v, In v (used_values l) -> In v used).
    { intros v Hv. apply Hu. destruct ov; cbn; [right|]; assumption. }
    destruct (IH (c + Z.of_nat k + 1) Hu') as (r & Hr & Hm & H2 & Hnd). rewrite Hr. cbn [bind].
    eexists. split; [reflexivity|]. split; [cbn; now rewrite Hm|]. split.
    + constructor; [cbn; destruct ov; [reflexivity|split; [lia|assumption]]|].
      eapply Forall2_weaken; [|exact H2]. intros p q. cbn. destruct (snd p); [auto|]. intros [? ?]; split; [lia|assumption].
    + intros Hnodup. cbn [map snd].
      assert (Hmem : forall v, In v (map snd r) -> In v (used_values l) \/ (c + Z.of_nat k + 1 <= v /\ ~ In v used)).
      { clear -H2. intros v Hv. induction H2 as [|p q l r Hpq H2 IH]; [contradiction|].
        destruct p as [n' ov]. cbn [map] in Hv. cbn in Hpq. destruct Hv as [E|Hv].
        - subst v. destruct ov as [w|]; cbn; [left; left; now symmetry|right; assumption].
        - destruct (IH Hv) as [H|H]; [left|right; assumption]. destruct ov; cbn; [right|]; assumption. }
      constructor.
      * intros Hv. destruct (Hmem _ Hv) as [H|[H H']]; destruct ov as [v|]; cbn in *.
        -- inversion Hnodup; contradiction.
        -- apply Hn. now apply Hu'.
        -- apply H'. apply Hu. now left.
        -- lia.
      * apply Hnd. destruct ov; cbn in Hnodup; [now inversion Hnodup|assumption].
Qed.

Lemma number_from_plain : forall l c, (forall p, In p l -> snd p = None) ->
  number_from [] c l = Ok (combine (map fst l) (map (fun k => c + Z.of_nat k) (seq 0 (length l)))).
Proof.
  induction l as [|[n ov] l IH]; intros c H; [reflexivity|].
  cbn [number_from]. assert (Hb : bump (S (length (@nil Z))) [] c = Ok c) by reflexivity.
  rewrite Hb. cbn [bind]. rewrite (IH (c + 1)) by (intros p Hp; apply H; now right).
  cbn [bind length map combine seq fst].
  assert (ov = None) as -> by (apply (H (n, ov)); now left).
  assert (E : map (fun k => c + 1 + Z.of_nat k) (seq 0 (length l)) = map (fun k => c + Z.of_nat k) (seq 1 (length l))).
  { rewrite <- seq_shift, map_map. apply map_ext. intros k. lia. }
  rewrite E. change (Z.of_nat 0) with 0. rewrite Z.add_0_r. reflexivity.
Qed.

Lemma used_none l : (forall p, In p l -> snd p = None) -> used_values l = [].
Proof.
  induction l as [|[n ov] l IH]; intros H; [reflexivity|]. cbn.
  assert (ov = None) as -> by (apply (H (n, ov)); now left). apply IH. intros p Hp. apply H. now right.
Qed.

Lemma lookup_val_In n v l : NoDup (map fst l) -> In (n, v) l -> lookup_val n l = Some v.
Proof.
  induction l as [|[m w] l IH]; [contradiction|]. cbn. intros Hnd [E|Hin].
  - injection E as -> ->. now rewrite str_eqb_refl.
  - inversion Hnd as [|? ? Hni Hnd']; subst. destruct (str_eqb m n) eqn:E.
    + apply str_eqb_eq in E. subst. exfalso. apply Hni. apply in_map_iff. now exists (n, v).
    + now apply IH.
Qed.
