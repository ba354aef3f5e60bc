(** What holds after any calls. *)
From Coq Require Import Lia Sorted.
From Verif Require Import PyStr PyStr_facts PyVal PathHelper Spec_Path PathText_proofs PathHelper_proofs PathSim_proofs.

(* ------------------------------------------------------------------ addresses *)
Fixpoint lexlt (a b : list nat) : Prop :=
  match a, b with i :: a', j :: b' => (i < j)%nat \/ (i = j /\ lexlt a' b') | _, _ => False end.
Lemma lexlt_trans a b c : lexlt a b -> lexlt b c -> lexlt a c.
Proof.
  revert b c. induction a as [|i a IH]; intros [|j b] [|k c]; cbn [lexlt]; try tauto. intros [H1|[-> H1]] [H2|[-> H2]]; [left; lia|left; lia|left; lia|right; split; [reflexivity|now apply (IH b)]].
Qed.
Lemma lexlt_neq a b : lexlt a b -> a <> b.
Proof. intros H <-. induction a as [|i a IH]; [contradiction|]. cbn in H. destruct H as [H|[_ H]]; [lia|contradiction]. Qed.
Lemma lexlt_snoc a b i j : lexlt a b -> length a = length b -> lexlt (a ++ [i]) (b ++ [j]).
Proof.
  revert b. induction a as [|x a IH]; intros [|y b] H Hl; cbn [lexlt app] in *; try contradiction. destruct H as [H|[-> H]]; [now left|right; split; [reflexivity|]]. apply IH; [assumption|]. cbn in Hl. lia.
Qed.
Lemma lexlt_same a i j : (i < j)%nat -> lexlt (a ++ [i]) (a ++ [j]).
Proof. induction a as [|x a IH]; intros H; cbn [app lexlt]; [now left|right; split; [reflexivity|now apply IH]]. Qed.
Lemma lexlt_parent a b : lexlt a b -> length a = length b -> removelast a = removelast b \/ lexlt (removelast a) (removelast b).
Proof.
  revert b. induction a as [|x a IH]; intros [|y b] H Hl; cbn [lexlt] in H; try contradiction. destruct a as [|x2 a], b as [|y2 b]; try discriminate; [now left|].
  change (removelast (x :: x2 :: a)) with (x :: removelast (x2 :: a)). change (removelast (y :: y2 :: b)) with (y :: removelast (y2 :: b)). cbn [lexlt].
  destruct H as [H|[-> H]]; [right; now left|]. destruct (IH (y2 :: b) H) as [-> | H']; [cbn in *; lia|now left|]. right. right. now split.
Qed.
Lemma addr_eqb_eq a b : addr_eqb a b = true <-> a = b.
Proof.
  revert b. induction a as [|i a IH]; intros [|j b]; cbn [addr_eqb]; split; intros H; try reflexivity; try discriminate.
  - apply andb_prop in H as [H1 H2]. apply Nat.eqb_eq in H1. apply IH in H2. now subst.
  - injection H as -> ->. rewrite Nat.eqb_refl. now apply IH.
Qed.

(** Addresses of nodes, all of the same depth and in document order. *)
Definition proper (root : xelem) (as_ : list (list nat)) : Prop :=
  StronglySorted lexlt as_ /\ (exists n, Forall (fun a => length a = n) as_) /\ Forall (fun a => node_at a root <> None) as_.
Lemma node_snoc a i root : node_at (a ++ [i]) root = match node_at a root with Some e => nth_error (x_kids e) i | None => None end.
Proof.
  revert root. induction a as [|j a IH]; intros root; cbn [app node_at]; [now destruct (nth_error (x_kids root) i)|]. destruct (nth_error (x_kids root) j); [apply IH|reflexivity].
Qed.
Lemma node_parent a root : a <> [] -> node_at a root <> None -> node_at (removelast a) root <> None.
Proof. intros Ha H. destruct (exists_last Ha) as (a0 & i & ->). rewrite removelast_last. rewrite node_snoc in H. destruct (node_at a0 root); [discriminate|congruence]. Qed.
Lemma hits_range t ats ks : forall j, StronglySorted lt (child_hits j t ats ks) /\ Forall (fun i => (j <= i < j + length ks)%nat) (child_hits j t ats ks).
Proof.
  induction ks as [|c ks IH]; intros j; cbn [child_hits]; [split; constructor|]. destruct (IH (S j)) as [I1 I2].
  assert (I3 : Forall (fun i => (j <= i < j + length (c :: ks))%nat) (child_hits (S j) t ats ks)) by (eapply Forall_impl; [|exact I2]; cbn [length]; intros; cbn in *; lia).
  destruct (matches t ats c); [|now split]. split.
  - constructor; [assumption|]. eapply Forall_impl; [|exact I2]. cbn. intros. lia.
  - constructor; [cbn [length]; lia|assumption].
Qed.
Lemma sorted_app {B} (R : B -> B -> Prop) l m : StronglySorted R l -> StronglySorted R m -> (forall x y, In x l -> In y m -> R x y) -> StronglySorted R (l ++ m).
Proof.
  intros Hl Hm H. induction Hl as [|x l Hl IH Hx]; [assumption|]. cbn [app]. constructor.
  - apply IH. intros a b Ha Hb. apply H; [now right|assumption].
  - apply Forall_app. split; [assumption|]. apply Forall_forall. intros y Hy. apply H; [now left|assumption].
Qed.
Lemma sorted_map {B C} (R : B -> B -> Prop) (S : C -> C -> Prop) f l : (forall x y, R x y -> S (f x) (f y)) -> StronglySorted R l -> StronglySorted S (map f l).
Proof. intros H Hl. induction Hl as [|x l Hl IH Hx]; cbn [map]; constructor; [assumption|]. apply Forall_forall. intros y Hy. apply in_map_iff in Hy as (z & <- & Hz). rewrite Forall_forall in Hx. auto. Qed.
Lemma sorted_filter {B} (R : B -> B -> Prop) f l : StronglySorted R l -> StronglySorted R (filter f l).
Proof. intros Hl. induction Hl as [|x l Hl IH Hx]; cbn [filter]; [constructor|]. destruct (f x); [|assumption]. constructor; [assumption|]. apply Forall_forall. intros y Hy. apply filter_In in Hy as [Hy _]. rewrite Forall_forall in Hx. auto. Qed.
Lemma dedup_in l a : In a (dedup l) -> In a l.
Proof. induction l as [|b l IH]; cbn [dedup]; intros H; [assumption|]. destruct H as [<-|H]; [now left|]. apply filter_In in H as [H _]. right. now apply IH. Qed.
Lemma dedup_sorted l : StronglySorted (fun a b => a = b \/ lexlt a b) l -> StronglySorted lexlt (dedup l).
Proof.
  intros Hl. induction Hl as [|x l Hl IH Hx]; cbn [dedup]; constructor; [now apply sorted_filter|]. apply Forall_forall. intros y Hy. apply filter_In in Hy as [Hy E]. rewrite Forall_forall in Hx.
  destruct (Hx y (dedup_in l y Hy)) as [<-|H]; [|assumption]. assert (Ex : addr_eqb x x = true) by (now apply addr_eqb_eq). rewrite Ex in E. discriminate.
Qed.

Lemma step_proper root s as_ : proper root as_ -> proper root (step_from root s as_).
Proof.
  intros (Hs & (n & Hn) & Hv). destruct s as [| |t ats]; cbn [step_from].
  - destruct n as [|n].
    + assert (E : flat_map (fun a : list nat => match a with [] => [] | _ => [removelast a] end) as_ = []).
      { clear Hs Hv. induction Hn as [|a l Ha Hn IH]; [reflexivity|]. destruct a; [exact IH|discriminate]. }
      rewrite E. split; [constructor|]. split; [exists 0%nat; constructor|constructor].
    + assert (E : flat_map (fun a : list nat => match a with [] => [] | _ => [removelast a] end) as_ = map (@removelast nat) as_).
      { clear Hs Hv. induction Hn as [|a l Ha Hn IH]; [reflexivity|]. cbn [flat_map map]. rewrite IH. destruct a; [discriminate|reflexivity]. }
      rewrite E. clear E. assert (W : StronglySorted (fun a b => a = b \/ lexlt a b) (map (@removelast nat) as_)).
      { clear Hv. induction Hs as [|x l Hl IH Hx]; cbn [map]; [constructor|]. inversion Hn as [|? ? H1 H2]; subst. constructor; [now apply IH|].
        apply Forall_forall. intros y Hy. apply in_map_iff in Hy as (z & <- & Hz). rewrite Forall_forall in Hx, H2. apply lexlt_parent; [now apply Hx|]. rewrite H1. symmetry. now apply H2. }
      split; [now apply dedup_sorted|]. rewrite Forall_forall in Hn, Hv. split.
      * exists n. apply Forall_forall. intros a Ha. apply dedup_in in Ha. apply in_map_iff in Ha as (b & <- & Hb). specialize (Hn b Hb). destruct (exists_last (l := b)) as (b0 & i & ->); [intros ->; discriminate|].
        rewrite removelast_last. rewrite app_length in Hn. cbn in Hn. lia.
      * apply Forall_forall. intros a Ha. apply dedup_in in Ha. apply in_map_iff in Ha as (b & <- & Hb). apply node_parent; [|now apply Hv]. intros ->. now specialize (Hn [] Hb).
  - split; [assumption|]. split; [now exists n|assumption].
  - set (g := fun a => match node_at a root with Some e => map (fun i => a ++ [i]) (child_hits 0 t ats (x_kids e)) | None => [] end).
    assert (G : forall a x, In x (g a) -> exists i, x = a ++ [i] /\ node_at x root <> None).
    { intros a x Hx. unfold g in Hx. destruct (node_at a root) as [e|] eqn:E; [|contradiction]. apply in_map_iff in Hx as (i & <- & Hi). exists i. split; [reflexivity|]. rewrite node_snoc, E.
      destruct (hits_range t ats (x_kids e) 0) as [_ Hr]. rewrite Forall_forall in Hr. apply nth_error_Some. specialize (Hr i Hi). lia. }
    split; [|split].
    + clear Hv. induction Hs as [|x l Hl IH Hx]; [constructor|]. inversion Hn as [|? ? H1 H2]; subst. cbn [flat_map]. apply sorted_app; [|now apply IH|].
      * unfold g. destruct (node_at x root) as [e|]; [|constructor]. apply (sorted_map lt lexlt); [intros; now apply lexlt_same|apply hits_range].
      * intros a b Ha Hb. apply in_flat_map in Hb as (y & Hy & Hb). destruct (G x a Ha) as (i & -> & _), (G y b Hb) as (j & -> & _). rewrite Forall_forall in Hx, H2. apply lexlt_snoc; [now apply Hx|]. symmetry. now apply H2.
    + exists (S n). apply Forall_forall. intros a Ha. apply in_flat_map in Ha as (y & Hy & Ha). destruct (G y a Ha) as (i & -> & _). rewrite Forall_forall in Hn. rewrite app_length, (Hn y Hy). cbn. lia.
    + apply Forall_forall. intros a Ha. apply in_flat_map in Ha as (y & Hy & Ha). now destruct (G y a Ha) as (i & _ & H).
Qed.
Lemma eval_proper root ss : proper root (eval_steps root ss).
Proof.
  unfold eval_steps. assert (G : forall ss as_, proper root as_ -> proper root (fold_left (fun as_ s => step_from root s as_) ss as_)).
  { induction ss0 as [|s ss0 IH]; intros as_ H; [assumption|]. cbn [fold_left]. apply IH. now apply step_proper. }
  apply G. split; [constructor; constructor|]. split; [exists 0%nat; now constructor|]. constructor; [discriminate|constructor].
Qed.
Lemma get_etree_proper caller path root as_ : get_etree caller path root = Ok as_ -> proper root as_.
Proof.
  unfold get_etree. destruct (relative path).
  - destruct caller as [|c caller]; [discriminate|]. destruct (encode_path (c :: caller)); [|discriminate]. cbn [bind]. destruct (encode_path path); [|discriminate]. cbn [bind]. intros H. injection H as <-. apply eval_proper.
  - destruct (encode_path path); [|discriminate]. cbn [bind]. intros H. injection H as <-. apply eval_proper.
Qed.

(* ------------------------------------------------------------------ pointers *)
Lemma pointers_cons e : pointers e = pointer e :: flat_map pointers (x_kids e).
Proof. now destruct e. Qed.
Lemma split_nth {B} (l : list B) i b : nth_error l i = Some b -> exists l1 l2, l = l1 ++ b :: l2 /\ length l1 = i.
Proof. intros H. now apply nth_error_split in H. Qed.
Lemma upd_nth_mid {B} (f : B -> B) l1 b l2 : upd_nth (length l1) f (l1 ++ b :: l2) = l1 ++ f b :: l2.
Proof. induction l1 as [|x l1 IH]; [reflexivity|]. cbn [length app upd_nth]. now rewrite IH. Qed.
Lemma del_nth_mid {B} l1 (b : B) l2 : del_nth (length l1) (l1 ++ b :: l2) = l1 ++ l2.
Proof. induction l1 as [|x l1 IH]; [reflexivity|]. cbn [length app del_nth]. now rewrite IH. Qed.
Lemma pointers_at a : forall e x, node_at a e = Some x -> exists l1 l2, pointers e = l1 ++ pointers x ++ l2 /\ forall f, pointers (upd_at a f e) = l1 ++ pointers (f x) ++ l2.
Proof.
  induction a as [|i a IH]; intros e x H; cbn [node_at] in H.
  - injection H as <-. exists [], []. split; [now rewrite app_nil_r|]. intros f. cbn [upd_at app]. now rewrite app_nil_r.
  - destruct (nth_error (x_kids e) i) as [c|] eqn:Ec; [|discriminate]. destruct (IH c x H) as (l1 & l2 & E1 & E2). destruct e as [t ats ks]. cbn [x_kids] in Ec. destruct (split_nth ks i c Ec) as (k1 & k2 & -> & <-).
    exists (look (lit "obj_ptr") ats :: flat_map pointers k1 ++ l1), (l2 ++ flat_map pointers k2). split.
    + cbn [pointers]. rewrite flat_map_app. cbn [flat_map]. rewrite E1. cbn [app]. now rewrite <- !app_assoc.
    + intros f. cbn [upd_at pointers]. rewrite upd_nth_mid, flat_map_app. cbn [flat_map]. rewrite E2. cbn [app]. now rewrite <- !app_assoc.
Qed.
Lemma pointers_drop a : forall e x, a <> [] -> node_at a e = Some x -> exists l1 l2, pointers e = pointer e :: l1 ++ pointers x ++ l2 /\ pointers (drop_at a e) = pointer e :: l1 ++ l2.
Proof.
  induction a as [|i a IH]; intros e x Ha H; [congruence|]. cbn [node_at] in H. destruct (nth_error (x_kids e) i) as [c|] eqn:Ec; [|discriminate].
  destruct e as [t ats ks]. cbn [x_kids] in Ec. destruct (split_nth ks i c Ec) as (k1 & k2 & -> & <-). destruct a as [|j a].
  - cbn [node_at] in H. injection H as <-. exists (flat_map pointers k1), (flat_map pointers k2). cbn [drop_at pointers]. rewrite del_nth_mid, !flat_map_app. now split.
  - destruct (IH c x ltac:(discriminate) H) as (l1 & l2 & E1 & E2).
    exists (flat_map pointers k1 ++ pointer c :: l1), (l2 ++ flat_map pointers k2). change (drop_at (length k1 :: j :: a) (El t ats (k1 ++ c :: k2))) with (El t ats (upd_nth (length k1) (drop_at (j :: a)) (k1 ++ c :: k2))).
    cbn [pointers]. rewrite upd_nth_mid, !flat_map_app. cbn [flat_map]. rewrite E1, E2. split; cbn [app]; rewrite <- !app_assoc; cbn [app]; now rewrite <- ?app_assoc.
Qed.
Lemma node_pointer a e x : node_at a e = Some x -> In (pointer x) (pointers e).
Proof. intros H. destruct (pointers_at a e x H) as (l1 & l2 & -> & _). apply in_or_app. right. apply in_or_app. left. rewrite pointers_cons. now left. Qed.
Lemma drop_other a : forall b e, lexlt a b -> length a = length b -> node_at b e <> None -> node_at a (drop_at b e) = node_at a e.
Proof.
  induction a as [|i a IH]; intros [|j b] e H Hl Hv; cbn [lexlt] in H; try contradiction. destruct e as [t ats ks]. cbn [node_at x_kids] in Hv. destruct (nth_error ks j) as [c|] eqn:Ec; [|congruence].
  destruct (split_nth ks j c Ec) as (k1 & k2 & -> & <-). destruct b as [|j2 b].
  - destruct H as [H|[_ H]]; [|destruct a; contradiction]. cbn [drop_at node_at x_kids]. rewrite del_nth_mid, !nth_error_app1 by assumption. reflexivity.
  - change (drop_at (length k1 :: j2 :: b) (El t ats (k1 ++ c :: k2))) with (El t ats (upd_nth (length k1) (drop_at (j2 :: b)) (k1 ++ c :: k2))). rewrite upd_nth_mid. cbn [node_at x_kids].
    destruct H as [H|[-> H]]; [now rewrite !nth_error_app1 by assumption|]. rewrite !nth_error_app2 by lia. rewrite Nat.sub_diag. cbn [nth_error]. apply IH; [assumption|cbn in *; lia|assumption].
Qed.
Lemma NoDup_mid {B} (l1 m l2 : list B) : NoDup (l1 ++ m ++ l2) -> NoDup (l1 ++ l2) /\ (forall x, In x m -> ~ In x (l1 ++ l2)) /\ NoDup m.
Proof.
  induction m as [|b m IH]; cbn [app]; intros H; [split; [assumption|]; split; [intros x []|constructor]|].
  pose proof (NoDup_remove_1 _ _ _ H) as H1. pose proof (NoDup_remove_2 _ _ _ H) as H2. destruct (IH H1) as (I1 & I2 & I3). split; [assumption|]. split.
  - intros x [<-|Hx]; [|now apply I2]. intros Hi. apply H2. apply in_app_or in Hi as [Hi|Hi]; apply in_or_app; [now left|right; apply in_or_app; now right].
  - constructor; [|assumption]. intros Hi. apply H2. apply in_or_app. right. apply in_or_app. now left.
Qed.
Lemma drops as_ : forall e, StronglySorted lexlt as_ -> (exists n, Forall (fun a => length a = S n) as_) -> Forall (fun a => node_at a e <> None) as_ -> NoDup (pointers e) ->
  let e' := fold_left (fun e a => drop_at a e) (rev as_) e in
  NoDup (pointers e') /\ pointer e' = pointer e /\ (forall p, In p (pointers e') -> In p (pointers e) /\ forall a x, In a as_ -> node_at a e = Some x -> pointer x <> p).
Proof.
  induction as_ as [|b as_ IH] using rev_ind; intros e Hs (n & Hn) Hv Hd.
  - cbn. split; [assumption|]. split; [reflexivity|]. intros p Hp. split; [assumption|]. intros a x [].
  - rewrite rev_app_distr. cbn [rev app fold_left]. apply Forall_app in Hn as [Hn Hb]. apply Forall_app in Hv as [Hv Hvb]. inversion Hb as [|? ? Hbl _]; subst. inversion Hvb as [|? ? Hbv _]; subst.
    assert (Hss : StronglySorted lexlt as_ /\ Forall (fun a => lexlt a b) as_).
    { clear -Hs. induction as_ as [|a l IHl]; [split; constructor|]. cbn [app] in Hs. inversion Hs as [|? ? H1 H2]; subst. destruct (IHl H1) as [I1 I2]. apply Forall_app in H2 as [H2 H3]. inversion H3; subst. split; constructor; assumption. }
    destruct Hss as [Hs0 Hlt]. destruct (node_at b e) as [y|] eqn:Ey; [|congruence]. destruct (pointers_drop b e y ltac:(destruct b; discriminate) Ey) as (l1 & l2 & E1 & E2).
    assert (Hsame : forall a, In a as_ -> node_at a (drop_at b e) = node_at a e).
    { intros a Ha. rewrite Forall_forall in Hlt, Hn. apply drop_other; [now apply Hlt|rewrite Hbl; now apply Hn|congruence]. }
    rewrite E1 in Hd. change (pointer e :: l1 ++ pointers y ++ l2) with ((pointer e :: l1) ++ pointers y ++ l2) in Hd. destruct (NoDup_mid _ _ _ Hd) as (D1 & D2 & _).
    destruct (IH (drop_at b e)) as (I1 & I2 & I3).
    + assumption.
    + now exists n.
    + apply Forall_forall. intros a Ha. rewrite (Hsame a Ha). rewrite Forall_forall in Hv. now apply Hv.
    + rewrite E2. exact D1.
    + split; [assumption|]. split; [rewrite I2; rewrite pointers_cons in E2; now injection E2|]. intros p Hp. destruct (I3 p Hp) as [J1 J2]. rewrite E2 in J1. change (pointer e :: l1 ++ l2) with ((pointer e :: l1) ++ l2) in J1. split.
      * rewrite E1. change (pointer e :: l1 ++ pointers y ++ l2) with ((pointer e :: l1) ++ pointers y ++ l2). apply in_app_or in J1 as [J1|J1]; apply in_or_app; [now left|right; apply in_or_app; now right].
      * intros a x Ha Hx. apply in_app_or in Ha as [Ha|[<-|[]]]; [apply (J2 a x Ha); now rewrite (Hsame a Ha)|]. replace x with y by congruence. intros <-. apply (D2 (pointer y)); [rewrite pointers_cons; now left|assumption].
Qed.
Lemma distinct a : forall b e x y, NoDup (pointers e) -> node_at a e = Some x -> node_at b e = Some y -> pointer x = pointer y -> a = b.
Proof.
  assert (D0 : forall b e y, NoDup (pointers e) -> b <> [] -> node_at b e = Some y -> pointer e <> pointer y).
  { intros b e y Hd Hb Hy E. destruct (pointers_drop b e y Hb Hy) as (l1 & l2 & E1 & _). rewrite E1 in Hd. inversion Hd as [|? ? H1 _]; subst. apply H1. apply in_or_app. right. apply in_or_app. left. rewrite E, pointers_cons. now left. }
  induction a as [|i a IH]; intros b e x y Hd Hx Hy E.
  - destruct b as [|j b]; [reflexivity|]. cbn [node_at] in Hx. injection Hx as <-. exfalso. now apply (D0 (j :: b) e y Hd ltac:(discriminate) Hy).
  - destruct b as [|j b]; [injection Hy as <-; exfalso; now apply (D0 (i :: a) e x Hd ltac:(discriminate) Hx)|]. cbn [node_at] in Hx, Hy.
    destruct (nth_error (x_kids e) i) as [c|] eqn:Ec; [|discriminate]. destruct (nth_error (x_kids e) j) as [d|] eqn:Ed; [|discriminate].
    rewrite pointers_cons in Hd. inversion Hd as [|? ? _ Hd']; subst. destruct (Nat.eq_dec i j) as [<-|Hne].
    + replace d with c in * by congruence. f_equal. apply (IH b c x y); try assumption. destruct (split_nth _ i c Ec) as (k1 & k2 & Ek & _). rewrite Ek, flat_map_app in Hd'. cbn [flat_map] in Hd'. now apply NoDup_mid in Hd' as (_ & _ & Hd').
    + exfalso. destruct (split_nth _ i c Ec) as (k1 & k2 & Ek & El). rewrite Ek, flat_map_app in Hd'. cbn [flat_map] in Hd'. apply NoDup_mid in Hd' as (_ & Hno & _). apply (Hno (pointer x)); [now apply (node_pointer a c x)|].
      rewrite <- flat_map_app. apply in_flat_map. exists d. split; [|rewrite E; now apply (node_pointer b d y)].
      rewrite Ek in Ed. assert (Hi : In d (k1 ++ c :: k2)) by (now apply nth_error_In in Ed). destruct (Nat.lt_ge_cases j i) as [Hlt|Hge].
      * rewrite nth_error_app1 in Ed by lia. apply nth_error_In in Ed. apply in_or_app. now left.
      * rewrite nth_error_app2 in Ed by lia. destruct (j - length k1)%nat eqn:Ej; [lia|]. cbn in Ed. apply nth_error_In in Ed. apply in_or_app. now right.
Qed.

(* ------------------------------------------------------------------ the invariant *)
Section Inv.
Context {A : Type} (oeq : A -> A -> bool) (uid : nat -> str) (Huid : fresh uid).
Record sound (st : helper A) : Prop := {
  s_nodup : NoDup (pointers (h_root st));
  s_root : pointer (h_root st) = Some (lit "root");
  s_fake : look (lit "root") (h_lib st) = Some None;
  s_stored : forall p, In p (pointers (h_root st)) -> exists id o, p = Some id /\ look id (h_lib st) = Some o /\ (o = None -> id = lit "root");
  s_keys : forall p, look p (h_lib st) <> None -> libkey uid (h_next st) p
}.
Lemma sound_new : sound helper_new.
Proof.
  constructor; cbn [helper_new h_root h_lib h_next].
  - cbn. constructor; [intros []|constructor].
  - reflexivity.
  - reflexivity.
  - intros p [<-|[]]. exists (lit "root"), None. split; [reflexivity|]. split; reflexivity.
  - intros p H. cbn [look] in H. destruct (str_eqb p (lit "root")) eqn:E; [left; now apply str_eqb_eq|congruence].
Qed.
Lemma sound_object st a : sound st -> node_at a (h_root st) <> None -> exists x id o, node_at a (h_root st) = Some x /\ pointer x = Some id /\ look id (h_lib st) = Some o /\ object_at st a = Ok o /\ (o = None -> a = []).
Proof.
  intros S H. destruct (node_at a (h_root st)) as [x|] eqn:Ex; [|congruence]. destruct (s_stored _ S (pointer x)) as (id & o & Ep & Eo & Hr); [now apply (node_pointer a)|].
  exists x, id, o. unfold object_at. rewrite Ex, Ep, Eo. repeat (split; [reflexivity|]). intros ->. specialize (Hr eq_refl). apply (distinct a [] (h_root st) x (h_root st) (s_nodup _ S) Ex eq_refl). rewrite Ep, (s_root _ S). congruence.
Qed.
Lemma sound_fresh st p : sound st -> look p (h_lib st) <> None -> p <> uid (h_next st).
Proof. intros S H ->. destruct (s_keys _ S _ H) as [E|(n & Hn & E)]; [now apply Huid in E|]. apply Huid in E. lia. Qed.
Lemma sound_new_ptr st : sound st -> ~ In (Some (uid (h_next st))) (pointers (h_root st)).
Proof. intros S H. destruct (s_stored _ S _ H) as (id & o & E & Eo & _). injection E as <-. apply (sound_fresh st (uid (h_next st)) S); [congruence|reflexivity]. Qed.
Lemma sound_lib st o : sound st -> sound {| h_root := h_root st; h_lib := dict_set (uid (h_next st)) (Some o) (h_lib st); h_next := S (h_next st) |}.
Proof.
  intros S. constructor; cbn [h_root h_lib h_next]; try apply S.
  - rewrite look_set. destruct (str_eqb (lit "root") (uid (h_next st))) eqn:E; [apply str_eqb_eq in E; symmetry in E; now apply Huid in E|]. apply (s_fake _ S).
  - intros p Hp. destruct (s_stored _ S p Hp) as (id & o' & -> & Eo & Hr). exists id, o'. split; [reflexivity|]. split; [|assumption]. rewrite look_set.
    assert (N : id <> uid (h_next st)) by (apply (sound_fresh st id S); congruence). apply str_eqb_neq in N. now rewrite N.
  - intros p H. rewrite look_set in H. destruct (str_eqb p (uid (h_next st))) eqn:E; [right; exists (h_next st); split; [lia|now apply str_eqb_eq]|]. apply libkey_S. now apply (s_keys _ S).
Qed.
Lemma pointer_sets t id d : ~ In (lit "obj_ptr") (map fst d) -> forall ats, look (lit "obj_ptr") ats = Some id ->
  pointers (fold_left (fun c kv => set_attr (fst kv) (snd kv) c) d (El t ats [])) = [Some id].
Proof.
  induction d as [|[k v] d IH]; intros Hd ats H; [cbn [fold_left pointers flat_map]; now rewrite H|]. cbn [fold_left fst snd set_attr]. apply IH; [intros Hi; apply Hd; now right|]. rewrite look_set.
  assert (N : lit "obj_ptr" <> k) by (intros E; apply Hd; left; now symmetry). apply str_eqb_neq in N. now rewrite N.
Qed.
Lemma sound_add st a o c : sound st -> node_at a (h_root st) <> None -> pointers c = [Some (uid (h_next st))] ->
  sound {| h_root := upd_at a (add_kid c) (h_root st); h_lib := dict_set (uid (h_next st)) (Some o) (h_lib st); h_next := S (h_next st) |}.
Proof.
  intros S Hv Hc. destruct (node_at a (h_root st)) as [x|] eqn:Ex; [|congruence]. destruct (pointers_at a _ x Ex) as (l1 & l2 & E1 & E2). specialize (E2 (add_kid c)).
  assert (Ea : pointers (add_kid c x) = pointers x ++ [Some (uid (h_next st))]). { destruct x as [t ats ks]. cbn [add_kid pointers app]. rewrite flat_map_app. cbn [flat_map]. now rewrite Hc. }
  rewrite Ea in E2. pose proof (sound_lib st o S) as S'. pose proof (sound_new_ptr st S) as Hnew.
  assert (Hin : forall p, In p (pointers (upd_at a (add_kid c) (h_root st))) -> p = Some (uid (h_next st)) \/ In p (pointers (h_root st))).
  { intros p Hp. rewrite E2 in Hp. rewrite E1. rewrite !in_app_iff in *. cbn [In] in Hp. intuition. }
  constructor; cbn [h_root h_lib h_next].
  - rewrite E2. rewrite <- app_assoc. cbn [app]. rewrite E1 in Hnew. pose proof (s_nodup _ S) as Hd. rewrite E1 in Hd. rewrite app_assoc in Hd, Hnew |- *. apply NoDup_Add with (a := Some (uid (h_next st))) (l := (l1 ++ pointers x) ++ l2); [apply Add_app|now split].
  - assert (Ep : pointer (upd_at a (add_kid c) (h_root st)) = pointer (h_root st)) by (destruct a; destruct (h_root st); reflexivity). rewrite Ep. apply (s_root _ S).
  - apply (s_fake _ S').
  - intros p Hp. destruct (Hin p Hp) as [-> | Hp']; [|now apply (s_stored _ S')]. exists (uid (h_next st)), (Some o). rewrite look_set, str_eqb_refl. split; [reflexivity|]. split; [reflexivity|discriminate].
  - apply (s_keys _ S').
Qed.
Lemma sound_replace st a x p o : sound st -> node_at a (h_root st) = Some x -> a <> [] -> pointer x = Some p ->
  sound {| h_root := upd_at a (set_attr (lit "obj_ptr") (uid (h_next st))) (h_root st); h_lib := dict_set (uid (h_next st)) (Some o) (dict_del p (h_lib st)); h_next := S (h_next st) |}.
Proof.
  intros S Hx Ha Hp. destruct (pointers_at a _ x Hx) as (l1 & l2 & E1 & E2). specialize (E2 (set_attr (lit "obj_ptr") (uid (h_next st)))).
  pose proof (sound_new_ptr st S) as Hnew. pose proof (s_nodup _ S) as Hd.
  assert (Es : pointers (set_attr (lit "obj_ptr") (uid (h_next st)) x) = Some (uid (h_next st)) :: flat_map pointers (x_kids x)).
  { destruct x as [t ats ks]. cbn [set_attr pointers x_kids]. rewrite look_set, str_eqb_refl. reflexivity. }
  rewrite Es in E2. rewrite (pointers_cons x), Hp in E1. cbn [app] in E1, E2. rewrite E1 in Hd, Hnew.
  assert (Hr : p <> lit "root"). { intros ->. apply Ha. apply (distinct a [] (h_root st) x (h_root st) (s_nodup _ S) Hx eq_refl). now rewrite Hp, (s_root _ S). }
  pose proof (NoDup_remove_1 _ _ _ Hd) as Hd1. pose proof (NoDup_remove_2 _ _ _ Hd) as Hd2.
  constructor; cbn [h_root h_lib h_next].
  - rewrite E2. apply NoDup_Add with (a := Some (uid (h_next st))) (l := l1 ++ (flat_map pointers (x_kids x) ++ l2)); [apply Add_app|]. split; [assumption|]. intros Hi. apply Hnew. rewrite in_app_iff in *. cbn [In]. tauto.
  - assert (Ep : pointer (upd_at a (set_attr (lit "obj_ptr") (uid (h_next st))) (h_root st)) = pointer (h_root st)) by (destruct a; [congruence|]; destruct (h_root st); reflexivity). rewrite Ep. apply (s_root _ S).
  - rewrite look_set, look_del. destruct (str_eqb (lit "root") (uid (h_next st))) eqn:E; [apply str_eqb_eq in E; symmetry in E; now apply Huid in E|].
    destruct (str_eqb (lit "root") p) eqn:E3; [apply str_eqb_eq in E3; congruence|]. apply (s_fake _ S).
  - intros q Hq. rewrite E2 in Hq. assert (Hq' : q = Some (uid (h_next st)) \/ In q (l1 ++ flat_map pointers (x_kids x) ++ l2)) by (rewrite in_app_iff in *; cbn [In] in Hq; intuition).
    destruct Hq' as [-> | Hq']; [exists (uid (h_next st)), (Some o); rewrite look_set, str_eqb_refl; split; [reflexivity|]; split; [reflexivity|discriminate]|].
    destruct (s_stored _ S q) as (id & o' & -> & Eo & Hro); [rewrite E1; rewrite in_app_iff in *; cbn [In]; tauto|]. exists id, o'. split; [reflexivity|]. split; [|assumption].
    assert (N1 : id <> uid (h_next st)) by (apply (sound_fresh st id S); congruence). assert (N2 : id <> p) by (intros ->; contradiction). apply str_eqb_neq in N1, N2. now rewrite look_set, look_del, N1, N2.
  - intros q H. rewrite look_set, look_del in H. destruct (str_eqb q (uid (h_next st))) eqn:E; [right; exists (h_next st); split; [lia|now apply str_eqb_eq]|].
    destruct (str_eqb q p); [congruence|]. apply libkey_S. now apply (s_keys _ S).
Qed.

Lemma sound_register st path o : sound st -> get [] path st <> Ok [None] -> (forall t d, tag_attrs (last path []) = Ok (t, Some d) -> ~ In (lit "obj_ptr") (map fst d)) ->
  sound (fst (register oeq uid path o st)).
Proof.
  intros S Hroot Hk. unfold register. destruct path as [|p pr]; [assumption|]. set (path := p :: pr) in *. destruct (startswith (lit "..") p); [assumption|].
  destruct (match pr with [] => match look (lit "root") (h_lib st) with Some _ => false | None => true end | _ :: _ => false end) eqn:Ef; [assumption|]. clear Ef.
  destruct (get_etree [] path (h_root st)) as [as_|e] eqn:Eg; [|assumption]. pose proof (get_etree_proper _ _ _ _ Eg) as (_ & _ & Hv). destruct as_ as [|a [|b as_]].
  - destruct (tag_attrs (last path [])) as [[t ats]|e] eqn:Et; [|now apply sound_lib].
    assert (Add : forall a, node_at a (h_root st) <> None -> ncname t = true -> sound {| h_root := upd_at a (add_kid (fold_left (fun c kv => set_attr (fst kv) (snd kv) c) match ats with Some d => d | None => [] end (El t [(lit "obj_ptr", uid (h_next st))] []))) (h_root st);
                     h_lib := dict_set (uid (h_next st)) (Some o) (h_lib st); h_next := Datatypes.S (h_next st) |}).
    { intros a Ha _. apply sound_add; [assumption|assumption|]. apply pointer_sets; [|cbn [look]; now rewrite str_eqb_refl]. destruct ats as [d|]; [now apply (Hk t d)|intros []]. }
    destruct (removelast path) as [|p2 par] eqn:Er.
    + destruct (ncname t) eqn:En; cbn [fst h_lib h_next]; [apply Add; [discriminate|reflexivity]|now apply sound_lib].
    + destruct (get_etree [] (p2 :: par) (h_root st)) as [as2|e] eqn:Eg2; [|now apply sound_lib]. pose proof (get_etree_proper _ _ _ _ Eg2) as (_ & _ & Hv2). destruct as2 as [|a [|b as2]]; [now apply sound_lib| |now apply sound_lib].
      inversion Hv2; subst. destruct (ncname t) eqn:En; cbn [fst h_lib h_next]; [now apply Add|now apply sound_lib].
  - inversion Hv as [|? ? Ha _]; subst. destruct (sound_object st a S Ha) as (x & id & o' & Hx & Hid & Hlk & Ho & Hn). rewrite Ho. destruct (same_object oeq o' o); [assumption|]. rewrite Hx, Hid. cbn [fst].
    apply (sound_replace st a x id o S Hx); [|assumption]. intros ->. apply Hroot. unfold get. rewrite Eg. cbn [bind map_r]. rewrite Ho. cbn [node_at] in Hx. injection Hx as <-.
    rewrite (s_root _ S) in Hid. injection Hid as <-. rewrite (s_fake _ S) in Hlk. injection Hlk as <-. reflexivity.
  - assumption.
Qed.
Lemma unregister_all_ok st as_ : sound st -> Forall (fun a => node_at a (h_root st) <> None) as_ -> Forall (fun a => a <> []) as_ -> NoDup as_ -> forall lib done,
  (forall a x id, In a as_ -> node_at a (h_root st) = Some x -> pointer x = Some id -> look id lib <> None) ->
  exists lib', unregister_all st as_ lib done = (lib', rev as_ ++ done, Ok tt) /\
    forall k, look k lib' = if existsb (fun a => match node_at a (h_root st) with Some x => match pointer x with Some id => str_eqb k id | None => false end | None => false end) as_ then None else look k lib.
Proof.
  intros S. induction as_ as [|a as_ IH]; intros Hv Hne Hd lib done Hl; [exists lib; now split|]. inversion Hv as [|? ? Ha Hv']; subst. inversion Hne as [|? ? Hna Hne']; subst. inversion Hd as [|? ? Hd1 Hd2]; subst.
  destruct (sound_object st a S Ha) as (x & id & o' & Hx & Hid & _). cbn [unregister_all existsb]. rewrite Hx, Hid. destruct (look id lib) eqn:El; [|exfalso; apply (Hl a x id); auto; now left].
  destruct a as [|i a]; [congruence|]. destruct (IH Hv' Hne' Hd2 (dict_del id lib) ((i :: a) :: done)) as (lib' & E & Hlk).
  - intros b y idb Hb Hy Hidb. rewrite look_del. destruct (str_eqb idb id) eqn:Eid; [|apply (Hl b y idb); auto; now right]. apply str_eqb_eq in Eid. subst idb.
    exfalso. apply Hd1. replace (i :: a) with b; [assumption|]. apply (distinct b (i :: a) (h_root st) y x (s_nodup _ S) Hy Hx). congruence.
  - exists lib'. split; [rewrite E; cbn [rev]; now rewrite <- app_assoc|]. intros k. rewrite Hlk, look_del. destruct (str_eqb k id); cbn [orb]; [|reflexivity]. now destruct (existsb _ as_).
Qed.
Lemma sound_unregister st path : sound st -> get [] path st <> Ok [None] -> sound (fst (unregister path st)).
Proof.
  intros S Hroot. unfold unregister. destruct path as [|p pr]; [assumption|]. destruct (startswith (lit ".") p || startswith (lit "/") p); [assumption|].
  destruct (get_etree [] (p :: pr) (h_root st)) as [as_|e] eqn:Eg; [|assumption]. pose proof (get_etree_proper _ _ _ _ Eg) as (Hs & (n & Hn) & Hv). destruct as_ as [|a0 as0] eqn:Eas; [assumption|]. rewrite <- Eas in *.
  assert (Hnd : NoDup as_). { clear -Hs. induction Hs as [|x l Hl IH Hx]; [constructor|]. constructor; [|assumption]. intros Hi. rewrite Forall_forall in Hx. now apply (lexlt_neq x x (Hx x Hi)). }
  destruct n as [|n].
  { exfalso. apply Hroot. rewrite Eas in Hn, Hnd. inversion Hn as [|? ? H1 H2]; subst. destruct a0; [|discriminate]. assert (as0 = []) as ->.
    { destruct as0 as [|a1 as0]; [reflexivity|]. inversion H2 as [|? ? H3 _]; subst. destruct a1; [|discriminate]. inversion Hnd as [|? ? H4 _]; subst. exfalso. apply H4. now left. }
    unfold get. rewrite Eg. cbn [bind map_r]. unfold object_at. cbn [node_at]. rewrite (s_root _ S), (s_fake _ S). reflexivity. }
  assert (Hne : Forall (fun a => a <> []) as_) by (eapply Forall_impl; [|exact Hn]; cbn; intros a Ha ->; discriminate).
  destruct (unregister_all_ok st as_ S Hv Hne Hnd (h_lib st) []) as (lib' & E & Hlk).
  { intros a x id Ha Hx Hid. destruct (s_stored _ S (pointer x)) as (id' & o & Ep & Eo & _); [now apply (node_pointer a)|]. congruence. }
  rewrite E, app_nil_r. destruct (drops as_ (h_root st) Hs (ex_intro _ n Hn) Hv (s_nodup _ S)) as (D1 & D2 & D3).
  assert (Hkeep : forall id, In (Some id) (pointers (fold_left (fun e a => drop_at a e) (rev as_) (h_root st))) -> look id lib' = look id (h_lib st)).
  { intros id Hid. destruct (D3 _ Hid) as [_ Hno]. rewrite Hlk. destruct (existsb _ as_) eqn:Ee; [|reflexivity]. apply existsb_exists in Ee as (a & Ha & Ee). destruct (node_at a (h_root st)) as [x|] eqn:Ex; [|discriminate].
    destruct (pointer x) as [idx|] eqn:Epx; [|discriminate]. apply str_eqb_eq in Ee. subst idx. exfalso. now apply (Hno a x Ha Ex). }
  constructor; cbn [fst h_root h_lib h_next].
  - assumption.
  - rewrite D2. apply (s_root _ S).
  - rewrite Hkeep; [apply (s_fake _ S)|]. rewrite pointers_cons, D2, (s_root _ S). now left.
  - intros q Hq. destruct (D3 q Hq) as [Hq0 _]. destruct (s_stored _ S q Hq0) as (id & o & -> & Eo & Hr). exists id, o. rewrite (Hkeep id Hq). auto.
  - intros k Hk. apply (s_keys _ S). rewrite Hlk in Hk. now destruct (existsb _ as_).
Qed.
Lemma reachable_sound st : reachable oeq uid st -> sound st.
Proof. induction 1; [apply sound_new|now apply sound_register|now apply sound_unregister]. Qed.
End Inv.

(** Texts never lead to KeyError. *)
Lemma arg_loop_key fuel : forall s d, arg_loop fuel s d <> Raise KeyError.
Proof.
  induction fuel as [|fuel IH]; intros s d; cbn [arg_loop]; [destruct s; discriminate|]. destruct s as [|c s]; [discriminate|]. destruct (arg_match (c :: s)) as [[[cm a] r]|]; [|discriminate].
  destruct (split_bars [] (cm ++ lit "||" ++ a ++ lit "||" ++ r)) as [|x [|y [|z [|w l]]]]; try discriminate. apply IH.
Qed.
Lemma args_loop_key l : forall d, args_loop l d <> Raise KeyError.
Proof.
  induction l as [|a l IH]; intros d; cbn [args_loop]; [discriminate|]. pose proof (arg_loop_key (length a) a d) as H. destruct (arg_loop (length a) a d); cbn [bind]; [apply IH|congruence].
Qed.
Lemma tag_attrs_key p : tag_attrs p <> Raise KeyError.
Proof.
  unfold tag_attrs. destruct (attr_match p) as [[t a]|]; [|discriminate]. destruct (split_bars [] (t ++ lit "||" ++ a)) as [|x [|y [|z l]]]; try discriminate.
  pose proof (args_loop_key (map strip_open (split_on 93 y)) []) as H. destruct (args_loop (map strip_open (split_on 93 y)) []); cbn [bind]; [discriminate|congruence].
Qed.
Lemma part_step_key p : part_step p <> Raise KeyError.
Proof.
  unfold part_step. pose proof (tag_attrs_key p) as H. destruct (tag_attrs p) as [[t [d|]]|e]; cbn [bind fst snd]; [| |congruence].
  - destruct d; [discriminate|]. destruct (ncname (local_name t) && _); discriminate.
  - destruct (str_eqb (local_name t) (lit "..")); [discriminate|]. destruct (str_eqb (local_name t) (lit ".")); [discriminate|]. destruct (ncname (local_name t)); discriminate.
Qed.
Lemma map_r_key {B C} (f : B -> res C) l : (forall b, In b l -> f b <> Raise KeyError) -> map_r f l <> Raise KeyError.
Proof.
  induction l as [|b l IH]; intros H; cbn [map_r]; [discriminate|]. specialize (H b (or_introl eq_refl)) as Hb. destruct (f b); cbn [bind]; [|congruence].
  specialize (IH (fun x Hx => H x (or_intror Hx))). destruct (map_r f l); cbn [bind]; [discriminate|congruence].
Qed.
Lemma encode_key p : encode_path p <> Raise KeyError.
Proof. destruct p; cbn [encode_path]; [discriminate|]. apply map_r_key. intros b _. apply part_step_key. Qed.
Theorem helper_sound {A} (oeq : A -> A -> bool) uid st : fresh uid -> reachable oeq uid st ->
  all_stored st /\ NoDup (pointers (h_root st)) /\ forall caller path, get caller path st <> Raise KeyError.
Proof.
  intros Hu Hr. pose proof (reachable_sound oeq uid Hu st Hr) as S. split; [|split; [apply (s_nodup _ _ S)|]].
  - intros p Hp. destruct (s_stored _ _ S p Hp) as (id & o & H1 & H2 & _). now exists id, o.
  - intros caller path. unfold get. destruct (get_etree caller path (h_root st)) as [as_|e] eqn:Eg; cbn [bind].
    + apply map_r_key. intros a Ha. destruct (get_etree_proper _ _ _ _ Eg) as (_ & _ & Hv). rewrite Forall_forall in Hv. destruct (sound_object uid st a S (Hv a Ha)) as (x & id & o & _ & _ & _ & Ho & _). rewrite Ho. discriminate.
    + intros E. injection E as ->. unfold get_etree in Eg. destruct (relative path).
      * destruct caller as [|c caller]; [discriminate|]. pose proof (encode_key (c :: caller)) as H1. destruct (encode_path (c :: caller)); cbn [bind] in Eg; [|congruence]. pose proof (encode_key path) as H2. destruct (encode_path path); cbn [bind] in Eg; congruence.
      * pose proof (encode_key path) as H2. destruct (encode_path path); cbn [bind] in Eg; congruence.
Qed.
