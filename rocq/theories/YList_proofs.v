(** Lemmas about lists. *)
From Verif Require Import PyStr PyStr_facts PyVal Restricted Spec_Types Spec_Lists TypedList TypedList_proofs
  StrTypes_proofs Restricted_proofs Scalars_proofs IntTypes StrTypes Enum MemberTypes Member_proofs YList.
From Coq Require Import Lia ZifyBool ZifyN ZifyNat QArith.
Local Open Scope Z_scope.

(* ---------------------------------------------------------------- Python equality is an equivalence on keys *)
Lemma bytes_eqb_eq a : forall b, bytes_eqb a b = true -> a = b.
Proof.
  induction a as [|x a IH]; intros [|y b]; cbn; try discriminate; [reflexivity|].
  intros H. apply andb_prop in H as [H1 H2]. apply N.eqb_eq in H1. f_equal; auto.
Qed.

Lemma py_eq_num_inv a b q : num_of a = Some q -> py_eq a b = true -> exists q', num_of b = Some q' /\ (q == q')%Q.
Proof.
  intros Ha H. assert (E : py_eq a b = match num_of b with Some y => Qeq_bool q y | None => false end).
  { destruct a; try discriminate; injection Ha as <-; destruct b; reflexivity. }
  rewrite E in H. destruct (num_of b) as [y|]; [|discriminate]. apply Qeq_bool_iff in H. eauto.
Qed.
Lemma py_eq_num_mk a b q q' : num_of a = Some q -> num_of b = Some q' -> (q == q')%Q -> py_eq a b = true.
Proof.
  intros Ha Hb H. apply Qeq_bool_iff in H.
  destruct a; try discriminate; injection Ha as <-; destruct b; try discriminate; injection Hb as <-; exact H.
Qed.

Lemma py_eq_trans a b c : py_eq a b = true -> py_eq b c = true -> py_eq a c = true.
Proof.
  remember (vsize a) as n eqn:Hn. assert (Hle : (vsize a <= n)%nat) by lia. clear Hn.
  revert a b c Hle. induction n as [|n IH]; intros a b c Hle Hab Hbc; [destruct a; cbn in Hle; lia|].
  destruct (num_of a) as [q|] eqn:Ea.
  - destruct (py_eq_num_inv a b q Ea Hab) as (q' & Hb & Hq).
    destruct (py_eq_num_inv b c q' Hb Hbc) as (q'' & Hc & Hq'). eapply py_eq_num_mk; [eassumption..|].
    now rewrite Hq.
  - destruct a as [|ba|za|m e|s|s|c' e|l|l|l]; try discriminate.
    + destruct b; cbn in Hab; try discriminate. exact Hbc.
    + destruct b as [| | | |s'| | | | |]; try (cbn in Hab; discriminate). cbn in Hab. apply str_eqb_eq in Hab. now subst.
    + destruct b as [| | | | |s'| | | |]; try (cbn in Hab; discriminate). cbn in Hab. apply bytes_eqb_eq in Hab. now subst.
    + destruct b as [| | | | | | |l'| |]; try (cbn in Hab; discriminate).
      destruct c as [| | | | | | |l''| |]; try (cbn in Hbc; discriminate). cbn in *.
      apply andb_prop in Hab as [H1 H2], Hbc as [H3 H4]. rewrite forallb_forall in *.
      apply andb_true_intro. rewrite !forallb_forall. split; intros x Hx.
      * apply H3. apply str_in_In. now apply H1.
      * apply H2. apply str_in_In. now apply H4.
    + destruct b as [| | | | | | | |l'|]; try (cbn in Hab; discriminate).
      destruct c as [| | | | | | | |l''|]; try (cbn in Hbc; discriminate).
      cbn [py_eq] in *. cbn [vsize] in Hle. clear Ea. revert l' l'' Hle Hab Hbc.
      induction l as [|x l IHl]; intros [|y l'] [|z l''] Hle Hab Hbc; try discriminate; [reflexivity|].
      cbn [fold_right] in Hle. apply andb_prop in Hab as [H1 H2], Hbc as [H3 H4].
      rewrite (IH x y z) by (lia || assumption). apply (IHl l' l''); [lia|assumption..].
    + destruct b as [| | | | | | | | |l']; try (cbn in Hab; discriminate).
      destruct c as [| | | | | | | | |l'']; try (cbn in Hbc; discriminate).
      cbn [py_eq] in *. cbn [vsize] in Hle. clear Ea. revert l' l'' Hle Hab Hbc.
      induction l as [|[k x] l IHl]; intros [|[k' y] l'] [|[k'' z] l''] Hle Hab Hbc; try discriminate; [reflexivity|].
      cbn [fold_right fst snd] in Hle. apply andb_prop in Hab as [H1 H2], Hbc as [H3 H4].
      apply andb_prop in H1 as [H1 H1'], H3 as [H3 H3'].
      rewrite (IH k k' k'') by (lia || assumption). rewrite (IH x y z) by (lia || assumption).
      eapply IHl; [lia|eassumption..].
Qed.

Lemma str_in_refl x l : In x l -> str_in x l = true.
Proof. intros. now apply str_in_In. Qed.
Lemma py_eq_refl a : py_eq a a = true.
Proof.
  remember (vsize a) as n eqn:Hn. assert (Hle : (vsize a <= n)%nat) by lia. clear Hn.
  revert a Hle. induction n as [|n IH]; intros a Hle; [destruct a; cbn in Hle; lia|].
  destruct (num_of a) as [q|] eqn:Ea; [eapply py_eq_num_mk; [eassumption..|reflexivity]|].
  destruct a as [|ba|za|m e|s|s|c' e|l|l|l]; try discriminate; [reflexivity|apply str_eqb_refl|apply bytes_eqb_refl|..].
  - cbn. apply andb_true_intro. rewrite !forallb_forall. split; intros x Hx; now apply str_in_In.
  - cbn [py_eq]. cbn [vsize] in Hle. clear Ea. induction l as [|x l IHl]; [reflexivity|]. cbn [fold_right] in Hle.
    rewrite IH by lia. apply IHl. lia.
  - cbn [py_eq]. cbn [vsize] in Hle. clear Ea. induction l as [|[k x] l IHl]; [reflexivity|]. cbn [fold_right fst snd] in Hle.
    rewrite !IH by lia. apply IHl. lia.
Qed.

(* ---------------------------------------------------------------- the member map *)
Section Map.
Context {A : Type}.
Implicit Types ms : list (pyval * A).

Definition kdist ms : Prop := dist (map fst ms).

Lemma has_key_in ms k : has_key ms k <-> py_in k (map fst ms) = true.
Proof.
  unfold has_key, py_in. rewrite existsb_exists. split.
  - intros (k' & a & Hi & He). exists k'. split; [|assumption]. apply in_map_iff. now exists (k', a).
  - intros (k' & Hi & He). apply in_map_iff in Hi as ([k0 a] & <- & Hi). eauto.
Qed.

Lemma mget_none ms k : mget k ms = None <-> ~ has_key ms k.
Proof.
  rewrite has_key_in. induction ms as [|[k' a] ms IH]; cbn; [now split|].
  destruct (py_eq k k'); cbn; [split; [discriminate|congruence]|]. exact IH.
Qed.
Lemma mhas_key ms k : mhas k ms = true <-> has_key ms k.
Proof.
  unfold mhas. pose proof (mget_none ms k) as H. rewrite has_key_in in *. destruct (mget k ms).
  - split; [|reflexivity]. intros _. destruct (py_in _ _); [reflexivity|]. assert (Some a = None) by (apply H; congruence). discriminate.
  - split; [discriminate|]. intros Hk. exfalso. now apply H.
Qed.
Lemma mhas_not ms k : mhas k ms = false <-> ~ has_key ms k.
Proof. rewrite <- mhas_key. destruct (mhas k ms); split; congruence. Qed.

Lemma mget_split ms k a : mget k ms = Some a -> exists l1 k' l2, ms = l1 ++ (k', a) :: l2 /\ py_eq k k' = true.
Proof.
  induction ms as [|[k0 a0] ms IH]; cbn; [discriminate|]. destruct (py_eq k k0) eqn:E; intros H.
  - injection H as ->. exists [], k0, ms. now split.
  - destruct (IH H) as (l1 & k' & l2 & -> & He). exists ((k0, a0) :: l1), k', l2. now split.
Qed.

Lemma mput_add ms k a : ~ has_key ms k -> mput k a ms = ms ++ [(k, a)].
Proof.
  rewrite has_key_in. induction ms as [|[k0 a0] ms IH]; cbn; [reflexivity|]. intros H.
  destruct (py_eq k k0); [exfalso; now apply H|]. now rewrite IH.
Qed.
Lemma mput_replace ms k a : has_key ms k -> map_replace k a ms (mput k a ms).
Proof.
  rewrite has_key_in. induction ms as [|[k0 a0] ms IH]; cbn; [discriminate|]. intros H.
  destruct (py_eq k k0) eqn:E.
  - exact (Map_replace k a [] k0 a0 ms E).
  - cbn in H. destruct (IH H) as [l1 k' a' l2 He]. exact (Map_replace k a ((k0, a0) :: l1) k' a' l2 He).
Qed.
Lemma mdel_remove ms k : has_key ms k -> map_remove k ms (mdel k ms).
Proof.
  rewrite has_key_in. induction ms as [|[k0 a0] ms IH]; cbn; [discriminate|]. intros H.
  destruct (py_eq k k0) eqn:E.
  - exact (Map_remove k [] k0 a0 ms E).
  - cbn in H. destruct (IH H) as [l1 k' a' l2 He]. exact (Map_remove k ((k0, a0) :: l1) k' a' l2 He).
Qed.

Lemma kdist_add ms k a : kdist ms -> ~ has_key ms k -> kdist (ms ++ [(k, a)]).
Proof.
  unfold kdist. rewrite has_key_in, map_app. cbn. intros H Hk. apply dist_insert; rewrite app_nil_r; [assumption|].
  destruct (py_in k (map fst ms)); congruence.
Qed.
Lemma kdist_replace k a ms ms' : map_replace k a ms ms' -> map fst ms' = map fst ms.
Proof. intros [l1 k' a' l2 He]. now rewrite !map_app. Qed.
Lemma kdist_remove k ms ms' : map_remove k ms ms' -> kdist ms -> kdist ms'.
Proof.
  unfold kdist. intros [l1 k' a' l2 He] H. rewrite map_app in *. cbn in H. apply dist_app in H as (H1 & H2 & H3).
  apply dist_app. split; [assumption|]. split; [now inversion H2|]. intros x y Hx Hy. apply H3; [assumption|now right].
Qed.

Lemma kdist_app l1 l2 : kdist (l1 ++ l2) -> kdist l1 /\ kdist l2 /\
  (forall p q, In p l1 -> In q l2 -> py_eq (fst p) (fst q) = false).
Proof.
  unfold kdist. rewrite map_app. intros H. apply dist_app in H as (H1 & H2 & H3). split; [assumption|]. split; [assumption|].
  intros p q Hp Hq. apply H3; now apply in_map.
Qed.

(** In a map with distinct keys, looking up agrees with the entries. *)
Lemma mget_in ms k a : kdist ms -> (mget k ms = Some a <-> exists k', In (k', a) ms /\ py_eq k k' = true).
Proof.
  intros Hd. split.
  - intros H. apply mget_split in H as (l1 & k' & l2 & -> & He). exists k'. split; [|assumption].
    apply in_app_iff. right. now left.
  - intros (k' & Hi & He). apply in_split in Hi as (l1 & l2 & ->).
    apply kdist_app in Hd as (_ & _ & H3). clear - He H3. induction l1 as [|[k0 a0] l1 IH]; cbn.
    + now rewrite He.
    + destruct (py_eq k k0) eqn:E.
      * exfalso. rewrite py_eq_sym in E. pose proof (py_eq_trans _ _ _ E He) as Ht.
        pose proof (H3 (k0, a0) (k', a) (or_introl eq_refl) (or_introl eq_refl)) as Hq. cbn [fst] in Hq. congruence.
      * apply IH. intros p q Hp Hq. apply H3; [now right|assumption].
Qed.

(** A removed key is gone. *)
Lemma removed_gone ms ms' k : kdist ms -> map_remove k ms ms' -> ~ has_key ms' k.
Proof.
  intros Hd Hr. revert Hd. destruct Hr as [l1 k' a' l2 He]. intros Hd (k0 & a0 & Hi & H0).
  apply kdist_app in Hd as (_ & Hd & H3). rewrite py_eq_sym in H0.
  pose proof (py_eq_trans _ _ _ H0 He) as Ht.
  apply in_app_iff in Hi as [Hi|Hi].
  - pose proof (H3 (k0, a0) (k', a') Hi (or_introl eq_refl)) as Hq. cbn [fst] in Hq. congruence.
  - apply (kdist_app [(k', a')] l2) in Hd as (_ & _ & H4). rewrite py_eq_sym in Ht.
    pose proof (H4 (k', a') (k0, a0) (or_introl eq_refl) Hi) as Hq. cbn [fst] in Hq. congruence.
Qed.

Lemma all_distinct_iff ms : kdist ms <-> all_distinct (map fst ms).
Proof. split; [apply dist_distinct|apply distinct_dist]. Qed.
End Map.

(* ---------------------------------------------------------------- operations *)
Section Ops.
Context {A E : Type} (O : oracle) (keys : list str).
Context (mk : list (str * pyval) -> list E * res A) (mkv : A -> list (str * pyval) -> list E * res A).
Context (mk0 : A) (ext : A -> res pyval).
Notation op := (yl_op O keys mk mkv mk0 ext).

(** What an operation may do to the map. *)
Inductive effect (ms ms' : list (pyval * A)) : res unit -> Prop :=
| eff_add k a : map_add k a ms ms' -> effect ms ms' (Ok tt)
| eff_replace k a : map_replace k a ms ms' -> effect ms ms' (Ok tt)
| eff_remove k : map_remove k ms ms' -> effect ms ms' (Ok tt)
| eff_fail e : ms' = ms -> effect ms ms' (Raise e).

Lemma mput_effect k a ms : effect ms (mput k a ms) (Ok tt).
Proof.
  destruct (mhas k ms) eqn:Eh.
  - eapply eff_replace, mput_replace. now apply mhas_key.
  - apply mhas_not in Eh. rewrite mput_add by assumption. eapply eff_add. now constructor.
Qed.
Lemma store_effect k ms (r : list E * res A) ms' ev out : store k ms r = (ms', ev, out) -> effect ms ms' out.
Proof.
  destruct r as [ev' [a|e]]; cbn; intros H; injection H as <- <- <-; [apply mput_effect|now constructor].
Qed.
Lemma set_effect uid ms k a ms' ev out : yl_set keys mkv mk0 uid ms k a = (ms', ev, out) -> effect ms ms' out.
Proof.
  unfold yl_set. intros H.
  destruct keys as [|n ns]; [|destruct k]; try (injection H as <- <- <-; now constructor);
    try (destruct (negb _); [injection H as <- <- <-; now constructor|]; destruct (key_dict _ _);
         [now apply store_effect in H|injection H as <- <- <-; now constructor]).
  destruct k; try (injection H as <- <- <-; apply mput_effect);
    destruct (hashable _); injection H as <- <- <-; (apply mput_effect || now constructor).
Qed.
Lemma delete_effect ms k ms' (ev : list E) out : yl_delete ms k = (ms', ev, out) -> effect ms ms' out.
Proof.
  unfold yl_delete. intros H. destruct (negb _); [injection H as <- <- <-; now constructor|].
  destruct (mhas k ms) eqn:Eh; injection H as <- <- <-; [|now constructor].
  eapply eff_remove, mdel_remove. now apply mhas_key.
Qed.
Lemma add_effect uid ms k ms' ev out : yl_add keys mk mk0 uid ms k = (ms', ev, out) -> effect ms ms' out.
Proof.
  unfold yl_add. intros H. destruct (negb _); [injection H as <- <- <-; now constructor|].
  destruct (mhas k ms) eqn:Eh; [injection H as <- <- <-; now constructor|].
  destruct keys as [|n ns]; [injection H as <- <- <-; apply mput_effect|].
  destruct k; try (injection H as <- <- <-; now constructor);
    (destruct (key_dict _ _); [now apply store_effect in H|injection H as <- <- <-; now constructor]).
Qed.
Lemma op_effect uid ms o ms' ev out : op uid ms o = (ms', ev, out) -> effect ms ms' out.
Proof.
  destruct o as [k| |kw|k a|a|k|kw]; cbn [yl_op]; intros H.
  - eapply add_effect; eassumption.
  - eapply add_effect; eassumption.
  - destruct kw as [|p kw]; [eapply add_effect; eassumption|]. unfold yl_add_kw in H.
    destruct keys as [|n ns]; [injection H as <- <- <-; now constructor|].
    destruct (kw_keys _ _) as [kd|]; [|injection H as <- <- <-; now constructor].
    destruct (mhas _ ms); [injection H as <- <- <-; now constructor|now apply store_effect in H].
  - eapply set_effect; eassumption.
  - destruct keys as [|n ns] eqn:Ek; [injection H as <- <- <-; now constructor|]. rewrite <- Ek in *.
    destruct (ext a); [|injection H as <- <- <-; now constructor]. eapply set_effect; eassumption.
  - eapply delete_effect; eassumption.
  - destruct kw as [|p kw]; [eapply delete_effect; eassumption|].
    destruct keys as [|n ns]; [injection H as <- <- <-; now constructor|].
    destruct (kw_keys _ _) as [kd|]; [|injection H as <- <- <-; now constructor].
    eapply delete_effect; eassumption.
Qed.

Lemma effect_kdist ms ms' out : effect ms ms' out -> kdist ms -> kdist ms'.
Proof.
  intros [k a [Hk]|k a Hr|k Hr|e ->] Hd; [now apply kdist_add| | |assumption].
  - unfold kdist. now rewrite (kdist_replace _ _ _ _ Hr).
  - eapply kdist_remove; eassumption.
Qed.

Lemma fail_keeps uid ms o ms' ev e : op uid ms o = (ms', ev, Raise e) -> ms' = ms.
Proof. intros H. apply op_effect in H. now inversion H. Qed.

Lemma run_kdist os : forall ms, kdist ms -> kdist (yl_run O keys mk mkv mk0 ext ms os).
Proof.
  induction os as [|[u o] os IH]; intros ms Hd; [assumption|]. cbn [yl_run]. apply IH.
  destruct (op u ms o) as [[ms' ev] out] eqn:E0. cbn. eapply effect_kdist; [eapply op_effect; eassumption|assumption].
Qed.

(** add of a positional key. *)
Lemma add_key uid ms k ms' ev : keys <> [] -> op uid ms (YAdd k) = (ms', ev, Ok tt) ->
  exists a kd, mk kd = (ev, Ok a) /\ key_dict keys k = Ok kd /\ map_add k a ms ms'.
Proof.
  intros Hn H. cbn [yl_op] in H. unfold yl_add in H. destruct (negb _); [discriminate|].
  destruct (mhas k ms) eqn:Eh; [discriminate|]. apply mhas_not in Eh.
  destruct keys as [|n ns] eqn:Ek; [congruence|]. rewrite <- Ek in *.
  assert (H' : match key_dict keys k with Raise e => (ms, [], Raise e) | Ok kd => store k ms (mk kd) end = (ms', ev, Ok tt))
    by (destruct k; try exact H; discriminate).
  destruct (key_dict keys k) as [kd|] eqn:Ed; [|discriminate].
  destruct (mk kd) as [ev' [a|]] eqn:Em; [|discriminate]. injection H' as <- <-.
  exists a, kd. split; [assumption|]. split; [reflexivity|]. rewrite mput_add by assumption. now constructor.
Qed.
Lemma add_existing uid ms k : hashable k = true -> has_key ms k -> op uid ms (YAdd k) = (ms, [], Raise KeyError).
Proof. intros Hh Hk. cbn [yl_op]. unfold yl_add. rewrite Hh. apply mhas_key in Hk. now rewrite Hk. Qed.

Lemma add_kw uid ms kw ms' ev : kw <> [] -> op uid ms (YAddKw kw) = (ms', ev, Ok tt) ->
  exists a kd, mk kd = (ev, Ok a) /\ kw_keys keys kw = Ok kd /\ map_add (VStr (key_text O kd)) a ms ms'.
Proof.
  intros Hn H. destruct kw as [|p kw]; [congruence|]. cbn [yl_op] in H. unfold yl_add_kw in H.
  destruct keys as [|n ns] eqn:Ek; [discriminate|]. rewrite <- Ek in *.
  destruct (kw_keys keys (p :: kw)) as [kd|] eqn:Ed; [|discriminate].
  destruct (mhas _ ms) eqn:Eh; [discriminate|]. apply mhas_not in Eh.
  destruct (mk kd) as [ev' [a|]] eqn:Em; [|discriminate]. injection H as <- <-.
  exists a, kd. split; [assumption|]. split; [reflexivity|]. rewrite mput_add by assumption. now constructor.
Qed.
Lemma add_kw_existing uid ms kw kd : keys <> [] -> kw <> [] -> kw_keys keys kw = Ok kd -> has_key ms (VStr (key_text O kd)) ->
  op uid ms (YAddKw kw) = (ms, [], Raise KeyError).
Proof.
  intros Hk Hn Hd Hh. destruct kw as [|p kw]; [congruence|]. cbn [yl_op]. unfold yl_add_kw.
  destruct keys as [|n ns] eqn:Ek; [congruence|]. rewrite <- Ek in *. rewrite Hd.
  apply mhas_key in Hh. now rewrite Hh.
Qed.

Lemma delete_key uid ms k ms' ev : kdist ms -> op uid ms (YDelete k) = (ms', ev, Ok tt) ->
  map_remove k ms ms' /\ ~ has_key ms' k.
Proof.
  intros Hd H. cbn [yl_op] in H. unfold yl_delete in H. destruct (negb _); [discriminate|].
  destruct (mhas k ms) eqn:Eh; [|discriminate]. injection H as <- <-. apply mhas_key in Eh.
  pose proof (mdel_remove ms k Eh) as Hr. split; [assumption|]. eapply removed_gone; eassumption.
Qed.
Lemma delete_absent uid ms k : hashable k = true -> ~ has_key ms k -> op uid ms (YDelete k) = (ms, [], Raise KeyError).
Proof. intros Hh Hk. cbn [yl_op]. unfold yl_delete. rewrite Hh. apply mhas_not in Hk. now rewrite Hk. Qed.
Lemma delete_present uid ms k : hashable k = true -> has_key ms k -> exists ms', op uid ms (YDelete k) = (ms', [], Ok tt).
Proof. intros Hh Hk. cbn [yl_op]. unfold yl_delete. rewrite Hh. apply mhas_key in Hk. rewrite Hk. eexists. reflexivity. Qed.

Lemma set_key uid ms k a ms' ev : keys <> [] -> op uid ms (YSet k a) = (ms', ev, Ok tt) ->
  exists a' kd, mkv a kd = (ev, Ok a') /\ key_dict keys k = Ok kd /\ (map_replace k a' ms ms' \/ map_add k a' ms ms').
Proof.
  intros Hn H. cbn [yl_op] in H. unfold yl_set in H. destruct keys as [|n ns] eqn:Ek; [congruence|]. rewrite <- Ek in *.
  assert (H' : (if negb (hashable k) then (ms, [], Raise TypeError)
     else match key_dict keys k with Raise e => (ms, [], Raise e) | Ok kd => store k ms (mkv a kd) end) = (ms', ev, Ok tt))
    by (destruct k; try exact H; discriminate).
  destruct (negb _); [discriminate|].
  destruct (key_dict keys k) as [kd|] eqn:Ed; [|discriminate].
  destruct (mkv a kd) as [ev' [a'|]] eqn:Em; [|discriminate]. injection H' as <- <-.
  exists a', kd. split; [assumption|]. split; [reflexivity|]. destruct (mhas k ms) eqn:Eh.
  - left. apply mput_replace. now apply mhas_key.
  - right. apply mhas_not in Eh. rewrite mput_add by assumption. now constructor.
Qed.

Lemma delkw_remove uid ms kw ms' ev : op uid ms (YDeleteKw kw) = (ms', ev, Ok tt) -> exists k, map_remove k ms ms'.
Proof.
  assert (Hd : forall k, yl_delete (E := E) ms k = (ms', ev, Ok tt) -> exists k, map_remove k ms ms').
  { intros k H. unfold yl_delete in H. destruct (negb _); [discriminate|]. destruct (mhas k ms) eqn:Eh; [|discriminate].
    injection H as <- _. exists k. apply mdel_remove. now apply mhas_key. }
  cbn [yl_op]. destruct kw as [|p kw]; [apply Hd|]. destruct keys; [discriminate|].
  destruct (kw_keys _ _); [apply Hd|discriminate].
Qed.
End Ops.

(* ---------------------------------------------------------------- keyless lists *)
Lemma keyless_add {A E} O mk mkv (mk0 : A) ext u ms k : hashable k = true -> ~ has_key ms (VStr u) ->
  (has_key ms k -> yl_op (E := E) O [] mk mkv mk0 ext u ms (YAdd k) = (ms, [], Raise KeyError)) /\
  (~ has_key ms k -> yl_op (E := E) O [] mk mkv mk0 ext u ms (YAdd k) = (ms ++ [(VStr u, mk0)], [], Ok tt)).
Proof.
  intros Hh Hu. cbn [yl_op]. unfold yl_add. rewrite Hh. split; intros Hk.
  - apply mhas_key in Hk. now rewrite Hk.
  - apply mhas_not in Hk. rewrite Hk. cbn. now rewrite mput_add.
Qed.

Definition is_add {A} (o : yop A) : Prop := o = YAddNone \/ o = YAddKw [].
Lemma keyless_run {A E} O mk mkv (mk0 : A) ext os : forall ms,
  Forall (fun p => is_add (snd p)) os -> NoDup (map fst os) -> ~ has_key ms VNone ->
  (forall u, In u (map fst os) -> ~ has_key ms (VStr u)) ->
  yl_run (E := E) O [] mk mkv mk0 ext ms os = ms ++ map (fun p => (VStr (fst p), mk0)) os.
Proof.
  induction os as [|[u o] os IH]; intros ms Ha Hnd Hn Hu; cbn [yl_run map]; [now rewrite app_nil_r|].
  inversion Ha as [|? ? Ho Hos]; subst. inversion Hnd as [|? ? Hnu Hnd']; subst.
  assert (E1 : yl_op (E := E) O [] mk mkv mk0 ext u ms o = (ms ++ [(VStr u, mk0)], [], Ok tt)).
  { assert (E0 : yl_add (E := E) [] mk mk0 u ms VNone = (ms ++ [(VStr u, mk0)], [], Ok tt)).
    { unfold yl_add. cbn [hashable negb]. apply mhas_not in Hn. rewrite Hn. rewrite mput_add; [reflexivity|]. apply Hu. now left. }
    cbn [snd] in Ho. destruct Ho as [-> | ->]; exact E0. }
  rewrite E1. cbn [fst]. rewrite IH; [now rewrite <- app_assoc|assumption|assumption| |].
  - intros (k & a & Hi & He). apply in_app_iff in Hi as [Hi|[Hi|[]]]; [apply Hn; now exists k, a|].
    injection Hi as <- <-. discriminate.
  - intros u' Hu' (k & a & Hi & He). apply in_app_iff in Hi as [Hi|[Hi|[]]].
    + apply (Hu u'); [now right|]. now exists k, a.
    + injection Hi as <- <-. cbn in He. apply str_eqb_eq in He. subst u'. now apply Hnu.
Qed.

(* ---------------------------------------------------------------- composite keys *)
Lemma key_text_inj O kd kd' : length kd = length kd' -> kd <> [] ->
  Forall (fun p => no_space (py_str O (snd p))) kd -> Forall (fun p => no_space (py_str O (snd p))) kd' ->
  key_text O kd = key_text O kd' -> map (fun p => py_str O (snd p)) kd = map (fun p => py_str O (snd p)) kd'.
Proof.
  intros Hl Hn H1 H2 He. unfold key_text in He. apply (f_equal (split_on 32)) in He.
  rewrite !split_join in He; try exact He.
  - destruct kd'; [destruct kd; [congruence|discriminate]|discriminate].
  - apply Forall_map. exact H2.
  - destruct kd; [congruence|discriminate].
  - apply Forall_map. exact H1.
Qed.

(** Reading the values of the keys out of keyword arguments. *)
Definition texts (kd : list (str * pyval)) : list pyval := map snd kd.
Lemma kw_keys_length ks kw kd : kw_keys ks kw = Ok kd -> length kd = length ks.
Proof.
  revert kd. induction ks as [|n ks IH]; intros kd H; cbn in H; [injection H as <-; reflexivity|].
  destruct (kw_get n kw); [|discriminate]. destruct (kw_keys ks kw); [|discriminate]. cbn in H. injection H as <-.
  cbn. now rewrite (IH _ eq_refl).
Qed.
Lemma kw_keys_names ks kw kd : kw_keys ks kw = Ok kd -> map fst kd = ks.
Proof.
  revert kd. induction ks as [|n ks IH]; intros kd H; cbn in H; [injection H as <-; reflexivity|].
  destruct (kw_get n kw); [|discriminate]. destruct (kw_keys ks kw); [|discriminate]. cbn in H. injection H as <-.
  cbn. now rewrite (IH _ eq_refl).
Qed.

Lemma add_other_absent {A E} O keys mk mkv (mk0 : A) ext uid ms ms' ev kw kw' kd kd' :
  keys <> [] -> kw <> [] ->
  yl_op (E := E) O keys mk mkv mk0 ext uid ms (YAddKw kw) = (ms', ev, Ok tt) ->
  kw_keys keys kw = Ok kd -> kw_keys keys kw' = Ok kd' ->
  Forall (fun p => exists s, snd p = VStr s /\ no_space s) kd -> Forall (fun p => exists s, snd p = VStr s /\ no_space s) kd' ->
  map snd kd <> map snd kd' ->
  yl_item O keys ms' kw' = yl_item O keys ms kw'.
Proof.
  intros Hk Hn H Hd Hd' Hs Hs' Hne. apply add_kw in H as (a & kd0 & _ & Hd0 & Hadd); [|assumption].
  rewrite Hd in Hd0. injection Hd0 as <-. destruct Hadd as [Hab]. unfold yl_item. rewrite Hd'.
  assert (Hneq : py_eq (VStr (key_text O kd')) (VStr (key_text O kd)) = false).
  { apply not_true_is_false. intros Hq. cbn in Hq. apply str_eqb_eq in Hq. symmetry in Hq. apply key_text_inj in Hq.
    - apply Hne. clear - Hs Hs' Hq. revert kd' Hs' Hq. induction Hs as [|[n v] kd (s & Hv & _) _ IH]; intros [|[n' v'] kd'] Hs' Hq;
        try discriminate; [reflexivity|]. inversion Hs' as [|? ? (s' & Hv' & _) Hs'']; subst. cbn in *. subst. cbn in Hq.
      injection Hq as -> Hq. f_equal. now apply IH.
    - rewrite (kw_keys_length _ _ _ Hd), (kw_keys_length _ _ _ Hd'). reflexivity.
    - apply kw_keys_length in Hd. destruct kd; [destruct keys; [congruence|discriminate]|discriminate].
    - eapply Forall_impl; [|exact Hs]. intros p (s & -> & Hs0). exact Hs0.
    - eapply Forall_impl; [|exact Hs']. intros p (s & -> & Hs0). exact Hs0. }
  assert (Hm : mget (VStr (key_text O kd')) (ms ++ [(VStr (key_text O kd), a)]) = mget (VStr (key_text O kd')) ms).
  { clear - Hneq. induction ms as [|[k0 a0] ms IH]; cbn [mget app]; [now rewrite Hneq|].
    destruct (py_eq _ k0); [reflexivity|exact IH]. }
  now rewrite Hm.
Qed.

(* ---------------------------------------------------------------- key leaves *)
Section Keys.
Context (O : oracle) {B : Type} (rest0 : B).

Lemma spelled_leaf t v w : mtype_wf t -> shallow t -> spelled t v ->
  d_out (leaf_assign O (LOne (pty_of t)) v) = Ok w -> w = v.
Proof.
  destruct t as [levels|levels| | |names| |n]; cbn [mtype_wf shallow spelled pty_of]; intros Hwf Hsh Hs H.
  - destruct Hwf as [Hn Hwf]. destruct Hs as (z & ->). destruct levels as [|l ls]; [congruence|].
    destruct (Z.eq_dec z 0) as [->|Hz].
    + destruct (leaf_assign O (LOne (int_chain (l :: ls))) (VInt 0)) as [nf out] eqn:Ea. cbn in H. subst out.
      apply int_leaf_value in Ea; [|assumption]. destruct Ea as [->|(z & -> & Hz & _)]; [reflexivity|]. cbn in Hz. congruence.
    + rewrite int_assign_exact in H; [|assumption|cbn; lia]. unfold int_assign_spec in H. cbn [py_int] in H.
      destruct (in_levelsb z (l :: ls)); [cbn in H; congruence|].
      destruct (in_levelsb z ls); [discriminate|].
      destruct ls as [|l1 [|l2 ls]]; cbn in Hsh; [discriminate|discriminate|lia].
  - destruct Hwf as (Hn & Hwf & _). destruct Hs as (s & ->). rewrite (str_assign O levels s Hwf) in H. cbn in H.
    destruct (accepted O levels s); congruence.
  - destruct Hs as (s & ->). cbn in H. congruence.
  - destruct Hs as (b & ->). rewrite bool_assign in H. destruct b; cbn in H; congruence.
  - destruct Hs as (s & ->). rewrite enum_assign in H. cbn [d_out py_str] in H. destruct (str_in s names); congruence.
  - destruct Hs as (l & ->). cbn in H. congruence.
  - destruct Hs as (q & ->). rewrite (decprec_assign O n (VDec q (- n)) q (- n) eq_refl) in H.
    unfold quantize in H. rewrite Z.leb_refl in H. replace (- n + n) with 0 in H by lia.
    rewrite Z.pow_0_r, Z.mul_1_r in H. destruct (28 <? _); cbn in H; congruence.
Qed.

Lemma string_leaf t s w : mtype_wf t -> string_like t ->
  d_out (leaf_assign O (LOne (pty_of t)) (VStr s)) = Ok w -> w = VStr s.
Proof.
  intros Hwf Hs H. eapply spelled_leaf; [eassumption| | |eassumption].
  - destruct t; try contradiction; exact I.
  - destruct t; try contradiction; now exists s.
Qed.

Definition leaf_t (t : mtype) : ltype := LOne (pty_of t).

(** One key. *)
Definition key_is (ms : list (pyval * (list pyval * B))) : Prop :=
  Forall (fun p => exists v, fst (snd p) = [v] /\ py_eq v (fst p) = true) ms.

Lemma key_is_replace k v (b : B) ms ms' : py_eq v k = true -> map_replace k ([v], b) ms ms' -> key_is ms -> key_is ms'.
Proof.
  intros Hv [l1 k' a' l2 He] H. unfold key_is in *. apply Forall_app in H as [H1 H2]. inversion H2; subst.
  apply Forall_app. split; [assumption|]. constructor; [|assumption]. exists v. split; [reflexivity|].
  cbn [fst]. exact (py_eq_trans _ _ _ Hv He).
Qed.
Lemma key_is_add k v (b : B) ms ms' : py_eq v k = true -> map_add k ([v], b) ms ms' -> key_is ms -> key_is ms'.
Proof.
  intros Hv [_] H. unfold key_is in *. apply Forall_app. split; [assumption|]. constructor; [|constructor].
  exists v. now split.
Qed.
Lemma key_is_remove k ms ms' : map_remove k ms ms' -> key_is ms -> key_is ms'.
Proof.
  intros [l1 k' a' l2 He] H. unfold key_is in *. apply Forall_app in H as [H1 H2]. inversion H2; subst.
  apply Forall_app. now split.
Qed.

Lemma single_mk t n k (b : B) ev a kd : mtype_wf t -> shallow t -> spelled t k -> key_dict [n] k = Ok kd ->
  entry_mk O [leaf_t t] b kd = (ev, Ok a) -> a = ([k], b).
Proof.
  intros Hwf Hsh Hs Hd H. assert (kd = [(n, k)]) by (cbn in Hd; destruct k as [| | | |[|]| | | | |]; congruence). subst kd.
  unfold entry_mk in H. cbn [set_keys] in H. destruct (d_out (leaf_assign O (leaf_t t) k)) as [w|] eqn:Eo; [|discriminate].
  cbn in H. injection H as _ <-. apply spelled_leaf in Eo; [|assumption..]. now subst.
Qed.

Lemma single_op t n u ms o ms' ev out : mtype_wf t -> shallow t -> positional (spelled t) o ->
  yl_op O [n] (entry_mk O [leaf_t t] rest0) (fun a => entry_mk O [leaf_t t] (snd a)) ([VNone], rest0) (entry_ext O) u ms o
    = (ms', ev, out) -> key_is ms -> key_is ms'.
Proof.
  intros Hwf Hsh Hp H Hi. destruct out as [[]|e]; [|apply fail_keeps in H; now subst].
  destruct o as [k| |kw|k a|a|k|kw]; cbn [positional] in Hp.
  - apply add_key in H as (a & kd & Hm & Hd & Hadd); [|discriminate].
    apply (single_mk t n k rest0) in Hm; [|assumption..]. subst a. eapply key_is_add; [|eassumption..]. apply py_eq_refl.
  - cbn in H. destruct (mhas VNone ms); discriminate.
  - subst kw. cbn in H. destruct (mhas VNone ms); discriminate.
  - apply set_key in H as (a' & kd & Hm & Hd & Hadd); [|discriminate].
    apply (single_mk t n k (snd a)) in Hm; [|assumption..]. subst a'.
    destruct Hadd as [Hadd|Hadd]; [eapply key_is_replace|eapply key_is_add]; try eassumption; apply py_eq_refl.
  - contradiction.
  - cbn [yl_op] in H. unfold yl_delete in H. destruct (negb _); [discriminate|].
    destruct (mhas k ms) eqn:Eh; [|discriminate]. injection H as <- _. eapply key_is_remove; [|exact Hi].
    apply mdel_remove. now apply mhas_key.
  - apply delkw_remove in H as (k & Hr). eapply key_is_remove; eassumption.
Qed.

Lemma single_run t n os : mtype_wf t -> shallow t -> Forall (fun p => positional (spelled t) (snd p)) os ->
  forall ms, key_is ms -> key_is (entry_run O [n] [leaf_t t] rest0 ms os).
Proof.
  intros Hwf Hsh. unfold entry_run. induction 1 as [|[u o] os Ho _ IH]; intros ms Hm; [exact Hm|]. cbn [yl_run].
  match goal with |- context [fst (fst ?x)] => destruct x as [[ms' ev] out] eqn:E0 end. cbn [fst]. apply IH.
  eapply single_op; eassumption.
Qed.

Lemma single_unique ms i j p q : kdist ms -> key_is ms -> nth_error ms i = Some p -> nth_error ms j = Some q -> i <> j ->
  fst (snd p) <> fst (snd q).
Proof.
  intros Hd Hk Hp Hq Hij Heq. apply all_distinct_iff in Hd.
  assert (Hf : py_eq (fst p) (fst q) = false).
  { apply (Hd i j); [now rewrite nth_error_map, Hp|now rewrite nth_error_map, Hq|assumption]. }
  unfold key_is in Hk. rewrite Forall_forall in Hk.
  destruct (Hk p (nth_error_In _ _ Hp)) as (v & Hv & Hv'), (Hk q (nth_error_In _ _ Hq)) as (v' & Hw & Hw').
  rewrite Hv, Hw in Heq. injection Heq as <-. rewrite py_eq_sym in Hv'.
  rewrite (py_eq_trans _ _ _ Hv' Hw') in Hf. discriminate.
Qed.

(** Any number of string-like keys. *)
Definition key_joined (ms : list (pyval * (list pyval * B))) : Prop :=
  Forall (fun p => exists ss, fst (snd p) = map VStr ss /\ fst p = VStr (join [32%N] ss)) ms.

Lemma kw_get_in n kw v : kw_get n kw = Some v -> exists m, In (m, v) kw.
Proof.
  induction kw as [|[m w] kw IH]; cbn; [discriminate|]. destruct (str_eqb n m).
  - intros H. injection H as ->. exists m. now left.
  - intros H. destruct (IH H) as (m' & Hm). exists m'. now right.
Qed.
Lemma kw_keys_strings ks kw kd : Forall (fun p => exists s, snd p = VStr s) kw -> kw_keys ks kw = Ok kd ->
  exists ss, map snd kd = map VStr ss.
Proof.
  intros Hk. revert kd. induction ks as [|n ks IH]; intros kd H; cbn in H; [injection H as <-; now exists []|].
  destruct (kw_get n kw) as [v|] eqn:Eg; [|discriminate]. destruct (kw_keys ks kw) as [kd'|]; [|discriminate]. cbn in H.
  injection H as <-. destruct (IH _ eq_refl) as (ss & Hss). apply kw_get_in in Eg as (m & Hi).
  rewrite Forall_forall in Hk. destruct (Hk _ Hi) as (s & Hs). cbn in Hs. subst v. exists (s :: ss). cbn. now rewrite Hss.
Qed.

Lemma set_keys_strings ts kd ev ws ss : Forall mtype_wf ts -> Forall string_like ts -> length kd = length ts ->
  map snd kd = map VStr ss -> set_keys O (map leaf_t ts) kd = (ev, Ok ws) -> ws = map VStr ss.
Proof.
  intros Hwf Hsl. revert kd ev ws ss. induction Hwf as [|t ts Ht Hts IH]; intros kd ev ws ss Hl Hm H; cbn [map set_keys] in H.
  - destruct kd; [|discriminate]. destruct ss; [|discriminate]. injection H as _ <-. reflexivity.
  - inversion Hsl; subst. destruct kd as [|[n v] kd]; [discriminate|]. destruct ss as [|s ss]; [discriminate|].
    cbn in Hm. injection Hm as -> Hm.
    destruct (d_out (leaf_assign O (leaf_t t) (VStr s))) as [w|] eqn:Eo; [|discriminate].
    destruct (set_keys O (map leaf_t ts) kd) as [ev' r] eqn:Es. destruct r as [ws'|]; [|discriminate]. cbn in H.
    injection H as _ <-. apply string_leaf in Eo; [|assumption..]. subst w. cbn. f_equal.
    eapply IH; [assumption| |eassumption|exact Es]. cbn in Hl. lia.
Qed.

Lemma key_dict_strings keys s kd : keys <> [] -> key_dict keys (VStr s) = Ok kd ->
  length kd = length keys /\ exists ss, map snd kd = map VStr ss /\ s = join [32%N] ss.
Proof.
  intros Hn H. unfold key_dict in H. destruct keys as [|n [|n' ns]] eqn:Ek; [congruence| |].
  - destruct s as [|c s]; [discriminate|]. injection H as <-. split; [reflexivity|]. exists [c :: s]. now split.
  - rewrite <- Ek in *. destruct (Nat.eqb _ _) eqn:El; [|discriminate]. injection H as <-. apply Nat.eqb_eq in El. split.
    + rewrite combine_length, map_length, El. apply Nat.min_id.
    + exists (split_on 32 s). split; [|symmetry; apply join_split].
      clear - El. revert keys El. generalize (split_on 32 s).
      induction l as [|x l IH]; intros [|y l'] El; try discriminate; [reflexivity|]. cbn. f_equal. apply IH. cbn in El. lia.
Qed.

Lemma entry_mk_strings ts (b : B) kd ev a ss : Forall mtype_wf ts -> Forall string_like ts -> length kd = length ts ->
  map snd kd = map VStr ss -> entry_mk O (map leaf_t ts) b kd = (ev, Ok a) -> a = (map VStr ss, b).
Proof.
  intros Hwf Hsl Hl Hm H. unfold entry_mk in H. destruct (set_keys O (map leaf_t ts) kd) as [ev' [ws|]] eqn:Es; [|discriminate].
  cbn in H. injection H as _ <-. now rewrite (set_keys_strings ts kd ev' ws ss Hwf Hsl Hl Hm Es).
Qed.

Lemma joined_add k a ms ms' ss : map_add k a ms ms' -> fst a = map VStr ss -> k = VStr (join [32%N] ss) ->
  key_joined ms -> key_joined ms'.
Proof.
  intros [_] Ha Hk H. unfold key_joined in *. apply Forall_app. split; [assumption|]. constructor; [|constructor].
  exists ss. now split.
Qed.
Lemma joined_replace k a ms ms' ss : map_replace k a ms ms' -> fst a = map VStr ss -> k = VStr (join [32%N] ss) ->
  key_joined ms -> key_joined ms'.
Proof.
  intros [l1 k' a' l2 He] Ha Hk H. unfold key_joined in *. apply Forall_app in H as [H1 H2].
  inversion H2 as [|? ? H3 H4]; subst. apply Forall_app. split; [assumption|]. constructor; [|assumption].
  exists ss. split; [exact Ha|]. cbn [fst]. destruct k'; try discriminate. cbn [py_eq] in He. apply str_eqb_eq in He. now rewrite He.
Qed.
Lemma joined_remove k ms ms' : map_remove k ms ms' -> key_joined ms -> key_joined ms'.
Proof.
  intros [l1 k' a' l2 He] H. unfold key_joined in *. apply Forall_app in H as [H1 H2]. inversion H2; subst.
  apply Forall_app. now split.
Qed.

Lemma ext_string (a : list pyval * B) ss k : fst a = map VStr ss -> entry_ext O a = Ok k -> exists s, k = VStr s.
Proof.
  intros Ha H. unfold entry_ext in H. rewrite Ha in H. destruct ss as [|s [|s' ss]]; cbn in H; injection H as <-; eauto.
Qed.

Lemma joined_op ts keys u ms o ms' ev out : length keys = length ts -> keys <> [] -> Forall mtype_wf ts -> Forall string_like ts ->
  string_args o ->
  yl_op O keys (entry_mk O (map leaf_t ts) rest0) (fun a => entry_mk O (map leaf_t ts) (snd a))
    (map (fun _ => VNone) (map leaf_t ts), rest0) (entry_ext O) u ms o = (ms', ev, out) -> key_joined ms -> key_joined ms'.
Proof.
  intros Hl Hn Hwf Hsl Hp H Hi. destruct out as [[]|e]; [|apply fail_keeps in H; now subst].
  assert (Hset : forall k a, (exists s, k = VStr s) ->
    yl_op O keys (entry_mk O (map leaf_t ts) rest0) (fun a => entry_mk O (map leaf_t ts) (snd a))
      (map (fun _ => VNone) (map leaf_t ts), rest0) (entry_ext O) u ms (YSet k a) = (ms', ev, Ok tt) -> key_joined ms').
  { intros k a (s & ->) Hs. apply set_key in Hs as (a' & kd & Hm & Hd & Hadd); [|assumption].
    apply key_dict_strings in Hd as (Hk & ss & Hss & ->); [|assumption].
    apply (entry_mk_strings ts (snd a) kd ev a' ss) in Hm; [|assumption|assumption|congruence|assumption]. subst a'.
    destruct Hadd as [Hadd|Hadd]; [eapply joined_replace|eapply joined_add]; try eassumption; reflexivity. }
  destruct o as [k| |kw|k a|a|k|kw]; cbn [string_args] in Hp.
  - destruct Hp as (s & ->). apply add_key in H as (a & kd & Hm & Hd & Hadd); [|assumption].
    apply key_dict_strings in Hd as (Hk & ss & Hss & ->); [|assumption].
    apply (entry_mk_strings ts rest0 kd ev a ss) in Hm; [|assumption|assumption|congruence|assumption]. subst a.
    eapply joined_add; try eassumption; reflexivity.
  - cbn in H. unfold yl_add in H. cbn [hashable negb] in H. destruct (mhas VNone ms); [discriminate|].
    destruct keys; [congruence|discriminate].
  - destruct kw as [|p kw].
    + cbn in H. unfold yl_add in H. cbn [hashable negb] in H. destruct (mhas VNone ms); [discriminate|].
      destruct keys; [congruence|discriminate].
    + apply add_kw in H as (a & kd & Hm & Hd & Hadd); [|discriminate].
      destruct (kw_keys_strings _ _ _ Hp Hd) as (ss & Hss). apply kw_keys_length in Hd.
      apply (entry_mk_strings ts rest0 kd ev a ss) in Hm; [|assumption|assumption|congruence|assumption]. subst a.
      eapply joined_add; [exact Hadd|reflexivity| |assumption]. unfold key_text. do 2 f_equal.
      clear - Hss. revert ss Hss. induction kd as [|[m v] kd IH]; intros [|s ss] H; try discriminate; [reflexivity|].
      cbn in *. injection H as -> H. cbn. f_equal. now apply IH.
  - eapply Hset; eassumption.
  - destruct Hp as (ss & Ha). cbn [yl_op] in H. destruct keys as [|n ns] eqn:Ek; [congruence|]. rewrite <- Ek in *.
    destruct (entry_ext O a) as [k|] eqn:Ee; [|discriminate].
    apply (Hset k a); [eapply ext_string; eassumption|exact H].
  - cbn [yl_op] in H. unfold yl_delete in H. destruct (negb _); [discriminate|].
    destruct (mhas k ms) eqn:Eh; [|discriminate]. injection H as <- _. eapply joined_remove; [|exact Hi].
    apply mdel_remove. now apply mhas_key.
  - apply delkw_remove in H as (k & Hr). eapply joined_remove; eassumption.
Qed.

Lemma joined_run ts keys os : length keys = length ts -> keys <> [] -> Forall mtype_wf ts -> Forall string_like ts ->
  Forall (fun p => string_args (snd p)) os ->
  forall ms, key_joined ms -> key_joined (entry_run O keys (map leaf_t ts) rest0 ms os).
Proof.
  intros Hl Hn Hwf Hsl. unfold entry_run. induction 1 as [|[u o] os Ho _ IH]; intros ms Hm; [exact Hm|]. cbn [yl_run].
  match goal with |- context [fst (fst ?x)] => destruct x as [[ms' ev] out] eqn:E0 end. cbn [fst]. apply IH.
  eapply joined_op; eassumption.
Qed.

Lemma joined_unique ms i j p q : kdist ms -> key_joined ms -> nth_error ms i = Some p -> nth_error ms j = Some q -> i <> j ->
  fst (snd p) <> fst (snd q).
Proof.
  intros Hd Hk Hp Hq Hij Heq. apply all_distinct_iff in Hd.
  assert (Hf : py_eq (fst p) (fst q) = false).
  { apply (Hd i j); [now rewrite nth_error_map, Hp|now rewrite nth_error_map, Hq|assumption]. }
  unfold key_joined in Hk. rewrite Forall_forall in Hk.
  destruct (Hk p (nth_error_In _ _ Hp)) as (ss & Hs & Hs'), (Hk q (nth_error_In _ _ Hq)) as (ss' & Ht & Ht').
  rewrite Hs, Ht in Heq. assert (ss = ss').
  { clear - Heq. revert ss' Heq. induction ss as [|x ss IH]; intros [|y ss'] H; try discriminate; [reflexivity|].
    cbn in H. injection H as -> H. f_equal. now apply IH. }
  subst ss'. rewrite Hs', Ht', py_eq_refl in Hf. discriminate.
Qed.
End Keys.
