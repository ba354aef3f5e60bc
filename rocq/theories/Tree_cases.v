(** Conditions of the theorems about histories, checked for concrete modules and histories. *)
From Verif Require Import PyStr PyStr_facts PyVal YList Tree Spec_Tree Tree_hist.
Import ListNotations.

(** Every list has keys, and those are leaves in the choice the list is in. *)
Definition tag_eqb (a b : option (str * str)) : bool :=
  match a, b with None, None => true | Some (c, k), Some (c', k') => str_eqb c c' && str_eqb k k' | _, _ => false end.
Lemma tag_eqb_eq a b : tag_eqb a b = true -> a = b.
Proof.
  destruct a as [[c k]|], b as [[c' k']|]; cbn; try discriminate; auto. intros H. apply andb_true_iff in H as [H1 H2].
  apply str_eqb_eq in H1. apply str_eqb_eq in H2. now subst.
Qed.
Fixpoint keyed_b (s : schema) : bool :=
  match s with
  | SCont _ _ cs => forallb keyed_b cs
  | SList i0 keys _ cs =>
      forallb keyed_b cs && match keys with [] => false | _ => true end &&
      forallb (fun s => negb (existsb (str_eqb (e_py (s_info s))) keys) ||
        match s with SLeaf i _ _ _ _ => tag_eqb (e_choice i) (e_choice i0) | _ => false end) cs
  | _ => true
  end.
Lemma keyed_sub p : forall s t, keyed_b s = true -> sub s p = Some t -> keyed_b t = true.
Proof.
  induction p as [|[n|k] p IH]; intros s t Hs Ht; cbn [sub] in Ht.
  - now injection Ht as <-.
  - destruct s as [| |i pr cs|]; try discriminate. destruct (nth_error cs n) as [u|] eqn:E; [|discriminate].
    apply (IH u); auto. cbn in Hs. rewrite forallb_forall in Hs. apply Hs. eapply nth_error_In; eauto.
  - destruct s as [| | |i keys od cs]; try discriminate. apply (IH (entry_schema cs)); auto.
    cbn in Hs. apply andb_true_iff in Hs as [Hs _]. now apply andb_true_iff in Hs as [Hs _].
Qed.
Lemma keyed_leaf_keys cs : forallb keyed_b cs = true -> leaf_keys cs.
Proof.
  intros H p i keys od cs' n s Hp Hn Hin. pose proof (keyed_sub p (entry_schema cs) _ H Hp) as G. cbn in G.
  apply andb_true_iff in G as [_ G]. rewrite forallb_forall in G. specialize (G s (nth_error_In _ _ Hn)).
  assert (E : existsb (str_eqb (e_py (s_info s))) keys = true).
  { apply existsb_exists. exists (e_py (s_info s)). split; [exact Hin|apply str_eqb_refl]. }
  rewrite E in G. cbn in G. destruct s as [i0 lt d y k| | |]; try discriminate.
  exists i0, lt, d, y, k. split; [reflexivity|]. now apply tag_eqb_eq.
Qed.
Lemma leaf_even_keys cs : leaf_keys cs -> even_keys cs.
Proof.
  intros H p i keys od cs' n s Hp Hn Hin. destruct (H p i keys od cs' n s Hp Hn Hin) as (i0 & lt & d & y & k & -> & E). exact E.
Qed.
(** Keys are in the choice their list is in. *)
Fixpoint even_b (s : schema) : bool :=
  match s with
  | SCont _ _ cs => forallb even_b cs
  | SList i0 keys _ cs =>
      forallb even_b cs &&
      forallb (fun s => negb (existsb (str_eqb (e_py (s_info s))) keys) || tag_eqb (s_tag s) (e_choice i0)) cs
  | _ => true
  end.
Lemma even_sub p : forall s t, even_b s = true -> sub s p = Some t -> even_b t = true.
Proof.
  induction p as [|[n|k] p IH]; intros s t Hs Ht; cbn [sub] in Ht.
  - now injection Ht as <-.
  - destruct s as [| |i pr cs|]; try discriminate. destruct (nth_error cs n) as [u|] eqn:E; [|discriminate].
    apply (IH u); auto. cbn in Hs. rewrite forallb_forall in Hs. apply Hs. eapply nth_error_In; eauto.
  - destruct s as [| | |i keys od cs]; try discriminate. apply (IH (entry_schema cs)); auto.
    cbn in Hs. now apply andb_true_iff in Hs as [Hs _].
Qed.
Lemma even_by cs : forallb even_b cs = true -> even_keys cs.
Proof.
  intros H p i keys od cs' n s Hp Hn Hin. pose proof (even_sub p (entry_schema cs) _ H Hp) as G. cbn in G.
  apply andb_true_iff in G as [_ G]. rewrite forallb_forall in G. specialize (G s (nth_error_In _ _ Hn)).
  assert (E : existsb (str_eqb (e_py (s_info s))) keys = true).
  { apply existsb_exists. exists (e_py (s_info s)). split; [exact Hin|apply str_eqb_refl]. }
  rewrite E in G. now apply tag_eqb_eq.
Qed.
Lemma keyed_uids O cs os : forallb keyed_b cs = true -> new_uids O cs os.
Proof.
  intros H os1 p uid yo os2 i od cs' _ _ Hp. pose proof (keyed_sub p (entry_schema cs) _ H Hp) as G. cbn in G.
  rewrite andb_false_r in G. discriminate.
Qed.

Lemma all_ok_step O cs os : all_ok O cs os -> forall os1 p o os2, os = os1 ++ (p, o) :: os2 ->
  snd (module_exec O cs (module_run O cs (module_new O cs) os1) p o) = Ok tt.
Proof.
  induction 1 as [|os p0 o0 _ IH Hr]; intros os1 p o os2 E; [destruct os1; discriminate|].
  destruct os2 as [|x os2] using rev_ind.
  - apply app_inj_tail in E as [<- [= <- <-]]. exact Hr.
  - clear IHos2. rewrite app_comm_cons, app_assoc in E. apply app_inj_tail in E as [E _]. eauto.
Qed.
Lemma ok_clean O cs os : all_ok O cs os -> clean_refusals O cs os.
Proof. intros H os1 p o os2 E. left. eapply all_ok_step; eauto. Qed.
Lemma clean_orderly O cs os q : clean_refusals O cs os -> orderly O cs os q.
Proof. intros H os1 p o os2 r E _ _. exact (H os1 p o os2 E). Qed.
