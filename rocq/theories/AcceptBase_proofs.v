(** What the proofs about accepted documents need of single operations: without choices it holds for all trees and
    paths, with choices for trees made by plain operations and for paths that are not rivals of one another. *)
From Coq Require Import Lia.
From Verif Require Import PyStr PyStr_facts PyVal Spec_Lists YList YList_proofs
  Tree Spec_Tree Tree_proofs Tree_frame Tree_main Tree_hist Tree_tell Tree_past Serialise Spec_Serialise.
From Verif Require Import Load_proofs.

Section Upd.
Context (good : list obj -> Prop) (asked : list pstep -> Prop).
(** Between [m] and [m'] nothing that is asked for changed but at or below [p]. *)
Record changes (p : list pstep) (m m' : list obj) : Prop := {
  c_good : good m';
  c_apart : forall q, asked q -> apart p q -> at_path m' q = at_path m q;
  c_above : forall q, prefix q p -> q <> p -> kept (at_path m q) (at_path m' q)
}.
Lemma changes_refl p m : good m -> changes p m m.
Proof. intros H. constructor; auto using kept_refl. Qed.
Lemma changes_trans p m1 m2 m3 : changes p m1 m2 -> changes p m2 m3 -> changes p m1 m3.
Proof.
  intros [A1 B1 C1] [A2 B2 C2]. constructor; auto.
  - intros q Ha Hq. rewrite B2, B1; auto.
  - intros q Hq Hn. eapply kept_trans; eauto.
Qed.
Lemma changes_below p r m m' : changes (p ++ r) m m' -> changes p m m'.
Proof.
  intros [A B C]. constructor; auto.
  - intros q Ha Hq. apply B; [exact Ha|]. now apply apart_app.
  - intros q Hq Hn. apply C; [now apply prefix_app|]. intros E.
    pose proof (prefix_self_len q p r Hq E). subst r. rewrite app_nil_r in E. auto.
Qed.
Lemma changes_above p a m m' : changes (p ++ [a]) m m' -> kept (at_path m p) (at_path m' p).
Proof.
  intros [_ _ C]. apply C; [now exists [a]|]. intros E. apply (f_equal (@length _)) in E.
  rewrite app_length in E. cbn in E. lia.
Qed.
Lemma changes_entry q k m m' c es : changes (q ++ [Ent k]) m m' -> at_path m q = Some (OList c es) ->
  exists c' es', at_path m' q = Some (OList c' es') /\ map fst es' = map fst es.
Proof.
  intros Hu Hat. pose proof (changes_above _ _ _ _ Hu) as Hk. rewrite Hat in Hk. cbn in Hk.
  destruct (at_path m' q) as [[]|] eqn:Hat'; try discriminate. eauto.
Qed.

Record lawful (O : oracle) (top : list schema) : Prop := {
  l_shape : forall m, good m -> shaped top m;
  l_down : forall q r, asked (q ++ r) -> asked q;
  l_op : forall m q o s x, good m -> ends_kid q -> asked q -> plain_op o -> schema_at top q = Some s -> at_path m q = Some x ->
    (forall u yo i od cs, o = AList u yo -> s <> SList i [] od cs) ->
    changes q m (fst (run_op O top m q o)) /\ snd (run_op O top m q o) = f_out (apply O s x o) /\ at_path (fst (run_op O top m q o)) q = Some (put O s x o)
}.
End Upd.

(** Without choices. *)
Lemma free_lawful O top : choice_free top -> lawful (shaped top) (fun _ => True) O top.
Proof.
  intros Hcf. constructor; auto. intros m q o s x Hs He _ _ Hsc Hx _. destruct (op_at O top Hcf m q o s x Hs He Hsc Hx) as [Ho Hp]. split; [|auto].
  destruct (op_upd O top Hcf m q o Hs He) as [A B C]. constructor; auto.
Qed.

(** With choices. *)
Lemma rival_longer cs p t r : rival cs p r -> rival cs (p ++ t) r.
Proof.
  intros (s & c & k' & t0 & st & k & H2 & Hf & Hs & Ht & Hp & Hl & Hst & Htt & Hk). exists s, c, k', t0, st, k. split; [exact H2|]. split.
  - assert (length r - 1 <= length p)%nat by (destruct Hp as (z & ->); rewrite app_length; lia).
    rewrite firstn_app. replace (length r - 1 - length p)%nat with 0%nat by lia. cbn [firstn]. now rewrite app_nil_r.
  - repeat (split; [first [exact Hs|exact Ht|now apply prefix_app|exact Hl|exact Hst|exact Htt]|]). exact Hk.
Qed.
Definition settled_tree (top : list schema) (m : list obj) : Prop := shaped top m /\ Forall tidy m.
Lemma cases_lawful O top (told : list pstep -> Prop) : uniform top -> even_keys top ->
  (forall q1 q2 r, told q1 -> told q2 -> prefix r q2 -> ~ rival top q1 r) ->
  lawful (settled_tree top) (fun q => exists z, told (q ++ z)) O top.
Proof.
  intros Hun Hk Hno. constructor.
  - intros m H. exact (proj1 H).
  - intros q r (z & Hz). exists (r ++ z). now rewrite app_assoc.
  - intros m q o s x [Hs Htd] He (z & Hz) Hpo Hsc Hx Hnk. destruct (at_path_conf top m q x Hs Hx) as (s' & Hsc' & Hcx). rewrite Hsc in Hsc'. injection Hsc' as <-.
    destruct (module_exec_ok O top m q o s x Hs He Hsc Hx) as (evs & R).
    assert (Hnn : names_new m q s o). { intros u yo i od cs' -> _ ->. now destruct (Hnk u yo i od cs' eq_refl). }
    destruct (plain_base O top m q s x o Hun Htd Hk Hsc Hx Hcx Hpo Hnn) as (B1 & B2 & _).
    pose proof (uniform_clash false top q s _ Hun Hsc B1) as Hcl.
    split; [|split; [exact (run_out _ _ _ _ _ _ _ _ _ _ _ R)|eapply run_put; eauto]].
    constructor.
    + split; [exact (module_run_shaped O top [(q, o)] m Hs)|]. apply (tidy_exec O top m q o Hpo Hs Htd).
    + intros q0 (z0 & Hz0) Ha. unfold Serialise.run_op. destruct (run_frame _ _ _ _ _ _ _ _ _ _ _ R Hs q0 Ha) as [E|(r0 & Hp0 & Hreset)]; [exact E|exfalso].
      assert (Hown : forall c k, In (Some (c, k)) (base_events O s x o) -> s_tag s = Some (c, k)) by (intros c k Hin; exact (own_tags_in _ _ B1 _ _ Hin)).
      pose proof (proj1 (reset_is_rival O top _ q _ s r0 Hsc Hown Hreset)) as Hr. apply (Hno (q ++ z) (q0 ++ z0) r0 Hz Hz0); [now apply prefix_app|]. now apply rival_longer.
    + intros r Hr Hn. destruct r as [|a r]; [cbn; discriminate|].
      pose proof (run_above _ _ _ _ _ _ _ _ _ _ _ R Hs Hcl (a :: r) Hr ltac:(discriminate) Hn) as Hm. unfold Serialise.run_op.
      unfold marked in Hm. destruct (at_path m (a :: r)) as [[]|]; try contradiction;
        destruct (at_path _ (a :: r)) as [[]|]; try contradiction; destruct (schema_at top (a :: r)) as [[]|]; try contradiction; cbn.
      * destruct Hm as [_ ->]. unfold mark_present. destruct (base_events _ _ _ _); auto. now intros ->.
      * now destruct Hm.
Qed.
