(** Lemmas for key arguments with any separators. *)
From Verif Require Import PyStr PyStr_facts SafeName Spec_Names Names_proofs Spec_Keysep.
From Coq Require Import Lia.

Lemma key_arg_join k more : Forall (fun p => fst p = one_blank) more -> key_arg k more = join [32%N] (k :: map snd more).
Proof.
  revert k. induction more as [|[sep k'] more IH]; intros k H; [reflexivity|]. inversion H as [|? ? E H']; subst. cbn [fst] in E. subst sep.
  cbn [map snd]. rewrite join_cons2. cbn [key_arg]. rewrite (IH k' H'). reflexivity.
Qed.

Fixpoint blanks (s : str) : nat := match s with [] => 0 | c :: s' => if N.eqb c 32 then S (blanks s') else blanks s' end.
Lemma blanks_app a b : blanks (a ++ b) = blanks a + blanks b.
Proof. induction a as [|c a IH]; [reflexivity|]. cbn [app blanks]. rewrite IH. destruct (N.eqb c 32); lia. Qed.
Lemma split_length s : length (split_on 32 s) = S (blanks s).
Proof.
  induction s as [|c s IH]; [reflexivity|]. cbn [split_on blanks]. destruct (N.eqb c 32); [cbn [length]; rewrite IH; reflexivity|].
  destruct (split_on 32 s) as [|w ws]; [discriminate|]. exact IH.
Qed.
Lemma split_has c s : c <> 32%N -> In c s -> exists w, In w (split_on 32 s) /\ In c w.
Proof.
  intros Hc. induction s as [|x s IH]; [intros []|]. cbn [split_on]. destruct (N.eqb_spec x 32) as [E|E].
  - intros [->|Hin]; [contradiction|]. destruct (IH Hin) as (w & H1 & H2). exists w. split; [right; assumption|assumption].
  - intros H. pose proof (split_on_nonnil 32 s) as Hn. destruct (split_on 32 s) as [|w ws]; [contradiction|]. destruct H as [->|Hin].
    + exists (c :: w). split; left; reflexivity.
    + destruct (IH Hin) as (w' & [->|H1] & H2); [exists (x :: w'); split; [left; reflexivity|right; assumption]|exists w'; split; [right; assumption|assumption]].
Qed.

Lemma underscored_blanks s : blanks (underscored s) = blanks s.
Proof.
  induction s as [|c s IH]; [reflexivity|]. unfold underscored. cbn [map]. fold (underscored s). destruct (N.eqb_spec c 45) as [->|H1]; [exact IH|].
  destruct (N.eqb_spec c 46) as [->|H2]; [exact IH|]. cbn [orb blanks]. rewrite IH. reflexivity.
Qed.
Lemma space_underscored c s : yang_space c -> (In c (underscored s) <-> In c s).
Proof.
  intros Hc. unfold underscored. rewrite in_map_iff. split.
  - intros (x & E & Hx). destruct (N.eqb x 45 || N.eqb x 46)%bool; [|rewrite <- E; assumption].
    rewrite <- E in Hc. destruct Hc as [H|[H|[H|[H|[]]]]]; discriminate.
  - intros H. exists c. split; [|assumption]. destruct Hc as [<-|[<-|[<-|[<-|[]]]]]; reflexivity.
Qed.

Lemma escaped_no_spaces : forallb (fun w => forallb (fun c => negb (existsb (N.eqb c) [32; 9; 10; 13]%N)) w) escaped_words = true.
Proof. vm_compute; reflexivity. Qed.
Lemma escaped_spaceless w c : In w escaped_words -> yang_space c -> ~ In c w.
Proof.
  intros Hw Hc Hin. pose proof (proj1 (forallb_forall _ _) escaped_no_spaces w Hw) as H. cbn beta in H.
  pose proof (proj1 (forallb_forall _ _) H c Hin) as H'. cbn beta in H'. apply Bool.negb_true_iff in H'.
  assert (E : existsb (N.eqb c) [32; 9; 10; 13]%N = true) by (apply existsb_exists; exists c; split; [exact Hc|apply N.eqb_refl]). rewrite E in H'. discriminate.
Qed.
Lemma attrs_spaced s c : yang_space c -> In c s -> list_key_attrs s = split_on 32 (underscored s).
Proof.
  intros Hc Hin. unfold list_key_attrs, list_key_string. destruct (safe_name_exact s) as [[H E]|[H E]].
  - exfalso. apply (escaped_spaceless _ c H Hc). apply space_underscored; assumption.
  - rewrite E. reflexivity.
Qed.

Definition spaceless (s : str) : Prop := forall c, yang_space c -> ~ In c s.
Lemma leaf_attr_spaceless k : spaceless k -> spaceless (leaf_attr k).
Proof.
  intros H c Hc Hin. unfold leaf_attr in Hin. destruct (safe_name_exact k) as [[_ E]|[_ E]]; rewrite E in Hin.
  - apply in_app_or in Hin. destruct Hin as [Hin|Hin]; [exact (H c Hc (proj1 (space_underscored c k Hc) Hin))|].
    assert (E95 : c = 95%N) by (destruct Hin as [E'|[]]; symmetry; exact E'). subst c. destruct Hc as [H'|[H'|[H'|[H'|[]]]]]; discriminate.
  - exact (H c Hc (proj1 (space_underscored c k Hc) Hin)).
Qed.
Lemma spaceless_blanks s : spaceless s -> blanks s = 0.
Proof.
  intros H. induction s as [|c s IH]; [reflexivity|]. cbn [blanks]. destruct (N.eqb_spec c 32) as [->|E].
  - exfalso. apply (H 32%N); [left; reflexivity|left; reflexivity].
  - apply IH. intros x Hx Hin. apply (H x Hx). right. assumption.
Qed.
Lemma identifier_spaceless k : yang_identifier k -> spaceless k.
Proof.
  intros (c & s & -> & Hc & Hs) x Hx [->|Hin].
  - destruct Hx as [<-|[<-|[<-|[<-|[]]]]]; discriminate.
  - rewrite Forall_forall in Hs. specialize (Hs _ Hin). destruct Hx as [<-|[<-|[<-|[<-|[]]]]]; discriminate.
Qed.

Fixpoint seps (more : list (str * str)) : str := match more with [] => [] | (s, _) :: m => s ++ seps m end.
Lemma key_arg_blanks k more : spaceless k -> Forall (fun p => spaceless (snd p)) more -> blanks (key_arg k more) = blanks (seps more).
Proof.
  revert k. induction more as [|[s k'] more IH]; intros k Hk Hm; [apply spaceless_blanks; assumption|]. inversion Hm; subst. cbn [key_arg seps]. rewrite !blanks_app.
  rewrite (spaceless_blanks k Hk), (IH k') by assumption. reflexivity.
Qed.
Lemma key_arg_seps k more c : In c (seps more) -> In c (key_arg k more).
Proof.
  revert k. induction more as [|[s k'] more IH]; intros k; [intros []|]. cbn [seps key_arg]. rewrite !in_app_iff. intros [H|H]; [right; left; assumption|]. right; right. apply IH; assumption.
Qed.
Lemma seps_forall more c : In c (seps more) <-> exists p, In p more /\ In c (fst p).
Proof.
  induction more as [|[s k] more IH]; cbn [seps].
  - split; [intros []|intros (p & [] & _)].
  - rewrite in_app_iff, IH. split.
    + intros [H|(p & H1 & H2)]; [exists (s, k); split; [left; reflexivity|assumption]|exists p; split; [right; assumption|assumption]].
    + intros (p & [<-|H1] & H2); [left; assumption|right; exists p; split; assumption].
Qed.
Lemma all_blank s : (forall c, In c s -> c = 32%N) -> blanks s = length s.
Proof. induction s as [|c s IH]; intros H; [reflexivity|]. cbn [blanks length]. rewrite (H c (or_introl eq_refl)). cbn. f_equal. apply IH. intros x Hx. apply H. right; assumption. Qed.
Lemma seps_length more : Forall (fun p => separator (fst p)) more -> length more <= length (seps more).
Proof.
  induction 1 as [|[s k] more [Hs _] H IH]; [apply le_n|]. cbn [seps length fst] in *. rewrite app_length. destruct s; [contradiction|]. cbn [length]. lia.
Qed.
Lemma seps_single more : Forall (fun p => separator (fst p)) more -> (forall c, In c (seps more) -> c = 32%N) -> length (seps more) = length more -> Forall (fun p => fst p = one_blank) more.
Proof.
  induction 1 as [|[s k] more [Hs Hf] H IH]; intros Hb Hl; constructor; cbn [fst seps length] in *; rewrite ?app_length in Hl; pose proof (seps_length _ H) as Hle.
  - destruct s as [|c [|c' s]]; [contradiction| |cbn [length] in Hl; lia]. rewrite (Hb c (or_introl eq_refl)). reflexivity.
  - apply IH; [intros c Hc; apply Hb; apply in_or_app; right; assumption|]. destruct s as [|c s]; [contradiction|]. cbn [length] in Hl. lia.
Qed.

Lemma separators_thm k more : more <> [] -> Forall yang_identifier (k :: map snd more) -> Forall (fun p => separator (fst p)) more ->
  (list_key_attrs (key_arg k more) = map leaf_attr (k :: map snd more) <->
   (Forall (fun p => fst p = one_blank) more /\ Forall (fun n => ~ In (underscored n) escaped_words) (k :: map snd more))).
Proof.
  intros Hne Hid Hsep.
  assert (Hsl : Forall spaceless (k :: map snd more)) by (eapply Forall_impl; [|exact Hid]; exact identifier_spaceless).
  assert (Hno : Forall (fun w => ~ In 32%N w) (k :: map snd more)) by (eapply Forall_impl; [|exact Hsl]; intros a Ha; apply Ha; left; reflexivity).
  assert (Hlen : length (k :: map snd more) <> 1) by (destruct more; [contradiction|cbn; lia]).
  assert (Hbl : Forall (fun p => fst p = one_blank) more -> (list_key_attrs (key_arg k more) = map leaf_attr (k :: map snd more) <-> Forall (fun n => ~ In (underscored n) escaped_words) (k :: map snd more))).
  { intros Hb. rewrite (key_arg_join k more Hb). rewrite (key_attrs_iff (k :: map snd more)) by (try discriminate; assumption). split; [intros [H|H]; [contradiction|assumption]|intros H; right; assumption]. }
  split; [|intros [Hb He]; apply (Hbl Hb); assumption].
  intros E. assert (Hb : Forall (fun p => fst p = one_blank) more); [|split; [assumption|apply (Hbl Hb); assumption]].
  assert (Hc0 : exists c, In c (seps more) /\ yang_space c).
  { destruct more as [|[s k'] m]; [contradiction|]. inversion Hsep as [|? ? [Hs Hf] _]; subst. cbn [fst] in *. destruct s as [|c s]; [contradiction|]. exists c. split; [left; reflexivity|]. inversion Hf; assumption. }
  destruct Hc0 as (c0 & Hc0 & Hy0). rewrite (attrs_spaced _ c0 Hy0 (key_arg_seps k more c0 Hc0)) in E.
  inversion Hsl as [|? ? Hk Hm]; subst. apply (proj1 (Forall_map _ _ _)) in Hm.
  assert (Hb : forall c, In c (seps more) -> c = 32%N).
  { intros c Hc. destruct (N.eq_dec c 32) as [->|Hd]; [reflexivity|]. exfalso.
    assert (Hy : yang_space c).
    { apply seps_forall in Hc. destruct Hc as (p & Hp & Hcp). rewrite Forall_forall in Hsep. destruct (Hsep p Hp) as [_ Hf]. rewrite Forall_forall in Hf. apply Hf; assumption. }
    destruct (split_has c (underscored (key_arg k more)) Hd) as (w & Hw & Hcw); [apply space_underscored; [assumption|apply key_arg_seps; assumption]|].
    rewrite E in Hw. apply in_map_iff in Hw. destruct Hw as (n & <- & Hn). rewrite Forall_forall in Hsl. apply (leaf_attr_spaceless n (Hsl n Hn) c Hy Hcw). }
  apply seps_single; [assumption|assumption|]. apply (f_equal (@length _)) in E. rewrite split_length, map_length in E. rewrite underscored_blanks, key_arg_blanks in E by assumption.
  rewrite (all_blank _ Hb) in E. cbn [length] in E. rewrite map_length in E. lia.
Qed.
