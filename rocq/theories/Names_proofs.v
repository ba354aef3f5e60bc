(** Lemmas for the naming properties. *)
From Verif Require Import PyStr PyStr_facts SafeName Spec_Names.
From Coq Require Import Lia ZifyBool ZifyN ZifyNat.

Lemma replaced_underscored s : replace_ch 46 95 (replace_ch 45 95 s) = underscored s.
Proof.
  unfold replace_ch, underscored. rewrite map_map. apply map_ext; intros c.
  destruct (N.eqb_spec c 45) as [->|H45]; [reflexivity|].
  destruct (N.eqb_spec c 46); reflexivity.
Qed.

Lemma safe_name_unfold s :
  safe_name s = if str_in (underscored s) escaped_words then underscored s ++ [95%N] else underscored s.
Proof. unfold safe_name. rewrite replaced_underscored. reflexivity. Qed.

Lemma underscored_no c s : In c (underscored s) -> c <> 45%N /\ c <> 46%N.
Proof.
  unfold underscored; rewrite in_map_iff. intros (x & <- & _).
  destruct (N.eqb_spec x 45); cbn; [lia|]. destruct (N.eqb_spec x 46); cbn; lia.
Qed.

Lemma underscored_idem s : (forall c, In c s -> c <> 45%N /\ c <> 46%N) -> underscored s = s.
Proof.
  induction s as [|x s IH]; intros H; [reflexivity|].
  cbn [underscored map]. destruct (H x (or_introl eq_refl)) as [H1 H2].
  destruct (N.eqb_spec x 45); [lia|]. destruct (N.eqb_spec x 46); [lia|]. cbn.
  f_equal. apply IH. intros c Hc; apply H; now right.
Qed.

Lemma escaped_words_closed :
  forallb (fun w => negb (str_in (w ++ [95%N]) escaped_words)) escaped_words = true.
Proof. vm_compute. reflexivity. Qed.

Lemma escaped_not_escaped_suffix w : In w escaped_words -> ~ In (w ++ [95%N]) escaped_words.
Proof.
  intros Hw. pose proof escaped_words_closed as H. rewrite forallb_forall in H.
  specialize (H w Hw). apply negb_true_iff in H. now apply str_in_false.
Qed.

Lemma safe_name_chars s c : In c (safe_name s) -> c <> 45%N /\ c <> 46%N.
Proof.
  rewrite safe_name_unfold. destruct (str_in _ _).
  - rewrite in_app_iff. intros [H|[<-|[]]]; [now apply underscored_no in H|lia].
  - apply underscored_no.
Qed.

Lemma safe_name_not_escaped s : ~ In (safe_name s) escaped_words.
Proof.
  rewrite safe_name_unfold. destruct (str_in (underscored s) escaped_words) eqn:E.
  - apply str_in_In in E. now apply escaped_not_escaped_suffix.
  - now apply str_in_false.
Qed.

Lemma safe_name_idempotent s : safe_name (safe_name s) = safe_name s.
Proof.
  rewrite (safe_name_unfold (safe_name s)).
  rewrite (underscored_idem (safe_name s)) by apply safe_name_chars.
  pose proof (safe_name_not_escaped s) as H. apply str_in_false in H. now rewrite H.
Qed.

Lemma app_last_inj (a b : str) c d : a ++ [c] = b ++ [d] -> a = b.
Proof. intros H; apply app_inj_tail in H; tauto. Qed.

Lemma safe_name_collision a b :
  safe_name a = safe_name b <->
  underscored a = underscored b
  \/ (In (underscored a) escaped_words /\ underscored b = underscored a ++ [95%N])
  \/ (In (underscored b) escaped_words /\ underscored a = underscored b ++ [95%N]).
Proof.
  rewrite !safe_name_unfold.
  destruct (str_in (underscored a) escaped_words) eqn:Ea;
  destruct (str_in (underscored b) escaped_words) eqn:Eb.
  - apply str_in_In in Ea; apply str_in_In in Eb. split.
    + intros H. left. now apply app_last_inj in H.
    + intros [->|[[_ H]|[_ H]]]; [reflexivity| |].
      * exfalso. apply (escaped_not_escaped_suffix _ Ea). now rewrite <- H.
      * exfalso. apply (escaped_not_escaped_suffix _ Eb). now rewrite <- H.
  - apply str_in_In in Ea; apply str_in_false in Eb. split.
    + intros H. right; left. auto.
    + intros [H|[[_ H]|[H _]]]; [rewrite H in Ea; contradiction|congruence|contradiction].
  - apply str_in_false in Ea; apply str_in_In in Eb. split.
    + intros H. right; right. auto.
    + intros [H|[[H _]|[_ H]]]; [rewrite H in Ea; contradiction|contradiction|congruence].
  - apply str_in_false in Ea; apply str_in_false in Eb. split.
    + intros H; now left.
    + intros [H|[[H _]|[H _]]]; [assumption|contradiction|contradiction].
Qed.

(** What [safe_name] does, without reference to how it does it. *)
Lemma safe_name_exact s :
  (In (underscored s) escaped_words /\ safe_name s = underscored s ++ [95%N])
  \/ (~ In (underscored s) escaped_words /\ safe_name s = underscored s).
Proof.
  rewrite safe_name_unfold. destruct (str_in _ _) eqn:E; [left|right]; split; try reflexivity.
  - now apply str_in_In.
  - now apply str_in_false.
Qed.

(* ---------------------------------------------------------------- legality *)
Lemma yang_char_underscored c : yang_char c = true ->
  py_char (if (N.eqb c 45 || N.eqb c 46)%bool then 95%N else c) = true.
Proof.
  unfold yang_char, py_char, is_alpha, is_digit. intros H.
  destruct (N.eqb_spec c 45); [reflexivity|]. destruct (N.eqb_spec c 46); [reflexivity|]. cbn. lia.
Qed.

Lemma underscored_legal s : yang_identifier s ->
  exists c s', underscored s = c :: s' /\ py_start c = true /\ Forall (fun x => py_char x = true) s'.
Proof.
  intros (c & s' & -> & Hc & Hs). exists c, (underscored s'). repeat split.
  - cbn [underscored map]. unfold yang_start, is_alpha in Hc.
    destruct (N.eqb_spec c 45); [lia|]. destruct (N.eqb_spec c 46); [lia|]. reflexivity.
  - exact Hc.
  - unfold underscored. apply Forall_map. eapply Forall_impl; [|exact Hs].
    intros x Hx; now apply yang_char_underscored.
Qed.

Lemma keywords_split :
  forallb (fun k => str_in k escaped_words || str_in k unescaped_keywords) py_keywords = true.
Proof. vm_compute; reflexivity. Qed.
Lemma unescaped_are_keywords :
  forallb (fun k => str_in k py_keywords && negb (str_in k escaped_words)
                    && forallb (fun c => negb (N.eqb c 95)) k) unescaped_keywords = true.
Proof. vm_compute; reflexivity. Qed.
Lemma keywords_no_trailing : forallb (fun k => negb (ch_in 95 k)) py_keywords = true.
Proof. vm_compute; reflexivity. Qed.

Lemma underscored_eq_no_underscore s k :
  underscored s = k -> ~ In 95%N k -> s = k.
Proof.
  intros <-. induction s as [|x s IH]; intros H; [reflexivity|].
  cbn [underscored map] in *.
  destruct (N.eqb_spec x 45); [exfalso; apply H; now left|].
  destruct (N.eqb_spec x 46); [exfalso; apply H; now left|].
  cbn in *. f_equal. apply IH. intros Hin; apply H; now right.
Qed.

Lemma safe_name_legal_iff s :
  yang_identifier s -> (py_legal (safe_name s) <-> ~ In s unescaped_keywords).
Proof.
  intros Hy. destruct (underscored_legal s Hy) as (c & s' & Hu & Hc & Hs).
  assert (Hk := keywords_split). rewrite forallb_forall in Hk.
  assert (Hun := unescaped_are_keywords). rewrite forallb_forall in Hun.
  assert (Hnt := keywords_no_trailing). rewrite forallb_forall in Hnt.
  split.
  - intros [_ Hleg] Hin. apply Hleg.
    specialize (Hun _ Hin). apply andb_true_iff in Hun; destruct Hun as [Hun Hfree].
    apply andb_true_iff in Hun; destruct Hun as [Hkw Hne].
    apply str_in_In in Hkw. apply negb_true_iff, str_in_false in Hne.
    assert (Hus : underscored s = s).
    { apply underscored_idem. intros x Hx.
      (* no '-' or '.' in any of the five words: check by enumeration *)
      assert (Hch : forallb (fun k => forallb (fun c => negb (N.eqb c 45) && negb (N.eqb c 46)) k)
                      unescaped_keywords = true) by (vm_compute; reflexivity).
      rewrite forallb_forall in Hch. specialize (Hch _ Hin). rewrite forallb_forall in Hch.
      specialize (Hch _ Hx). lia. }
    rewrite safe_name_unfold, Hus. apply str_in_false in Hne. now rewrite Hne.
  - intros Hnin. split.
    + rewrite safe_name_unfold, Hu. destruct (str_in _ _).
      * exists c, (s' ++ [95%N]). repeat split; [assumption|].
        apply Forall_app; split; [assumption|constructor; [reflexivity|constructor]].
      * exists c, s'. repeat split; assumption.
    + intros Hkw. destruct (safe_name_exact s) as [[He Hsn]|[He Hsn]].
      * rewrite Hsn in Hkw. specialize (Hnt _ Hkw). apply negb_true_iff, ch_in_false in Hnt.
        apply Hnt. apply in_or_app; right; now left.
      * rewrite Hsn in Hkw. pose proof (Hk _ Hkw) as Hor. apply orb_true_iff in Hor.
        destruct Hor as [Hor|Hor]; apply str_in_In in Hor; [contradiction|].
        apply Hnin. specialize (Hnt _ Hkw). apply negb_true_iff, ch_in_false in Hnt.
        pose proof (underscored_eq_no_underscore s _ eq_refl Hnt) as E.
        rewrite E. exact Hor.
Qed.

(* ---------------------------------------------------------------- list keys *)
Lemma underscored_app a b : underscored (a ++ b) = underscored a ++ underscored b.
Proof. apply map_app. Qed.

Lemma underscored_join ks : underscored (join [32%N] ks) = join [32%N] (map underscored ks).
Proof.
  induction ks as [|k ks IH]; [reflexivity|].
  destruct ks as [|k' ks]; [reflexivity|].
  rewrite join_cons2. cbn [map] in *. rewrite join_cons2, !underscored_app, IH. reflexivity.
Qed.

Lemma underscored_nospace k : ~ In 32%N k -> ~ In 32%N (underscored k).
Proof.
  unfold underscored; rewrite in_map_iff; intros H (x & Hx & Hin).
  destruct (N.eqb_spec x 45); cbn in Hx; [lia|]. destruct (N.eqb_spec x 46); cbn in Hx; [lia|].
  subst; contradiction.
Qed.

Lemma escaped_no_space : forallb (fun w => negb (ch_in 32 w)) escaped_words = true.
Proof. vm_compute; reflexivity. Qed.

Lemma join_two_has_space k k' (ks : list str) : In 32%N (join [32%N] (k :: k' :: ks)).
Proof. rewrite join_cons2. apply in_or_app; right. now left. Qed.

Lemma key_attrs_single k : ~ In 32%N k -> list_key_attrs k = [leaf_attr k].
Proof.
  intros H. unfold list_key_attrs, list_key_string, leaf_attr. apply split_on_no.
  rewrite safe_name_unfold. destruct (str_in _ _).
  - rewrite in_app_iff. intros [Hin|[E|[]]]; [now apply underscored_nospace in Hin|discriminate].
  - now apply underscored_nospace.
Qed.

Lemma key_attrs_multi k k' ks :
  Forall (fun w => ~ In 32%N w) (k :: k' :: ks) ->
  list_key_attrs (join [32%N] (k :: k' :: ks)) = map underscored (k :: k' :: ks).
Proof.
  intros H. unfold list_key_attrs, list_key_string. rewrite safe_name_unfold.
  assert (E : str_in (underscored (join [32%N] (k :: k' :: ks))) escaped_words = false).
  { apply str_in_false; intros Hin.
    pose proof escaped_no_space as Hsp. rewrite forallb_forall in Hsp. specialize (Hsp _ Hin).
    apply negb_true_iff, ch_in_false in Hsp. apply Hsp.
    rewrite underscored_join. cbn [map]. apply join_two_has_space. }
  rewrite E, underscored_join. apply split_join; [discriminate|].
  apply Forall_map. eapply Forall_impl; [|exact H]. intros; now apply underscored_nospace.
Qed.

Lemma map_ext_iff {A B} (f g : A -> B) l : map f l = map g l <-> Forall (fun x => f x = g x) l.
Proof.
  induction l as [|x l IH]; cbn; split; intros H; try constructor; try reflexivity.
  - congruence.
  - apply IH; congruence.
  - inversion H; subst. f_equal; [assumption|]. now apply IH.
Qed.

Lemma key_attrs_iff ks :
  ks <> [] -> Forall (fun w => ~ In 32%N w) ks ->
  (list_key_attrs (join [32%N] ks) = map leaf_attr ks <->
   (length ks = 1 \/ Forall (fun k => ~ In (underscored k) escaped_words) ks)).
Proof.
  intros Hne Hsp. destruct ks as [|k ks]; [congruence|]. destruct ks as [|k' ks].
  - cbn [join map]. rewrite key_attrs_single by (inversion Hsp; assumption).
    split; auto.
  - rewrite key_attrs_multi by assumption. rewrite map_ext_iff.
    assert (Hpt : forall x, underscored x = leaf_attr x <-> ~ In (underscored x) escaped_words).
    { intros x. unfold leaf_attr. destruct (safe_name_exact x) as [[H E]|[H E]]; rewrite E; split; try tauto.
      - intros E2. apply (f_equal (@length N)) in E2. rewrite app_length in E2. cbn in E2. lia. }
    split.
    + intros H; right. eapply Forall_impl; [|exact H]. intros; now apply Hpt.
    + intros [H|H]; [cbn in H; lia|]. eapply Forall_impl; [|exact H]. intros; now apply Hpt.
Qed.

(* ---------------------------------------------------------------- class names *)
Definition plain_name (n : str) : Prop :=
  n <> [] /\ Forall (fun c => (is_alpha c || is_digit c)%bool = true) n.

Lemma plain_underscored n : Forall (fun c => (is_alpha c || is_digit c)%bool = true) n -> underscored n = n.
Proof.
  intros H. apply underscored_idem. intros c Hc. rewrite Forall_forall in H. specialize (H c Hc).
  unfold is_alpha, is_digit in H. lia.
Qed.

Lemma plain_no_us n : Forall (fun c => (is_alpha c || is_digit c)%bool = true) n -> ~ In 95%N n.
Proof.
  intros H Hin. rewrite Forall_forall in H. specialize (H _ Hin).
  unfold is_alpha, is_digit in H. lia.
Qed.

Lemma path_us p : Forall plain_name p ->
  replace_ch 47 95 (path_string p) = flat_map (fun n => 95%N :: n) p.
Proof.
  induction p as [|n p IH]; intros H; [reflexivity|].
  inversion H as [|? ? [Hne Hn] Hp]; subst.
  unfold path_string in *. cbn [flat_map]. unfold replace_ch in *.
  rewrite map_app, IH by assumption. cbn [map app]. f_equal. f_equal.
  rewrite <- (map_id n) at 2. apply map_ext_in. intros c Hc.
  rewrite Forall_forall in Hn. specialize (Hn c Hc). unfold is_alpha, is_digit in Hn.
  destruct (N.eqb_spec c 47); [lia|reflexivity].
Qed.

Lemma us_path_safe p : p <> [] -> Forall plain_name p ->
  safe_name (flat_map (fun n => 95%N :: n) p) = flat_map (fun n => 95%N :: n) p.
Proof.
  intros Hne H.
  assert (Hu : underscored (flat_map (fun n => 95%N :: n) p) = flat_map (fun n => 95%N :: n) p).
  { apply underscored_idem. intros c Hc. apply in_flat_map in Hc. destruct Hc as (n & Hn & Hc).
    rewrite Forall_forall in H. destruct (H n Hn) as [_ Hpl]. destruct Hc as [<-|Hc]; [lia|].
    rewrite Forall_forall in Hpl. specialize (Hpl c Hc). unfold is_alpha, is_digit in Hpl. lia. }
  rewrite safe_name_unfold, Hu.
  assert (E : str_in (flat_map (fun n => 95%N :: n) p) escaped_words = false).
  { apply str_in_false; intros Hin.
    assert (Hf : forallb (fun w => negb (startswith [95%N] w)) escaped_words = true)
      by (vm_compute; reflexivity).
    rewrite forallb_forall in Hf. specialize (Hf _ Hin). destruct p as [|n p]; [congruence|].
    cbn in Hf. discriminate. }
  now rewrite E.
Qed.

Lemma split_us_path p : Forall plain_name p ->
  split_on 95 (flat_map (fun n => 95%N :: n) p) = [] :: p.
Proof.
  induction p as [|n p IH]; intros H; [reflexivity|].
  inversion H as [|? ? [Hne Hn] Hp]; subst. cbn [flat_map app].
  cbn [split_on]. rewrite N.eqb_refl. f_equal.
  destruct p as [|n' p].
  - cbn [flat_map]. rewrite app_nil_r. apply split_on_no. now apply plain_no_us.
  - cbn [flat_map app] in *. rewrite split_on_app by now apply plain_no_us.
    specialize (IH Hp). cbn [split_on] in IH. rewrite N.eqb_refl in IH. injection IH as IH.
    now rewrite IH.
Qed.

Lemma class_name_inj m p1 p2 e1 e2 :
  Forall plain_name (p1 ++ [e1]) -> Forall plain_name (p2 ++ [e2]) ->
  class_name m e1 (p1 ++ [e1]) = class_name m e2 (p2 ++ [e2]) -> p1 = p2 /\ e1 = e2.
Proof.
  intros H1 H2 E. unfold class_name in E.
  rewrite !path_us, !us_path_safe in E by (assumption || (intros E0; apply app_eq_nil in E0; destruct E0; discriminate)).
  apply app_inv_head in E.
  apply Forall_app in H1 as [H1p H1e]. apply Forall_app in H2 as [H2p H2e].
  inversion H1e as [|? ? [Hne1 He1] _]; subst. inversion H2e as [|? ? [Hne2 He2] _]; subst.
  set (P1 := flat_map (fun n : list N => 95%N :: n) (p1 ++ [e1])) in *.
  set (P2 := flat_map (fun n : list N => 95%N :: n) (p2 ++ [e2])) in *.
  assert (Hsplit : forall e R, Forall (fun c => (is_alpha c || is_digit c)%bool = true) e ->
            exists T, split_on 95 (safe_name e ++ lit "_" ++ R) = e :: T).
  { intros e R He. rewrite safe_name_unfold, plain_underscored by assumption.
    destruct (str_in e escaped_words).
    - rewrite <- app_assoc. cbn [app]. eexists. apply split_on_app. now apply plain_no_us.
    - eexists. apply (split_on_app 95 e). now apply plain_no_us. }
  destruct (Hsplit e1 (safe_name m ++ lit "_" ++ P1) He1) as (T1 & S1).
  destruct (Hsplit e2 (safe_name m ++ lit "_" ++ P2) He2) as (T2 & S2).
  assert (Ee : e1 = e2) by (rewrite E, S2 in S1; congruence). subst e2.
  apply app_inv_head in E. apply app_inv_head in E. apply app_inv_head in E. apply app_inv_head in E.
  assert (Hp1 : Forall plain_name (p1 ++ [e1])) by (apply Forall_app; auto).
  assert (Hp2 : Forall plain_name (p2 ++ [e1])) by (apply Forall_app; auto).
  pose proof (split_us_path _ Hp1) as Q1. pose proof (split_us_path _ Hp2) as Q2.
  unfold P1, P2 in E. rewrite E, Q2 in Q1. injection Q1 as Q1.
  apply app_inj_tail in Q1. destruct Q1; split; congruence.
Qed.
