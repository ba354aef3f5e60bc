(** Leafrefs. *)
From Verif Require Import PyStr PyStr_facts PyVal PathHelper Spec_Path.

Lemma position_some v l n : position v l = Some n -> nth_error l n = Some v.
Proof.
  revert n. induction l as [|x l IH]; intros n; cbn [position]; [discriminate|]. destruct (str_eqb x v) eqn:E; [intros H; injection H as <-; apply str_eqb_eq in E; now subst|].
  destruct (position v l); cbn [option_map]; [|discriminate]. intros H. injection H as <-. now apply IH.
Qed.
Lemma position_none v l : position v l = None -> ~ In v l.
Proof.
  induction l as [|x l IH]; cbn [position]; [intros _ []|]. destruct (str_eqb x v) eqn:E; [discriminate|]. apply str_eqb_neq in E. destruct (position v l); [discriminate|]. intros _ [H|H]; [contradiction|now apply IH].
Qed.
Lemma position_last_some v l n : position_last v l = Some n -> nth_error l n = Some v.
Proof.
  revert n. induction l as [|x l IH]; intros n; cbn [position_last]; [discriminate|]. destruct (position_last v l) as [m|]; [intros H; injection H as <-; now apply IH|].
  destruct (str_eqb x v) eqn:E; [|discriminate]. intros H. injection H as <-. apply str_eqb_eq in E. now subst.
Qed.
Lemma position_last_none v l : position_last v l = None -> ~ In v l.
Proof.
  induction l as [|x l IH]; cbn [position_last]; [intros _ []|]. destruct (position_last v l); [discriminate|]. destruct (str_eqb x v) eqn:E; [discriminate|]. apply str_eqb_neq in E. intros _ [H|H]; [contradiction|now apply IH].
Qed.
Lemma nth_texts ts n v : nth_error (map t_text ts) n = Some v -> exists t, nth_error ts n = Some t /\ t_text t = v.
Proof. rewrite nth_error_map. destruct (nth_error ts n) as [t|]; [|discriminate]. cbn. intros H. injection H as <-. now exists t. Qed.

Theorem leafref_exact ts assign v : ~ pointer_like ts ->
  match reference_new true (Some ts) assign (Some v) with
  | Ok r => refers ts r v
  | Raise e => e = ValueError /\ ~ instance ts v
  end.
Proof.
  intros Hp. unfold reference_new.
  assert (G : (match ts with [_] => False | _ => True end) -> match (match position_last v (map t_text ts) with Some n => Ok (RefTo n) | None => Raise ValueError end) with Ok r => refers ts r v | Raise e => e = ValueError /\ ~ instance ts v end).
  { intros Hl. destruct (position_last v (map t_text ts)) as [n|] eqn:E.
    - apply position_last_some in E. now apply nth_texts in E.
    - split; [reflexivity|]. apply position_last_none in E. intros Hi. apply E. apply in_map_iff. destruct ts as [|t [|t2 ts]]; [| |]; try contradiction; destruct Hi as (x & Hx & <-); now exists x. }
  destruct ts as [|t [|t2 ts]]; [now apply G| |now apply G]. clear G.
  assert (E : negb (t_keyval t) && negb (t_list t) = false).
  { destruct (t_keyval t) eqn:E1; [reflexivity|]. destruct (t_list t) eqn:E2; [reflexivity|]. exfalso. apply Hp. now exists t. }
  rewrite E. unfold instance. destruct (t_members t) as [ms|] eqn:Em.
  - destruct (position v ms) as [n|] eqn:En; [apply position_some in En; now exists t, ms|]. split; [reflexivity|]. now apply position_none.
  - cbn [position_last]. destruct (str_eqb (t_text t) v) eqn:Et; [apply str_eqb_eq in Et; now exists t|]. split; [reflexivity|]. now apply str_eqb_neq in Et.
Qed.
Lemma refers_instance ts r v : match ts with [t] => t_members t = None \/ exists n, r = RefMember n | _ => True end -> refers ts r v -> instance ts v.
Proof.
  intros Hm H. destruct r as [|n|n| |]; try contradiction; cbn [refers] in H.
  - destruct H as (t & Hn & Ht). destruct ts as [|t1 [|t2 ts]].
    + destruct n; discriminate.
    + destruct Hm as [Hm|(m & Hm)]; [|discriminate]. cbn [instance]. rewrite Hm. destruct n as [|n]; [injection Hn as <-; assumption|destruct n; discriminate].
    + exists t. split; [now apply nth_error_In in Hn|assumption].
  - destruct H as (t & ms & -> & Ht & Hn). cbn [instance]. rewrite Ht. now apply nth_error_In in Hn.
Qed.
Theorem leafref_accepts ts assign v : ~ pointer_like ts ->
  ((exists r, reference_new true (Some ts) assign (Some v) = Ok r) <-> instance ts v).
Proof.
  intros Hp. pose proof (leafref_exact ts assign v Hp) as H. destruct (reference_new true (Some ts) assign (Some v)) as [r|e] eqn:E.
  - split; [|intros _; now exists r]. intros _. apply (refers_instance ts r v); [|assumption]. destruct ts as [|t [|t2 ts]]; try exact I. destruct (t_members t) as [ms|] eqn:Em; [right|now left].
    unfold reference_new in E. destruct (negb (t_keyval t) && negb (t_list t)) eqn:Ep.
    + exfalso. apply Hp. exists t. split; [reflexivity|]. apply andb_prop in Ep as [E1 E2]. apply Bool.negb_true_iff in E1, E2. now split.
    + rewrite Em in E. destruct (position v ms) as [n|]; [|discriminate]. injection E as <-. now exists n.
  - split; [intros (r & Hr); discriminate|]. intros Hi. destruct H as [_ H]. contradiction.
Qed.
Theorem leafref_free assign : (forall ts v, ~ pointer_like ts -> reference_new false (Some ts) assign (Some v) = Ok RefValue) /\
  (forall require v, reference_new require None assign (Some v) = Ok RefValue) /\ (forall require helper, reference_new require helper assign None = Ok RefNone).
Proof.
  split; [|split; reflexivity].
  intros ts v Hp. unfold reference_new. destruct ts as [|t [|t2 ts]]; try reflexivity. destruct (negb (t_keyval t) && negb (t_list t)) eqn:Ep; [|reflexivity].
  exfalso. apply Hp. exists t. split; [reflexivity|]. apply andb_prop in Ep as [E1 E2]. apply Bool.negb_true_iff in E1, E2. now split.
Qed.
