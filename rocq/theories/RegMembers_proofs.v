(** Members of leaf-lists, as leafrefs see them. *)
From Coq Require Import Lia.
From Verif Require Import PyStr PyStr_facts PyVal PathHelper Spec_Path RegTree RegRef Spec_RegTree Spec_RegRef Spec_RegRoot RegTree_proofs RegRef_proofs.

Lemma set_back {A} (l : list A) : forall i x, nth_error l i = Some x -> set_nth i x l = l.
Proof. induction l as [|a l IH]; intros [|i] x H; try discriminate; cbn [set_nth nth_error] in *; [congruence|]. f_equal. now apply IH. Qed.
Lemma put_back {A} ks (x : A) es : entry ks es = Some x -> put_entry ks x es = es.
Proof.
  induction es as [|[k y] es IH]; cbn [entry put_entry]; [discriminate|]. destruct (texts_eqb k ks) eqn:E; intros H; [congruence|]. f_equal. now apply IH.
Qed.
Lemma entry_of {A} ks (x : A) es : NoDup (map fst es) -> In (ks, x) es -> entry ks es = Some x.
Proof.
  intros Hd Hi. destruct (entry ks es) as [y|] eqn:E; [apply entry_in in E; f_equal; now apply (in_key es ks)|]. apply entry_none in E. destruct E. now apply (in_map fst) in Hi.
Qed.
Lemma reach_kid cs kids p q id : reaches cs kids p q id -> exists i p', p = Kid i :: p'.
Proof. destruct 1; eauto. Qed.
Lemma members_set uid cs kids p q id : reaches cs kids p q id -> forall path l w, Forall2 fits cs kids ->
  exec uid path cs kids p (Members l) w = (fst (set_members id l w), kids, Ok tt) /\ in_tree cs kids q (PLeafList id).
Proof.
  induction 1 as [cs kids i n id H1 H2|cs kids i n cs' cid kids' p q id H1 H2 H IH|cs kids i n keys cs' es ks eid ek p q id H1 H2 H3 H IH]; intros path l w Hf; cbn [exec]; rewrite H1, H2.
  - cbn [apply]. rewrite set_back by assumption. split; [reflexivity|]. now apply (in_leaf_list cs kids i).
  - destruct (reach_kid _ _ _ _ _ H) as (j & p' & ->). destruct (Forall2_nth _ _ _ _ _ Hf H1) as (x & Ex & Hfx). rewrite H2 in Ex. injection Ex as <-. inversion Hfx; subst. destruct (IH (path ++ [n]) l w ltac:(assumption)) as [E1 E2]. rewrite E1. rewrite set_back by assumption. split; [reflexivity|]. now apply (in_cont_below cs kids i n cs' cid kids').
  - destruct (Forall2_nth _ _ _ _ _ Hf H1) as (x & Ex & Hfx). rewrite H2 in Ex. injection Ex as <-. inversion Hfx as [| | |? ? ? ? Hde Hes]; subst. rewrite (entry_of ks (eid, ek) es Hde H3). destruct (Hes _ _ _ H3) as (_ & _ & Hfk). cbv zeta.
    match goal with |- context [exec uid ?pp cs' ek p _ w] => destruct (IH pp l w Hfk) as [E1 E2] end. rewrite E1. rewrite put_back by (now apply entry_of). rewrite set_back by assumption. split; [reflexivity|]. now apply (in_entry_below cs kids i n keys cs' es ks eid ek).
Qed.
Lemma run_app uid cs os os' : forall w kids, run uid cs w kids (os ++ os') = let (w', kids') := run uid cs w kids os in run uid cs w' kids' os'.
Proof. induction os as [|[p o] os IH]; intros w kids; [reflexivity|]. cbn [app run]. destruct (exec uid [] cs kids p o w) as [[w' kids'] r]. apply IH. Qed.
Theorem leafref_members uid text other cs os c o cpath ref up ns key q id p l assign v : fresh uid -> module_ok cs -> Forall (tame cs) os ->
  reaches cs (snd (session uid cs os)) p q id ->
  let wk := session uid cs (os ++ [(p, Members l)]) in in_tree cs (snd wk) c o -> Forall2 spells cpath c -> up <= length c -> reads ref up ns ->
  meant c up ns q -> (forall q' t, in_tree cs (snd wk) q' t -> meant c up ns q' -> q' = q) ->
  match leafref_new text other true key cpath ref (fst wk) assign v with
  | Ok _ => exists x, In x l /\ text x = v
  | Raise e => e = ValueError /\ forall x, In x l -> text x <> v
  end.
Proof.
  intros Hu Hm Hos Hr wk Hc Hsp Hup Href Hq Huniq. destruct (session_ok uid Hu cs true os Hm Hos) as (M & _ & Hf & _).
  assert (E : wk = (fst (set_members id l (fst (session uid cs os))), snd (session uid cs os)) /\ in_tree cs (snd (session uid cs os)) q (PLeafList id)).
  { destruct (members_set uid cs _ p q id Hr [] l (fst (session uid cs os)) Hf) as [E1 E2]. split; [|assumption]. clear - E1. unfold wk. revert E1. unfold session. destruct (module_new uid cs) as [w0 kids0]. rewrite run_app. destruct (run uid cs w0 kids0 os) as [w1 kids1]. cbn [fst snd]. intros E1. cbn [run]. now rewrite E1. }
  destruct E as [E Hin].
  assert (Hos' : Forall (tame cs) (os ++ [(p, Members l)])) by (apply Forall_app; split; [assumption|]; constructor; [exact Logic.I|constructor]).
  assert (Hin' : in_tree cs (snd wk) q (PLeafList id)) by (rewrite E; exact Hin).
  assert (Em : members id (w_heap (fst wk)) = l) by (rewrite E; cbn; now rewrite Nat.eqb_refl).
  pose proof (leafref_leaf_list uid text other cs (os ++ [(p, Members l)]) c o cpath ref up ns key q id assign v Hu Hm Hos' Hc Hsp Hup Href Hin' Hq Huniq) as R. cbv zeta in R. fold wk in R. rewrite Em in R. exact R.
Qed.
