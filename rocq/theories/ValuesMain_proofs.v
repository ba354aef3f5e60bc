(** The values held by a tree after any operations and documents. *)
From Verif Require Import PyStr PyStr_facts PyVal Restricted Restricted_proofs Spec_Types Spec_Lists IntTypes StrTypes StrTypes_proofs MemberTypes
  TypedList YList Tree Spec_Tree Tree_proofs Spec_Serialise Serialise Xml Spec_Loading LoadingMain_proofs Spec_Values Values_proofs ValuesTypes_proofs.
From Coq Require Import Lia ZArith.
Import ListNotations.

Section M.
Context (O : oracle).

Lemma perform_run ft uid cs m a : exists os, perform O ft uid cs m a = module_run O cs m os.
Proof.
  destruct a as [p o|ov skip d|ov skip d|d].
  - exists [(p, o)]. reflexivity.
  - destruct (load_json O uid cs ov skip d m) as [m' r] eqn:E. destruct (json_series _ _ _ _ _ _ _ _ _ E) as (os & A & _).
    exists os. unfold perform. rewrite E. exact A.
  - destruct (load_ietf_json O uid cs ov skip d m) as [m' r] eqn:E. destruct (ietf_series _ _ _ _ _ _ _ _ _ E) as (os & A & _).
    exists os. unfold perform. rewrite E. exact A.
  - destruct (load_doc O ft uid cs d m) as [m' r] eqn:E. destruct (xml_series _ _ _ _ _ _ _ _ E) as (os & A & _).
    exists os. unfold perform. rewrite E. exact A.
Qed.
Lemma after_grown ft uid cs l : Forall2 (grown O) cs (after O ft uid cs l).
Proof.
  unfold after. assert (G : forall m, Forall2 (grown O) cs m -> Forall2 (grown O) cs (fold_left (perform O ft uid cs) l m)).
  { induction l as [|a l IH]; cbn; intros m H; [exact H|]. apply IH. destruct (perform_run ft uid cs m a) as (os & ->). now apply run_grown. }
  apply G. apply fresh_growns.
Qed.
Lemma after_at ft uid cs l q s x : schema_at cs q = Some s -> at_path (after O ft uid cs l) q = Some x -> grown O s x.
Proof.
  unfold schema_at, at_path. intros Hs Hx. eapply grown_node; [|exact Hs|exact Hx]. constructor. apply after_grown.
Qed.

Lemma text_chain_none levels : slevels_wf levels -> ty_new O (str_chain levels) None = Ok (VStr []).
Proof.
  induction levels as [|l ls IH]; intros H; [reflexivity|]. inversion H as [|? ? [Hne Hl] Hls]; subst.
  cbn [str_chain]. rewrite ty_new_restr, build_str by assumption. cbn [bind is_False fst snd]. now rewrite IH.
Qed.
Lemma type_none t : mtype_wf t -> ty_new O (pty_of t) None = Ok (start_of t).
Proof.
  destruct t; cbn [mtype_wf pty_of start_of]; intros H; try reflexivity.
  - apply chain_none. tauto.
  - apply text_chain_none. tauto.
Qed.
Lemma fresh_start i w d y k ch v : fresh O (SLeaf i (ltype_of w) d y k) = OLeaf ch v -> ch = false /\ start w v.
Proof.
  destruct w as [t|a| |[|t ts]]; cbn [fresh ltype_of dyn_unset map start]; intros H.
  1,5: split; [congruence|]; intros Hwf; rewrite (type_none t Hwf) in H; congruence.
  - cbn in H. split; congruence.
  - cbn in H. split; congruence.
  - split; [congruence|exact I].
Qed.

Theorem leaves_hold ft uid cs l q i w d yt k ch v :
  schema_at cs q = Some (SLeaf i (ltype_of w) d yt k) -> at_path (after O ft uid cs l) q = Some (OLeaf ch v) ->
  if ch then holds (o_match O) w v else start w v.
Proof.
  intros Hs Hx. assert (G := after_at _ _ _ _ _ _ _ Hs Hx). remember (OLeaf ch v) as x eqn:Ex. remember (SLeaf i (ltype_of w) d yt k) as s eqn:Es.
  destruct G as [i0 lt0 d0 y0 k0 v0 (a & Ha)|i0 lt0 d0 y0 k0| | |]; try discriminate; injection Es as -> -> -> -> ->.
  - injection Ex as <- <-. eapply leaf_holds; eauto.
  - destruct (fresh_start _ _ _ _ _ _ _ Ex) as [-> Hst]. exact Hst.
Qed.
Theorem members_hold ft uid cs l q i ts yt ch vs :
  schema_at cs q = Some (SLeafList i (map pty_of ts) yt) -> at_path (after O ft uid cs l) q = Some (OLeafList ch vs) ->
  Forall mtype_wf ts -> Forall one_level ts -> Forall (fun v => exists t, In t ts /\ is_value (o_match O) t v) vs.
Proof.
  intros Hs Hx Hwf H1. assert (G := after_at _ _ _ _ _ _ _ Hs Hx). remember (OLeafList ch vs) as x eqn:Ex. remember (SLeafList i (map pty_of ts) yt) as s eqn:Es.
  destruct G as [| |i0 ts0 y0 ch0 l0 H| |]; try discriminate. injection Es as -> -> ->. injection Ex as -> ->.
  eapply Forall_impl; [|exact H]. intros v (a & Ha). eapply member_holds; eauto.
Qed.
End M.
