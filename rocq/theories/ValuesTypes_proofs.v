(** What leaf types make of any argument. *)
From Verif Require Import PyStr PyStr_facts PyVal Base64 Restricted Restricted_proofs Spec_Types Spec_Lists IntTypes StrTypes StrTypes_proofs MemberTypes
  Member_proofs TypedList Spec_Serialise Spec_Values.
From Coq Require Import Lia ZArith.
Import ListNotations.
Local Open Scope Z_scope.

Section V.
Context (O : oracle).

Lemma call_value t v w : mtype_wf t -> arg_ok t v -> ty_call O (pty_of t) v = Ok w -> is_value (o_match O) t w.
Proof.
  intros Hwf Ha H. assert (Ht : t = MText \/ t <> MText) by (destruct t; (now left) || (right; discriminate)).
  destruct Ht as [->|Ht].
  - cbn in H. injection H as <-. cbn. eauto.
  - apply (member_is_value O t v w Hwf Ha). destruct t; try congruence; unfold member_try; cbn [pty_of] in *.
    + destruct levels; cbn [int_chain] in *; now rewrite H.
    + destruct levels; cbn [str_chain] in *; [|now rewrite H]. cbn in Hwf. now destruct Hwf.
    + now rewrite H.
    + unfold enum_type in *. now rewrite H.
    + now rewrite H.
    + now rewrite H.
Qed.

Lemma one_level_arg t v : mtype_wf t -> one_level t -> arg_ok t v.
Proof. destruct t as [[|l [|l1 ls]]|[|l [|l1 ls]]| | | | |]; cbn; auto; discriminate. Qed.

(** [__new__] then [__init__]: the result of the call, or the object of an [__init__] that gave up. *)
Lemma dyn_cases t v w : d_out (dyn_leaf O t v) = Ok w ->
  ty_call O t v = Ok w \/
  (exists o, ty_new O t (Some v) = Ok o /\ ty_init O t o v = Raise TypeError /\ w = o) \/
  (ty_new O t (Some v) = Raise TypeError /\ exists o, ty_new O t None = Ok o /\ (ty_init O t o v = Ok w \/ w = o)).
Proof.
  unfold dyn_leaf, ty_call. destruct (ty_new O t (Some v)) as [o|e] eqn:E.
  - cbn [d_out]. destruct (ty_init O t o v) as [r|[]] eqn:Ei; intros H; try discriminate; injection H as <-; eauto 6.
  - destruct e; cbn [d_out]; try discriminate.
    destruct (ty_new O t None) as [o|e] eqn:E2; cbn [d_out]; [|discriminate].
    destruct (ty_init O t o v) as [r|[]] eqn:Ei; intros H; try discriminate; injection H as <-; right; right; (split; [reflexivity|]); eauto.
Qed.

Lemma text_none l : slevels_wf [l] -> ty_new O (str_chain [l]) None = Ok (VStr []).
Proof.
  intros H. inversion H as [|? ? [Hne Hl] _]; subst. cbn [str_chain]. rewrite ty_new_restr, build_str by assumption. reflexivity.
Qed.
Lemma text_init l o v : slevels_wf [l] -> ty_init O (str_chain [l]) o v <> Raise TypeError.
Proof.
  intros H. assert (E : ty_init O (str_chain [l]) o v = ty_init O (str_chain [l]) o (VStr (py_str O v))) by reflexivity.
  rewrite E, str_init by assumption. destruct (_ && _); discriminate.
Qed.
Lemma enum_new names v : ty_new O (enum_type names) (Some v) <> Raise TypeError.
Proof.
  unfold enum_type. rewrite ty_new_restr. cbn [build fst snd any_pass]. unfold dict_test.
  cbn [bind snd fst]. destruct (is_False v); cbn [bind ty_new]; [discriminate|]. destruct (str_in _ names); cbn; discriminate.
Qed.
Lemma enum_init names o v : ty_init O (enum_type names) o v <> Raise TypeError.
Proof.
  unfold enum_type. rewrite ty_init_restr, ty_tests_restr. cbn [ty_call ty_new ty_init bind is_restr build fst all_pass]. unfold dict_test.
  cbn [ty_call ty_new ty_init bind is_restr build fst all_pass]. destruct (str_in _ names); cbn; discriminate.
Qed.

Lemma b64_loop_error : forall s q l p e, b64_loop s q l p = Raise e -> e = ValueError.
Proof.
  induction s as [|c s IH]; intros q l p e H; cbn [b64_loop] in H; [destruct (N.eqb q 0); congruence|].
  destruct (N.eqb c 61); [destruct (N.leb 2 q); [destruct (N.leb 4 _); [discriminate|]|]; eauto|].
  destruct (b64_val c); [|eauto]. destruct (N.eqb q 0); [eauto|]. unfold bind in H.
  destruct (N.eqb q 1); [|destruct (N.eqb q 2)]; match type of H with context [b64_loop ?a ?b ?c ?d] => specialize (IH b c d); destruct (b64_loop a b c d) end; try discriminate; injection H as <-; eauto.
Qed.
Lemma b64_error s e : b64decode s = Raise e -> e = ValueError.
Proof. unfold b64decode. destruct (forallb _ s); [apply b64_loop_error|congruence]. Qed.

Lemma one_value t v w : mtype_wf t -> one_level_text t -> d_out (dyn_leaf O (pty_of t) v) = Ok w -> is_value (o_match O) t w \/ blank t w.
Proof.
  intros Hwf H1 H. destruct t as [levels|levels| | |names| |n].
  - destruct Hwf as [Hn Hwf]. destruct levels as [|l ls]; [congruence|]. cbn [pty_of] in H.
    assert (E : leaf_assign O (LOne (int_chain (l :: ls))) v = {| d_notified := d_notified (dyn_leaf O (int_chain (l :: ls)) v); d_out := Ok w |}).
    { unfold leaf_assign. cbn [dyn_ltype]. now rewrite H. }
    apply int_leaf_value in E; [|assumption]. destruct E as [->|(z & -> & _ & Hz)]; [now right|left]. cbn. eauto.
  - cbn in H1. destruct levels as [|l [|]]; try discriminate. destruct (dyn_cases _ _ _ H) as [Hc|[(o & _ & Hi & _)|(_ & o & Hn & Hi)]].
    + left. exact (call_value (MStr [l]) v w Hwf I Hc).
    + exfalso. destruct Hwf as (_ & Hwf & _). now apply (text_init l o v Hwf).
    + right. destruct Hwf as (_ & Hwf & _). cbn [pty_of] in *. rewrite (text_none l Hwf) in Hn. injection Hn as <-. cbn.
      destruct Hi as [Hi| ->]; [|reflexivity]. cbn [str_chain] in Hi. now apply init_restr_val in Hi.
  - cbn in H. injection H as <-. left. cbn. eauto.
  - left. destruct (dyn_cases _ _ _ H) as [Hc|[(o & _ & Hi & _)|(Hn & _)]].
    + exact (call_value MBool v w Hwf I Hc).
    + discriminate.
    + cbn in Hn. unfold yang_bool in Hn. destruct (py_in _ _); discriminate.
  - left. destruct (dyn_cases _ _ _ H) as [Hc|[(o & _ & Hi & _)|(Hn & _)]].
    + exact (call_value (MEnum names) v w Hwf I Hc).
    + exfalso. now apply enum_init in Hi.
    + exfalso. now apply enum_new in Hn.
  - left. destruct (dyn_cases _ _ _ H) as [Hc|[(o & _ & Hi & _)|(Hn & _)]].
    + exact (call_value MBin v w Hwf I Hc).
    + discriminate.
    + cbn in Hn. unfold yang_binary in Hn. destruct v; try discriminate. unfold bind in Hn. destruct (b64decode s) eqn:E; [discriminate|].
      exfalso. apply b64_error in E. congruence.
  - destruct (dyn_cases _ _ _ H) as [Hc|[(o & _ & Hi & _)|(Hn & o & Ho & Hi)]].
    + left. exact (call_value (MDec n) v w Hwf I Hc).
    + discriminate.
    + right. cbn in Ho. injection Ho as <-. cbn in Hi. cbn. destruct Hi; congruence.
Qed.

(* ------------------------------------------------------------------ bits *)
Lemma bits_legal a : forall bs l l', legal a l -> bits_add_all a l bs = Ok l' -> legal a l'.
Proof.
  induction bs as [|b bs IH]; cbn; intros l l' H E; [injection E as <-; exact H|].
  unfold bits_add in E. destruct (str_in b (map fst a)) eqn:Ein; cbn in E; [|discriminate].
  eapply IH; [|exact E]. destruct (str_in b l) eqn:El; [exact H|]. destruct H as [H1 H2].
  assert (Hb : ~ In b l) by (intros Hin; apply str_in_In in Hin; congruence).
  apply str_in_In in Ein. split.
  - apply NoDup_rev in H1. rewrite <- (rev_involutive (l ++ [b])). apply NoDup_rev. rewrite rev_app_distr. cbn. constructor; [|exact H1].
    intros Hin. apply in_rev in Hin. contradiction.
  - intros c Hc. apply in_app_or in Hc as [Hc|[<-|[]]]; auto.
Qed.
Lemma bits_value a v w : d_out (dyn_leaf O (TBits a) v) = Ok w -> exists l, w = VBits l /\ legal a l.
Proof.
  cbn. intros H. assert (Hy : yang_bits a v = Ok w \/ yang_bits a v = Raise TypeError /\ w = VBits []).
  { destruct (yang_bits a v) as [r|[]]; try discriminate; injection H as <-; auto. }
  assert (Hn : legal a []) by (split; [constructor|contradiction]).
  destruct Hy as [Hy|[_ ->]]; [|eauto]. destruct v; cbn in Hy; try discriminate.
  - destruct (bits_add_all a [] (split_ws s)) as [l|] eqn:E; cbn in Hy; [|discriminate]. injection Hy as <-.
    exists l. split; [reflexivity|]. eapply bits_legal; eauto.
  - destruct (split_ws _); [|discriminate]. injection Hy as <-. eauto.
Qed.

(* ------------------------------------------------------------------ leaves and members *)
Lemma pick_in ts v t : union_pick O ts v = Some t -> In t ts /\ exists w, ty_call O t v = Ok w.
Proof.
  induction ts as [|t0 ts IH]; cbn; [discriminate|]. destruct (ty_call O t0 v) as [w|] eqn:E.
  - intros H. injection H as <-. eauto.
  - intros H. destruct (IH H). auto.
Qed.
Lemma leaf_holds w a v : d_out (leaf_assign O (ltype_of w) a) = Ok v -> holds (o_match O) w v.
Proof.
  unfold leaf_assign. cbn [d_out]. destruct (d_out (dyn_ltype O (ltype_of w) a)) as [r|] eqn:E; [|discriminate].
  intros H. injection H as ->. destruct w as [t|al| |ts]; cbn [ltype_of dyn_ltype holds] in *; auto.
  - intros Hwf H1. now apply (one_value t a).
  - now apply (bits_value al a).
  - intros Hwf H1. destruct (union_pick O (map pty_of ts) a) as [p|] eqn:Ep; [|discriminate].
    destruct (pick_in _ _ _ Ep) as [Hin (w & Hc)]. apply in_map_iff in Hin as (t & <- & Ht). exists t. split; [exact Ht|].
    rewrite Forall_forall in Hwf, H1. rewrite (dyn_leaf_call _ _ _ _ Hc) in E. cbn in E. injection E as ->.
    apply (call_value t a v (Hwf t Ht)); [|exact Hc]. apply one_level_arg; auto.
Qed.
Lemma member_holds ts a v : Forall mtype_wf ts -> Forall one_level ts -> member_value O (map pty_of ts) a = Some v ->
  exists t, In t ts /\ is_value (o_match O) t v.
Proof.
  induction ts as [|t ts IH]; cbn [map member_value]; [discriminate|]. intros Hwf H1 H. inversion Hwf; inversion H1; subst.
  destruct (member_try O (pty_of t) a) as [w|] eqn:E.
  - injection H as <-. exists t. split; [now left|]. apply (member_is_value O t a); auto. now apply one_level_arg.
  - destruct IH as (t' & Ht & Hv); auto. exists t'. split; [now right|exact Hv].
Qed.
End V.
