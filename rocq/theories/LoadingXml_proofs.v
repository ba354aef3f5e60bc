(** Loading as a series of operations: XML. *)
From Coq Require Import Lia.
From Verif Require Import PyStr PyStr_facts PyVal Restricted Spec_Lists TypedList YList SafeName
  Tree Spec_Tree Tree_proofs Tree_past Serialise Xml Load_proofs Xml_proofs Spec_Loading Loading_proofs LoadingIetf_proofs.

Section X.
Context (O : oracle) (ft : str -> option pyval) (uid : list (pyval * obj) -> str) (top : list schema).
Notation run_op := (run_op O top).
Definition retried (p : list pstep) (o : op) (os : list (list pstep * op)) : Prop :=
  exists v os3, o = ALeafList (LAppend v) /\ os = (p, ALeafList (LAppend (VStr (py_str O v)))) :: os3.
Lemma retried_app p o os os' : retried p o os -> retried p o (os ++ os').
Proof. intros (v & os3 & -> & ->). exists v, (os3 ++ os'). auto. Qed.
Notation does := (does O top retried).
Notation asks := (asks O x_part (x_elem O ft) x_whole false).
Notation want := (want O uid x_part (x_elem O ft) x_whole false).
Notation load_xml := (load_xml O ft uid top).
Notation xload_kid := (xload_kid O ft uid top).

Lemma does_again (P : list obj -> list pstep -> op -> Prop) m p v m1 e : P m p (ALeafList (LAppend v)) -> (forall m, P m p (ALeafList (LAppend (VStr (py_str O v))))) ->
  run_op m p (ALeafList (LAppend v)) = (m1, Raise e) -> does P m (run_op m1 p (ALeafList (LAppend (VStr (py_str O v))))).
Proof.
  intros H1 H2 E. exists [(p, ALeafList (LAppend v)); (p, ALeafList (LAppend (VStr (py_str O v))))].
  eapply RunAgain; [exact H1|exact E|exists v, []; auto|].
  destruct (run_op m1 p _) as [m2 [[]|e']] eqn:E2; cbn.
  - eapply RunDo; [apply H2|exact E2|constructor].
  - eapply RunFail; [apply H2|exact E2].
Qed.

Lemma xml_keys_values cs keys e kd : xml_keys ft cs keys e = Ok kd -> x_key_values ft cs keys e kd.
Proof.
  unfold xml_keys, x_key_values. revert kd.
  induction keys as [|k keys IH]; cbn; intros kd H; [injection H as <-; constructor|].
  destruct (yang_key cs k) as [y|] eqn:Ey; cbn in H; [|discriminate]. destruct (child_of e y) as [c|] eqn:Ec; cbn in H; [|discriminate].
  destruct (x_kids c); cbn in H; [|discriminate].
  destruct (map_res _ keys) as [r|] eqn:Er; cbn in H; [|discriminate]. injection H as <-. constructor; [|now apply IH].
  split; [reflexivity|]. unfold yang_key in Ey. destruct (kid_index k cs) as [n|] eqn:En; [|discriminate].
  destruct (kid_index_py _ _ _ En) as (s & Hs & Hpy). rewrite Hs in Ey. injection Ey as <-. exists n, s, c.
  unfold child_of in Ec. destruct (find _ (x_kids e)) as [c'|] eqn:Ef; [|discriminate]. injection Ec as ->.
  apply find_some in Ef as [Hin Hb]. apply andb_prop in Hb as [_ Hb]. apply str_eqb_eq in Hb. auto.
Qed.
Lemma x_values_again cs keys e kd kd' : x_key_values ft cs keys e kd -> kw_keys keys kd = Ok kd' -> x_key_values ft cs keys e kd'.
Proof.
  intros H Hk.
  eapply (kw_keys_each (fun k v => exists n s c, nth_error cs n = Some s /\ e_py (s_info s) = k /\ In c (x_kids e) /\ x_name c = e_yang (s_info s) /\ v = objectified ft (x_text c))); [|exact Hk].
  clear Hk. unfold x_key_values in H. induction H as [|k kv keys kd [<- Hv] _ IH]; constructor; auto.
Qed.

Lemma xentry_does at_ ov cs d n i keys od cs' e m : x_part cs d n (SList i keys od cs') e ->
  exists st, does (want at_ ov cs d) m st /\
    match xml_entry O ft uid top (at_ ++ [Kid n]) keys cs' e m with
    | (m', Raise ex) => st = (m', Raise ex)
    | (m', Ok k) => st = (m', Ok tt) /\ x_elem O ft (SList i keys od cs') e k e
    end.
Proof.
  intros Hp. unfold xml_entry.
  assert (Bad : forall ex, exists st, does (want at_ ov cs d) m st /\ st = (m, Raise ex)) by (intros ex; eexists; split; [apply does_raise|reflexivity]).
  destruct keys as [|k1 ks]; [apply Bad|]. destruct (xml_keys ft cs' (k1 :: ks) e) as [kd|ex] eqn:Ek; [|apply Bad].
  pose proof (xml_keys_values _ _ _ _ Ek) as Hkv.
  assert (He : forall kd', x_key_values ft cs' (k1 :: ks) e kd' -> x_elem O ft (SList i (k1 :: ks) od cs') e (VStr (key_text O kd')) e).
  { intros kd' H. split; [reflexivity|]. exists kd'. auto. }
  cbv zeta. destruct (mhas _ _); [eexists; split; [apply does_ok|]; split; [reflexivity|]; now apply He|].
  exists (run_op m (at_ ++ [Kid n]) (AList (uid (entries m (at_ ++ [Kid n]))) (YAddKw kd))). split.
  - apply does_op. exists [Kid n]. split; [reflexivity|]. split.
    + eapply AAdd; eauto; [exact I|]. intros _ k' (kd' & Hk & ->). exists e. apply He. eapply x_values_again; eauto.
    + intros u yo' E _. now injection E as <- _.
  - destruct (run_op _ _ _) as [m' [[]|ex]]; auto.
Qed.

Definition xkid_does (s : schema) : Prop := forall cs d n c, x_part cs d n s c -> forall ov at_ m,
  does (want at_ ov cs d) m (xload_kid s (at_ ++ [Kid n]) c m).
Lemma xobj_does cs e : Forall xkid_does cs -> forall ov at_ m, does (want at_ ov cs e) m (load_xml cs at_ e m).
Proof.
  intros HP ov at_ m. rewrite load_xml_each. apply does_each; [apply retried_app|]. intros c m0 Hin.
  unfold xload_member. destruct (find_kid (x_name c) cs) as [[n s]|] eqn:Ef; [|apply does_raise].
  pose proof (find_spelt _ _ _ _ Ef) as Hsp. rewrite Forall_forall in HP. apply (HP s); [|now split].
  destruct Hsp as [Hn _]. eapply nth_error_In; eauto.
Qed.

Lemma xall_do s : xkid_does s.
Proof.
  induction s as [i lt d yt k|i ts yt|i pr cs IH|i keys od cs IH] using schema_ind'; intros cs0 d0 n c Hp ov at_ m; unfold Xml_proofs.xload_kid.
  - unfold xml_set. destruct (is_key _); [apply does_ok|]. destruct (xml_value _ _) as [[v|]|]; [|apply does_ok|apply does_raise].
    apply does_op. exists [Kid n]. split; [reflexivity|]. split; [|apply no_list; discriminate]. eapply AVals; eauto; exact I.
  - unfold xml_member. destruct (x_kids c); [|apply does_raise]. cbv zeta. set (v := objectified ft (x_text c)).
    assert (G : forall lo m, want at_ ov cs0 d0 m (at_ ++ [Kid n]) (ALeafList lo)).
    { intros lo m1. exists [Kid n]. split; [reflexivity|]. split; [|apply no_list; discriminate]. eapply AVals; eauto; exact I. }
    pose proof (does_op O top retried (want at_ ov cs0 d0) m (at_ ++ [Kid n]) (ALeafList (LAppend v)) (G _ _)) as H1.
    destruct (run_op m (at_ ++ [Kid n]) (ALeafList (LAppend v))) as [m1 [[]|ex]] eqn:E; [exact H1|].
    destruct ex; try exact H1. destruct (existsb _ ts); [|exact H1]. eapply does_again; [apply G|intros; apply G|exact E].
  - apply does_then; [apply retried_app| |intros m1].
    + destruct pr; [|apply does_ok]. apply does_op. exists [Kid n]. split; [reflexivity|]. split; [|apply no_list; discriminate]. eapply AFlag; eauto.
    + eapply does_mono; [|apply (xobj_does cs c IH false)]. intros m3 p o H. eapply want_deeper; [exact Hp|]. now rewrite andb_false_r.
  - destruct (xentry_does at_ ov cs0 d0 n i keys od cs c m Hp) as (st & Hst & He).
    destruct (xml_entry O ft uid top (at_ ++ [Kid n]) keys cs c m) as [m3 [k|ex]]; [|now subst st].
    destruct He as [-> Hel].
    change (does (want at_ ov cs0 d0) m (andthen (m3, Ok tt) (load_xml cs ((at_ ++ [Kid n]) ++ [Ent k]) c))).
    apply does_then; [apply retried_app|exact Hst|]. intros m4.
    eapply does_mono; [|apply (xobj_does cs c IH false)]. intros m5 p o H. eapply want_entry; [exact Hp|exact Hel|]. rewrite <- app_assoc in H. now rewrite andb_false_r.
Qed.

Theorem xml_does d m : does (fun m p o => asks false top d p o /\ by_uid uid m p o) m (load_doc O ft uid top d m).
Proof.
  unfold load_doc. eapply does_mono; [|apply (xobj_does top d); apply Forall_forall; intros; apply xall_do].
  intros m0 p o (p1 & -> & H). exact H.
Qed.
End X.
