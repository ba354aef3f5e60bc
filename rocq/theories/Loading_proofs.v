(** Loading as a series of operations, and what it leaves alone: the part common to all formats. *)
From Coq Require Import Lia.
From Verif Require Import PyStr PyStr_facts PyVal Restricted Spec_Lists TypedList TypedList_proofs YList YList_proofs SafeName
  Tree Spec_Tree Tree_proofs Tree_frame Tree_main Tree_hist Tree_tell Tree_past Serialise Spec_Loading.

Section Engine.
Context (O : oracle) (top : list schema).
Context (again : list pstep -> op -> list (list pstep * op) -> Prop).
Context (Hagain : forall p o os os', again p o os -> again p o (os ++ os')).
Notation run_op := (run_op O top).

Inductive runs (P : list obj -> list pstep -> op -> Prop) : list obj -> list (list pstep * op) -> list obj -> res unit -> Prop :=
| RunOk m : runs P m [] m (Ok tt)
| RunRaise m e : runs P m [] m (Raise e)
| RunDo m p o m1 os m' r : P m p o -> run_op m p o = (m1, Ok tt) -> runs P m1 os m' r -> runs P m ((p, o) :: os) m' r
| RunFail m p o m1 e : P m p o -> run_op m p o = (m1, Raise e) -> runs P m [(p, o)] m1 (Raise e)
| RunAgain m p o m1 e os m' r : P m p o -> run_op m p o = (m1, Raise e) -> again p o os -> runs P m1 os m' r -> runs P m ((p, o) :: os) m' r.
Definition does (P : list obj -> list pstep -> op -> Prop) (m : list obj) (st : step) : Prop :=
  exists os, runs P m os (fst st) (snd st).

Lemma does_ok P m : does P m (m, Ok tt).
Proof. exists []. constructor. Qed.
Lemma does_raise P m e : does P m (m, Raise e).
Proof. exists []. constructor. Qed.
Lemma does_op (P : list obj -> list pstep -> op -> Prop) m p o : P m p o -> does P m (run_op m p o).
Proof.
  intros H. exists [(p, o)]. destruct (run_op m p o) as [m1 [[]|e]] eqn:E; cbn.
  - eapply RunDo; eauto. constructor.
  - eapply RunFail; eauto.
Qed.
Lemma runs_app P m os m1 os' m' r : runs P m os m1 (Ok tt) -> runs P m1 os' m' r -> runs P m (os ++ os') m' r.
Proof.
  intros H. remember (Ok tt) as r0 eqn:E. induction H; intros Hn; try discriminate; cbn [app].
  - exact Hn.
  - eapply RunDo; eauto.
  - eapply RunAgain; eauto.
Qed.
Lemma does_then P m st k : does P m st -> (forall m', does P m' (k m')) -> does P m (andthen st k).
Proof.
  intros (os & H) Hk. destruct st as [m1 [[]|e]]; cbn in *; [|now exists os].
  destruct (Hk m1) as (os' & H'). exists (os ++ os'). eapply runs_app; eauto.
Qed.
Lemma does_each {A} P (f : A -> list obj -> step) l : (forall a m, In a l -> does P m (f a m)) -> forall m, does P m (for_each f l m).
Proof.
  induction l as [|a l IH]; intros H m; cbn; [apply does_ok|]. apply does_then; [apply H; now left|].
  intros m'. apply IH. intros b m0 Hb. apply H. now right.
Qed.
(** The same where an invariant of the operations holds. *)
Lemma does_inv (P : list obj -> list pstep -> op -> Prop) (I : list obj -> Prop) m st :
  (forall m p o, P m p o -> I m -> I (fst (module_exec O top m p o))) -> does P m st -> I m -> I (fst st).
Proof.
  intros H (os & Hr). revert Hr. generalize (fst st), (snd st). intros m' r Hr. induction Hr as [| |m p o m1 os m' r Hp Ho _ IH|m p o m1 e Hp Ho|m p o m1 e os m' r Hp Ho Ha _ IH]; intros HI; auto;
    pose proof (H m p o Hp HI) as H1; unfold Serialise.run_op in Ho; rewrite Ho in H1; auto.
Qed.
Lemma does_then_inv (P : list obj -> list pstep -> op -> Prop) (I : list obj -> Prop) m st k :
  (forall m p o, P m p o -> I m -> I (fst (module_exec O top m p o))) -> I m ->
  does P m st -> (forall m', I m' -> does P m' (k m')) -> does P m (andthen st k).
Proof.
  intros HP HI H Hk. pose proof (does_inv P I m st HP H HI) as HI'. destruct H as (os & H). destruct st as [m1 [[]|e]]; cbn in *; [|now exists os].
  destruct (Hk m1 HI') as (os' & H'). exists (os ++ os'). eapply runs_app; eauto.
Qed.
Lemma does_each_inv {A} (P : list obj -> list pstep -> op -> Prop) (I : list obj -> Prop) (f : A -> list obj -> step) l :
  (forall m p o, P m p o -> I m -> I (fst (module_exec O top m p o))) ->
  (forall a m, In a l -> I m -> does P m (f a m)) -> forall m, I m -> does P m (for_each f l m).
Proof.
  intros HP. induction l as [|a l IH]; intros H m HI; cbn; [apply does_ok|]. apply (does_then_inv P I); auto; [apply H; auto; now left|].
  intros m' HI'. apply IH; auto. intros b m0 Hb. apply H. now right.
Qed.
Lemma runs_mono (P Q : list obj -> list pstep -> op -> Prop) : (forall m p o, P m p o -> Q m p o) ->
  forall m os m' r, runs P m os m' r -> runs Q m os m' r.
Proof.
  intros H m os m' r Hr. induction Hr; [constructor|constructor|eapply RunDo|eapply RunFail|eapply RunAgain]; eauto.
Qed.
Lemma does_mono (P Q : list obj -> list pstep -> op -> Prop) m st : (forall m p o, P m p o -> Q m p o) -> does P m st -> does Q m st.
Proof. intros H (os & Hr). exists os. eapply runs_mono; eauto. Qed.

Lemma runs_state P m os m' r : runs P m os m' r -> m' = module_run O top m os.
Proof.
  induction 1 as [| |m p o m1 os m' r Hp Ho _ IH|m p o m1 e Hp Ho|m p o m1 e os m' r Hp Ho _ _ IH]; cbn; auto;
    unfold Serialise.run_op in Ho; rewrite Ho; cbn; auto.
Qed.
Lemma runs_all P m os m' r : runs P m os m' r -> forall os1 p o os2, os = os1 ++ (p, o) :: os2 -> P (module_run O top m os1) p o.
Proof.
  induction 1 as [| |m p o m1 os m' r Hp Ho _ IH|m p o m1 e Hp Ho|m p o m1 e os m' r Hp Ho _ _ IH]; intros os1 p' o' os2 E.
  1, 2: now destruct os1.
  all: destruct os1 as [|[p1 o1] os1]; cbn in E; injection E as E1 E2 E3; subst; [exact Hp|]; cbn;
    unfold Serialise.run_op in Ho; rewrite Ho; cbn.
  - eapply IH; eauto.
  - destruct os1; discriminate.
  - eapply IH; eauto.
Qed.
Lemma runs_outcome P m os m' r : runs P m os m' r -> forall os1 p o os2, os = os1 ++ (p, o) :: os2 -> r = Ok tt \/ os2 <> [] ->
  snd (module_exec O top (module_run O top m os1) p o) = Ok tt \/ again p o os2.
Proof.
  induction 1 as [| |m p o m1 os m' r Hp Ho _ IH|m p o m1 e Hp Ho|m p o m1 e os m' r Hp Ho Ha _ IH]; intros os1 p' o' os2 E Hr.
  1, 2: now destruct os1.
  all: destruct os1 as [|[p1 o1] os1]; cbn in E; injection E as E1 E2 E3; subst; cbn; unfold Serialise.run_op in Ho; try rewrite Ho; cbn; auto.
  - destruct Hr; [discriminate|congruence].
  - now destruct os1.
Qed.
(** An invariant of the operations. *)
Lemma runs_inv (P : list obj -> list pstep -> op -> Prop) (I : list obj -> Prop) : (forall m p o, P m p o -> I m -> I (fst (module_exec O top m p o))) ->
  forall m os m' r, runs P m os m' r -> I m -> I m'.
Proof.
  intros H m os m' r Hr. induction Hr as [| |m p o m1 os m' r Hp Ho _ IH|m p o m1 e Hp Ho|m p o m1 e os m' r Hp Ho Ha _ IH]; intros HI; auto;
    pose proof (H m p o Hp HI) as H1; unfold Serialise.run_op in Ho; rewrite Ho in H1; auto.
Qed.
End Engine.

(* ------------------------------------------------------------------ what documents ask for *)
(** The keys an operation on a list with keys may add. *)
Definition stores (O : oracle) (keys : list str) (yo : yop obj) (k : pyval) : Prop :=
  match yo with
  | YAdd k' => k = k'
  | YAddKw kw => exists kd, kw_keys keys kw = Ok kd /\ k = VStr (key_text O kd)
  | _ => False
  end.

Section Asks.
Context (O : oracle) {D : Type}.
Context (part : list schema -> D -> nat -> schema -> D -> Prop) (elem : schema -> D -> pyval -> D -> Prop) (whole : schema -> D -> Prop).
Context (hand : bool).
Context (part_at : forall cs d n s d', part cs d n s d' -> nth_error cs n = Some s).
(** [old]: the entries that were there before; those that were not, if there are others, have made-up keys. *)
Context (old : schema -> D -> pyval -> D -> Prop) (made : bool).
Context (elem_old : forall s d k e, elem s d k e -> old s d k e \/ made = true /\ exists i od cs, s = SList i [] od cs).
Notation named := (named part elem).
Notation spared := (spared part old whole).

Inductive asks : bool -> list schema -> D -> list pstep -> op -> Prop :=
| AVals ov cs d n s d' o : part cs d n s d' -> match s with SLeaf _ _ _ _ _ | SLeafList _ _ _ => True | _ => False end ->
    match o with ASet _ (AVal _) | ALeafList _ => True | _ => False end -> asks ov cs d [Kid n] o
| AWhole ov cs d n s d' w v : part cs d n s d' -> whole s d' -> asks ov cs d [Kid n] (ASet w (AVal v))
| AFlag ov cs d n i pr cs' d' : part cs d n (SCont i pr cs') d' -> asks ov cs d [Kid n] (APresent true)
| AClear cs d n s d' k : part cs d n s d' -> asks true cs d [Kid n; Kid k] AUnset
| ADelete cs d n s d' u k : part cs d n s d' -> asks true cs d [Kid n] (AList u (YDelete k))
| AIn ov cs d n i pr cs' d' p o : part cs d n (SCont i pr cs') d' -> asks (ov && hand) cs' d' p o -> asks ov cs d (Kid n :: p) o
| AAdd ov cs d n i keys od cs' d' u yo : part cs d n (SList i keys od cs') d' -> adds yo ->
    (keys <> [] -> forall k, stores O keys yo k -> exists e, elem (SList i keys od cs') d' k e) -> asks ov cs d [Kid n] (AList u yo)
| AEntry ov cs d n i keys od cs' d' k e p o : part cs d n (SList i keys od cs') d' -> elem (SList i keys od cs') d' k e ->
    asks (ov && hand) cs' e p o -> asks ov cs d (Kid n :: Ent k :: p) o.

Lemma asks_kind ov cs d p o : asks ov cs d p o ->
  (putting o /\ named cs d p) \/ (ov = true /\ clearing o /\ exists p', named cs d p' /\ (p = p' \/ exists k, p = p' ++ [Kid k])).
Proof.
  induction 1 as [ov cs d n s d' o Hp Hs Ho|ov cs d n s d' w v Hp Hw|ov cs d n i pr cs' d' Hp|cs d n s d' k Hp|cs d n s d' u k Hp
                 |ov cs d n i pr cs' d' p o Hp _ IH|ov cs d n i keys od cs' d' u yo Hp Ha Hk|ov cs d n i keys od cs' d' k e p o Hp He _ IH].
  - left. split; [destruct o as [w [v|z]| |b|lo|u yo]; try contradiction; exact I|]. eapply NPart; eauto.
  - left. split; [exact I|]. eapply NPart; eauto.
  - left. split; [exact I|]. eapply NPart; eauto.
  - right. split; [reflexivity|]. split; [exact I|]. exists [Kid n]. split; [eapply NPart; eauto|]. right. now exists k.
  - right. split; [reflexivity|]. split; [exact I|]. exists [Kid n]. split; [eapply NPart; eauto|]. now left.
  - destruct IH as [[A B]|(A & B & p' & C & E)].
    + left. split; auto. eapply NIn; eauto.
    + right. apply andb_prop in A as [A _]. split; auto. split; auto. exists (Kid n :: p'). split; [eapply NIn; eauto|].
      destruct E as [->|(k & ->)]; [now left|right; now exists k].
  - left. split; [exact Ha|]. eapply NPart; eauto.
  - destruct IH as [[A B]|(A & B & p' & C & E)].
    + left. split; auto. eapply NEntry; eauto.
    + right. apply andb_prop in A as [A _]. split; auto. split; auto. exists (Kid n :: Ent k :: p'). split; [eapply NEntry; eauto|].
      destruct E as [->|(k' & ->)]; [now left|right; now exists k'].
Qed.
Lemma kind_plain o : putting o \/ clearing o -> plain_op o.
Proof. destruct o as [w [v|z]| |[]|lo|u []]; cbn; tauto. Qed.
Lemma asks_plain ov cs d p o : asks ov cs d p o -> plain_op o.
Proof. intros H. apply kind_plain. destruct (asks_kind _ _ _ _ _ H) as [[A _]|(_ & A & _)]; auto. Qed.

(** Such an operation has nothing to do with the node at [q]. *)
Definition clear_of (there : bool) (cs : list schema) (p : list pstep) (o : op) (q : list pstep) : Prop :=
  apart p q \/ exists p' a r, q = p' ++ a :: r /\ Forall2 step_eq p p' /\
    (o = APresent true \/
     exists u yo k i keys od cs', o = AList u yo /\ adds yo /\ a = Ent k /\ schema_at cs p = Some (SList i keys od cs') /\
       (there = true \/ (keys <> [] /\ forall k', stores O keys yo k' -> py_eq k k' = false))).

(** Where [p] is in an entry without keys, [q] is not. *)
Definition unlike (there : bool) (cs : list schema) (p q : list pstep) : Prop :=
  there = true -> forall q0 u z i od cs' q0' k z', p = q0 ++ Ent u :: z -> q = q0' ++ Ent k :: z' -> Forall2 step_eq q0 q0' ->
    schema_at cs q0 = Some (SList i [] od cs') -> py_eq k u = false.
Lemma step_kid n m : step_eq (Kid n) (Kid m) -> n = m.
Proof. intros H. now inversion H. Qed.
Lemma apart_kid n m p q : n <> m -> apart (Kid n :: p) (Kid m :: q).
Proof. intros H. left. intros E. apply H. now apply step_kid. Qed.
Lemma spared_some there cs d q : spared there cs d q -> exists a r, q = a :: r.
Proof. destruct 1; eauto. Qed.

Lemma clear_in there cs n i pr cs' p o q : nth_error cs n = Some (SCont i pr cs') -> p <> [] ->
  clear_of there cs' p o q -> clear_of there cs (Kid n :: p) o (Kid n :: q).
Proof.
  intros Hn Hp [H|(p' & c & r & -> & Hpp & H)]; [left; right; exact H|].
  right. exists (Kid n :: p'), c, r. split; [reflexivity|]. split; [constructor; [constructor|exact Hpp]|].
  destruct H as [H|(u & yo & k & i2 & keys & od & cs2 & A & B & C & E & F)]; [now left|right].
  exists u, yo, k, i2, keys, od, cs2. repeat (split; [assumption|]). split; [|exact F].
  unfold schema_at in *. cbn [sub entry_schema] in *. rewrite Hn. destruct p as [|[m|k0] p]; [congruence|exact E|exact E].
Qed.
Lemma clear_entry there cs n i keys0 od0 cs' k0 k1 p o q : nth_error cs n = Some (SList i keys0 od0 cs') -> py_eq k0 k1 = true ->
  clear_of there cs' p o q -> clear_of there cs (Kid n :: Ent k0 :: p) o (Kid n :: Ent k1 :: q).
Proof.
  intros Hn Hk [H|(p' & c & r & -> & Hpp & H)]; [left; right; right; exact H|].
  right. exists (Kid n :: Ent k1 :: p'), c, r. split; [reflexivity|]. split; [constructor; [constructor|constructor; [now constructor|exact Hpp]]|].
  destruct H as [H|(u & yo & k & i2 & keys & od & cs2 & A & B & C & E & F)]; [now left|right].
  exists u, yo, k, i2, keys, od, cs2. repeat (split; [assumption|]). split; [|exact F].
  unfold schema_at in *. cbn [sub entry_schema] in *. rewrite Hn. exact E.
Qed.

Lemma spared_at there cs d n r s d' : spared there cs d (Kid n :: r) -> part cs d n s d' ->
  ~ whole s d' /\
  match s with
  | SCont _ _ cs' => spared there cs' d' r
  | SList _ keys _ cs' => exists k r', r = Ent k :: r' /\ (there = true \/ keys <> []) /\
      forall k' e, old s d' k' e -> py_eq k k' = true -> there = true /\ spared there cs' e r'
  | _ => False
  end.
Proof.
  intros H Hp. pose proof (part_at _ _ _ _ _ Hp) as Hat.
  inversion H as [cs0 d0 n0 r0 Hno|cs0 d0 n0 i pr cs' r0 Hn Hall|cs0 d0 n0 i keys od cs' k r0 Hn Hth Hall]; subst.
  - exfalso. eapply Hno; eauto.
  - rewrite Hn in Hat. injection Hat as <-. now apply Hall.
  - rewrite Hn in Hat. injection Hat as <-. destruct (Hall d' Hp) as [A B]. split; [exact A|]. exists k, r0. auto.
Qed.

Lemma unlike_in there cs n i pr cs' p q : nth_error cs n = Some (SCont i pr cs') -> unlike there cs (Kid n :: p) (Kid n :: q) -> unlike there cs' p q.
Proof.
  intros Hn H Ht q0 u z i0 od cs0 q0' k z' -> -> Hq Hsc. apply (H Ht (Kid n :: q0) u z i0 od cs0 (Kid n :: q0') k z'); auto; [constructor; [constructor|exact Hq]|].
  unfold schema_at in *. cbn [sub entry_schema] in *. rewrite Hn. destruct q0; [discriminate|exact Hsc].
Qed.
Lemma unlike_entry there cs n i keys od cs' k0 k1 p q : nth_error cs n = Some (SList i keys od cs') -> py_eq k0 k1 = true ->
  unlike there cs (Kid n :: Ent k0 :: p) (Kid n :: Ent k1 :: q) -> unlike there cs' p q.
Proof.
  intros Hn Hk H Ht q0 u z i0 od0 cs0 q0' k z' -> -> Hq Hsc.
  apply (H Ht (Kid n :: Ent k0 :: q0) u z i0 od0 cs0 (Kid n :: Ent k1 :: q0') k z'); auto; [constructor; [constructor|constructor; [now constructor|exact Hq]]|].
  unfold schema_at in *. cbn [sub entry_schema] in *. rewrite Hn. exact Hsc.
Qed.
Lemma asks_clear there cs d p o : asks false cs d p o -> forall q, (made = true -> unlike there cs p q) -> spared there cs d q -> clear_of there cs p o q.
Proof.
  intros H. remember false as ov eqn:Eov.
  induction H as [ov cs d n s d' o Hp Hs Ho|ov cs d n s d' w v Hp Hw|ov cs d n i pr cs' d' Hp|cs d n s d' k Hp|cs d n s d' u k Hp
                 |ov cs d n i pr cs' d' p o Hp Ha IH|ov cs d n i keys od cs' d' u yo Hp Ha Hk|ov cs d n i keys od cs' d' k e p o Hp He Ha IH];
    intros q Hun Hq; subst; try discriminate; try specialize (IH eq_refl);
    assert (Hkid : exists m r, q = Kid m :: r) by (destruct Hq; eauto); destruct Hkid as (m & r & ->);
    (destruct (Nat.eq_dec n m) as [<-|Hne]; [|left; now apply apart_kid]); destruct (spared_at _ _ _ _ _ _ _ Hq Hp) as [Hw' Hin];
    pose proof (part_at _ _ _ _ _ Hp) as Hat.
  - now destruct s.
  - contradiction.
  - right. destruct (spared_some _ _ _ _ Hin) as (a & r' & ->). exists [Kid n], a, r'. split; [reflexivity|].
    split; [repeat constructor|]. now left.
  - apply (clear_in there cs n i pr cs'); auto; [intros ->; inversion Ha|]. apply IH; auto. intros Hm. eapply unlike_in; eauto.
  - destruct Hin as (k & r' & -> & Hth & Hall). right. exists [Kid n], (Ent k), r'. split; [reflexivity|].
    split; [repeat constructor|]. right. exists u, yo, k, i, keys, od, cs'. split; [reflexivity|]. split; [exact Ha|]. split; [reflexivity|].
    split; [unfold schema_at; cbn; now rewrite Hat|].
    destruct there; [now left|right]. destruct Hth as [Hth|Hth]; [discriminate|]. split; [exact Hth|].
    intros k' Hst. destruct (Hk Hth k' Hst) as (e & He). destruct (py_eq k k') eqn:E; [|reflexivity].
    destruct (elem_old _ _ _ _ He) as [He'|(_ & i1 & od1 & cs1 & E1)]; [|congruence]. destruct (Hall k' e He' E) as [A _]. discriminate.
  - destruct Hin as (k2 & r' & -> & Hth & Hall). destruct (py_eq k2 k) eqn:E.
    + destruct (elem_old _ _ _ _ He) as [He'|(Hm & i1 & od1 & cs1 & E1)].
      * destruct (Hall k e He' E) as [_ Hsp]. assert (E2 : py_eq k k2 = true) by now rewrite py_eq_sym.
        apply (clear_entry there cs n i keys od cs'); auto.
        apply IH; auto. intros Hm. eapply unlike_entry; eauto.
      * injection E1 as -> -> -> ->. destruct Hth as [Hth|]; [|congruence].
        assert (G : py_eq k2 k = false); [|congruence].
        apply (Hun Hm Hth [Kid n] k p i1 od1 cs1 [Kid n] k2 r'); auto; [repeat constructor|]. unfold schema_at. cbn. now rewrite Hat.
    + left. right. left. intros Hs. inversion Hs; subst. rewrite py_eq_sym in E. congruence.
Qed.

(** With overwrite=True, at least the children that the document has nothing for. *)
Lemma asks_top ov cs d p o : asks ov cs d p o -> forall n r, (forall s d', ~ part cs d n s d') -> apart p (Kid n :: r).
Proof.
  intros H n r Hno.
  assert (G : exists m p' s d', p = Kid m :: p' /\ part cs d m s d') by (destruct H; eauto 8).
  destruct G as (m & p' & s & d' & -> & Hp). apply apart_kid. intros ->. eapply Hno; eauto.
Qed.
End Asks.

(* ------------------------------------------------------------------ from where a document is loaded *)
Lemma find_spelt key cs n s : find_kid key cs = Some (n, s) -> spelt cs key n s.
Proof.
  unfold find_kid. destruct (kid_index (safe_name key) cs) as [n0|] eqn:E; [|discriminate].
  destruct (nth_error cs n0) as [s0|] eqn:En; [|discriminate]. intros H. injection H as -> ->. split; [exact En|].
  destruct (kid_index_py _ _ _ E) as (s1 & H1 & H2). congruence.
Qed.
(** New entries are named by [uid]. *)
Definition by_uid (uid : list (pyval * obj) -> str) (m : list obj) (p : list pstep) (o : op) : Prop :=
  forall u yo, o = AList u yo -> adds yo -> u = uid (entries m p).
Lemma no_list uid m p o : (forall u yo, o <> AList u yo) -> by_uid uid m p o.
Proof. intros H u yo E. now apply H in E. Qed.

Section Want.
Context (O : oracle) (uid : list (pyval * obj) -> str) {D : Type}.
Context (part : list schema -> D -> nat -> schema -> D -> Prop) (elem : schema -> D -> pyval -> D -> Prop) (whole : schema -> D -> Prop).
Context (hand : bool).
Definition want (at_ : list pstep) (ov : bool) (cs : list schema) (d : D) (m : list obj) (p : list pstep) (o : op) : Prop :=
  exists p1, p = at_ ++ p1 /\ asks O part elem whole hand ov cs d p1 o /\ by_uid uid m p o.
Lemma want_deeper (at_ : list pstep) ov cs d n i pr cs' d' m p o : part cs d n (SCont i pr cs') d' ->
  want (at_ ++ [Kid n]) (ov && hand) cs' d' m p o -> want at_ ov cs d m p o.
Proof.
  intros Hp (p1 & -> & Ha & Hu). exists (Kid n :: p1). rewrite <- app_assoc. split; [reflexivity|]. split; [|now rewrite <- app_assoc in Hu].
  eapply AIn; eauto.
Qed.
Lemma want_entry (at_ : list pstep) ov cs d n i keys od cs' d' k e m p o : part cs d n (SList i keys od cs') d' -> elem (SList i keys od cs') d' k e ->
  want (at_ ++ [Kid n] ++ [Ent k]) (ov && hand) cs' e m p o -> want at_ ov cs d m p o.
Proof.
  intros Hp He (p1 & -> & Ha & Hu). exists (Kid n :: Ent k :: p1). rewrite <- !app_assoc in *. split; [reflexivity|]. split; [|exact Hu].
  eapply AEntry; eauto.
Qed.
End Want.

(* ------------------------------------------------------------------ the frame of one operation *)
Section Frame.
Context (O : oracle).

Lemma put_keeps {A} k k' (a : A) es : mhas k es = false -> mget k' es <> None \/ py_eq k' k = false -> mget k' (mput k a es) = mget k' es.
Proof.
  intros Hk [H|H]; [|now apply mget_mput_other]. destruct (py_eq k' k) eqn:E; [|now apply mget_mput_other].
  rewrite (mget_eq k k' es E) in H. unfold mhas in Hk. destruct (mget k es); [discriminate|congruence].
Qed.
Lemma list_keeps keys cs uid es yo es' evs r k : adds yo -> list_op O keys cs uid es yo = (es', evs, r) ->
  (keys = [] -> mhas (VStr uid) es = false) ->
  mget k es <> None \/ (keys <> [] /\ forall k', stores O keys yo k' -> py_eq k k' = false) -> mget k es' = mget k es.
Proof.
  intros Ha H Hu Hk. unfold list_op in H.
  assert (Add : forall k0, (forall k', k' = k0 -> k0 <> VNone -> stores O keys yo k') ->
    yl_add keys (mk_entry O cs) (OCont false false (map (fresh O) cs)) uid es k0 = (es', evs, r) -> mget k es' = mget k es).
  { intros k0 Hst H0. unfold yl_add in H0. destruct (negb (hashable k0)); [now injection H0 as <- _ _|].
    destruct (mhas k0 es) eqn:Eh; [now injection H0 as <- _ _|].
    destruct keys as [|n ns].
    { injection H0 as <- _ _. apply put_keeps; auto. destruct Hk as [Hk|[Hk _]]; [now left|congruence]. }
    assert (Hst' : es' = es \/ k0 <> VNone /\ match key_dict (n :: ns) k0 with Raise e => (es, [], Raise e) | Ok kd => store k0 es (mk_entry O cs kd) end = (es', evs, r)).
    { destruct k0; try (right; split; [discriminate|exact H0]). left. now injection H0 as <- _ _. }
    destruct Hst' as [->|[Hnn H1]]; [reflexivity|].
    destruct (key_dict (n :: ns) k0) as [kd|]; [|now injection H1 as <- _ _].
    unfold store in H1. destruct (mk_entry O cs kd) as [ev [a|e]]; injection H1 as <- _ _; [|reflexivity].
    apply put_keeps; [exact Eh|]. destruct Hk as [Hk|[_ Hk]]; [now left|right]. apply Hk, Hst; auto. }
  destruct yo as [k0| |kw| | | |]; try contradiction; cbn [yl_op] in H.
  - apply (Add k0); auto.
  - apply (Add VNone); auto. intros k' -> Hn. congruence.
  - destruct kw as [|nv kw]; [apply (Add VNone); auto; intros k' -> Hn; congruence|].
    unfold yl_add_kw in H. destruct keys as [|n ns]; [now injection H as <- _ _|].
    destruct (kw_keys (n :: ns) (nv :: kw)) as [kd|] eqn:Ed; [|now injection H as <- _ _].
    destruct (mhas (VStr (key_text O kd)) es) eqn:Eh; [now injection H as <- _ _|].
    unfold store in H. destruct (mk_entry O cs kd) as [ev [a|e]]; injection H as <- _ _; [|reflexivity].
    apply put_keeps; auto. destruct Hk as [Hk|[_ Hk]]; [now left|right]. apply Hk. exists kd. auto.
Qed.

Lemma op_spares there cs kids p o q : uniform cs -> even_keys cs -> shaped cs kids -> Forall tidy kids -> plain_op o ->
  (forall s, schema_at cs p = Some s -> names_new kids p s o) ->
  clear_of O there cs p o q -> (there = true -> at_path kids q <> None) ->
  (forall r, writes cs p o -> prefix r q -> ~ rival cs p r) ->
  at_path (fst (module_exec O cs kids p o)) q = at_path kids q.
Proof.
  intros Hu Hpk Hs Htd Hpo Hnn Hcl Hth Hriv.
  destruct (at_path kids p) as [x|] eqn:Hx.
  2:{ destruct (module_exec_missing O cs kids p o Hs (or_intror Hx)) as (e & E). now rewrite E. }
  destruct (at_path_conf cs kids p x Hs Hx) as (s & Hsc & Hcx).
  destruct (existing_dec O cs kids p o s Hs Hsc) as [(e & E)|(He & _)]; [now rewrite E|].
  destruct (module_exec_ok O cs kids p o s x Hs He Hsc Hx) as (evs & R).
  destruct (plain_base O cs kids p s x o Hu Htd Hpk Hsc Hx Hcx Hpo (Hnn s Hsc)) as (B1 & B2 & _).
  pose proof (uniform_clash false cs p s _ Hu Hsc B1) as Hcf.
  destruct (module_exec O cs kids p o) as [kids' r] eqn:Em. cbn [fst snd] in *.
  destruct Hcl as [Ha|(p' & a & r1 & -> & Hpp & Hcl)].
  - destruct (run_frame O _ _ _ _ _ _ _ _ _ _ R Hs q Ha) as [E|(r0 & Hp0 & Hreset)]; [exact E|exfalso].
    assert (Hb : base_events O s x o <> []).
    { destruct Hreset as (s0 & c & k & k' & _ & _ & _ & _ & _ & _ & Hsrc). intros E. rewrite E in Hsrc. destruct Hsrc as [[]|(t & st & _ & _ & _ & _ & H & _)]. now apply H. }
    apply (Hriv r0 (B2 Hb) Hp0).
    assert (Hown : forall c k, In (Some (c, k)) (base_events O s x o) -> s_tag s = Some (c, k)) by (intros c k Hin; exact (own_tags_in _ _ B1 _ _ Hin)).
    exact (proj1 (reset_is_rival O cs kids' p _ s r0 Hsc Hown Hreset)).
  - assert (Hat : forall z, at_path kids' (p' ++ z) = node (put O s x o) z).
    { intros z. pose proof (run_put O _ _ _ _ _ _ _ _ _ _ R Hs Hcf) as Hp. rewrite (at_eq kids' _ _ Hpp) in Hp.
      unfold at_path in *. now rewrite node_app, Hp. }
    assert (Hat0 : forall z, at_path kids (p' ++ z) = node x z).
    { intros z. rewrite (at_eq kids _ _ Hpp) in Hx. unfold at_path in *. now rewrite node_app, Hx. }
    rewrite Hat, Hat0. destruct Hcl as [->|(u & yo & k & i & keys & od & cs' & -> & Had & -> & Hsl & Hk)].
    + unfold put. cbn [apply]. destruct Hcx as [| |i pr cs' ch pres kids0 Hf|]; cbn [f_new no_effect]; reflexivity.
    + rewrite Hsc in Hsl. injection Hsl as ->. inversion Hcx as [| | |i2 keys2 od2 cs2 ch es Hes]; subst.
      unfold put. cbn [apply]. destruct (list_op O keys cs' u es yo) as [[es' evs'] r'] eqn:El. cbn [f_new node].
      rewrite (list_keeps _ _ _ _ _ _ _ _ k Had El); [reflexivity| |].
      * intros ->. specialize (Hnn _ Hsc u yo i od cs' eq_refl Had eq_refl). unfold at_path in *. rewrite node_app, Hx in Hnn. cbn in Hnn.
        unfold mhas. destruct (mget (VStr u) es); [discriminate|reflexivity].
      * destruct Hk as [Hk|Hk]; [left|now right]. specialize (Hth Hk). rewrite Hat0 in Hth. cbn in Hth. destruct (mget k es); congruence.
Qed.
End Frame.
