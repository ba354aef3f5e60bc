(** Loading is a series of operations and leaves the rest alone. *)
From Coq Require Import Lia.
From Verif Require Import PyStr PyStr_facts PyVal Restricted Spec_Lists TypedList YList SafeName
  Tree Spec_Tree Tree_proofs Tree_frame Tree_main Tree_hist Tree_tell Tree_past Tree_case Serialise Xml Spec_Loading Loading_proofs LoadingJson_proofs LoadingIetf_proofs LoadingXml_proofs.

Lemma all_elements {A} (Q : A -> Prop) l : (forall l1 a l2, l = l1 ++ a :: l2 -> Q a) -> Forall Q l.
Proof.
  intros H. apply Forall_forall. intros a Hin. apply in_split in Hin as (l1 & l2 & E). eapply H; eauto.
Qed.

Section Series.
Context (O : oracle) (uid : list (pyval * obj) -> str) (cs : list schema).

Lemma series {D} part elem whole hand (again : list pstep -> op -> list (list pstep * op) -> Prop) ov (d : D) m st :
  does O cs again (fun m p o => asks O part elem whole hand ov cs d p o /\ by_uid uid m p o) m st ->
  exists os, fst st = module_run O cs m os /\
    (forall os1 p o os2, os = os1 ++ (p, o) :: os2 -> snd st = Ok tt \/ os2 <> [] ->
       snd (module_exec O cs (module_run O cs m os1) p o) = Ok tt \/ again p o os2) /\
    Forall (asked_for part elem ov cs d) os /\
    (forall os1 p o os2, os = os1 ++ (p, o) :: os2 -> by_uid uid (module_run O cs m os1) p o).
Proof.
  intros (os & H). exists os. split; [eapply runs_state; eauto|]. split; [eapply runs_outcome; eauto|]. split.
  - apply all_elements. intros os1 [p o] os2 E. destruct (runs_all _ _ _ _ _ _ _ _ H _ _ _ _ E) as [Ha _].
    destruct (asks_kind _ _ _ _ _ _ _ _ _ _ Ha) as [G|G]; [now left|now right].
  - intros os1 p o os2 E. apply (runs_all _ _ _ _ _ _ _ _ H _ _ _ _ E).
Qed.

Lemma asked_plain {D} part elem ov (d : D) po : asked_for part elem ov cs d po -> plain_op (snd po).
Proof. intros [[H _]|(_ & H & _)]; apply kind_plain; auto. Qed.

Theorem json_series ov skip d m m' r : load_json O uid cs ov skip d m = (m', r) ->
  exists os, m' = module_run O cs m os /\ outcome O cs m os r /\ Forall (asked_for j_part j_elem ov cs d) os /\
    (forall os1 p o os2, os = os1 ++ (p, o) :: os2 -> by_uid uid (module_run O cs m os1) p o).
Proof.
  intros E. pose proof (json_does O uid cs ov skip d m) as H. rewrite E in H. destruct (series _ _ _ _ _ _ _ _ _ H) as (os & A & B & C & F).
  exists os. split; [exact A|]. split; [|split; [exact C|exact F]]. intros os1 p o os2 E1 Hr. destruct (B os1 p o os2 E1 Hr) as [G|[]]. exact G.
Qed.
Theorem ietf_series ov skip d m m' r : load_ietf_json O uid cs ov skip d m = (m', r) ->
  exists os, m' = module_run O cs m os /\ outcome O cs m os r /\ Forall (asked_for i_part (i_elem O) ov cs d) os /\
    (forall os1 p o os2, os = os1 ++ (p, o) :: os2 -> by_uid uid (module_run O cs m os1) p o).
Proof.
  intros E. pose proof (ietf_does O uid cs ov skip d m) as H. rewrite E in H. destruct (series _ _ _ _ _ _ _ _ _ H) as (os & A & B & C & F).
  exists os. split; [exact A|]. split; [|split; [exact C|exact F]]. intros os1 p o os2 E1 Hr. destruct (B os1 p o os2 E1 Hr) as [G|[]]. exact G.
Qed.
Theorem xml_series ft d m m' r : load_doc O ft uid cs d m = (m', r) ->
  exists os, m' = module_run O cs m os /\ outcome_again O cs m os r /\ Forall (asked_for x_part (x_elem O ft) false cs d) os /\
    (forall os1 p o os2, os = os1 ++ (p, o) :: os2 -> by_uid uid (module_run O cs m os1) p o).
Proof.
  intros E. pose proof (xml_does O ft uid cs d m) as H. rewrite E in H. destruct (series _ _ _ _ _ _ _ _ _ H) as (os & A & B & C & F).
  exists os. split; [exact A|]. split; [|split; [exact C|exact F]]. intros os1 p o os2 E1 Hr. exact (B os1 p o os2 E1 Hr).
Qed.

(* ------------------------------------------------------------------ histories *)
Definition fresh_op (m : list obj) (p : list pstep) (o : op) : Prop :=
  forall u yo ch es, o = AList u yo -> adds yo -> at_path m p = Some (OList ch es) -> u = uid es.
Lemma by_uid_fresh m p o : by_uid uid m p o -> fresh_op m p o.
Proof. intros H u yo ch es -> Ha Hm. rewrite (H u yo eq_refl Ha). unfold entries. now rewrite Hm. Qed.

Lemma perform_series ft m a : plain_deed uid m a -> exists os, perform O ft uid cs m a = module_run O cs m os /\
  Forall (fun po => plain_op (snd po)) os /\ (forall os1 p o os2, os = os1 ++ (p, o) :: os2 -> fresh_op (module_run O cs m os1) p o).
Proof.
  destruct a as [p o|ov skip d|ov skip d|d]; cbn [plain_deed perform]; intros Hp.
  - exists [(p, o)]. split; [reflexivity|]. destruct Hp as [Hp Hu]. split; [now repeat constructor|].
    intros os1 p' o' os2 E. destruct os1 as [|a os1]; [|injection E as _ E; now destruct os1]. injection E as <- <- <-. cbn.
    intros u yo ch es Ho Ha Hm. eapply Hu; eauto.
  - destruct (load_json O uid cs ov skip d m) as [m' r] eqn:E. destruct (json_series _ _ _ _ _ _ E) as (os & A & _ & C & F).
    exists os. split; [unfold perform; rewrite E; exact A|]. split; [eapply Forall_impl; [|exact C]; intros po; apply asked_plain|]. intros. apply by_uid_fresh. eapply F; eauto.
  - destruct (load_ietf_json O uid cs ov skip d m) as [m' r] eqn:E. destruct (ietf_series _ _ _ _ _ _ E) as (os & A & _ & C & F).
    exists os. split; [unfold perform; rewrite E; exact A|]. split; [eapply Forall_impl; [|exact C]; intros po; apply asked_plain|]. intros. apply by_uid_fresh. eapply F; eauto.
  - destruct (load_doc O ft uid cs d m) as [m' r] eqn:E. destruct (xml_series _ _ _ _ _ E) as (os & A & _ & C & F).
    exists os. split; [unfold perform; rewrite E; exact A|]. split; [eapply Forall_impl; [|exact C]; intros po; apply asked_plain|]. intros. apply by_uid_fresh. eapply F; eauto.
Qed.

Lemma deeds_series ft l : plain_deeds O ft uid cs l -> exists os, after O ft uid cs l = module_run O cs (module_new O cs) os /\
  Forall (fun po => plain_op (snd po)) os /\ (forall os1 p o os2, os = os1 ++ (p, o) :: os2 -> fresh_op (module_run O cs (module_new O cs) os1) p o).
Proof.
  induction 1 as [|l a _ (os & E & Hpl & Hf) Ha].
  - exists []. split; [reflexivity|]. split; [constructor|]. intros os1 p o os2 E. now destruct os1.
  - destruct (perform_series ft _ _ Ha) as (os' & E' & Hpl' & Hf'). exists (os ++ os').
    split; [unfold after in *; rewrite fold_left_app; cbn; rewrite E', E; symmetry; apply run_app|].
    split; [now apply Forall_app|].
    intros os1 p o os2 Es.
    assert (G : (exists z, os = os1 ++ (p, o) :: z) \/ exists z, os1 = os ++ z /\ os' = z ++ (p, o) :: os2).
    { clear -Es. revert os1 Es. induction os as [|a os IH]; intros [|b os1] Es; cbn in *.
      - right. exists []. auto.
      - right. exists (b :: os1). auto.
      - left. injection Es as -> _. now exists os.
      - injection Es as -> Es. destruct (IH os1 Es) as [(z & ->)|(z & -> & ->)]; [left; now exists z|right; now exists z]. }
    destruct G as [(z & Ez)|(z & -> & Ez)]; [eapply Hf; eauto|]. rewrite run_app, <- E. eapply Hf'; eauto.
Qed.

Lemma fresh_new os : new_names uid -> (forall os1 p o os2, os = os1 ++ (p, o) :: os2 -> fresh_op (module_run O cs (module_new O cs) os1) p o) -> new_uids O cs os.
Proof.
  intros Hn Hf os1 p u yo os2 i od cs' E Ha Hsc. specialize (Hf _ _ _ _ E). set (m := module_run O cs (module_new O cs) os1) in *.
  destruct (at_path m p) as [x|] eqn:Hx; unfold at_path in *; rewrite node_app, Hx; [|reflexivity].
  cbn. destruct x as [| | |ch es]; try reflexivity. rewrite (Hf u yo ch es eq_refl Ha Hx). now rewrite Hn.
Qed.

Theorem deeds_history ft l : new_names uid -> plain_deeds O ft uid cs l -> exists os, after O ft uid cs l = module_run O cs (module_new O cs) os /\
  Forall (fun po => plain_op (snd po)) os /\ new_uids O cs os.
Proof.
  intros Hn H. destruct (deeds_series ft l H) as (os & A & B & C). exists os. split; [exact A|]. split; [exact B|]. now apply fresh_new.
Qed.

Lemma deeds_ok ft l : plain_deeds O ft uid cs l -> shaped cs (after O ft uid cs l) /\ Forall tidy (after O ft uid cs l).
Proof.
  intros H. destruct (deeds_series ft l H) as (os & -> & Hp & _). split; [apply module_run_shaped, fresh_shaped|now apply tidy_history].
Qed.

(** One case at a time. *)
Theorem deeds_one_case ft l : uniform cs -> leaf_keys cs -> (forall p i keys od cs', schema_at cs p = Some (SList i keys od cs') -> keys <> []) ->
  plain_deeds O ft uid cs l -> one_case cs (after O ft uid cs l).
Proof.
  intros Hu Hk Hkeys H. destruct (deeds_series ft l H) as (os & -> & Hp & _). apply one_case_past; auto.
  eapply Forall_impl; [|exact Hp]. intros [p o] Ho. cbn in *. split; [exact Ho|]. destruct o as [| | | |u []]; auto; intros; eapply Hkeys; eauto.
Qed.

(* ------------------------------------------------------------------ the rest *)
Lemma fresh_names m p o s : new_names uid -> by_uid uid m p o -> names_new m p s o.
Proof.
  intros Hn Hb u yo i od cs' -> Ha ->. rewrite (Hb u yo eq_refl Ha). unfold entries.
  destruct (at_path m p) as [x|] eqn:Hx; unfold at_path in *; rewrite node_app, Hx; [|reflexivity].
  cbn. destruct x as [| | |ch es]; try reflexivity. now rewrite Hn.
Qed.
Lemma clearing_writes p o : clearing o -> ~ writes cs p o.
Proof. destruct o as [| | | |u []]; cbn; try tauto. intros _ (i & keys & od & cs' & _ & []). Qed.

Section Rest.
Context {D : Type}.
Context (part : list schema -> D -> nat -> schema -> D -> Prop) (elem : schema -> D -> pyval -> D -> Prop) (whole : schema -> D -> Prop).
Context (hand : bool) (again : list pstep -> op -> list (list pstep * op) -> Prop).
Context (part_at : forall cs d n s d', part cs d n s d' -> nth_error cs n = Some s).
Context (Hu : uniform cs) (Hk : even_keys cs) (Hn : new_names uid).

(** Unchanged at [q]. *)
Definition kept_at (m : list obj) (q : list pstep) (m' : list obj) : Prop := shaped cs m' /\ Forall tidy m' /\ at_path m' q = at_path m q.
Lemma op_kept ov d there q m m1 p o : (forall p r, named part elem cs d p -> prefix r q -> ~ rival cs p r) ->
  (there = true -> at_path m q <> None) -> asks O part elem whole hand ov cs d p o -> by_uid uid m1 p o -> clear_of O there cs p o q ->
  kept_at m q m1 -> kept_at m q (fst (module_exec O cs m1 p o)).
Proof.
  intros Hr Hth Ha Hb Hcl (Hs1 & Ht1 & E).
  pose proof (asks_plain _ _ _ _ _ _ _ _ _ _ Ha) as Hp.
  split; [|split].
  - unfold module_exec. pose proof (exec_shaped O p false cs m1 o Hs1) as G. destruct (exec O false cs m1 p o) as [[k e] r]. exact G.
  - apply tidy_exec; auto.
  - rewrite <- E. eapply op_spares; eauto; [intros s _; now apply fresh_names|now rewrite E|].
    intros r Hw Hpr. destruct (asks_kind _ _ _ _ _ _ _ _ _ _ Ha) as [[_ Hnm]|(_ & Hc & _)]; [now apply Hr|].
    exfalso. exact (clearing_writes p o Hc Hw).
Qed.
Lemma kept_by ov d there q m st : (forall p o, asks O part elem whole hand ov cs d p o -> clear_of O there cs p o q) ->
  (forall p r, named part elem cs d p -> prefix r q -> ~ rival cs p r) ->
  shaped cs m -> Forall tidy m -> (there = true -> at_path m q <> None) ->
  does O cs again (fun m p o => asks O part elem whole hand ov cs d p o /\ by_uid uid m p o) m st ->
  at_path (fst st) q = at_path m q.
Proof.
  intros Hcl Hr Hs Ht Hth H.
  assert (G : kept_at m q (fst st)); [|apply G].
  eapply (does_inv O cs again _ (kept_at m q)); [|exact H|split; auto].
  clear st H. intros m1 p o [Ha Hb]. eapply op_kept; eauto.
Qed.
Lemma spared_kept d there q m st : spared part elem whole there cs d q ->
  (forall p r, named part elem cs d p -> prefix r q -> ~ rival cs p r) ->
  shaped cs m -> Forall tidy m -> (there = true -> at_path m q <> None) ->
  does O cs again (fun m p o => asks O part elem whole hand false cs d p o /\ by_uid uid m p o) m st ->
  at_path (fst st) q = at_path m q.
Proof.
  intros Hsp. apply kept_by. intros p o Ha. eapply (asks_clear O part elem whole hand part_at elem false); eauto. discriminate.
Qed.
Lemma top_kept ov d n r m st : (forall s d', ~ part cs d n s d') ->
  (forall p r0, named part elem cs d p -> prefix r0 (Kid n :: r) -> ~ rival cs p r0) ->
  shaped cs m -> Forall tidy m ->
  does O cs again (fun m p o => asks O part elem whole hand ov cs d p o /\ by_uid uid m p o) m st ->
  at_path (fst st) (Kid n :: r) = at_path m (Kid n :: r).
Proof.
  intros Hno Hr Hs Ht. apply (kept_by ov d false); auto; [|discriminate].
  intros p o Ha. left. eapply asks_top; eauto.
Qed.
End Rest.
End Series.

Lemma j_part_at cs d n s d' : j_part cs d n s d' -> nth_error cs n = Some s.
Proof. intros (ms & key & _ & _ & H & _). exact H. Qed.
Lemma i_part_at cs d n s d' : i_part cs d n s d' -> nth_error cs n = Some s.
Proof. intros (ms & key & _ & _ & _ & H & _). exact H. Qed.
Lemma x_part_at cs d n s d' : x_part cs d n s d' -> nth_error cs n = Some s.
Proof. intros (_ & H & _). exact H. Qed.

Theorem json_rest O ft uid cs l skip d there q m' r : uniform cs -> even_keys cs -> new_names uid -> plain_deeds O ft uid cs l ->
  let m := after O ft uid cs l in load_json O uid cs false skip d m = (m', r) ->
  spared j_part j_elem j_whole there cs d q -> (there = true -> at_path m q <> None) ->
  (forall p r0, named j_part j_elem cs d p -> prefix r0 q -> ~ rival cs p r0) ->
  at_path m' q = at_path m q.
Proof.
  intros Hu Hk Hn Hl m E Hsp Hth Hr. destruct (deeds_ok _ _ _ _ _ Hl) as [Hs Ht].
  pose proof (json_does O uid cs false skip d m) as H. rewrite E in H.
  exact (spared_kept O uid cs _ _ _ _ _ j_part_at Hu Hk Hn d there q m _ Hsp Hr Hs Ht Hth H).
Qed.
(** Entries made up by the document are not those that were there. *)
Lemma unlike_kid there cs p n q : unlike there cs p q -> unlike there cs (p ++ [Kid n]) q.
Proof.
  intros H Hth q0 u z i od cs' q0' k z' E. destruct (exists_last (l := Ent u :: z) ltac:(discriminate)) as (z0 & a & Ez). rewrite Ez, app_assoc in E.
  apply app_inj_tail in E as [E <-]. destruct z0 as [|b z0]; [discriminate|]. cbn in Ez. injection Ez as <- ->. eapply H; eauto.
Qed.
Lemma unlike_ent there cs uid m0 q m p i keys od cs' k : new_names uid -> (there = true -> at_path m0 q <> None) ->
  schema_at cs p = Some (SList i keys od cs') -> unlike there cs p q ->
  (keys = [] -> kept_at cs m0 q m /\ k = VStr (uid (entries m p))) -> unlike there cs (p ++ [Ent k]) q.
Proof.
  intros Hn Hq Hs H Hk Hth q0 u z i0 od0 cs0 q0' k0 z' E Eq Hse Hsc.
  destruct z as [|b z] using rev_ind.
  - apply app_inj_tail in E as [<- E]. injection E as <-. rewrite Hs in Hsc. injection Hsc as -> -> -> ->.
    destruct (Hk eq_refl) as ((_ & _ & Eat) & ->). rewrite <- Eat in Hq. specialize (Hq Hth). subst q.
    unfold entries. pose proof (at_eq m p q0' Hse) as Hpq. unfold at_path in *. rewrite node_app in Hq.
    rewrite <- Hpq in Hq. destruct (node (OCont false false m) p) as [x|] eqn:Ex; [|now contradiction Hq].
    destruct x as [| | |ch es]; cbn in Hq; try now contradiction Hq. specialize (Hn es).
    destruct (py_eq k0 (VStr (uid es))) eqn:Ee; [|reflexivity]. rewrite (mget_eq _ _ _ Ee), Hn in Hq. now contradiction Hq.
  - clear IHz. rewrite app_comm_cons, app_assoc in E. apply app_inj_tail in E as [E _]. eapply H; eauto.
Qed.
Theorem ietf_rest O ft uid cs l skip d there q m' r : uniform cs -> even_keys cs -> new_names uid -> plain_deeds O ft uid cs l ->
  let m := after O ft uid cs l in load_ietf_json O uid cs false skip d m = (m', r) ->
  spared i_part (i_old O) i_whole there cs d q -> (there = true -> at_path m q <> None) ->
  (forall p r0, named i_part (i_elem O) cs d p -> prefix r0 q -> ~ rival cs p r0) ->
  at_path m' q = at_path m q.
Proof.
  intros Hu Hk Hn Hl m E Hsp Hth Hr. destruct (deeds_ok _ _ _ _ _ Hl) as [Hs Ht].
  pose (P0 := fun m p o => asks O i_part (i_elem O) i_whole true false cs d p o /\ by_uid uid m p o /\ unlike there cs p q).
  assert (Hinv : forall m1 p o, P0 m1 p o -> kept_at cs m q m1 -> kept_at cs m q (fst (module_exec O cs m1 p o))).
  { intros m1 p o (Ha & Hb & Hg). eapply (op_kept O uid cs i_part (i_elem O) i_whole true Hu Hk Hn); eauto.
    eapply (asks_clear O i_part (i_elem O) i_whole true i_part_at (i_old O) true); eauto.
    intros s d0 k e He. destruct s as [| | |i [|k1 ks] od cs0]; [left; split; auto..|right; split; eauto|left; split; auto]. }
  assert (H : does O cs (fun _ _ _ => False) P0 m (load_ietf_json O uid cs false skip d m)).
  { apply (ietf_does_inv O uid cs P0 (kept_at cs m q) (fun p => unlike there cs p q)); auto.
    - intros p n. apply unlike_kid.
    - intros m1 p i keys od cs' k H1 H2 H3. eapply unlike_ent; eauto.
    - intros _ q0 u z i od cs' q0' k z' E0. now destruct q0.
    - intros m1 p o H1 H2 H3. split; auto.
    - split; auto. }
  rewrite E in H. exact (proj2 (proj2 (does_inv O cs _ P0 (kept_at cs m q) m _ Hinv H (conj Hs (conj Ht eq_refl))))).
Qed.
Theorem xml_rest O ft uid cs l d there q m' r : uniform cs -> even_keys cs -> new_names uid -> plain_deeds O ft uid cs l ->
  let m := after O ft uid cs l in load_doc O ft uid cs d m = (m', r) ->
  spared x_part (x_elem O ft) x_whole there cs d q -> (there = true -> at_path m q <> None) ->
  (forall p r0, named x_part (x_elem O ft) cs d p -> prefix r0 q -> ~ rival cs p r0) ->
  at_path m' q = at_path m q.
Proof.
  intros Hu Hk Hn Hl m E Hsp Hth Hr. destruct (deeds_ok _ _ _ _ _ Hl) as [Hs Ht].
  pose proof (xml_does O ft uid cs d m) as H. rewrite E in H.
  exact (spared_kept O uid cs _ _ _ _ _ x_part_at Hu Hk Hn d there q m _ Hsp Hr Hs Ht Hth H).
Qed.
Theorem json_top O ft uid cs l ov skip d n rest m' r : uniform cs -> even_keys cs -> new_names uid -> plain_deeds O ft uid cs l ->
  let m := after O ft uid cs l in load_json O uid cs ov skip d m = (m', r) ->
  (forall s d', ~ j_part cs d n s d') ->
  (forall p r0, named j_part j_elem cs d p -> prefix r0 (Kid n :: rest) -> ~ rival cs p r0) ->
  at_path m' (Kid n :: rest) = at_path m (Kid n :: rest).
Proof.
  intros Hu Hk Hn Hl m E Hno Hr. destruct (deeds_ok _ _ _ _ _ Hl) as [Hs Ht].
  pose proof (json_does O uid cs ov skip d m) as H. rewrite E in H.
  exact (top_kept O uid cs _ _ _ _ _ Hu Hk Hn ov d n rest m _ Hno Hr Hs Ht H).
Qed.
Theorem ietf_top O ft uid cs l ov skip d n rest m' r : uniform cs -> even_keys cs -> new_names uid -> plain_deeds O ft uid cs l ->
  let m := after O ft uid cs l in load_ietf_json O uid cs ov skip d m = (m', r) ->
  (forall s d', ~ i_part cs d n s d') ->
  (forall p r0, named i_part (i_elem O) cs d p -> prefix r0 (Kid n :: rest) -> ~ rival cs p r0) ->
  at_path m' (Kid n :: rest) = at_path m (Kid n :: rest).
Proof.
  intros Hu Hk Hn Hl m E Hno Hr. destruct (deeds_ok _ _ _ _ _ Hl) as [Hs Ht].
  pose proof (ietf_does O uid cs ov skip d m) as H. rewrite E in H.
  exact (top_kept O uid cs _ _ _ _ _ Hu Hk Hn ov d n rest m _ Hno Hr Hs Ht H).
Qed.
