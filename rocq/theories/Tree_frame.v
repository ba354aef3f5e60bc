(** What an operation at a path does to the rest of the tree. *)
From Verif Require Import PyStr PyStr_facts PyVal Restricted Spec_Lists TypedList TypedList_proofs YList YList_proofs
  Tree Spec_Tree Tree_proofs.
From Coq Require Import Lia.
Import ListNotations.

Section T.
Context (O : oracle).

(** [exec] on an existing target, as a relation; [s0] and [x0] are the schema and the object there. *)
Inductive run_at (o : op) (s0 : schema) (x0 : obj)
  : bool -> list schema -> list obj -> list pstep -> list obj -> list event -> res unit -> Prop :=
| RBase live cs kids n :
    nth_error cs n = Some s0 -> nth_error kids n = Some x0 ->
    run_at o s0 x0 live cs kids [Kid n] (absorb O live cs kids n (apply O s0 x0 o))
           (f_pre (apply O s0 x0 o) ++ f_post (apply O s0 x0 o)) (f_out (apply O s0 x0 o))
| RCont live cs kids n i pr cs' ch pres kids' m p kids'' evs r :
    nth_error cs n = Some (SCont i pr cs') -> nth_error kids n = Some (OCont ch pres kids') ->
    shaped cs' kids' -> run_at o s0 x0 true cs' kids' (Kid m :: p) kids'' evs r ->
    run_at o s0 x0 live cs kids (Kid n :: Kid m :: p)
      (absorb O live cs kids n {| f_pre := [];
          f_new := Some (OCont (mark evs ch) (mark_present pr evs pres) kids'');
          f_post := map (forward (e_choice i)) evs; f_out := r |})
      (map (forward (e_choice i)) evs) r
| REnt live cs kids n i keys od cs' ch es k ech epres ekids p ekids' evs r :
    nth_error cs n = Some (SList i keys od cs') -> nth_error kids n = Some (OList ch es) ->
    mget k es = Some (OCont ech epres ekids) -> shaped cs' ekids ->
    run_at o s0 x0 true cs' ekids p ekids' evs r ->
    run_at o s0 x0 live cs kids (Kid n :: Ent k :: p)
      (absorb O live cs kids n {| f_pre := [];
          f_new := Some (OList ch (mput k (OCont (mark evs ech) epres ekids') es));
          f_post := evs; f_out := r |})
      evs r.


Lemma node_flags c1 c2 d1 d2 ks p : p <> [] -> node (OCont c1 d1 ks) p = node (OCont c2 d2 ks) p.
Proof. destruct p as [|[]]; cbn; congruence. Qed.
Lemma at_node ch ps ks p : p <> [] -> node (OCont ch ps ks) p = at_path ks p.
Proof. apply node_flags. Qed.
Lemma sub_flags i1 i2 d1 d2 cs p : p <> [] -> sub (SCont i1 d1 cs) p = sub (SCont i2 d2 cs) p.
Proof. destruct p as [|[]]; cbn; congruence. Qed.
Lemma sub_schema i pr cs p : p <> [] -> sub (SCont i pr cs) p = schema_at cs p.
Proof. apply sub_flags. Qed.

Lemma schema_cont cs n i pr cs' p : nth_error cs n = Some (SCont i pr cs') -> p <> [] ->
  schema_at cs (Kid n :: p) = schema_at cs' p.
Proof. intros H Hp. unfold schema_at at 1. cbn. rewrite H. apply sub_schema; auto. Qed.
Lemma schema_ent cs n i keys od cs' k p : nth_error cs n = Some (SList i keys od cs') ->
  schema_at cs (Kid n :: Ent k :: p) = schema_at cs' p.
Proof. intros H. unfold schema_at at 1. cbn. rewrite H. reflexivity. Qed.
Lemma path_cont kids n ch pres kids' p : nth_error kids n = Some (OCont ch pres kids') -> p <> [] ->
  at_path kids (Kid n :: p) = at_path kids' p.
Proof. intros H Hp. unfold at_path at 1. cbn. rewrite H. apply at_node; auto. Qed.
Lemma path_ent kids n ch es k ech epres ekids p : nth_error kids n = Some (OList ch es) ->
  mget k es = Some (OCont ech epres ekids) -> p <> [] ->
  at_path kids (Kid n :: Ent k :: p) = at_path ekids p.
Proof. intros H H1 Hp. unfold at_path at 1. cbn. rewrite H, H1. apply at_node; auto. Qed.

Lemma absorb_put live cs kids n pre y post r s x :
  nth_error cs n = Some s -> nth_error kids n = Some x ->
  nth_error (absorb O live cs kids n {| f_pre := pre; f_new := Some y; f_post := post; f_out := r |}) n
  = Some (if live && hit post s then fresh O s else y).
Proof. intros H1 H2. 
  exact (absorb_same O live cs kids n {| f_pre := pre; f_new := Some y; f_post := post; f_out := r |} s x y H1 H2 eq_refl). Qed.

Lemma exec_run_len N : forall p live cs kids o s0 x0, (length p <= N)%nat ->
  shaped cs kids -> ends_kid p -> schema_at cs p = Some s0 -> at_path kids p = Some x0 ->
  let '(kids', evs, r) := exec O live cs kids p o in run_at o s0 x0 live cs kids p kids' evs r.
Proof.
  induction N as [|N IH]; intros p live cs kids o s0 x0 HN Hk He Hs Hx.
  { destruct p; [|cbn in HN; lia]. destruct He as (p0 & n & E). destruct p0; discriminate. }
  destruct p as [|[n|k] p']; [destruct He as (p0 & n & E); destruct p0; discriminate| |discriminate Hs].
  cbn in HN. cbn in Hs, Hx.
  destruct (nth_error cs n) as [s|] eqn:Es; [|discriminate].
  destruct (nth_error kids n) as [x|] eqn:Ex; [|discriminate].
  destruct (Forall2_nth _ _ _ _ _ Hk Es) as (x' & Ex' & Hc). rewrite Ex in Ex'. injection Ex' as <-.
  rewrite (exec_kid O live cs kids n p' o s x Es Ex). cbv zeta.
  destruct p' as [|[m|k] p''].
  - cbn in Hs, Hx. injection Hs as <-. injection Hx as <-. cbn [down]. constructor; auto.
  - destruct Hc as [| |i pr cs' ch pres kids' Hks|]; try discriminate.
    rewrite sub_schema in Hs by discriminate. rewrite at_node in Hx by discriminate.
    assert (He' : ends_kid (Kid m :: p'')).
    { destruct He as (p0 & j & E). destruct p0 as [|a p0]; [discriminate|]. injection E as _ E. exists p0, j. auto. }
    specialize (IH (Kid m :: p'') true cs' kids' o s0 x0 ltac:(cbn in *; lia) Hks He' Hs Hx).
    cbn [down]. destruct (exec O true cs' kids' (Kid m :: p'') o) as [[k' e] r]. cbn [f_pre f_post f_out app].
    econstructor; eauto.
  - destruct Hc as [| | |i keys od cs' ch es Hes]; try discriminate.
    cbn [sub] in Hs. cbn [node] in Hx. destruct (mget k es) as [ent|] eqn:Em; [|discriminate].
    assert (Hent := mget_conf _ _ _ _ Hes Em). cbn in Hent.
    inversion Hent as [| |? ? ? ech epres ekids Hks E1 E2|]; subst.
    assert (He' : ends_kid p'').
    { destruct He as (p0 & j & E). destruct p0 as [|a [|b p0]]; try discriminate. injection E as _ _ E. exists p0, j. auto. }
    assert (Hp : p'' <> []) by (intros ->; destruct He' as (p0 & j & E); destruct p0; discriminate).
    rewrite at_node in Hx by auto.
    specialize (IH p'' true cs' ekids o s0 x0 ltac:(cbn in *; lia) Hks He' Hs Hx).
    cbn [down]. rewrite Em. destruct (exec O true cs' ekids p'' o) as [[k' e] r]. cbn [f_pre f_post f_out app].
    econstructor; eauto.
Qed.
Lemma exec_run p live cs kids o s0 x0 :
  shaped cs kids -> ends_kid p -> schema_at cs p = Some s0 -> at_path kids p = Some x0 ->
  let '(kids', evs, r) := exec O live cs kids p o in run_at o s0 x0 live cs kids p kids' evs r.
Proof. eapply exec_run_len; eauto. Qed.

(** A target that does not exist: nothing happens. *)
Lemma exec_missing_len N : forall p live cs kids o, (length p <= N)%nat ->
  shaped cs kids -> (~ ends_kid p \/ at_path kids p = None) ->
  exists e, exec O live cs kids p o = (kids, [], Raise e).
Proof.
  induction N as [|N IH]; intros p live cs kids o HN Hk He.
  { destruct p; [|cbn in HN; lia]. eexists; reflexivity. }
  destruct p as [|[n|k] p']; try (eexists; reflexivity).
  cbn in HN.
  destruct (nth_error cs n) as [s|] eqn:Es; [|cbn; rewrite Es; eexists; reflexivity].
  destruct (Forall2_nth _ _ _ _ _ Hk Es) as (x & Ex & Hc).
  rewrite (exec_kid O live cs kids n p' o s x Es Ex). cbv zeta.
  assert (Q : forall f e, f = no_effect (Raise e) -> exists e, (absorb O live cs kids n f, f_pre f ++ f_post f, f_out f) = (kids, [], Raise e)).
  { intros f e ->. exists e. cbn. rewrite absorb_nothing; auto. cbn. discriminate. }
  destruct p' as [|[m|k] p''].
  - exfalso. destruct He as [He|He]. { apply He. exists [], n. reflexivity. }
    unfold at_path in He. cbn in He. rewrite Ex in He. discriminate.
  - destruct Hc as [| |i pr cs' ch pres kids' Hks|]; try (eapply Q; reflexivity).
    assert (He' : ~ ends_kid (Kid m :: p'') \/ at_path kids' (Kid m :: p'') = None).
    { destruct He as [He|He].
      - left. intros (p0 & j & E). apply He. exists (Kid n :: p0), j. cbn. congruence.
      - right. unfold at_path in He. cbn [node] in He. rewrite Ex in He. exact He. }
    destruct (IH (Kid m :: p'') true cs' kids' o ltac:(cbn in *; lia) Hks He') as (e & E).
    cbn [down]. rewrite E. cbn. exists e. rewrite absorb_nothing; auto.
    cbn. intros y Hy. injection Hy as <-. auto.
  - destruct Hc as [| | |i keys od cs' ch es Hes]; try (eapply Q; reflexivity).
    destruct (mget k es) as [ent|] eqn:Em; [|cbn [down]; rewrite Em; eapply Q; reflexivity].
    assert (Hent := mget_conf _ _ _ _ Hes Em). cbn in Hent.
    inversion Hent as [| |? ? ? ech epres ekids Hks E1 E2|]; subst.
    assert (He' : ~ ends_kid p'' \/ at_path ekids p'' = None).
    { destruct p'' as [|b p''].
      { left. intros (p0 & j & E). destruct p0; discriminate. }
      destruct He as [He|He].
      - left. intros (p0 & j & E). apply He. exists (Kid n :: Ent k :: p0), j. cbn. congruence.
      - right. unfold at_path in He. cbn [node] in He. rewrite Ex, Em in He.
        rewrite <- (at_node ech epres) by discriminate. exact He. }
    destruct (IH p'' true cs' ekids o ltac:(cbn in *; lia) Hks He') as (e & E).
    cbn [down]. rewrite Em, E. cbn. exists e. rewrite absorb_nothing; auto.
    cbn. intros y Hy. injection Hy as <-. rewrite mput_id; auto.
Qed.
Lemma exec_missing p live cs kids o : shaped cs kids -> (~ ends_kid p \/ at_path kids p = None) ->
  exists e, exec O live cs kids p o = (kids, [], Raise e).
Proof. eapply exec_missing_len; eauto. Qed.

(* ------------------------------------------------------------------ outcomes and notifications *)
Lemma run_out o s0 x0 live cs kids p kids' evs r :
  run_at o s0 x0 live cs kids p kids' evs r -> r = f_out (apply O s0 x0 o).
Proof. induction 1; auto. Qed.

Definition base_events (s0 : schema) (x0 : obj) (o : op) : list event :=
  f_pre (apply O s0 x0 o) ++ f_post (apply O s0 x0 o).

Lemma run_evs_nil o s0 x0 live cs kids p kids' evs r :
  run_at o s0 x0 live cs kids p kids' evs r -> (evs = [] <-> base_events s0 x0 o = []).
Proof. induction 1; try tauto. rewrite <- IHrun_at. destruct evs; cbn; split; congruence. Qed.

(** Where a notification that reaches the owner of a node at depth [len] comes from. *)
Definition src (cs : list schema) (p : list pstep) (base : list event) (len : nat) (c k : str) : Prop :=
  In (Some (c, k)) base \/
  exists t st, prefix t p /\ (len <= length t)%nat /\ schema_at cs t = Some st /\ s_tag st = Some (c, k) /\
    base <> [] /\ exists i pr cs', st = SCont i pr cs'.

Lemma prefix_cons a q p : prefix q p -> prefix (a :: q) (a :: p).
Proof. intros [r ->]. exists r. reflexivity. Qed.
Lemma prefix_nil p : prefix [] p.
Proof. exists p. reflexivity. Qed.

Lemma src_cont cs n i pr cs' p base len c k :
  nth_error cs n = Some (SCont i pr cs') -> p <> [] -> (1 <= len)%nat ->
  src cs' p base len c k -> src cs (Kid n :: p) base (S len) c k.
Proof.
  intros E Hp Hl [H|(t & st & Ht & Hlen & Hs & Htag)]; [left; auto|right].
  exists (Kid n :: t), st. split; [now apply prefix_cons|]. split; [cbn; lia|]. split; [|exact Htag].
  unfold schema_at. cbn. rewrite E. rewrite sub_schema; auto. destruct t; [cbn in Hlen; lia|discriminate].
Qed.
Lemma src_ent cs n i keys od cs' k0 p base len c k :
  nth_error cs n = Some (SList i keys od cs') ->
  src cs' p base len c k -> src cs (Kid n :: Ent k0 :: p) base (S (S len)) c k.
Proof.
  intros E [H|(t & st & Ht & Hlen & Hs & Htag)]; [left; auto|right].
  exists (Kid n :: Ent k0 :: t), st. split; [now apply prefix_cons, prefix_cons|]. split; [cbn; lia|]. split; [|exact Htag].
  unfold schema_at. cbn. rewrite E. exact Hs.
Qed.
Lemma src_le cs p base l1 l2 c k : (l1 <= l2)%nat -> src cs p base l2 c k -> src cs p base l1 c k.
Proof. intros H [?|(t & st & ? & ? & ?)]; [left; auto|right]. exists t, st. intuition lia. Qed.

Lemma run_src o s0 x0 live cs kids p kids' evs r :
  run_at o s0 x0 live cs kids p kids' evs r ->
  forall c k, In (Some (c, k)) evs -> src cs p (base_events s0 x0 o) 1 c k.
Proof.
  induction 1; intros c0 k0 Hin.
  - left. auto.
  - apply in_map_iff in Hin as (ev & E & Hin). unfold forward in E. destruct ev as [[c1 k1]|].
    + injection E as -> ->. eapply src_le; [|eapply src_cont; eauto; try discriminate]; auto.
    + right. exists [Kid n], (SCont i pr cs'). split; [apply prefix_cons, prefix_nil|]. split; [cbn; lia|].
      split; [unfold schema_at; cbn; rewrite H; reflexivity|]. split; [exact E|]. split; [|now exists i, pr, cs'].
      intros Hb. apply (run_evs_nil _ _ _ _ _ _ _ _ _ _ H2) in Hb. now rewrite Hb in Hin.
  - eapply src_le; [|eapply src_ent; eauto]. lia.
Qed.

(* ------------------------------------------------------------------ the rest of the tree *)
Lemma mget_eq {A} k k1 (es : list (pyval * A)) : py_eq k1 k = true -> mget k1 es = mget k es.
Proof.
  intros H. induction es as [|[k' a'] es IH]; cbn; auto. rewrite IH.
  destruct (py_eq k k') eqn:E.
  - rewrite (py_eq_trans _ _ _ H E). auto.
  - destruct (py_eq k1 k') eqn:E1; auto. rewrite py_eq_sym in H. rewrite (py_eq_trans _ _ _ H E1) in E. discriminate.
Qed.

(** [r] is a freshly made node, made so by a notification. *)
Definition reset (live : bool) cs (kids' : list obj) p base (r : list pstep) : Prop :=
  exists s c k k',
    ((live = false -> (2 <= length r)%nat) /\ (length r <= length p)%nat) /\
    Forall2 step_eq (removelast r) (firstn (length r - 1) p) /\
    schema_at cs r = Some s /\ s_tag s = Some (c, k') /\ k <> k' /\
    at_path kids' r = Some (fresh O s) /\ src cs p base (length r) c k.

Lemma reset_here live cs kids kids' p base n s :
  nth_error cs n = Some s -> nth_error kids' n = Some (fresh O s) -> live = true ->
  (exists evs, hit evs s = true /\ forall c k, In (Some (c, k)) evs -> src cs p base 1 c k) ->
  (kids : list obj) = kids -> p <> [] ->
  reset live cs kids' p base [Kid n].
Proof.
  intros H1 H2 H3 (evs & Hh & Hs) _ Hp. apply hit_ex in Hh as (c & k & k' & Hin & Ht & Hne).
  exists s, c, k, k'. split; [split; [intros; congruence|destruct p; [congruence|cbn; lia]]|]. split; [constructor|].
  split; [unfold schema_at; cbn; rewrite H1; reflexivity|]. split; [auto|]. split; [auto|].
  split; [unfold at_path; cbn; rewrite H2; reflexivity|]. apply Hs. auto.
Qed.

Lemma removelast_cons {A} (a : A) l : l <> [] -> removelast (a :: l) = a :: removelast l.
Proof. destruct l; cbn; congruence. Qed.

Lemma reset_nonempty live cs kids' p base r : reset live cs kids' p base r -> r <> [].
Proof. intros (s & c & k & k' & _ & _ & Hs & Ht & _) ->. unfold schema_at in Hs. cbn in Hs.
  injection Hs as <-. discriminate Ht. Qed.

Lemma reset_cont live cs kids' n i pr cs' ch pres kk p base r :
  nth_error cs n = Some (SCont i pr cs') -> nth_error kids' n = Some (OCont ch pres kk) -> p <> [] ->
  reset true cs' kk p base r -> reset live cs kids' (Kid n :: p) base (Kid n :: r).
Proof.
  intros H1 H2 Hp Hr. assert (Hne := reset_nonempty _ _ _ _ _ _ Hr).
  destruct Hr as (s & c & k & k' & [_ Hl] & Hf & Hs & Ht & Hk & Ha & Hsrc).
  assert (Hlen : (1 <= length r)%nat) by (destruct r; cbn; [congruence|lia]).
  exists s, c, k, k'. split; [|split; [|split; [|split; [|split; [|split]]]]]; auto.
  - cbn. lia.
  - rewrite removelast_cons by auto. cbn [length].
    replace (S (length r) - 1) with (S (length r - 1)) by lia. cbn. constructor; auto. constructor.
  - unfold schema_at. cbn. rewrite H1, sub_schema; auto.
  - unfold at_path. cbn. rewrite H2, at_node; auto.
  - cbn [length]. eapply src_cont; eauto.
Qed.
Lemma reset_ent live cs kids' n i keys od cs' ch es k1 k0 ech epres kk p base r :
  nth_error cs n = Some (SList i keys od cs') -> nth_error kids' n = Some (OList ch es) ->
  mget k1 es = Some (OCont ech epres kk) -> py_eq k1 k0 = true ->
  reset true cs' kk p base r -> reset live cs kids' (Kid n :: Ent k0 :: p) base (Kid n :: Ent k1 :: r).
Proof.
  intros H1 H2 H3 Hq Hr. assert (Hne := reset_nonempty _ _ _ _ _ _ Hr).
  destruct Hr as (s & c & k & k' & [_ Hl] & Hf & Hs & Ht & Hk & Ha & Hsrc).
  assert (Hlen : (1 <= length r)%nat) by (destruct r; cbn; [congruence|lia]).
  exists s, c, k, k'. split; [|split; [|split; [|split; [|split; [|split]]]]]; auto.
  - cbn. lia.
  - rewrite !removelast_cons by (auto; discriminate). cbn [length].
    replace (S (S (length r)) - 1) with (S (S (length r - 1))) by lia. cbn. constructor; constructor; auto. constructor. auto.
  - unfold schema_at. cbn. rewrite H1. exact Hs.
  - unfold at_path. cbn. rewrite H2, H3, at_node; auto.
  - cbn [length]. eapply src_ent; eauto.
Qed.

Lemma run_frame o s0 x0 live cs kids p kids' evs r :
  run_at o s0 x0 live cs kids p kids' evs r -> shaped cs kids ->
  forall q, apart p q ->
  at_path kids' q = at_path kids q \/
  exists r, prefix r q /\ reset live cs kids' p (base_events s0 x0 o) r.
Proof.
  intros Hrun. assert (Hrun0 := Hrun).
  assert (Sib : forall live cs kids n f p base m q', shaped cs kids -> n <> m -> p <> [] ->
     (forall c k, In (Some (c, k)) (f_pre f ++ f_post f) -> src cs p base 1 c k) ->
     at_path (absorb O live cs kids n f) (Kid m :: q') = at_path kids (Kid m :: q') \/
     exists r, prefix r (Kid m :: q') /\ reset live cs (absorb O live cs kids n f) p base r).
  { clear. intros live cs kids n f p base m q' Hk Hn Hp Hs.
    destruct (nth_error kids m) as [x|] eqn:Ex.
    - destruct (Forall2_nth' _ _ _ _ _ Hk Ex) as (s & Es & _).
      assert (A := absorb_other O live cs kids n m f s x Hn Es Ex).
      destruct (live && hit (f_pre f ++ f_post f) s) eqn:Eh.
      + right. exists [Kid m]. split; [apply prefix_cons, prefix_nil|].
        apply andb_true_iff in Eh as [El Eh].
        eapply reset_here with (kids := kids); eauto; try discriminate.
      + left. unfold at_path. cbn. rewrite A, Ex. reflexivity.
    - left. unfold at_path. cbn. rewrite Ex.
      assert (E : nth_error (absorb O live cs kids n f) m = None).
      { apply nth_error_None. rewrite absorb_length. apply nth_error_None. auto. }
      rewrite E. reflexivity. }
  induction Hrun; intros Hk q Hap.
  - destruct q as [|[m|k] q']; [destruct Hap| |left; reflexivity].
    destruct Hap as [Hap|[]]. eapply Sib; auto; try discriminate.
    + intros ->. apply Hap. constructor.
    + intros. left. auto.
  - destruct q as [|[j|k] q']; [destruct Hap| |left; reflexivity].
    destruct (Nat.eq_dec n j) as [<-|Hn].
    + destruct Hap as [Hap|Hap]; [exfalso; apply Hap; constructor|].
      match goal with |- context [absorb O live cs kids n ?F] => set (f := F) end.
      assert (A : nth_error (absorb O live cs kids n f) n = Some (if live && hit (f_post f) (SCont i pr cs') then fresh O (SCont i pr cs') else OCont (mark evs ch) (mark_present pr evs pres) kids'')).
      { eapply absorb_same; eauto; reflexivity. }
      destruct (live && hit (f_post f) (SCont i pr cs')) eqn:Eh.
      * right. exists [Kid n]. split; [apply prefix_cons, prefix_nil|].
        apply andb_true_iff in Eh as [El Eh].
        eapply reset_here with (kids := kids); eauto; try discriminate. exists (f_post f). split; auto.
        intros c k Hin. eapply run_src; eauto.
      * assert (Hq : q' <> []) by (intros ->; destruct Hap).
        destruct (IHHrun Hrun H1 q' Hap) as [E|(r0 & Hp & Hr)].
        -- left. unfold at_path at 1 2. cbn. rewrite A, H0, !at_node; auto.
        -- right. exists (Kid n :: r0). split; [apply prefix_cons; auto|]. eapply reset_cont; eauto. discriminate.
    + eapply Sib; auto; try discriminate. intros. eapply run_src; eauto.
  - destruct q as [|[j|k1] q']; [destruct Hap| |left; reflexivity].
    destruct (Nat.eq_dec n j) as [<-|Hn].
    + destruct Hap as [Hap|Hap]; [exfalso; apply Hap; constructor|].
      match goal with |- context [absorb O live cs kids n ?F] => set (f := F) end.
      assert (A : nth_error (absorb O live cs kids n f) n = Some (if live && hit (f_post f) (SList i keys od cs') then fresh O (SList i keys od cs') else OList ch (mput k (OCont (mark evs ech) epres ekids') es))).
      { eapply absorb_same; eauto; reflexivity. }
      destruct (live && hit (f_post f) (SList i keys od cs')) eqn:Eh.
      * right. exists [Kid n]. split; [apply prefix_cons, prefix_nil|].
        apply andb_true_iff in Eh as [El Eh].
        eapply reset_here with (kids := kids); eauto; try discriminate. exists (f_post f). split; auto.
        intros c0 k0 Hin. eapply run_src; eauto.
      * destruct q' as [|[j|k1] q']; [destruct Hap| |].
        { left. unfold at_path. cbn. rewrite A, H0. reflexivity. }
        destruct (py_eq k1 k) eqn:Ek.
        -- destruct Hap as [Hap|Hap]. { exfalso. apply Hap. constructor. rewrite py_eq_sym. auto. }
           assert (Hq : q' <> []) by (intros ->; destruct p; destruct Hap).
           destruct (IHHrun Hrun H2 q' Hap) as [E|(r0 & Hp & Hr)].
           ++ left. unfold at_path at 1 2. cbn. rewrite A, H0. rewrite mget_mput_eq by auto.
              rewrite (mget_eq k k1) by auto. rewrite H1, !at_node; auto.
           ++ right. exists (Kid n :: Ent k1 :: r0). split; [apply prefix_cons, prefix_cons; auto|].
              eapply reset_ent; eauto. rewrite mget_mput_eq; auto.
        -- left. unfold at_path. cbn. rewrite A, H0. rewrite mget_mput_other by auto. reflexivity.
    + eapply Sib; auto; try discriminate. intros. eapply run_src; eauto.
Qed.

(** No node on the way is reset. *)
Definition clash_free (live : bool) cs p base : Prop :=
  forall r s c k k', prefix r p -> (live = false -> (2 <= length r)%nat) -> schema_at cs r = Some s ->
    s_tag s = Some (c, k') -> src cs p base (length r) c k -> k = k'.

Lemma clash_cont live cs n i pr cs' p base :
  nth_error cs n = Some (SCont i pr cs') -> p <> [] -> clash_free live cs (Kid n :: p) base -> clash_free true cs' p base.
Proof.
  intros H Hp Hc r s c k k' Hr _ Hs Ht Hsrc.
  destruct r as [|a r]. { unfold schema_at in Hs. cbn in Hs. injection Hs as <-. discriminate Ht. }
  apply (Hc (Kid n :: a :: r) s c k k'); auto using prefix_cons.
  - intros. cbn. lia.
  - erewrite schema_cont; eauto. discriminate.
  - cbn [length]. eapply src_cont; eauto. cbn; lia.
Qed.
Lemma clash_ent live cs n i keys od cs' k0 p base :
  nth_error cs n = Some (SList i keys od cs') -> clash_free live cs (Kid n :: Ent k0 :: p) base -> clash_free true cs' p base.
Proof.
  intros H Hc r s c k k' Hr _ Hs Ht Hsrc.
  destruct r as [|a r]. { unfold schema_at in Hs. cbn in Hs. injection Hs as <-. discriminate Ht. }
  apply (Hc (Kid n :: Ent k0 :: a :: r) s c k k'); auto using prefix_cons.
  - intros. cbn. lia.
  - erewrite schema_ent; eauto.
  - cbn [length]. eapply src_ent; eauto.
Qed.
Lemma clash_here live cs n s p base evs :
  nth_error cs n = Some s -> clash_free live cs (Kid n :: p) base ->
  (forall c k, In (Some (c, k)) evs -> src cs (Kid n :: p) base 1 c k) -> live && hit evs s = false.
Proof.
  intros H Hc Hs. destruct live; auto. cbn. destruct (hit evs s) eqn:E; auto.
  apply hit_ex in E as (c & k & k' & Hin & Ht & Hne). exfalso. apply Hne.
  apply (Hc [Kid n] s c k k'); auto using prefix_cons, prefix_nil.
  - discriminate.
  - unfold schema_at. cbn. rewrite H. reflexivity.
Qed.

(** The target itself. *)
Definition put (s0 : schema) (x0 : obj) (o : op) : obj :=
  match f_new (apply O s0 x0 o) with Some y => y | None => x0 end.
Lemma run_put o s0 x0 live cs kids p kids' evs r :
  run_at o s0 x0 live cs kids p kids' evs r -> shaped cs kids ->
  clash_free live cs p (base_events s0 x0 o) -> at_path kids' p = Some (put s0 x0 o).
Proof.
  induction 1; intros Hk Hc.
  - unfold at_path; cbn [node]. unfold put. destruct (f_new (apply O s0 x0 o)) as [y|] eqn:Hy.
    + rewrite (absorb_same _ _ _ _ _ _ _ _ _ H H0 Hy).
      rewrite (clash_here live cs n s0 [] (base_events s0 x0 o)); auto. 
      intros. left. apply in_or_app. auto.
    + rewrite (absorb_same_none _ _ _ _ _ _ _ _ H H0 Hy).
      rewrite (clash_here live cs n s0 [] (base_events s0 x0 o)); auto. 
      intros. left. assumption.
  - assert (E : nth_error (absorb O live cs kids n {| f_pre := [];
          f_new := Some (OCont (mark evs ch) (mark_present pr evs pres) kids'');
          f_post := map (forward (e_choice i)) evs; f_out := r |}) n = Some (OCont (mark evs ch) (mark_present pr evs pres) kids'')).
    { rewrite (absorb_put _ _ _ _ _ _ _ _ _ _ H H0).
      rewrite (clash_here live cs n (SCont i pr cs') (Kid m :: p) (base_events s0 x0 o)); auto.
      intros. eapply (run_src _ _ _ live); [|eauto]. econstructor; eauto. }
    rewrite (path_cont _ _ _ _ _ _ E) by discriminate. apply IHrun_at; auto. eapply clash_cont; eauto. discriminate.
  - assert (E : nth_error (absorb O live cs kids n {| f_pre := [];
          f_new := Some (OList ch (mput k (OCont (mark evs ech) epres ekids') es));
          f_post := evs; f_out := r |}) n = Some (OList ch (mput k (OCont (mark evs ech) epres ekids') es))).
    { rewrite (absorb_put _ _ _ _ _ _ _ _ _ _ H H0).
      rewrite (clash_here live cs n (SList i keys od cs') (Ent k :: p) (base_events s0 x0 o)); auto.
      intros. eapply (run_src _ _ _ live); [|eauto]. econstructor; eauto. }
    destruct p as [|a p]; [inversion H3|].
    rewrite (path_ent _ _ _ _ _ _ _ _ _ E (mget_mput_same _ _ _)) by discriminate.
    apply IHrun_at; auto. eapply clash_ent; eauto.
Qed.

Lemma run_target o s0 x0 live cs kids p kids' evs r y :
  run_at o s0 x0 live cs kids p kids' evs r -> shaped cs kids ->
  clash_free live cs p (base_events s0 x0 o) -> f_new (apply O s0 x0 o) = Some y ->
  at_path kids' p = Some y.
Proof. intros R Hk Hc Hy. rewrite (run_put _ _ _ _ _ _ _ _ _ _ R Hk Hc). unfold put. now rewrite Hy. Qed.

(** The objects on the way. *)
Definition marked (base : list event) (old new : option obj) (so : option schema) : Prop :=
  match old, new, so with
  | Some (OCont ch pres _), Some (OCont ch' pres' _), Some (SCont _ pr _) =>
      ch' = mark base ch /\ pres' = mark_present pr base pres
  | Some (OList ch es), Some (OList ch' es'), Some (SList _ _ _ _) => ch' = ch /\ map fst es' = map fst es
  | _, _, _ => False
  end.
Lemma mark_nil_iff evs base b : (evs = [] <-> base = []) -> mark evs b = mark base b.
Proof. destruct evs, base; intros [A B]; cbn; auto; [specialize (A eq_refl)|specialize (B eq_refl)]; discriminate. Qed.
Lemma mark_present_nil_iff pr evs base b : (evs = [] <-> base = []) -> mark_present pr evs b = mark_present pr base b.
Proof. destruct evs, base; intros [A B]; cbn; auto; [specialize (A eq_refl)|specialize (B eq_refl)]; discriminate. Qed.

Lemma run_above o s0 x0 live cs kids p kids' evs r :
  run_at o s0 x0 live cs kids p kids' evs r -> shaped cs kids ->
  clash_free live cs p (base_events s0 x0 o) ->
  forall q, prefix q p -> q <> [] -> q <> p ->
  marked (base_events s0 x0 o) (at_path kids q) (at_path kids' q) (schema_at cs q).
Proof.
  induction 1; intros Hk Hc q [t Ht] Hq Hne.
  - destruct q as [|a [|b q]]; try congruence; injection Ht; intros; subst; congruence.
  - destruct q as [|a q]; [congruence|]. injection Ht as <- Ht.
    assert (E : nth_error (absorb O live cs kids n {| f_pre := [];
          f_new := Some (OCont (mark evs ch) (mark_present pr evs pres) kids'');
          f_post := map (forward (e_choice i)) evs; f_out := r |}) n = Some (OCont (mark evs ch) (mark_present pr evs pres) kids'')).
    { rewrite (absorb_put _ _ _ _ _ _ _ _ _ _ H H0).
      rewrite (clash_here live cs n (SCont i pr cs') (Kid m :: p) (base_events s0 x0 o)); auto.
      intros. eapply (run_src _ _ _ live); [|eauto]. econstructor; eauto. }
    assert (Hn := run_evs_nil _ _ _ _ _ _ _ _ _ _ H2).
    destruct q as [|b q].
    + unfold at_path, schema_at. cbn. rewrite H, H0, E. cbn. split; [apply mark_nil_iff; auto|apply mark_present_nil_iff; auto].
    + rewrite (schema_cont _ _ _ _ _ _ H), (path_cont _ _ _ _ _ _ E), (path_cont _ _ _ _ _ _ H0) by discriminate. apply IHrun_at; auto.
      * eapply clash_cont; eauto. discriminate.
      * exists t. auto.
      * discriminate.
      * congruence.
  - destruct q as [|a q]; [congruence|]. injection Ht as <- Ht.
    assert (E : nth_error (absorb O live cs kids n {| f_pre := [];
          f_new := Some (OList ch (mput k (OCont (mark evs ech) epres ekids') es));
          f_post := evs; f_out := r |}) n = Some (OList ch (mput k (OCont (mark evs ech) epres ekids') es))).
    { rewrite (absorb_put _ _ _ _ _ _ _ _ _ _ H H0).
      rewrite (clash_here live cs n (SList i keys od cs') (Ent k :: p) (base_events s0 x0 o)); auto.
      intros. eapply (run_src _ _ _ live); [|eauto]. econstructor; eauto. }
    assert (Hn := run_evs_nil _ _ _ _ _ _ _ _ _ _ H3).
    destruct q as [|b q]; [unfold at_path, schema_at; cbn; rewrite H, H0, E; cbn; split; [reflexivity|exact (mput_keys k _ _ es H1)]|]. injection Ht as <- Ht.
    destruct q as [|b q].
    + unfold at_path, schema_at. cbn. rewrite H, H0, E, mget_mput_same, H1. cbn. split; [apply mark_nil_iff; auto|]. unfold mark_present. destruct (base_events s0 x0 o); auto. rewrite orb_false_r; auto.
    + erewrite schema_ent by eauto. rewrite (path_ent _ _ _ _ _ _ _ _ _ H0 H1) by discriminate.
      rewrite (path_ent _ _ _ _ _ _ _ _ _ E (mget_mput_same _ _ _)) by discriminate. apply IHrun_at; auto.
      * eapply clash_ent; eauto.
      * exists t. auto.
      * discriminate.
      * congruence.
Qed.

(** An operation whose target notifies nobody only replaces the target. *)
Lemma set_nth_absorb live cs kids n y r x : nth_error kids n = Some x ->
  absorb O live cs kids n {| f_pre := []; f_new := Some y; f_post := []; f_out := r |} = set_nth n y kids.
Proof. intros _. unfold absorb. cbn. destruct live; rewrite ?clears_nil; reflexivity. Qed.
Lemma graft_cont n ch pres ks p y : graft (OCont ch pres ks) (Kid n :: p) y =
  OCont ch pres (match nth_error ks n with Some x => set_nth n (graft x p y) ks | None => ks end).
Proof. cbn [graft]. f_equal. revert n. induction ks; destruct n; cbn [nth_error set_nth]; auto.
  rewrite IHks. destruct (nth_error ks n); reflexivity. Qed.
Lemma run_silent o s0 x0 live cs kids p kids' evs r y :
  run_at o s0 x0 live cs kids p kids' evs r -> base_events s0 x0 o = [] ->
  f_new (apply O s0 x0 o) = Some y ->
  forall ch pres, OCont ch pres kids' = graft (OCont ch pres kids) p y.
Proof.
  induction 1; intros Hb Hy ch0 pres0.
  - unfold base_events in Hb. apply app_eq_nil in Hb as [E1 E2]. rewrite graft_cont, H0. cbn [graft].
    f_equal. unfold absorb. rewrite E1, E2, Hy. cbn. destruct live; rewrite ?clears_nil; reflexivity.
  - assert (E : evs = []) by (apply (run_evs_nil _ _ _ _ _ _ _ _ _ _ H2); auto). subst evs.
    rewrite graft_cont, H0. cbn [map mark mark_present].
    rewrite (set_nth_absorb _ _ _ _ _ _ _ H0). rewrite (IHrun_at Hb Hy). reflexivity.
  - assert (E : evs = []) by (apply (run_evs_nil _ _ _ _ _ _ _ _ _ _ H3); auto). subst evs.
    rewrite graft_cont, H0. cbn [map mark]. rewrite (set_nth_absorb _ _ _ _ _ _ _ H0).
    rewrite (IHrun_at Hb Hy). f_equal. f_equal. cbn [graft].
    f_equal. clear -H1. induction es as [|[k' a'] es IH]; cbn in *; [discriminate|].
    destruct (py_eq k k'); [injection H1 as ->; reflexivity|f_equal; auto].
Qed.

(** An operation whose target notifies nobody. *)
Lemma run_quiet o s0 x0 live cs kids p kids' evs r :
  run_at o s0 x0 live cs kids p kids' evs r -> base_events s0 x0 o = [] ->
  (forall y, f_new (apply O s0 x0 o) = Some y -> y = x0) -> kids' = kids.
Proof.
  induction 1; intros Hb Hy.
  - unfold base_events in Hb. apply app_eq_nil in Hb as [E1 E2].
    apply absorb_nothing; auto. intros y E. rewrite (Hy y E). auto.
  - assert (E : evs = []) by (apply (run_evs_nil _ _ _ _ _ _ _ _ _ _ H2); auto). subst evs.
    rewrite IHrun_at by auto. apply absorb_nothing; auto. cbn. intros y E. injection E as <-. auto.
  - assert (E : evs = []) by (apply (run_evs_nil _ _ _ _ _ _ _ _ _ _ H3); auto). subst evs.
    rewrite IHrun_at by auto. apply absorb_nothing; auto. cbn. intros y E. injection E as <-.
    rewrite mput_id; auto.
Qed.
End T.
