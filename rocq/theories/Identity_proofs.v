(** Lemmas about the identity store. *)
From Coq Require Import Lia.
From Verif Require Import PyStr PyStr_facts PyVal PathHelper Identity Spec_Identity.
From Verif Require PathSim_proofs.
Import ListNotations.

Section Proofs.
Context (c : modules) (defs : list idef).
Local Notation names := (names c).

(* ------------------------------------------------------------------ names *)
Lemma base_of_iff d b n : base_of c d b = Ok n <-> names d b n.
Proof.
  unfold base_of, Spec_Identity.names. change (lit ":") with [58%N]. destruct (ch_in 58 b) eqn:E.
  - apply ch_in_In in E. pose proof (join_split 58 b) as J. pose proof (split_on_Forall 58 b) as F. split.
    + destruct (split_on 58 b) as [|p [|n' [|? ?]]]; try discriminate. cbn [bind fst snd]. destruct (m_resolve c (d_module d) p) as [m|] eqn:Em; [|discriminate]. intros H. injection H as <-. cbn [fst snd].
      inversion F as [|? ? F1 F2]; subst. inversion F2 as [|? ? F3 F4]; subst. left. exists p. repeat split; try assumption.
    + intros [(p & -> & H1 & H2 & H3)|(_ & H & _)]; [|contradiction]. cbn [app]. rewrite split_on_app, split_on_no by assumption. cbn [bind fst snd]. rewrite H3. now destruct n.
  - apply ch_in_false in E. cbn [bind fst snd]. split.
    + destruct (m_resolve c (d_module d) (m_prefix c (d_module d))) as [m|] eqn:Em; [|discriminate]. intros H. injection H as <-. right. repeat split; assumption.
    + intros [(p & -> & _)|(-> & _ & H3)]; [exfalso; apply E; apply in_or_app; right; now left|]. rewrite H3. now destruct n.
Qed.
Lemma names_fun d b n n' : names d b n -> names d b n' -> n = n'.
Proof. intros H H'. apply base_of_iff in H, H'. congruence. Qed.

Lemma is_ident_iff n i : is_ident n i = true <-> id_of i = n.
Proof. destruct n as [m x]. unfold is_ident, id_of. cbn [fst snd]. rewrite andb_true_iff, !str_eqb_eq. split; [intros [-> ->]; reflexivity|intros H; injection H as -> ->; now split]. Qed.
Lemma is_ident_refl i : is_ident (id_of i) i = true.
Proof. now apply is_ident_iff. Qed.
Lemma find_none n st : find_ident n st = None <-> ~ In n (map id_of st).
Proof.
  unfold find_ident. split.
  - intros H Hi. apply in_map_iff in Hi as (i & E & Hi). pose proof (find_none _ _ H i Hi) as F. apply is_ident_iff in E. congruence.
  - intros H. destruct (find (is_ident n) st) as [i|] eqn:E; [|reflexivity]. apply find_some in E as [E1 E2]. apply is_ident_iff in E2. exfalso. apply H. rewrite <- E2. now apply in_map.
Qed.
Lemma find_in n st i : find_ident n st = Some i -> In i st /\ id_of i = n.
Proof. intros H. apply find_some in H as [H1 H2]. split; [assumption|]. now apply is_ident_iff. Qed.
Lemma in_find n st : In n (map id_of st) -> exists i, find_ident n st = Some i.
Proof. intros H. destruct (find_ident n st) as [i|] eqn:E; [now exists i|]. apply find_none in E. contradiction. Qed.
Lemma find_app n l1 l2 : ~ In n (map id_of l1) -> find_ident n (l1 ++ l2) = find_ident n l2.
Proof.
  intros H. induction l1 as [|i l1 IH]; [reflexivity|]. cbn [map In] in H. unfold find_ident in *. cbn [app find]. destruct (is_ident n i) eqn:E; [apply is_ident_iff in E; exfalso; apply H; now left|]. apply IH. tauto.
Qed.
Lemma find_nodup st : NoDup (map id_of st) -> forall i, In i st -> find_ident (id_of i) st = Some i.
Proof.
  induction st as [|j st IH]; intros Hn i Hi; [easy|]. cbn [map] in Hn. inversion Hn as [|? ? H1 H2]; subst. unfold find_ident in *. cbn [find]. destruct Hi as [->|Hi]; [now rewrite is_ident_refl|].
  destruct (is_ident (id_of i) j) eqn:E; [apply is_ident_iff in E; exfalso; apply H1; rewrite E; now apply in_map|]. now apply IH.
Qed.

Lemma bases_some d bases st bs : find_bases c d bases st = Ok (Some bs) -> Forall2 (names d) bases bs /\ Forall (fun n => In n (map id_of st)) bs.
Proof.
  revert bs. induction bases as [|b bases IH]; intros bs; cbn [find_bases]; [intros H; injection H as <-; split; constructor|].
  destruct (base_of c d b) as [n|e] eqn:Eb; cbn [bind]; [|discriminate]. destruct (find_ident n st) as [i|] eqn:Ef; [|discriminate]. destruct (find_bases c d bases st) as [[bs'|]|e] eqn:Er; cbn [bind option_map]; try discriminate.
  intros H. injection H as <-. destruct (IH bs' eq_refl) as [I1 I2]. apply base_of_iff in Eb. split; constructor; try assumption. apply find_in in Ef as [F1 <-]. now apply in_map.
Qed.
Lemma bases_none d bases st : find_bases c d bases st = Ok None -> exists b n, In b bases /\ names d b n /\ ~ In n (map id_of st).
Proof.
  induction bases as [|b bases IH]; cbn [find_bases]; [discriminate|]. destruct (base_of c d b) as [n|e] eqn:Eb; cbn [bind]; [|discriminate]. apply base_of_iff in Eb. destruct (find_ident n st) as [i|] eqn:Ef.
  - destruct (find_bases c d bases st) as [[bs'|]|e] eqn:Er; cbn [bind option_map]; try discriminate. intros _. destruct (IH eq_refl) as (b' & n' & H1 & H2). exists b', n'. split; [now right|assumption].
  - intros _. exists b, n. split; [now left|]. split; [assumption|]. now apply find_none.
Qed.
Lemma bases_ok d bases st : (forall b, In b bases -> exists n, names d b n) -> exists r, find_bases c d bases st = Ok r.
Proof.
  induction bases as [|b bases IH]; intros H; cbn [find_bases]; [now eexists|]. destruct (H b (or_introl eq_refl)) as (n & Hn). apply base_of_iff in Hn. rewrite Hn. cbn [bind].
  destruct (find_ident n st); [|now eexists]. destruct IH as [r ->]; [intros b' Hb; apply H; now right|]. cbn [bind]. now eexists.
Qed.
Lemma bases_ready d bases st : (forall b, In b bases -> exists n, names d b n /\ In n (map id_of st)) -> exists bs, find_bases c d bases st = Ok (Some bs).
Proof.
  intros H. destruct (bases_ok d bases st) as [[bs|] E]; [intros b Hb; destruct (H b Hb) as (n & Hn & _); now exists n|now exists bs|]. destruct (bases_none _ _ _ E) as (b & n & Hb & Hn & Hi). destruct (H b Hb) as (n' & Hn' & Hi').
  rewrite (names_fun _ _ _ _ Hn Hn') in Hi. contradiction.
Qed.

(* ------------------------------------------------------------------ the loop *)
Lemma ids_on n f st : (forall i, id_of (f i) = id_of i) -> map id_of (on_ident n f st) = map id_of st.
Proof. intros H. unfold on_ident. rewrite map_map. apply map_ext. intros i. destruct (is_ident n i); [apply H|reflexivity]. Qed.
Definition add_to (d : idef) (bs : list ident) (st : list identity) := fold_left (fun st b => on_ident b (add_child (ident_of d)) st) bs st.
Lemma ids_add d bs st : map id_of (add_to d bs st) = map id_of st.
Proof. revert st. unfold add_to. induction bs as [|b bs IH]; intros st; [reflexivity|]. cbn [fold_left]. rewrite IH. now apply ids_on. Qed.
(** One identity after the fold. *)
Definition grown (d : idef) (bs : list ident) (i : identity) : identity := fold_left (fun i b => if is_ident b i then add_child (ident_of d) i else i) bs i.
Lemma add_to_map d bs st : add_to d bs st = map (grown d bs) st.
Proof.
  revert st. unfold add_to. induction bs as [|b bs IH]; intros st; [cbn [fold_left]; now rewrite map_id|]. cbn [fold_left]. rewrite IH. unfold on_ident. rewrite map_map. apply map_ext. intros i. reflexivity.
Qed.
Lemma grown_same d bs i : id_of (grown d bs i) = id_of i /\ id_prefixes (grown d bs i) = id_prefixes i /\
  forall ch, In ch (id_children (grown d bs i)) <-> In ch (id_children i) \/ (ch = ident_of d /\ In (id_of i) bs).
Proof.
  revert i. unfold grown. induction bs as [|b bs IH]; intros i; [cbn [fold_left]; split; [reflexivity|]; split; [reflexivity|]; intros ch; cbn [In]; tauto|]. cbn [fold_left]. destruct (is_ident b i) eqn:E.
  - destruct (IH (add_child (ident_of d) i)) as (I1 & I2 & I3). split; [now rewrite I1|]. split; [now rewrite I2|]. apply is_ident_iff in E. intros ch. rewrite I3. unfold add_child. cbn [id_children id_of id_module id_name]. rewrite in_app_iff. cbn [In].
    change (id_module i, id_name i) with (id_of i). split.
    + intros [[H|[H|[]]]|[H1 H2]]; [now left|right; split; [now symmetry|now left]|right; split; [assumption|now right]].
    + intros [H|[H1 _]]; [left; now left|]. left. right. left. now symmetry.
  - destruct (IH i) as (I1 & I2 & I3). split; [assumption|]. split; [assumption|]. intros ch. rewrite I3. cbn [In]. assert (N : b <> id_of i) by (intros H; symmetry in H; apply is_ident_iff in H; congruence). tauto.
Qed.

Lemma new_id d : id_of (new_identity c d) = ident_of d /\ id_children (new_identity c d) = [] /\ (forall p, In p (id_prefixes (new_identity c d)) <-> prefix_of c (d_module d) p) /\ NoDup (id_prefixes (new_identity c d)).
Proof.
  assert (A : forall p q l, In q (add_new p l) <-> q = p \/ In q l).
  { intros p q l. unfold add_new. destruct (existsb (str_eqb p) l) eqn:E; [apply existsb_exists in E as (x & Hx & E); apply str_eqb_eq in E; subst x; split; [now right|intros [->|H]; assumption]|]. rewrite in_app_iff. cbn [In]. intuition. }
  assert (B : forall p l, NoDup l -> NoDup (add_new p l)).
  { intros p l H. unfold add_new. destruct (existsb (str_eqb p) l) eqn:E; [assumption|]. apply NoDup_Add with (a := p) (l := l). { rewrite <- (app_nil_r l) at 1. apply Add_app. }
    split; [assumption|]. intros Hi. assert (X : existsb (str_eqb p) l = true) by (apply existsb_exists; exists p; split; [assumption|apply str_eqb_refl]). congruence. }
  assert (G : forall ps i, id_of (fold_left (fun i p => add_prefix p i) ps i) = id_of i /\ id_children (fold_left (fun i p => add_prefix p i) ps i) = id_children i /\
                (In (id_module i) (id_prefixes i) -> forall p, In p (id_prefixes (fold_left (fun i p => add_prefix p i) ps i)) <-> In p (id_prefixes i) \/ In p ps) /\
                (NoDup (id_prefixes i) -> NoDup (id_prefixes (fold_left (fun i p => add_prefix p i) ps i)))).
  { induction ps as [|q ps IH]; intros i; [cbn [fold_left In]; repeat split; tauto|]. cbn [fold_left]. destruct (IH (add_prefix q i)) as (I1 & I2 & I3 & I4). split; [assumption|]. split; [assumption|]. split.
    - intros H p. rewrite I3 by (unfold add_prefix; cbn [id_prefixes id_module]; rewrite !A; tauto). unfold add_prefix. cbn [id_prefixes In]. rewrite !A. intuition (subst; auto).
    - intros H. apply I4. unfold add_prefix. cbn [id_prefixes]. now apply B, B. }
  unfold new_identity. destruct (G (m_refs c (d_module d)) (add_prefix (m_prefix c (d_module d)) {| id_module := d_module d; id_name := d_name d; id_prefixes := []; id_children := [] |})) as (G1 & G2 & G3 & G4).
  split; [now rewrite G1|]. split; [now rewrite G2|]. split.
  - intros p. rewrite G3 by (unfold add_prefix; cbn [id_prefixes id_module]; rewrite !A; tauto). unfold add_prefix, prefix_of. cbn [id_prefixes id_module]. rewrite !A. cbn [In]. tauto.
  - apply G4. unfold add_prefix. cbn [id_prefixes id_module]. apply B, B. constructor.
Qed.

(** What holds of the store in the loop: names once; every identity in it comes from a definition whose bases
    are in it; the children of an identity come later; they are those that name it as base. *)
Record good (st : list identity) : Prop := {
  g_nodup : NoDup (map id_of st);
  g_def : forall i, In i st -> (exists d, In d defs /\ ident_of d = id_of i) /\ (forall p, In p (id_prefixes i) <-> prefix_of c (id_module i) p) /\ NoDup (id_prefixes i);
  g_bases : forall i d b, In i st -> In d defs -> defined_once defs -> ident_of d = id_of i -> In b (d_bases d) -> exists n, names d b n /\ grounded c defs n /\ In n (map id_of st);
  g_ground : forall i, In i st -> grounded c defs (id_of i);
  g_later : forall l1 i l2 ch, st = l1 ++ i :: l2 -> In ch (id_children i) -> In ch (map id_of l2);
  g_children : forall i ch, In i st -> In ch (id_children i) -> exists d b, In d defs /\ ch = ident_of d /\ In b (d_bases d) /\ names d b (id_of i);
  g_complete : forall i d b, In i st -> In d defs -> defined_once defs -> In (ident_of d) (map id_of st) -> In b (d_bases d) -> names d b (id_of i) -> In (ident_of d) (id_children i)
}.
Lemma good_nil : good [].
Proof. constructor; try (intros; easy); [constructor|]. intros [|? ?]; discriminate. Qed.

Lemma map_split {A B} (f : A -> B) l l1 y l2 : map f l = l1 ++ y :: l2 -> exists k1 x k2, l = k1 ++ x :: k2 /\ map f k1 = l1 /\ f x = y /\ map f k2 = l2.
Proof.
  revert l1. induction l as [|a l IH]; intros l1 H; [destruct l1; discriminate|]. destruct l1 as [|b l1]; cbn [map app] in H; injection H as H1 H2; [exists [], a, l; now repeat split|].
  destruct (IH _ H2) as (k1 & x & k2 & -> & E1 & E2 & E3). exists (a :: k1), x, k2. cbn [map]. repeat split; try assumption. now rewrite H1, E1.
Qed.

Lemma forall2_in {A B} (P : A -> B -> Prop) l m a : Forall2 P l m -> In a l -> exists b, In b m /\ P a b.
Proof. intros F. induction F as [|x y l m Hxy F IH]; intros H; [easy|]. destruct H as [->|H]; [exists y; split; [now left|assumption]|]. destruct (IH H) as (b & H1 & H2). exists b. split; [now right|assumption]. Qed.
Lemma forall2_in_r {A B} (P : A -> B -> Prop) l m b : Forall2 P l m -> In b m -> exists a, In a l /\ P a b.
Proof. intros F. induction F as [|x y l m Hxy F IH]; intros H; [easy|]. destruct H as [->|H]; [exists x; split; [now left|assumption]|]. destruct (IH H) as (a & H1 & H2). exists a. split; [now right|assumption]. Qed.

Lemma good_add st d bs : good st -> In d defs -> ~ In (ident_of d) (map id_of st) -> find_bases c d (d_bases d) st = Ok (Some bs) -> good (add_to d bs (st ++ [new_identity c d])).
Proof.
  intros G Hd Hnew Hb. destruct (bases_some _ _ _ _ Hb) as [B1 B2]. destruct (new_id d) as (N1 & N2 & N3 & N4). rewrite Forall_forall in B2.
  assert (GB : forall b, In b (d_bases d) -> exists n, names d b n /\ grounded c defs n /\ In n (map id_of st)).
  { intros b Hbb. destruct (forall2_in _ _ _ _ B1 Hbb) as (n & H1 & H2). exists n. split; [assumption|]. specialize (B2 _ H1). split; [|assumption]. apply in_map_iff in B2 as (i & <- & Hi). now apply (g_ground _ G). }
  assert (Hids : map id_of (add_to d bs (st ++ [new_identity c d])) = map id_of st ++ [ident_of d]) by (rewrite ids_add, map_app; cbn [map]; now rewrite N1).
  assert (Hel : forall i, In i (add_to d bs (st ++ [new_identity c d])) -> exists j, i = grown d bs j /\ (In j st \/ j = new_identity c d)).
  { intros i Hi. rewrite add_to_map in Hi. apply in_map_iff in Hi as (j & <- & Hj). exists j. split; [reflexivity|]. apply in_app_or in Hj as [Hj|[<-|[]]]; [now left|now right]. }
  assert (Hidm : forall j, id_module (grown d bs j) = id_module j) by (intros j; destruct (grown_same d bs j) as (S1 & _); unfold id_of in S1; congruence).
  constructor.
  - rewrite Hids. apply NoDup_Add with (a := ident_of d) (l := map id_of st). { rewrite <- (app_nil_r (map id_of st)) at 1. apply Add_app. } split; [apply G|assumption].
  - intros i Hi. destruct (Hel i Hi) as (j & -> & [Hj|Hj]); destruct (grown_same d bs j) as (S1 & S2 & _); rewrite S1, S2, Hidm; [now apply (g_def _ G)|]. subst j. split; [exists d; now split|]. split; [|assumption]. intros p. rewrite N3.
    assert (E : id_module (new_identity c d) = d_module d) by (unfold id_of, ident_of in N1; congruence). now rewrite E.
  - intros i d' b Hi Hd' Ho He Hbb. destruct (Hel i Hi) as (j & -> & [Hj|Hj]); destruct (grown_same d bs j) as (S1 & _); rewrite S1 in He.
    + destruct (g_bases _ G j d' b Hj Hd' Ho He Hbb) as (n & H1 & H2 & H3). exists n. split; [assumption|]. split; [assumption|]. rewrite Hids. apply in_or_app. now left.
    + subst j. rewrite N1 in He. rewrite (Ho d' d Hd' Hd He) in *. destruct (GB b Hbb) as (n & H1 & H2 & H3). exists n. split; [assumption|]. split; [assumption|]. rewrite Hids. apply in_or_app. now left.
  - intros i Hi. destruct (Hel i Hi) as (j & -> & [Hj|Hj]); destruct (grown_same d bs j) as (S1 & _); rewrite S1; [now apply (g_ground _ G)|]. subst j. rewrite N1. constructor; [assumption|]. intros b Hbb. destruct (GB b Hbb) as (n & H1 & H2 & _). exists n. now split.
  - intros l1 i l2 ch E Hch. rewrite add_to_map in E. apply map_split in E as (k1 & x & k2 & E & E1 & E2 & E3). subst i. destruct (grown_same d bs x) as (S1 & S2 & S3). apply S3 in Hch.
    assert (Hl2 : map id_of l2 = map id_of k2) by (rewrite <- E3, map_map; apply map_ext; intros y; apply grown_same). rewrite Hl2.
    destruct (exists_last (l := x :: k2)) as (k & z & Ek); [discriminate|]. rewrite Ek, app_assoc in E. apply app_inj_tail in E as [E Ez]. subst z.
    destruct k as [|x' k]; cbn [app] in Ek.
    + (* the new one itself *) injection Ek as -> ->. rewrite N2 in Hch. destruct Hch as [[]|[_ Hc]]. exfalso. rewrite N1 in Hc. apply Hnew. now apply B2.
    + injection Ek as <- ->. destruct Hch as [Hch|[-> Hch]].
      * rewrite map_app. apply in_or_app. left. exact (g_later _ G _ _ _ _ E Hch).
      * rewrite map_app. apply in_or_app. right. cbn [map]. rewrite N1. now left.
  - intros i ch Hi Hch. destruct (Hel i Hi) as (j & -> & Hj); destruct (grown_same d bs j) as (S1 & S2 & S3). apply S3 in Hch. rewrite S1. destruct Hch as [Hch|[-> Hch]].
    + destruct Hj as [Hj|Hj]; [now apply (g_children _ G)|]. subst j. rewrite N2 in Hch. destruct Hch.
    + destruct (forall2_in_r _ _ _ _ B1 Hch) as (b & H1 & H2). exists d, b. now repeat split.
  - intros i d' b Hi Hd' Ho Hin Hbb Hn. destruct (Hel i Hi) as (j & -> & Hj); destruct (grown_same d bs j) as (S1 & S2 & S3). apply S3. rewrite S1 in Hn. rewrite Hids in Hin. apply in_app_or in Hin as [Hin|[Hin|[]]].
    + left. destruct Hj as [Hj|Hj]; [now apply (g_complete _ G j d' b)|]. subst j. rewrite N1 in Hn. exfalso. apply in_map_iff in Hin as (k & Ek & Hk). destruct (g_bases _ G k d' b Hk Hd' Ho (eq_sym Ek) Hbb) as (n & M1 & _ & M3).
      rewrite (names_fun _ _ _ _ M1 Hn) in M3. contradiction.
    + right. rewrite (Ho d' d Hd' Hd (eq_sym Hin)) in *. split; [reflexivity|]. destruct (forall2_in _ _ _ _ B1 Hbb) as (n & H1 & H2). now rewrite (names_fun _ _ _ _ Hn H2).
Qed.

(** The queue holds definitions, and whatever is not in it is in the store. *)
Definition rest_ok (q : list idef) (st : list identity) : Prop := (forall d, In d q -> In d defs) /\ (forall d, In d defs -> In d q \/ In (ident_of d) (map id_of st)).
Lemma rest_skip d q st : rest_ok (d :: q) st -> In (ident_of d) (map id_of st) -> rest_ok q st.
Proof. intros [H1 H2] H. split; [intros e He; apply H1; now right|]. intros e He. destruct (H2 e He) as [[->|Hq]|Hs]; [now right|now left|now right]. Qed.
Lemma rest_rotate d q st : rest_ok (d :: q) st -> rest_ok (q ++ [d]) st.
Proof. intros [H1 H2]. split; [intros e He; apply H1; apply in_app_or in He as [He|[<-|[]]]; [now right|now left]|]. intros e He. destruct (H2 e He) as [[->|Hq]|Hs]; [left; apply in_or_app; right; now left|left; apply in_or_app; now left|now right]. Qed.
Lemma rest_add d q bs st : rest_ok (d :: q) st -> rest_ok q (add_to d bs (st ++ [new_identity c d])).
Proof.
  intros [H1 H2]. destruct (new_id d) as (N1 & _). split; [intros e He; apply H1; now right|]. intros e He. rewrite ids_add, map_app. cbn [map]. rewrite N1. destruct (H2 e He) as [[->|Hq]|Hs]; [right; apply in_or_app; right; now left|now left|right; apply in_or_app; now left].
Qed.

Lemma loop_good fuel : forall q st st', good st -> rest_ok q st -> build_loop c fuel q st = Ok st' -> good st' /\ forall d, In d defs -> In (ident_of d) (map id_of st').
Proof.
  induction fuel as [|fuel IH]; intros q st st' G R H; (destruct q as [|d q]; [cbn [build_loop] in H; injection H as <-; split; [assumption|]; intros d Hd; destruct (proj2 R d Hd) as [[]|Hs]; assumption|]); cbn [build_loop] in H; [discriminate|].
  destruct (find_ident (ident_of d) st) as [i|] eqn:Ef.
  - apply (IH q st st'); try assumption. apply (rest_skip d); [assumption|]. apply find_in in Ef as [F1 <-]. now apply in_map.
  - apply find_none in Ef. destruct (find_bases c d (d_bases d) st) as [[bs|]|e] eqn:Eb; cbn [bind] in H; [| |discriminate].
    + apply (IH _ _ _ (good_add _ _ _ G (proj1 R d (or_introl eq_refl)) Ef Eb) (rest_add _ _ _ _ R) H).
    + apply (IH _ _ _ G (rest_rotate _ _ _ R) H).
Qed.

(* ------------------------------------------------------------------ termination *)
(** Something in the queue can be taken out. *)
Definition ready (st : list identity) (d : idef) : Prop := In (ident_of d) (map id_of st) \/ forall b, In b (d_bases d) -> exists n, names d b n /\ In n (map id_of st).
Lemma ready_or st q n : rest_ok q st -> grounded c defs n -> In n (map id_of st) \/ exists d, In d q /\ ready st d.
Proof.
  intros R. revert n. fix IH 2. intros n G. destruct G as [d Hd Hb0].
  assert (Hb : forall b, In b (d_bases d) -> exists m, names d b m /\ (In m (map id_of st) \/ exists d, In d q /\ ready st d)) by (intros b Hb; destruct (Hb0 b Hb) as (m & Hm & Gm); exists m; split; [assumption|exact (IH m Gm)]).
  clear IH Hb0.
  assert (K : (forall b, In b (d_bases d) -> exists n, names d b n /\ In n (map id_of st)) \/ exists d', In d' q /\ ready st d').
  { induction (d_bases d) as [|b bs IHb]; [left; intros b []|]. destruct IHb as [IHb|IHb]; [intros b' Hb'; apply Hb; now right| |now right]. destruct (Hb b (or_introl eq_refl)) as (m & Hm & [Hi|Hr]); [|now right].
    left. intros b' [<-|Hb']; [exists m; now split|now apply IHb]. }
  destruct K as [K|K]; [|now right]. destruct (proj2 R d Hd) as [Hq|Hs]; [|now left]. right. exists d. split; [assumption|]. now right.
Qed.
Lemma loop_ends : well_named c defs -> (forall d, In d defs -> grounded c defs (ident_of d)) -> forall n q st, length q = n -> rest_ok q st -> exists fuel st', build_loop c fuel q st = Ok st'.
Proof.
  intros W Gr n. induction n as [|n IHn]; intros q st Hl R; [destruct q; [exists 0%nat, st; reflexivity|discriminate]|].
  (* position of the first one that is ready *)
  assert (E : exists d, In d q /\ ready st d).
  { destruct q as [|d q]; [discriminate|]. destruct (ready_or st (d :: q) (ident_of d) R) as [H|H]; [apply Gr; apply (proj1 R); now left| |assumption]. exists d. split; [now left|now left]. }
  destruct E as (d0 & Hd0 & Hr). apply in_split in Hd0 as (l1 & l2 & Eq). revert q Hl R Eq. revert l2. remember (length l1) as k eqn:Ek. revert l1 Ek. induction k as [|k IHk]; intros l1 Ek l2 q Hl R Eq.
  - destruct l1; [|discriminate]. cbn [app] in Eq. subst q. cbn [length] in Hl. injection Hl as Hl. destruct (find_ident (ident_of d0) st) as [i|] eqn:Ef.
    + destruct (IHn l2 st Hl) as (fuel & st' & H). { apply (rest_skip d0); [assumption|]. apply find_in in Ef as [F1 <-]. now apply in_map. } exists (S fuel), st'. cbn [build_loop]. now rewrite Ef.
    + apply find_none in Ef. destruct Hr as [Hr|Hr]; [contradiction|]. destruct (bases_ready d0 (d_bases d0) st Hr) as [bs Hb]. destruct (IHn l2 (add_to d0 bs (st ++ [new_identity c d0])) Hl) as (fuel & st' & H); [now apply rest_add|].
      exists (S fuel), st'. cbn [build_loop]. apply find_none in Ef. rewrite Ef, Hb. exact H.
  - destruct l1 as [|d l1]; [discriminate|]. cbn [app] in Eq. subst q. cbn [length] in Ek. injection Ek as Ek. destruct (find_ident (ident_of d) st) as [i|] eqn:Ef.
    + cbn [length] in Hl. injection Hl as Hl. destruct (IHn (l1 ++ d0 :: l2) st Hl) as (fuel & st' & H). { apply (rest_skip d); [assumption|]. apply find_in in Ef as [F1 <-]. now apply in_map. } exists (S fuel), st'. cbn [build_loop]. now rewrite Ef.
    + destruct (bases_ok d (d_bases d) st) as [[bs|] Hb]; [intros b Hbb; apply (W d b); [apply (proj1 R); now left|assumption]| |].
      * cbn [length] in Hl. injection Hl as Hl. destruct (IHn (l1 ++ d0 :: l2) (add_to d bs (st ++ [new_identity c d])) Hl) as (fuel & st' & H); [now apply rest_add|]. exists (S fuel), st'. cbn [build_loop]. rewrite Ef, Hb. exact H.
      * destruct (IHk l1 Ek (l2 ++ [d]) ((l1 ++ d0 :: l2) ++ [d])) as (fuel & st' & H); [rewrite app_length; cbn [length] in Hl |- *; lia|now apply rest_rotate|now rewrite <- app_assoc|].
        exists (S fuel), st'. cbn [build_loop]. now rewrite Ef, Hb.
Qed.

(* ------------------------------------------------------------------ all descendants *)
Inductive under (st : list identity) : ident -> ident -> Prop :=
| under_child i ch : In i st -> In ch (id_children i) -> under st (id_of i) ch
| under_more i ch x : In i st -> In ch (id_children i) -> under st ch x -> under st (id_of i) x.
Definition later (st : list identity) : Prop := forall l1 i l2 ch, st = l1 ++ i :: l2 -> In ch (id_children i) -> In ch (map id_of l2).
Lemma later_tail i st : later (i :: st) -> later st.
Proof. intros H l1 j l2 ch -> Hch. exact (H (i :: l1) j l2 ch eq_refl Hch). Qed.
Lemma later_in st : later st -> forall i ch, In i st -> In ch (id_children i) -> In ch (map id_of st).
Proof. intros H i ch Hi Hch. apply in_split in Hi as (l1 & l2 & E). rewrite E, map_app. apply in_or_app. right. right. exact (H _ _ _ _ E Hch). Qed.
Lemma under_in st : later st -> forall n x, under st n x -> In x (map id_of st).
Proof. intros L n x H. induction H; [now apply (later_in st L i)|assumption]. Qed.
Lemma nodup_inj (st : list identity) i j : NoDup (map id_of st) -> In i st -> In j st -> id_of i = id_of j -> i = j.
Proof. intros N Hi Hj E. pose proof (find_nodup _ N i Hi) as F1. pose proof (find_nodup _ N j Hj) as F2. rewrite E in F1. congruence. Qed.
(** Below an element of the tail there is the tail only. *)
Lemma under_tail j st n x : NoDup (map id_of (j :: st)) -> later (j :: st) -> In n (map id_of st) -> (under (j :: st) n x <-> under st n x).
Proof.
  intros N L Hn. cbn [map] in N. inversion N as [|? ? N1 N2]; subst. split.
  - intros H. revert Hn. induction H as [i ch Hi Hch|i ch x Hi Hch H IH]; intros Hn; (destruct Hi as [->|Hi]; [contradiction|]).
    + now apply under_child.
    + apply under_more with ch; try assumption. apply IH. apply (later_in st (later_tail _ _ L) i); assumption.
  - intros H. clear Hn. induction H as [i ch Hi Hch|i ch x Hi Hch H IH]; [apply under_child; [now right|assumption]|]. apply under_more with ch; [now right|assumption|assumption].
Qed.

Lemma recurse_ok st : NoDup (map id_of st) -> later st -> forall pre, (forall n, In n (map id_of st) -> ~ In n (map id_of pre)) ->
  forall n fuel, In n (map id_of st) -> (length st < fuel)%nat -> exists l, recurse_children fuel (pre ++ st) n = Ok l /\ forall x, In x l <-> under st n x.
Proof.
  induction st as [|i st IH]; intros N L pre Hp n fuel Hn Hf; [easy|]. cbn [length] in Hf. destruct fuel as [|fuel]; [lia|].
  assert (N' := N). cbn [map] in N'. inversion N' as [|? ? N1 N2]; subst.
  assert (T : forall n', In n' (map id_of st) -> forall f, (length st < f)%nat -> exists l, recurse_children f (pre ++ i :: st) n' = Ok l /\ forall x, In x l <-> under (i :: st) n' x).
  { intros n' Hn' f Hf'. destruct (IH N2 (later_tail _ _ L) (pre ++ [i])) with (n := n') (fuel := f) as (l & E & Hl); [|assumption|assumption|].
    - intros m Hm Hi. rewrite map_app in Hi. apply in_app_or in Hi as [Hi|[Hi|[]]]; [apply (Hp m); [now right|assumption]|]. apply N1. now rewrite Hi.
    - rewrite <- app_assoc in E. exists l. split; [exact E|]. intros x. rewrite Hl. symmetry. now apply under_tail. }
  destruct Hn as [Hn|Hn]; [|apply T; [assumption|lia]]. subst n.
  assert (Ef : find_ident (id_of i) (pre ++ i :: st) = Some i) by (rewrite find_app by (apply Hp; now left); apply find_nodup; [assumption|now left]).
  cbn [recurse_children]. rewrite Ef.
  assert (Hch : forall ch, In ch (id_children i) -> In ch (map id_of st)) by (intros ch; apply (L [] i st ch eq_refl)).
  assert (K : exists l, (fix each (l : list ident) : res (list ident) := match l with [] => Ok [] | ch :: l' => r1 <- recurse_children fuel (pre ++ i :: st) ch ;; r2 <- each l' ;; Ok (ch :: r1 ++ r2) end) (id_children i) = Ok l /\
                forall x, In x l <-> exists ch, In ch (id_children i) /\ (x = ch \/ under (i :: st) ch x)).
  { clear Ef. revert Hch. generalize (id_children i) as lc. induction lc as [|ch l IHl]; intros Hch; [exists []; split; [reflexivity|]; intros x; split; [easy|]; now intros (? & [] & _)|].
    destruct (T ch (Hch ch (or_introl eq_refl)) fuel) as (l1 & E1 & H1); [lia|]. destruct IHl as (l2 & E2 & H2); [intros ch' Hc; apply Hch; now right|]. rewrite E1, E2. cbn [bind]. eexists. split; [reflexivity|]. intros x. cbn [In]. rewrite in_app_iff, H1, H2. split.
    - intros [<-|[H|(ch' & Hc & H)]]; [exists ch; split; [now left|now left]|exists ch; split; [now left|now right]|exists ch'; split; [now right|assumption]].
    - intros (ch' & [<-|Hc] & [->|H]); [now left|right; now left|right; right; exists ch'; split; [assumption|now left]|right; right; exists ch'; split; [assumption|now right]]. }
  destruct K as (l & E & Hl). exists l. split; [exact E|]. intros x. rewrite Hl. split.
  - intros (ch & Hc & [->|H]); [apply under_child; [now left|assumption]|apply under_more with ch; [now left|assumption|assumption]].
  - intros H. remember (id_of i) as n eqn:En in H. destruct H as [j ch Hj Hc|j ch x Hj Hc Hu]; assert (Ei : j = i) by (apply (nodup_inj (i :: st)); [assumption|assumption|now left|assumption]); subst j; exists ch; split; [assumption|now left|assumption|now right].
Qed.

Lemma forall2_weaken {A B} (P Q : A -> B -> Prop) l m : Forall2 P l m -> (forall a, In a l -> forall b, P a b -> Q a b) -> Forall2 Q l m.
Proof. intros F. induction F as [|a b l m Hab F IH]; intros H; constructor; [apply H; [now left|assumption]|]. apply IH. intros x Hx. apply H. now right. Qed.
(** The store after the inheritance pass. *)
Definition filled (st : list identity) (i i' : identity) : Prop :=
  id_of i' = id_of i /\ id_prefixes i' = id_prefixes i /\ forall x, In x (id_children i') <-> under st (id_of i) x.
Lemma on_ident_other n f l : ~ In n (map id_of l) -> on_ident n f l = l.
Proof. intros H. unfold on_ident. rewrite <- (map_id l) at 2. apply map_ext_in. intros i Hi. destruct (is_ident n i) eqn:E; [|reflexivity]. apply is_ident_iff in E. exfalso. apply H. rewrite <- E. now apply in_map. Qed.
Lemma inherit_ok st : NoDup (map id_of st) -> later st -> forall pre, (forall n, In n (map id_of st) -> ~ In n (map id_of pre)) ->
  forall fuel, (length st < fuel)%nat -> exists st', inherit_loop fuel (map id_of st) (pre ++ st) = Ok (pre ++ st') /\ Forall2 (filled st) st st'.
Proof.
  induction st as [|i st IH]; intros N L pre Hp fuel Hf; [exists []; split; [reflexivity|constructor]|]. assert (N' := N). cbn [map] in N'. inversion N' as [|? ? N1 N2]; subst. cbn [map inherit_loop].
  destruct (recurse_ok (i :: st) N L pre Hp (id_of i) fuel) as (l & E & Hl); [now left|assumption|]. rewrite E. cbn [bind].
  assert (Eo : on_ident (id_of i) (set_children l) (pre ++ i :: st) = (pre ++ [set_children l i]) ++ st).
  { unfold on_ident. rewrite map_app. cbn [map]. rewrite is_ident_refl, <- app_assoc. cbn [app]. f_equal; [apply on_ident_other; apply Hp; now left|]. f_equal. now apply on_ident_other. }
  rewrite Eo. destruct (IH N2 (later_tail _ _ L) (pre ++ [set_children l i])) with (fuel := fuel) as (st' & E' & F); [|cbn [length] in Hf; lia|].
  - intros m Hm Hi. rewrite map_app in Hi. apply in_app_or in Hi as [Hi|[Hi|[]]]; [apply (Hp m); [now right|assumption]|]. cbn [map] in Hi. apply N1. change (id_of i) with (id_of (set_children l i)). now rewrite Hi.
  - rewrite E'. exists (set_children l i :: st'). split; [now rewrite <- app_assoc|]. constructor; [repeat split; try apply Hl|].
    clear - F N L. assert (H : forall j, In j st -> forall j', filled st j j' -> filled (i :: st) j j').
    { intros j Hj j' (F1 & F2 & F3). split; [assumption|]. split; [assumption|]. intros x. rewrite F3. symmetry. apply under_tail; [assumption|assumption|]. now apply in_map. }
    exact (forall2_weaken _ _ _ _ F H).
Qed.

(* ------------------------------------------------------------------ the results *)
Lemma under_derived st : good st -> (forall d, In d defs -> In (ident_of d) (map id_of st)) -> defined_once defs ->
  forall n m, In n (map id_of st) -> (under st n m <-> derived c defs n m).
Proof.
  intros G A Ho n m Hn. split.
  - intros H. clear Hn.
    assert (tr : forall a b e, derived c defs a b -> derived c defs b e -> derived c defs a e).
    { intros a b e H1 H2. revert H1. induction H2 as [d b0 n0 Hd Hb Hm|n0 d b0 m0 H2 IH Hd Hb Hm]; intros H1; [now apply derived_more with b0 n0|]. apply derived_more with b0 m0; try assumption. now apply IH. }
    induction H as [i ch Hi Hch|i ch x Hi Hch H IH]; destruct (g_children _ G i ch Hi Hch) as (d & b & Hd & -> & Hb & Hm); [now apply derived_base with b|]. apply tr with (ident_of d); [now apply derived_base with b|assumption].
  - intros H. induction H as [d b n Hd Hb Hm|n d b m H IH Hd Hb Hm].
    + apply in_map_iff in Hn as (i & <- & Hi). apply under_child; [assumption|]. apply (g_complete _ G i d b); try assumption. now apply A.
    + specialize (IH Hn). clear H. assert (Hu : forall a x, under st a x -> x = m -> under st a (ident_of d)); [|now apply (Hu n m)].
      intros a x H. induction H as [i ch Hi Hch|i ch x Hi Hch H IH']; intros ->.
      * apply under_more with m; try assumption. assert (Hm' : In m (map id_of st)) by (apply (later_in st (g_later _ G) i); assumption). apply in_map_iff in Hm' as (j & <- & Hj). apply under_child; [assumption|]. apply (g_complete _ G j d b); try assumption. now apply A.
      * apply under_more with ch; try assumption. now apply IH'.
Qed.

(** Store, C53 *)
Lemma store_exact fuel depth st : defined_once defs -> build_store c fuel depth defs = Ok st -> (length defs < depth)%nat ->
  (forall n, In n (map id_of st) <-> exists d, In d defs /\ ident_of d = n) /\ NoDup (map id_of st) /\
  (forall i, In i st -> NoDup (id_prefixes i) /\ (forall p, In p (id_prefixes i) <-> prefix_of c (id_module i) p) /\ forall ch, In ch (id_children i) <-> derived c defs (id_of i) ch).
Proof.
  intros Ho H Hd. unfold build_store in H. destruct (build_loop c fuel defs []) as [s0|e] eqn:E; cbn [bind] in H; [|discriminate].
  assert (R0 : rest_ok defs []) by (split; [easy|now left]). destruct (loop_good _ _ _ _ good_nil R0 E) as [G A].
  assert (Hlen : (length s0 <= length defs)%nat).
  { rewrite <- (map_length id_of). rewrite <- (map_length ident_of). apply NoDup_incl_length; [apply G|]. intros n Hn. apply in_map_iff in Hn as (i & <- & Hi). destruct (g_def _ G i Hi) as ((d & H1 & <-) & _). now apply in_map. }
  destruct (inherit_ok s0 (g_nodup _ G) (g_later _ G) []) with (fuel := depth) as (st' & E' & F); [easy|lia|]. cbn [app] in E'. rewrite E' in H. injection H as <-.
  assert (Hids : map id_of st' = map id_of s0) by (clear - F; induction F as [|i i' s s' (F1 & _) F IH]; [reflexivity|]; cbn [map]; now rewrite F1, IH).
  split; [|split].
  - intros n. rewrite Hids. split; [|intros (d & H1 & <-); now apply A]. intros Hn. apply in_map_iff in Hn as (i & <- & Hi). now destruct (g_def _ G i Hi) as (H1 & _).
  - rewrite Hids. apply G.
  - intros i' Hi'. destruct (forall2_in_r _ _ _ _ F Hi') as (i & Hi & F1 & F2 & F3). destruct (g_def _ G i Hi) as (_ & P1 & P2). rewrite F2. split; [assumption|].
    assert (Em : id_module i' = id_module i) by (unfold id_of in F1; congruence). rewrite Em. split; [assumption|]. intros ch. rewrite F3, F1. apply under_derived; try assumption. now apply in_map.
Qed.

(** Termination, C54 *)
Lemma inherit_some st : good st -> forall depth, (length st < depth)%nat -> exists st', inherit_loop depth (map id_of st) st = Ok st'.
Proof. intros G depth H. destruct (inherit_ok st (g_nodup _ G) (g_later _ G) []) with (fuel := depth) as (st' & E & _); [easy|assumption|]. now exists st'. Qed.
Lemma ends_iff : well_named c defs -> ((exists fuel depth st, build_store c fuel depth defs = Ok st) <-> forall d, In d defs -> grounded c defs (ident_of d)).
Proof.
  intros W. assert (R0 : rest_ok defs []) by (split; [easy|now left]). split.
  - intros (fuel & depth & st & H) d Hd. unfold build_store in H. destruct (build_loop c fuel defs []) as [s0|e] eqn:E; cbn [bind] in H; [|discriminate]. destruct (loop_good _ _ _ _ good_nil R0 E) as [G A].
    specialize (A d Hd). apply in_map_iff in A as (i & <- & Hi). now apply (g_ground _ G).
  - intros Gr. destruct (loop_ends W Gr (length defs) defs [] eq_refl R0) as (fuel & s0 & E). destruct (loop_good _ _ _ _ good_nil R0 E) as [G A]. destruct (inherit_some s0 G (S (length s0)) (Nat.lt_succ_diag_r _)) as (st' & E').
    exists fuel, (S (length s0)), st'. unfold build_store. rewrite E. exact E'.
Qed.
(** Otherwise it goes on for ever. *)
Lemma forever fuel : well_named c defs -> (exists d, In d defs /\ ~ grounded c defs (ident_of d)) -> build_loop c fuel defs [] = Raise OutOfFuel.
Proof.
  intros W (d0 & Hd0 & Hg). assert (R0 : rest_ok defs []) by (split; [easy|now left]). assert (K : forall fuel st q, rest_ok q st -> good st -> build_loop c fuel q st = Raise OutOfFuel); [|exact (K _ _ _ R0 good_nil)]. clear fuel R0. intros fuel. induction fuel as [|fuel IH]; intros st q R G.
  - destruct q as [|d q]; [|reflexivity]. exfalso. destruct (proj2 R d0 Hd0) as [[]|Hs]. apply Hg. apply in_map_iff in Hs as (i & <- & Hi). now apply (g_ground _ G).
  - destruct q as [|d q]; [exfalso; destruct (proj2 R d0 Hd0) as [[]|Hs]; apply Hg; apply in_map_iff in Hs as (i & <- & Hi); now apply (g_ground _ G)|]. cbn [build_loop].
    destruct (find_ident (ident_of d) st) as [i|] eqn:Ef; [apply IH; [apply (rest_skip d); [assumption|]; apply find_in in Ef as [F1 <-]; now apply in_map|assumption]|].
    apply find_none in Ef. destruct (bases_ok d (d_bases d) st) as [[bs|] Hb]; [intros b Hbb; apply (W d b); [apply (proj1 R); now left|assumption]| |]; rewrite Hb; cbn [bind].
    + apply (IH (add_to d bs (st ++ [new_identity c d])) q); [now apply rest_add|]. apply good_add; try assumption. apply (proj1 R). now left.
    + apply IH; [now apply rest_rotate|assumption].
Qed.
End Proofs.
