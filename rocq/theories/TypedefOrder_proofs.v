(** Proofs about the worklist of build_typedefs. *)
From Verif Require Import PyStr PyStr_facts PyVal PathHelper Identity Restricted Typedefs Spec_Typedefs.
From Coq Require Import Lia Permutation.
Import ListNotations.

Lemma map_r_ok {A B} (f : A -> res B) l : (forall a, In a l -> exists b, f a = Ok b) -> exists r, map_r f l = Ok r.
Proof.
  induction l as [|a l IH]; intros H; [exists []; reflexivity|]. destruct (H a (or_introl eq_refl)) as [b Hb].
  destruct IH as [r Hr]; [intros a' Ha'; apply H; right; exact Ha'|]. exists (b :: r). cbn. rewrite Hb. cbn. rewrite Hr. reflexivity.
Qed.
Lemma map_r_in {A B} (f : A -> res B) l : forall r, map_r f l = Ok r -> forall b, In b r <-> exists a, In a l /\ f a = Ok b.
Proof.
  induction l as [|a l IH]; intros r H b.
  - injection H as <-. cbn. split; [intros []|intros (a & [] & _)].
  - cbn in H. destruct (f a) as [b0|] eqn:Ef; cbn in H; [|discriminate]. destruct (map_r f l) as [r0|] eqn:Er; cbn in H; [|discriminate]. injection H as <-. split.
    + intros [<-|Hb]; [exists a; split; [left; reflexivity|exact Ef]|]. apply (IH r0 eq_refl) in Hb. destruct Hb as (a' & Ha' & E'). exists a'. split; [right; exact Ha'|exact E'].
    + intros (a' & [<-|Ha'] & E'); [left; rewrite Ef in E'; injection E' as <-; reflexivity|right]. apply (IH r0 eq_refl). exists a'. split; assumption.
Qed.

Section Order.
Context (c : modules) (known0 : list str).

Lemma subtype_spec s : has_base s -> exists t, subtype s = Ok t /\ forall t', mentions1 s t' <-> t' = t.
Proof.
  intros Hb. unfold subtype. destruct (str_eqb_spec (ty_arg s) (lit "identityref")) as [E|E].
  - specialize (Hb E). destruct (ty_bases s) as [|b l] eqn:El; [destruct (Hb eq_refl)|]. exists b. split; [reflexivity|]. intros t'. unfold mentions1. rewrite El. split.
    + intros [[N _]|[_ (l' & H)]]; [destruct (N E)|injection H as -> _; reflexivity].
    + intros ->. right. split; [exact E|]. exists l. reflexivity.
  - exists (ty_arg s). split; [reflexivity|]. intros t'. unfold mentions1. split.
    + intros [[_ H]|[N _]]; [exact H|destruct (E N)].
    + intros ->. left. split; [exact E|reflexivity].
Qed.
Lemma subtypes_spec ty : has_base ty -> (forall s, In s (ty_subs ty) -> has_base s) -> exists ts, subtypes ty = Ok ts /\ forall t, In t ts <-> mentions ty t.
Proof.
  intros Hb Hs. unfold subtypes. destruct (str_eqb_spec (ty_arg ty) (lit "union")) as [E|E].
  - destruct (map_r_ok subtype (ty_subs ty)) as [r Hr].
    { intros s Hin. destruct (subtype_spec s (Hs s Hin)) as (t & Et & _). exists t. exact Et. }
    exists r. split; [exact Hr|]. intros t. rewrite (map_r_in _ _ _ Hr t). split.
    + intros (s & Hin & Es). right. split; [exact E|]. exists s. split; [exact Hin|]. destruct (subtype_spec s (Hs s Hin)) as (t' & Et & Hm). rewrite Et in Es. injection Es as <-. apply Hm. reflexivity.
    + intros [[N _]|[_ (s & Hin & Hm)]]; [destruct (N E)|]. exists s. split; [exact Hin|]. destruct (subtype_spec s (Hs s Hin)) as (t' & Et & Hm'). apply Hm' in Hm. subst t'. exact Et.
  - destruct (subtype_spec ty Hb) as (t & Et & Hm). exists [t]. rewrite Et. split; [reflexivity|]. intros t'. cbn. split.
    + intros [<-|[]]. left. split; [exact E|]. apply Hm. reflexivity.
    + intros [[_ H]|[N _]]; [left; apply Hm in H; symmetry; exact H|destruct (E N)].
Qed.
Lemma resolve_spec td t k : denotes c known0 td t k -> resolve_text c known0 td t = Ok k.
Proof.
  unfold resolve_text. intros [(p & n & m & -> & Hp & Hn & Hm & ->)|[(Ht & Hk & ->)|(Ht & Hk & ->)]].
  - assert (C : ch_in 58 (p ++ lit ":" ++ n) = true) by (apply ch_in_In, in_or_app; right; left; reflexivity). rewrite C.
    change (p ++ lit ":" ++ n) with (p ++ 58%N :: n). rewrite (split_on_app 58 p n Hp), (split_on_no 58 n Hn). rewrite Hm. reflexivity.
  - apply ch_in_false in Ht. rewrite Ht. apply str_in_In in Hk. rewrite Hk. reflexivity.
  - apply ch_in_false in Ht. rewrite Ht. apply str_in_false in Hk. rewrite Hk. reflexivity.
Qed.
Lemma references_spec td : well_formed c known0 td -> exists refs, references c known0 td = Ok refs /\ forall k, In k refs <-> uses c known0 td k.
Proof.
  intros (Hb & Hs & Hd). unfold references. destruct (subtypes_spec (td_type td) Hb Hs) as (ts & -> & Hm). cbn.
  destruct (map_r_ok (resolve_text c known0 td) ts) as [r Hr].
  { intros t Ht. apply Hm in Ht. destruct (Hd t Ht) as [k Hk]. exists k. apply resolve_spec. exact Hk. }
  exists r. split; [exact Hr|]. intros k. rewrite (map_r_in _ _ _ Hr k). unfold uses. split.
  - intros (t & Ht & E). apply Hm in Ht. exists t. split; [exact Ht|]. destruct (Hd t Ht) as [k' Hk']. rewrite (resolve_spec _ _ _ Hk') in E. injection E as <-. exact Hk'.
  - intros (t & Ht & E). exists t. split; [apply Hm; exact Ht|apply resolve_spec; exact E].
Qed.

Lemma in_order_snoc tds td : in_order c known0 tds -> (forall k, uses c known0 td k -> In k known0 \/ exists td', In td' tds /\ td_key td' = k) -> in_order c known0 (tds ++ [td]).
Proof.
  intros I H l1 td' l2 E k Hk. destruct (@exists_last _ (td' :: l2)) as (l & x & El); [discriminate|]. rewrite El, app_assoc in E. apply app_inj_tail in E. destruct E as [E <-].
  destruct l as [|y l].
  - cbn in El. injection El as <- ->. rewrite app_nil_r in E. subst tds. apply H. exact Hk.
  - cbn in El. injection El as <- ->. apply (I l1 td' l E k Hk).
Qed.
(** What is returned is in order, and everything in the queue is returned or an error. *)
Lemma order_sound limit : forall fuel queue known og og', order_loop c known0 limit fuel queue known og = Ok og' ->
  (forall q, In q queue -> well_formed c known0 (fst q)) -> known = known0 ++ map td_key (og_done og) -> in_order c known0 (og_done og) ->
  in_order c known0 (og_done og') /\ Permutation (og_done og' ++ og_errors og') (map fst queue ++ og_done og ++ og_errors og).
Proof.
  induction fuel as [|fuel IH]; intros [|[td n] queue] known og og' H W K I; cbn [order_loop] in H; try discriminate.
  - injection H as <-. split; [exact I|apply Permutation_refl].
  - injection H as <-. split; [exact I|apply Permutation_refl].
  - destruct (references_spec td (W _ (or_introl eq_refl))) as (refs & Er & Hu). rewrite Er in H. cbn [bind] in H.
    destruct (forallb (fun r => str_in r known) refs) eqn:F; [|destruct (Nat.ltb limit (S n)) eqn:L].
    + apply IH in H; cbn [og_done og_errors] in *.
      * destruct H as [H1 H2]. split; [exact H1|]. eapply Permutation_trans; [exact H2|]. cbn [map fst app]. rewrite <- app_assoc. cbn [app].
        rewrite !app_assoc. apply Permutation_sym, Permutation_middle.
      * intros q Hq. apply W. right. exact Hq.
      * rewrite K, map_app, <- app_assoc. reflexivity.
      * apply in_order_snoc; [exact I|]. intros k Hk. apply Hu in Hk. rewrite forallb_forall in F. specialize (F k Hk). apply str_in_In in F. rewrite K in F. apply in_app_or in F.
        destruct F as [F|F]; [left; exact F|right]. apply in_map_iff in F. destruct F as (td' & E & Hin). exists td'. split; assumption.
    + apply IH in H; cbn [og_done og_errors] in *; [|intros q Hq; apply W; right; exact Hq|exact K|exact I].
      destruct H as [H1 H2]. split; [exact H1|]. eapply Permutation_trans; [exact H2|]. cbn [map fst app]. rewrite !app_assoc. apply Permutation_sym, Permutation_cons_append.
    + apply IH in H; [|intros q Hq; apply in_app_or in Hq; destruct Hq as [Hq|[<-|[]]]; [apply W; right; exact Hq|apply (W (td, n)); left; reflexivity]|exact K|exact I].
      destruct H as [H1 H2]. split; [exact H1|]. eapply Permutation_trans; [exact H2|]. rewrite map_app. cbn [map fst app]. rewrite <- app_assoc. cbn [app]. apply Permutation_sym, Permutation_middle.
Qed.

(** Each typedef is tried [limit] + 1 times at most. *)
Fixpoint tries (limit : nat) (queue : list (tdef * nat)) : nat := match queue with [] => 0%nat | (_, n) :: q => (S limit - n) + tries limit q end.
Lemma tries_app limit q1 q2 : tries limit (q1 ++ q2) = (tries limit q1 + tries limit q2)%nat.
Proof. induction q1 as [|[td n] q1 IH]; cbn [tries app]; [reflexivity|]. rewrite IH. lia. Qed.
Lemma order_total limit : forall fuel queue known og, (forall q, In q queue -> well_formed c known0 (fst q) /\ snd q <= limit) -> tries limit queue <= fuel ->
  exists og', order_loop c known0 limit fuel queue known og = Ok og'.
Proof.
  induction fuel as [|fuel IH]; intros [|[td n] queue] known og W T; cbn [order_loop]; try (exists og; reflexivity).
  - destruct (W _ (or_introl eq_refl)) as [_ L]. cbn [tries fst snd] in T, L. lia.
  - destruct (W _ (or_introl eq_refl)) as [Hw Ln]. cbn [fst snd] in *. cbn [tries] in T. destruct (references_spec td Hw) as (refs & -> & _). cbn [bind].
    destruct (forallb (fun r => str_in r known) refs); [|destruct (Nat.ltb limit (S n)) eqn:L].
    + apply IH; [intros q Hq; apply W; right; exact Hq|lia].
    + apply IH; [intros q Hq; apply W; right; exact Hq|lia].
    + apply Nat.ltb_ge in L. apply IH.
      * intros q Hq. apply in_app_or in Hq. destruct Hq as [Hq|[<-|[]]]; [apply W; right; exact Hq|]. cbn. split; [exact Hw|exact L].
      * rewrite tries_app. cbn [tries]. lia.
Qed.

(** Rounds. *)
Lemma grounded_mono defs n k : grounded_in c known0 defs n k -> forall m, n <= m -> grounded_in c known0 defs m k.
Proof.
  induction 1 as [n k Hk|n td Hin Hu IH]; intros m L; [apply grounded_known; exact Hk|]. destruct m as [|m]; [lia|]. apply grounded_typedef; [exact Hin|].
  intros k Hk. apply (IH k Hk). lia.
Qed.
Section Rounds.
Context (defs : list tdef) (limit : nat).
Context (distinct : forall td td', In td defs -> In td' defs -> td_key td = td_key td' -> td = td').
Context (fresh : forall td, In td defs -> ~ In (td_key td) known0).
Context (formed : forall td, In td defs -> well_formed c known0 td).

Definition round_inv (r : nat) (a b : list tdef) (known : list str) (errors : list tdef) : Prop :=
  r <= limit /\ (r = limit -> b = []) /\ (forall td, In td (a ++ b) -> In td defs) /\ (forall k, grounded_in c known0 defs r k -> In k known) /\
  (forall td, In td b -> ~ grounded_in c known0 defs (S r) (td_key td)) /\
  (forall td, In td defs -> In td a \/ In td b \/ In (td_key td) known \/ In td errors) /\
  (forall td, In td errors -> ~ grounded_in c known0 defs (S limit) (td_key td)).
Definition at_round (r : nat) (a b : list tdef) : list (tdef * nat) := map (fun td => (td, r)) a ++ map (fun td => (td, S r)) b.
Lemma next_round r b known errors : round_inv r [] b known errors -> b <> [] -> round_inv (S r) b [] known errors.
Proof.
  intros (Hr & Hb & Hd & Hk & Hn & Ha & He) N. assert (r <> limit) by (intros E; apply N, Hb, E). split; [lia|]. split; [reflexivity|]. rewrite app_nil_r. split; [exact Hd|]. split.
  - intros k Hg. inversion Hg as [n k' Hk0 E1 E2|n td Hin Hu E1 E2]; subst.
    + apply Hk. apply grounded_known. exact Hk0.
    + destruct (Ha td Hin) as [[]|[Hi|[Hi|Hi]]].
      * destruct (Hn td Hi Hg).
      * exact Hi.
      * destruct (He td Hi). apply (grounded_mono _ _ _ Hg). lia.
  - split; [intros td []|]. split; [|exact He]. intros td Hin. destruct (Ha td Hin) as [[]|[Hi|[Hi|Hi]]]; auto.
Qed.
Lemma not_grounded td r known refs : In td defs -> (forall k, grounded_in c known0 defs r k -> In k known) -> (forall k, In k refs <-> uses c known0 td k) ->
  forallb (fun r => str_in r known) refs = false -> ~ grounded_in c known0 defs (S r) (td_key td).
Proof.
  intros Hin Hk Hu F Hg. assert (forallb (fun r => str_in r known) refs = true); [|congruence]. apply forallb_forall. intros k Hr. apply str_in_In.
  remember (S r) as n eqn:En. remember (td_key td) as key eqn:Ek. destruct Hg as [n key Hk0|n td' Hin' Hu'].
  - subst key. destruct (fresh td Hin Hk0).
  - injection En as ->. apply Hk. apply Hu'. rewrite (distinct td' td Hin' Hin Ek). apply Hu. exact Hr.
Qed.
Lemma order_rounds : forall fuel r a b known og og', order_loop c known0 limit fuel (at_round r a b) known og = Ok og' -> round_inv r a b known (og_errors og) ->
  forall td, In td (og_errors og') -> ~ grounded_in c known0 defs (S limit) (td_key td).
Proof.
  assert (Step : forall fuel, (forall r a b known og og', order_loop c known0 limit fuel (at_round r a b) known og = Ok og' -> round_inv r a b known (og_errors og) ->
      forall td, In td (og_errors og') -> ~ grounded_in c known0 defs (S limit) (td_key td)) ->
    forall r td0 a b known og og', order_loop c known0 limit (S fuel) (at_round r (td0 :: a) b) known og = Ok og' -> round_inv r (td0 :: a) b known (og_errors og) ->
      forall td, In td (og_errors og') -> ~ grounded_in c known0 defs (S limit) (td_key td)).
  { intros fuel IH r td0 a b known og og' H I. pose proof I as (Hr & Hb & Hd & Hk & Hn & Ha & He).
    assert (Hin : In td0 defs) by (apply Hd; left; reflexivity). destruct (references_spec td0 (formed td0 Hin)) as (refs & Er & Hu).
    unfold at_round in H. cbn [map app order_loop] in H. rewrite Er in H. cbn [bind] in H. destruct (forallb (fun r => str_in r known) refs) eqn:F; [|destruct (Nat.ltb limit (S r)) eqn:L].
    - apply (IH r a b _ _ _ H). cbn [og_errors]. split; [exact Hr|]. split; [exact Hb|]. split; [intros td Ht; apply Hd; right; exact Ht|]. split; [intros k Hg; apply in_or_app; left; apply Hk; exact Hg|].
      split; [exact Hn|]. split; [|exact He]. intros td Ht. destruct (Ha td Ht) as [[<-|Hi]|[Hi|[Hi|Hi]]].
      + right. right. left. apply in_or_app. right. left. reflexivity.
      + left. exact Hi.
      + right. left. exact Hi.
      + right. right. left. apply in_or_app. left. exact Hi.
      + right. right. right. exact Hi.
    - apply Nat.ltb_lt in L. assert (r = limit) by lia. subst r. apply (IH limit a b _ _ _ H). cbn [og_errors]. split; [exact Hr|]. split; [exact Hb|]. split; [intros td Ht; apply Hd; right; exact Ht|]. split; [exact Hk|].
      split; [exact Hn|]. split.
      + intros td Ht. destruct (Ha td Ht) as [[<-|Hi]|[Hi|[Hi|Hi]]].
        * right. right. right. apply in_or_app. right. left. reflexivity.
        * left. exact Hi.
        * right. left. exact Hi.
        * right. right. left. exact Hi.
        * right. right. right. apply in_or_app. left. exact Hi.
      + intros td Ht. apply in_app_or in Ht. destruct Ht as [Ht|[<-|[]]]; [apply He; exact Ht|]. apply (not_grounded td0 limit known refs Hin Hk Hu F).
    - apply Nat.ltb_ge in L. assert (E : (map (fun td => (td, r)) a ++ map (fun td => (td, S r)) b) ++ [(td0, S r)] = at_round r a (b ++ [td0])).
      { unfold at_round. rewrite map_app, <- app_assoc. reflexivity. }
      rewrite E in H. apply (IH r a (b ++ [td0]) _ _ _ H). split; [exact Hr|]. split; [intros ->; lia|]. split; [|split; [exact Hk|split; [|split; [|exact He]]]].
      + intros td Ht. apply Hd. rewrite app_assoc in Ht. apply in_app_or in Ht. destruct Ht as [Ht|[<-|[]]]; [right; exact Ht|left; reflexivity].
      + intros td Ht. apply in_app_or in Ht. destruct Ht as [Ht|[<-|[]]]; [apply Hn; exact Ht|]. apply (not_grounded td0 r known refs Hin Hk Hu F).
      + intros td Ht. destruct (Ha td Ht) as [[<-|Hi]|[Hi|[Hi|Hi]]].
        * right. left. apply in_or_app. right. left. reflexivity.
        * left. exact Hi.
        * right. left. apply in_or_app. left. exact Hi.
        * right. right. left. exact Hi.
        * right. right. right. exact Hi. }
  induction fuel as [|fuel IH]; intros r [|td0 a] b known og og' H I.
  - destruct b as [|td1 b]; [|cbn in H; discriminate]. cbn in H. injection H as <-. apply I.
  - cbn in H. discriminate.
  - destruct b as [|td1 b]; [cbn in H; injection H as <-; apply I|]. apply next_round in I; [|discriminate].
    apply (Step fuel IH (S r) td1 b [] known og og'); [|exact I]. unfold at_round. cbn [map]. rewrite app_nil_r. exact H.
  - apply (Step fuel IH r td0 a b known og og' H I).
Qed.
End Rounds.
End Order.

Lemma at_zero tds : at_round 0 tds [] = map (fun td => (td, 0%nat)) tds.
Proof. unfold at_round. apply app_nil_r. Qed.
Lemma tries_zero limit tds : tries limit (map (fun td => (td, 0%nat)) tds) = (length tds * S limit)%nat.
Proof. induction tds as [|td tds IH]; [reflexivity|]. cbn [map tries length]. rewrite IH. lia. Qed.
Lemma queue_of (P : tdef -> Prop) defs : (forall td, In td defs -> P td) -> forall q, In q (map (fun td : tdef => (td, 0%nat)) defs) -> P (fst q).
Proof. intros H q Hq. apply in_map_iff in Hq. destruct Hq as (td & <- & Ht). apply H. exact Ht. Qed.

Theorem typedefs_order c limit fuel cm defs tds : (forall td, In td defs -> well_formed c (known_types cm) td) -> order_typedefs c limit fuel cm defs = Ok tds ->
  Permutation tds defs /\ in_order c (known_types cm) tds.
Proof.
  intros W H. unfold order_typedefs in H. destruct (order_loop _ _ _ _ _ _ _) as [og|] eqn:E in H; [|discriminate]. cbn [bind] in H. destruct (og_errors og) as [|e es] eqn:Ee; [|discriminate]. injection H as <-.
  apply order_sound in E; cbn [og_done og_errors] in *.
  - destruct E as [I P]. rewrite Ee in P. rewrite !app_nil_r, map_map in P. cbn in P. rewrite map_id in P. split; [exact P|exact I].
  - apply (queue_of (well_formed c (known_types cm))). exact W.
  - symmetry. apply app_nil_r.
  - intros [|x l1] td l2 Hl; discriminate.
Qed.
Theorem typedefs_end c limit fuel cm defs : (forall td, In td defs -> well_formed c (known_types cm) td) -> length defs * S limit <= fuel ->
  (exists tds, order_typedefs c limit fuel cm defs = Ok tds) \/ order_typedefs c limit fuel cm defs = Raise TypeError.
Proof.
  intros W L. unfold order_typedefs. destruct (order_total c (known_types cm) limit fuel (map (fun td => (td, 0%nat)) defs) (known_types cm) {| og_done := []; og_errors := [] |}) as [og E].
  - intros q Hq. split; [apply (queue_of (well_formed c (known_types cm)) defs W); exact Hq|]. apply in_map_iff in Hq. destruct Hq as (td & <- & _). cbn. lia.
  - rewrite tries_zero. exact L.
  - rewrite E. cbn [bind]. destruct (og_errors og); [left; eexists; reflexivity|right; reflexivity].
Qed.
(** In order implies grounded, at the depth of the position. *)
Lemma ordered_grounded c known tds defs : in_order c known tds -> (forall td, In td tds -> In td defs) -> forall td, In td tds -> grounded_in c known defs (length tds) (td_key td).
Proof.
  revert defs. induction tds as [|x tds IH] using rev_ind; intros defs I S td Hin; [destruct Hin|]. rewrite app_length. cbn [length]. rewrite Nat.add_comm. cbn [Nat.add].
  assert (I' : in_order c known tds).
  { intros l1 td' l2 E k Hk. apply (I l1 td' (l2 ++ [x])); [rewrite E, <- app_assoc; reflexivity|exact Hk]. }
  assert (G : forall td', In td' tds -> grounded_in c known defs (length tds) (td_key td')) by (apply IH; [exact I'|intros td' Hi; apply S, in_or_app; left; exact Hi]).
  apply in_app_or in Hin. destruct Hin as [Hin|[<-|[]]].
  - apply (grounded_mono c known defs _ _ (G td Hin)). lia.
  - apply grounded_typedef; [apply S, in_or_app; right; left; reflexivity|]. intros k Hk. destruct (I tds x [] eq_refl k Hk) as [Hi|(td' & Hi & <-)]; [apply grounded_known; exact Hi|apply G; exact Hi].
Qed.
Theorem typedefs_grounded c limit fuel cm defs tds : (forall td, In td defs -> well_formed c (known_types cm) td) -> order_typedefs c limit fuel cm defs = Ok tds ->
  forall td, In td defs -> grounded_in c (known_types cm) defs (length defs) (td_key td).
Proof.
  intros W H td Hin. destruct (typedefs_order c limit fuel cm defs tds W H) as [P I]. rewrite <- (Permutation_length P).
  apply ordered_grounded; [exact I|intros td' Ht; apply (Permutation_in _ P); exact Ht|apply (Permutation_in _ (Permutation_sym P)); exact Hin].
Qed.
Theorem typedefs_complete c limit fuel cm defs : (forall td, In td defs -> well_formed c (known_types cm) td) ->
  (forall td td', In td defs -> In td' defs -> td_key td = td_key td' -> td = td') -> (forall td, In td defs -> ~ In (td_key td) (known_types cm)) ->
  length defs * S limit <= fuel -> (forall td, In td defs -> grounded_in c (known_types cm) defs (S limit) (td_key td)) ->
  exists tds, order_typedefs c limit fuel cm defs = Ok tds.
Proof.
  intros W D F L G. unfold order_typedefs.
  destruct (order_total c (known_types cm) limit fuel (map (fun td => (td, 0%nat)) defs) (known_types cm) {| og_done := []; og_errors := [] |}) as [og E].
  - intros q Hq. split; [apply (queue_of (well_formed c (known_types cm)) defs W); exact Hq|]. apply in_map_iff in Hq. destruct Hq as (td & <- & _). cbn. lia.
  - rewrite tries_zero. exact L.
  - rewrite E. cbn [bind]. destruct (og_errors og) as [|e es] eqn:Ee; [eexists; reflexivity|]. exfalso.
    pose proof E as E'. apply order_sound in E'; cbn [og_done og_errors] in *; [|apply (queue_of (well_formed c (known_types cm))); exact W|symmetry; apply app_nil_r|intros [|x l1] td l2 Hl; discriminate].
    destruct E' as [_ P]. rewrite <- at_zero in E.
    assert (He : In e (og_errors og)) by (rewrite Ee; left; reflexivity).
    apply (order_rounds c (known_types cm) defs limit D F W fuel 0 defs [] (known_types cm) _ og E) with (td := e).
    + cbn [og_errors]. split; [lia|]. split; [reflexivity|]. rewrite app_nil_r. split; [auto|]. split.
      * intros k Hg. inversion Hg; assumption.
      * split; [intros td []|]. split; [auto|intros td []].
    + exact He.
    + apply G. rewrite !app_nil_r, map_map in P. cbn in P. rewrite map_id in P. apply (Permutation_in _ P). apply in_or_app. right. rewrite Ee. left. reflexivity.
Qed.
