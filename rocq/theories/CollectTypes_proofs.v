(** From modules to the types of leaves. *)
From Verif Require Import PyStr PyStr_facts PyVal PathHelper PathSim_proofs Identity Restricted Spec_Types Typedefs Spec_Typedefs Collect Spec_Collect Collect_proofs.
From Verif Require TypedefMap_proofs TypedefRestr_proofs.
From Coq Require Import Lia.
Import ListNotations.

Lemma set_keys {A} k (v : A) d : has k d = false -> dict_set k v d = d ++ [(k, v)].
Proof.
  unfold has. induction d as [|[m a] d IH]; [reflexivity|]. cbn [look dict_set]. destruct (str_eqb k m); [discriminate|]. intros H. rewrite (IH H). reflexivity.
Qed.
Lemma keep_nodup {D} (new ds : list (str * D)) : NoDup (map fst ds) -> NoDup (map fst (keep_first ds new)).
Proof.
  unfold keep_first. apply (fold_inv _ (fun ds : list (str * D) => NoDup (map fst ds))). intros d [k v] _ H. cbn [fst snd]. destruct (has k d) eqn:E; [exact H|]. rewrite (set_keys k v d E), map_app. cbn [map fst].
  apply NoDup_rev in H. rewrite <- (rev_involutive (map fst d ++ [k])). apply NoDup_rev. rewrite rev_app_distr. cbn [rev app]. constructor; [|exact H]. rewrite <- in_rev. intros C. apply TypedefMap_proofs.look_in in C.
  apply has_look in C. congruence.
Qed.
Lemma in_look {A} (k : str) (v : A) d : NoDup (map fst d) -> In (k, v) d -> look k d = Some v.
Proof.
  induction d as [|[m a] d IH]; intros N; [intros []|]. inversion N as [|? ? N1 N2]; subst. intros [E|H]; cbn [look].
  - injection E as -> ->. rewrite str_eqb_refl. reflexivity.
  - destruct (str_eqb k m) eqn:E; [|apply (IH N2 H)]. apply str_eqb_eq in E as ->. destruct N1. apply in_map_iff. exists (m, v). split; [reflexivity|exact H].
Qed.
Lemma look_member {A} (k : str) (v : A) d : look k d = Some v -> In (k, v) d.
Proof. induction d as [|[m a] d IH]; [discriminate|]. cbn [look]. destruct (str_eqb k m) eqn:E; [|intros H; right; apply IH, H]. intros H. injection H as ->. apply str_eqb_eq in E as ->. left. reflexivity. Qed.
Lemma collect_nodup {D} (c : str -> option (ymod D)) fuel ms kw defs : collect c fuel ms kw = Ok defs -> NoDup (map fst defs).
Proof.
  unfold collect. destruct (gather c fuel ms []) as [all|]; [|discriminate]. intros E. injection E as <-. unfold definitions. apply (fold_inv _ (fun ds : list (str * D) => NoDup (map fst ds))); [|constructor].
  intros ds pm _. apply keep_nodup.
Qed.

Lemma order_members c bt limit : forall fuel queue known og og', order_loop c bt limit fuel queue known og = Ok og' ->
  forall td, In td (og_done og') \/ In td (og_errors og') <-> In td (map fst queue) \/ In td (og_done og) \/ In td (og_errors og).
Proof.
  induction fuel as [|fuel IH]; intros [|[td0 n] queue] known og og' H td; cbn [order_loop] in H; try discriminate.
  - injection H as <-. cbn. tauto.
  - injection H as <-. cbn. tauto.
  - destruct (references c bt td0) as [refs|]; [|discriminate]. cbn [bind] in H. destruct (forallb _ refs); [|destruct (Nat.ltb limit (S n))]; rewrite (IH _ _ _ _ H td); cbn [og_done og_errors map fst In]; rewrite ?map_app, ?in_app_iff; cbn [map fst In]; tauto.
Qed.
Lemma order_same c limit fuel cm defs tds : order_typedefs c limit fuel cm defs = Ok tds -> forall td, In td tds <-> In td defs.
Proof.
  unfold order_typedefs. destruct (order_loop _ _ _ _ _ _ _) as [og|] eqn:E; [|discriminate]. cbn [bind]. destruct (og_errors og) eqn:Er; [|discriminate]. intros H td. injection H as <-.
  pose proof (order_members c _ limit fuel _ _ _ _ E td) as M. rewrite Er in M. cbn [og_done og_errors In] in M. rewrite map_map, map_id in M. cbn in M. tauto.
Qed.

Section Types.
Context (ctx : str -> option (ymod tbody)) (ms : list (ymod tbody)) (c : modules) (xp : bool) (limit fuel fuel' : nat) (cm0 cm : class_map).
Let kw := lit "typedef".
Context (B : by_name ctx ms) (N : no_colons ctx ms kw).
Context (U : forall p m n d p' m' d', under ctx ms p m -> defines kw (mo_body m) n d -> under ctx ms p' m' -> defines kw (mo_body m') n d' -> p = p' /\ d = d').
Context (F : forall p m n d, under ctx ms p m -> defines kw (mo_body m) n d -> ~ In n (known_types cm0) /\ ~ In (p ++ lit ":" ++ n) (known_types cm0) /\ ~ In n (lit "union" :: yang_types)).
Context (H : compile_types ctx c xp limit fuel fuel' cm0 ms = Ok cm).

Lemma compiled : exists defs tds, collect ctx fuel ms kw = Ok defs /\ process_typedefs xp cm0 tds = Ok cm /\ forall td, In td tds <-> In td (typedefs_of defs).
Proof.
  unfold compile_types in H. destruct (collect ctx fuel ms (lit "typedef")) as [defs|] eqn:E; [|discriminate]. cbn [bind] in H. unfold build_typedefs in H.
  destruct (order_typedefs c limit fuel' cm0 (typedefs_of defs)) as [tds|] eqn:Eo; [|discriminate]. cbn [bind] in H. exists defs, tds. split; [exact E|]. split; [exact H|]. apply (order_same _ _ _ _ _ _ Eo).
Qed.
Theorem types_apart p m n d ty : under ctx ms p m -> defines kw (mo_body m) n d -> plain ty -> ty_arg ty = n \/ ty_arg ty = p ++ lit ":" ++ n ->
  exists r0 r, build_elemtype xp cm (tb_type d) = Ok r0 /\ build_elemtype xp cm ty = Ok r /\ forall O v, leaf_assign O (leaf_ltype r) v = leaf_assign O (leaf_ltype r0) v.
Proof.
  intros Hu Hd Hp Ha. destruct compiled as (defs & tds & Ec & Ep & Hin).
  assert (T : forall td, In td tds -> exists p m n d, under ctx ms p m /\ defines kw (mo_body m) n d /\ ~ In 58%N p /\ ~ In 58%N n /\
              td = {| td_key := p ++ lit ":" ++ n; td_module := tb_module d; td_type := tb_type d; td_default := tb_default d |}).
  { intros td Ht. apply Hin in Ht. unfold typedefs_of in Ht. apply in_map_iff in Ht as ([k d'] & <- & Hk). cbn [fst snd]. apply in_look in Hk; [|apply (collect_nodup _ _ _ _ _ Ec)].
    destruct (collect_only ctx fuel ms kw defs k d' Ec Hk) as (p' & m' & n' & Hu' & Hd' & ->). exists p', m', n', d'. destruct (N p' m' Hu') as [Np Nn]. split; [exact Hu'|]. split; [exact Hd'|]. split; [exact Np|].
    split; [apply (Nn n' d' Hd')|reflexivity]. }
  assert (Nm : forall t td, named tds t td -> exists p m n d, under ctx ms p m /\ defines kw (mo_body m) n d /\ (t = n \/ t = p ++ lit ":" ++ n) /\ ~ In 58%N p /\ ~ In 58%N n /\
              td = {| td_key := p ++ lit ":" ++ n; td_module := tb_module d; td_type := tb_type d; td_default := tb_default d |}).
  { intros t td [Ht Hn]. destruct (T td Ht) as (p' & m' & n' & d' & Hu' & Hd' & Np & Nn & ->). exists p', m', n', d'. split; [exact Hu'|]. split; [exact Hd'|]. split; [|split; [exact Np|split; [exact Nn|reflexivity]]].
    cbn [td_key] in Hn. destruct Hn as [->|(q & E & Nq & Nt)]; [right; reflexivity|left]. destruct (pkey_inj p' n' q t Np Nq E) as [_ <-]. reflexivity. }
  assert (Two : forall t p m n d p' m' n' d', under ctx ms p m -> defines kw (mo_body m) n d -> under ctx ms p' m' -> defines kw (mo_body m') n' d' -> ~ In 58%N p -> ~ In 58%N p' -> ~ In 58%N n -> ~ In 58%N n' ->
             (t = n \/ t = p ++ lit ":" ++ n) -> (t = n' \/ t = p' ++ lit ":" ++ n') -> p = p' /\ n = n' /\ d = d').
  { intros t p1 m1 n1 d1 p2 m2 n2 d2 U1 D1 U2 D2 P1 P2 N1 N2 E1 E2. assert (En : n1 = n2).
    { destruct E1 as [->|E1], E2 as [E2|E2].
      - exact E2.
      - destruct N1. rewrite E2. apply in_or_app. right. left. reflexivity.
      - destruct N2. rewrite <- E2, E1. apply in_or_app. right. left. reflexivity.
      - rewrite E1 in E2. apply (pkey_inj p1 n1 p2 n2 P1 P2 E2). }
    subst n2. destruct (U p1 m1 n1 d1 p2 m2 d2 U1 D1 U2 D2) as [<- <-]. split; [reflexivity|]. split; reflexivity. }
  assert (Sep : separate (known_types cm0) tds).
  { split; [|split].
    - intros td Ht. destruct (T td Ht) as (p' & m' & n' & d' & _ & _ & Np & Nn & ->). exists p', n'. split; [reflexivity|]. split; assumption.
    - intros t td td' H1 H2. destruct (Nm t td H1) as (p1 & m1 & n1 & d1 & U1 & D1 & E1 & P1 & N1 & ->). destruct (Nm t td' H2) as (p2 & m2 & n2 & d2 & U2 & D2 & E2 & P2 & N2 & ->).
      destruct (Two t p1 m1 n1 d1 p2 m2 n2 d2 U1 D1 U2 D2 P1 P2 N1 N2 E1 E2) as (<- & <- & <-). reflexivity.
    - intros t td H1. destruct (Nm t td H1) as (p1 & m1 & n1 & d1 & U1 & D1 & E1 & P1 & N1 & ->). destruct (F p1 m1 n1 d1 U1 D1) as (F1 & F2 & _). destruct E1 as [->| ->]; assumption. }
  assert (Tn : typedef_names tds).
  { intros t td H1. destruct (Nm t td H1) as (p1 & m1 & n1 & d1 & U1 & D1 & E1 & P1 & N1 & ->). destruct (F p1 m1 n1 d1 U1 D1) as (_ & _ & F3). destruct E1 as [->|E1]; [exact F3|]. intros C.
    assert (Cl : In 58%N t) by (rewrite E1; apply in_or_app; right; left; reflexivity). clear - C Cl. unfold yang_types in C. cbn [map In] in C.
    repeat (destruct C as [<-|C]; [vm_compute in Cl; intuition discriminate|]). destruct C. }
  destruct (collect_found ctx fuel ms kw defs p m n d B N Ec Hu Hd) as (m' & d' & L & Hu' & Hd'). destruct (U p m n d p m' d' Hu Hd Hu' Hd') as [_ <-]. clear m' Hu' Hd'.
  set (td := {| td_key := p ++ lit ":" ++ n; td_module := tb_module d; td_type := tb_type d; td_default := tb_default d |}).
  assert (Ht : In td tds) by (apply Hin; unfold typedefs_of; apply in_map_iff; exists (p ++ lit ":" ++ n, d); split; [reflexivity|apply look_member, L]).
  destruct (N p m Hu) as [Np Nn]. specialize (Nn n d Hd).
  assert (Hn : named tds (ty_arg ty) td).
  { split; [exact Ht|]. destruct Ha as [->|Ha]; [right; exists p; split; [reflexivity|split; assumption]|left; exact Ha]. }
  destruct (TypedefMap_proofs.process_made xp cm0 tds cm Sep Ep) as (_ & _ & M3). destruct (M3 td Ht) as (r0 & e & kn & Eb & Ee & Hl). change (td_type td) with (tb_type d) in Eb.
  exists r0, (EOne e). split; [exact Eb|]. specialize (Hl _ Hn). pose proof (Tn _ _ Hn) as Nt.
  assert (Nl : forall s : String.string, str_in (lit s) (lit "union" :: yang_types) = true -> str_eqb (ty_arg ty) (lit s) = false).
  { intros s Hs. apply str_eqb_neq. intros E. apply Nt. rewrite E. apply str_in_In, Hs. }
  split.
  - apply TypedefDefault_proofs.restrictions_plain in Hp. clear - Hp Nl Hl. destruct ty as [a ps ln rg en dg pt rq bs bi subs]. cbn [ty_arg] in *. cbn [build_elemtype ty_arg ty_enums ty_digits ty_path ty_require ty_bases ty_bits ty_subs].
    rewrite Hp. rewrite !Nl by (vm_compute; reflexivity). rewrite Hl. reflexivity.
  - assert (E : leaf_ltype (EOne e) = leaf_ltype r0); [|intros O v; rewrite E; reflexivity]. destruct r0 as [e1|l1]; cbn [typedef_entry] in Ee.
    + match type of Ee with bind ?m _ = _ => destruct m as [q|]; cbn [bind] in Ee; [|discriminate] end. injection Ee as <-. reflexivity.
    + destruct (union_parents kn l1) as [q|]; cbn [bind] in Ee; [|discriminate]. injection Ee as <-. reflexivity.
Qed.
End Types.
