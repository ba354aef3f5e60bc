(** Property theorems about identities: C53, C54, C59. *)
From Verif Require Import PyStr PyStr_facts PyVal PathHelper Identity Spec_Identity.
From Verif Require Identity_proofs IdentityDict_proofs.
From Coq Require Import Lia.
Import ListNotations.

(* ------------------------------------------------------------------ C53 *)
(** The store holds every identity once, with the prefixes of its module, and as children exactly the
    identities derived from it.  The recursion needs no more depth than there are identities. *)
Theorem C53_store : forall c defs fuel depth st, defined_once defs -> build_store c fuel depth defs = Ok st -> length defs < depth ->
  (forall n, In n (map id_of st) <-> exists d, In d defs /\ ident_of d = n) /\ NoDup (map id_of st) /\
  forall i, In i st -> NoDup (id_prefixes i) /\ (forall p, In p (id_prefixes i) <-> prefix_of c (id_module i) p) /\
    (forall ch, In ch (id_children i) <-> derived c defs (id_of i) ch).
Proof. exact Identity_proofs.store_exact. Qed.
Print Assumptions C53_store.
(** The values accepted for a base: all texts of the identities derived from it, each with the module and the
    namespace of an identity that it denotes. *)
Theorem C53_values_partial : forall c defs fuel depth D n k, defined_once defs -> build_identities c fuel depth defs = Ok D -> length defs < depth ->
  (exists d, In d defs /\ ident_of d = n) -> text_of c n k -> (forall d, In d defs -> text_of c (ident_of d) k -> ident_of d = n) ->
  exists e, look k D = Some e /\ (forall t v, look t e = Some v -> exists m, derived c defs n m /\ text_of c m t /\ v = (fst m, m_namespace c (fst m))) /\
    (forall m t, derived c defs n m -> text_of c m t -> look t e <> None).
Proof. exact IdentityDict_proofs.values_exact. Qed.
Print Assumptions C53_values_partial.

Definition two_modules : modules :=
  {| m_prefix m := m; m_namespace m := lit "urn:" ++ m; m_resolve _ p := Some p; m_refs m := [m] |}.
Definition mk (m n : str) (bs : list str) : idef := {| d_name := n; d_module := m; d_bases := bs |}.
(** A chain over two modules, in the wrong order: b:top derives from a:mid, and that from a:root. *)
Definition chain_defs : list idef :=
  [mk (lit "b") (lit "top") [lit "a:mid"]; mk (lit "a") (lit "mid") [lit "root"]; mk (lit "a") (lit "root") []].
Lemma chain_once : defined_once chain_defs.
Proof. intros d d' H H' E. cbn in H, H'. destruct H as [<-|[<-|[<-|[]]]]; destruct H' as [<-|[<-|[<-|[]]]]; try reflexivity; vm_compute in E; discriminate. Qed.
Example C53_case : defined_once chain_defs /\ (exists D e, build_identities two_modules 20 4 chain_defs = Ok D /\ look (lit "root") D = Some e /\
    map fst e = [lit "mid"; lit "a:mid"; lit "top"; lit "b:top"] /\ look (lit "b:top") e = Some (lit "b", lit "urn:b")) /\
  (forall d, In d chain_defs -> text_of two_modules (ident_of d) (lit "root") -> ident_of d = (lit "a", lit "root")).
Proof.
  split; [exact chain_once|]. split.
  - eexists. eexists. split; [vm_compute; reflexivity|]. split; [vm_compute; reflexivity|]. split; vm_compute; reflexivity.
  - intros d [<-|[<-|[<-|[]]]] [H|(p & _ & H)]; try reflexivity; try (vm_compute in H; discriminate).
    + destruct p as [|a [|b [|x [|y [|z p]]]]]; vm_compute in H; try discriminate; destruct p; vm_compute in H; discriminate.
    + destruct p as [|a [|b [|x [|y [|z p]]]]]; vm_compute in H; try discriminate; destruct p; vm_compute in H; discriminate.
Qed.

(* ------------------------------------------------------------------ C54 *)
(** When the store gets built: exactly if every base is defined and no identity derives from itself. *)
Theorem C54_partial : forall c defs, well_named c defs ->
  ((exists fuel depth st, build_store c fuel depth defs = Ok st) <-> forall d, In d defs -> grounded c defs (ident_of d)).
Proof. exact Identity_proofs.ends_iff. Qed.
Print Assumptions C54_partial.
Lemma chain_named : well_named two_modules chain_defs.
Proof.
  intros d b [<-|[<-|[<-|[]]]] Hb; cbn in Hb; [destruct Hb as [<-|[]]|destruct Hb as [<-|[]]|destruct Hb].
  - exists (lit "a", lit "mid"). left. exists (lit "a"). split; [vm_compute; reflexivity|]. split; [vm_compute; intuition discriminate|]. split; [vm_compute; intuition discriminate|reflexivity].
  - exists (lit "a", lit "root"). right. split; [reflexivity|]. split; [vm_compute; intuition discriminate|reflexivity].
Qed.
Example C54_case : well_named two_modules chain_defs /\ (forall d, In d chain_defs -> grounded two_modules chain_defs (ident_of d)) /\ build_store two_modules 5 4 chain_defs = Raise OutOfFuel.
Proof.
  split; [exact chain_named|]. split; [|vm_compute; reflexivity].
  apply (proj1 (Identity_proofs.ends_iff two_modules chain_defs chain_named)). exists 20, 4. eexists. vm_compute. reflexivity.
Qed.
(** With a base that is missing, or a cycle, the loop does not end. *)
Theorem C54_forever : forall c defs fuel, well_named c defs -> (exists d, In d defs /\ ~ grounded c defs (ident_of d)) -> build_loop c fuel defs [] = Raise OutOfFuel.
Proof. exact Identity_proofs.forever. Qed.
Print Assumptions C54_forever.
Definition orphan_defs : list idef := [mk (lit "a") (lit "x") [lit "gone"]].
Theorem C54_refuted : exists c defs, defined_once defs /\ well_named c defs /\ forall fuel depth, build_store c fuel depth defs = Raise OutOfFuel.
Proof.
  exists two_modules, orphan_defs.
  assert (W : well_named two_modules orphan_defs).
  { intros d b [<-|[]] [<-|[]]. exists (lit "a", lit "gone"). right. split; [reflexivity|]. split; [vm_compute; intuition discriminate|reflexivity]. }
  split; [intros d d' [<-|[]] [<-|[]] _; reflexivity|]. split; [exact W|]. intros fuel depth. unfold build_store.
  rewrite (Identity_proofs.forever two_modules orphan_defs fuel W); [reflexivity|].
  exists (mk (lit "a") (lit "x") [lit "gone"]). split; [left; reflexivity|].
  assert (G : forall n, grounded two_modules orphan_defs n -> False).
  { intros n Hg. inversion Hg as [d Hd Hb E]. cbn in Hd. destruct Hd as [<-|[]]. destruct (Hb (lit "gone") (or_introl eq_refl)) as (n' & Hn & Hg').
    inversion Hg' as [d' Hd' _ E']. cbn in Hd'. destruct Hd' as [<-|[]]. destruct n' as [m' s']. cbn in E'. injection E' as <- <-.
    destruct Hn as [(p & E1 & _)|(E1 & _)]; cbn [snd fst] in E1; [|vm_compute in E1; discriminate].
    destruct p as [|? [|? [|? [|? [|? p]]]]]; vm_compute in E1; try discriminate; destruct p; vm_compute in E1; discriminate. }
  exact (G _).
Qed.
Print Assumptions C54_refuted.

(* ------------------------------------------------------------------ C59 *)
(** Identities of other modules do not matter for a text that denotes one identity only.  Missing: texts that
    denote several. *)
Theorem C59_partial : forall c defs fuel depth D n k, defined_once defs -> build_identities c fuel depth defs = Ok D -> length defs < depth ->
  (exists d, In d defs /\ ident_of d = n) -> text_of c n k -> (forall d, In d defs -> text_of c (ident_of d) k -> ident_of d = n) ->
  exists e, look k D = Some e /\ (forall m t, derived c defs n m -> text_of c m t -> look t e <> None) /\
    (forall d t, In d defs -> text_of c (ident_of d) t -> (forall m, derived c defs n m -> ~ text_of c m t) -> look t e = None).
Proof.
  intros c defs fuel depth D n k H1 H2 H3 H4 H5 H6. destruct (IdentityDict_proofs.values_exact c defs fuel depth D n k H1 H2 H3 H4 H5 H6) as (e & E & A & B).
  exists e. split; [exact E|]. split; [exact B|]. intros d t _ _ N. destruct (look t e) as [v|] eqn:L; [|reflexivity].
  destruct (A t v L) as (m & Hm & Ht & _). destruct (N m Hm Ht).
Qed.
Print Assumptions C59_partial.
(** Two modules, each with an identity "base" and one derived from it. *)
Definition same_name_defs : list idef :=
  [mk (lit "a") (lit "base") []; mk (lit "a") (lit "x") [lit "base"]; mk (lit "b") (lit "base") []; mk (lit "b") (lit "y") [lit "base"]].
Lemma same_name_derived : forall c, (forall m p, m_resolve c m p = Some m) -> forall m, derived c same_name_defs (lit "a", lit "base") m -> fst m = lit "a".
Proof.
  intros c R. assert (G : forall n m, derived c same_name_defs n m -> fst m = fst n).
  { induction 1 as [d b n Hd Hb Hn|n d b m Hder IH Hd Hb Hn].
    - destruct Hn as [(p & _ & _ & _ & E)|(_ & _ & E)]; rewrite R in E; injection E as E; rewrite <- E; reflexivity.
    - rewrite <- IH. destruct Hn as [(p & _ & _ & _ & E)|(_ & _ & E)]; rewrite R in E; injection E as E; rewrite <- E; reflexivity. }
  intros m H. exact (G _ _ H).
Qed.
Definition own_modules (refs : str -> list str) : modules :=
  {| m_prefix m := m; m_namespace m := lit "urn:" ++ m; m_resolve m _ := Some m; m_refs := refs |}.
Lemma same_name_once : defined_once same_name_defs.
Proof. intros d d' H H' E. cbn in H, H'. destruct H as [<-|[<-|[<-|[<-|[]]]]]; destruct H' as [<-|[<-|[<-|[<-|[]]]]]; try reflexivity; vm_compute in E; discriminate. Qed.
(** base "base" in module a, without a prefix: y of module b is accepted, x of module a is not. *)
Theorem C59_name_refuted : exists c defs D n e y, defined_once defs /\ build_identities c 20 6 defs = Ok D /\ (exists d, In d defs /\ ident_of d = n) /\ look (snd n) D = Some e /\
  ~ derived c defs n y /\ look (snd y) e <> None /\ (exists x, derived c defs n x /\ forall t, text_of c x t -> look t e = None).
Proof.
  exists (own_modules (fun m => [m])), same_name_defs. eexists. exists (lit "a", lit "base"). eexists. exists (lit "b", lit "y"). split; [exact same_name_once|].
  split; [vm_compute; reflexivity|]. split; [exists (mk (lit "a") (lit "base") []); split; [left; reflexivity|reflexivity]|]. split; [vm_compute; reflexivity|].
  split; [intros H; pose proof (same_name_derived (own_modules _) (fun m p => eq_refl) _ H) as F; vm_compute in F; discriminate|]. split; [vm_compute; discriminate|].
  exists (lit "a", lit "x"). split.
  - change (lit "a", lit "x") with (ident_of (mk (lit "a") (lit "x") [lit "base"])). apply (derived_base _ _ (mk (lit "a") (lit "x") [lit "base"]) (lit "base")); [right; left; reflexivity|left; reflexivity|].
    right. split; [reflexivity|]. split; [vm_compute; intuition discriminate|reflexivity].
  - intros t [E|(p & [->|[->|[<-|[]]]] & ->)]; [rewrite E| | | ]; vm_compute; reflexivity.
Qed.
Print Assumptions C59_name_refuted.
(** Module b imported somewhere under the prefix "a", which is that of module a: "a:base" as well. *)
Theorem C59_prefix_refuted : exists c defs D n e y, defined_once defs /\ build_identities c 20 6 defs = Ok D /\ (exists d, In d defs /\ ident_of d = n) /\ look (m_prefix c (fst n) ++ lit ":" ++ snd n) D = Some e /\
  ~ derived c defs n y /\ look (m_prefix c (fst y) ++ lit ":" ++ snd y) e <> None.
Proof.
  exists (own_modules (fun m => [lit "a"])), same_name_defs. eexists. exists (lit "a", lit "base"). eexists. exists (lit "b", lit "y"). split; [exact same_name_once|].
  split; [vm_compute; reflexivity|]. split; [exists (mk (lit "a") (lit "base") []); split; [left; reflexivity|reflexivity]|]. split; [vm_compute; reflexivity|].
  split; [intros H; pose proof (same_name_derived (own_modules _) (fun m p => eq_refl) _ H) as F; vm_compute in F; discriminate|]. vm_compute. discriminate.
Qed.
Print Assumptions C59_prefix_refuted.
(** With prefixes that are told apart, "a:base" is right in the same modules. *)
Example C59_case : let c := own_modules (fun m => [m]) in exists D e, build_identities c 20 6 same_name_defs = Ok D /\ look (lit "a:base") D = Some e /\ map fst e = [lit "x"; lit "a:x"] /\
  (forall d, In d same_name_defs -> text_of c (ident_of d) (lit "a:base") -> ident_of d = (lit "a", lit "base")).
Proof.
  cbv zeta. eexists. eexists. split; [vm_compute; reflexivity|]. split; [vm_compute; reflexivity|]. split; [vm_compute; reflexivity|].
  intros d [<-|[<-|[<-|[<-|[]]]]] [H|(p & [->|[->|[<-|[]]]] & H)]; try reflexivity; vm_compute in H; discriminate.
Qed.
