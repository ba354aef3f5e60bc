(** Property theorems about literals in the generated code: C98. *)
From Coq Require Import String.
From Verif Require Import PyStr PyVal Restricted Defaults Docs Literals Spec_Names Spec_Literals.
From Verif Require Literals_proofs.
Import ListNotations.

(* ------------------------------------------------------------------ C98 *)
Definition config_code (b : bool) : str := lit ", is_config=" ++ if b then lit "True" else lit "False".
(** Names, the names of types and every namespace without apostrophes are read from the generated code as they are in the
    module, and around them is the code that the plugin wrote. *)
Theorem C98_partial : forall name ns module ty b, yang_identifier name -> yang_identifier module -> type_ref ty -> uri ns -> ~ In apostrophe ns ->
  arguments_read ns module ty b = Some ([ns; module; ty], config_code b) /\ class_vars_read name ns = Some ([name; ns], [10%N]).
Proof. exact Literals_proofs.clean_thm. Qed.
Print Assumptions C98_partial.
(** A namespace with apostrophes in pairs: the pairs are lost, silently. *)
Theorem C98_pairs : forall name ps module ty b, yang_identifier name -> yang_identifier module -> type_ref ty -> ps <> [] ->
  Forall (fun p => p <> [] /\ ~ In apostrophe p /\ Forall (fun x => uri_char x = true) p) ps ->
  arguments_read (with_pairs ps) module ty b = Some ([concat ps; module; ty], config_code b) /\ class_vars_read name (with_pairs ps) = Some ([name; concat ps], [10%N]).
Proof. exact Literals_proofs.pairs_thm. Qed.
Print Assumptions C98_pairs.
(** With a single one: the literal ends there, and the rest of the namespace is read as code. *)
Theorem C98_single : forall a c b module ty cfg, uri a -> ~ In apostrophe a -> c <> apostrophe -> exists code,
  argument (lit ", namespace=") (arguments_text (a ++ apostrophe :: c :: b) module ty cfg) = Doc a (c :: b ++ apostrophe :: lit ", defining_module=" ++ code).
Proof. intros a c b module ty cfg H1 H2 H3. eexists. exact (Literals_proofs.single_thm a c b module ty cfg H1 H2 H3). Qed.
Print Assumptions C98_single.

Lemma lt_id c s : yang_start c = true -> forallb yang_char s = true -> yang_identifier (c :: s).
Proof. intros Hc Hs. exists c, s. split; [reflexivity|]. split; [assumption|]. apply Forall_forall. apply forallb_forall. assumption. Qed.
Lemma lt_uri c s : is_alpha c = true -> forallb uri_char s = true -> uri (c :: s).
Proof. intros Hc Hs. exists c, s. split; [reflexivity|]. split; [assumption|]. apply Forall_forall. apply forallb_forall. assumption. Qed.
Lemma lt_none s : existsb (N.eqb apostrophe) s = false -> ~ In apostrophe s.
Proof. intros H Hin. assert (E : existsb (N.eqb apostrophe) s = true) by (apply existsb_exists; exists apostrophe; split; [assumption|apply N.eqb_refl]). rewrite E in H. discriminate. Qed.
Lemma lt_type s : s <> [] -> forallb (fun c => yang_char c || N.eqb c 58)%bool s = true -> type_ref s.
Proof.
  intros Hn H. split; [assumption|]. apply Forall_forall. intros c Hc. pose proof (proj1 (forallb_forall _ _) H c Hc) as E. cbn beta in E. apply Bool.orb_true_iff in E.
  destruct E as [E|E]; [left; exact E|right; apply N.eqb_eq; exact E].
Qed.
Example C98_case : yang_identifier (lit "if-name") /\ yang_identifier (lit "ietf-x") /\ type_ref (lit "inet:ipv4") /\ uri (lit "http://example.com/ns?a=(1)") /\
  ~ In apostrophe (lit "http://example.com/ns?a=(1)") /\
  Forall (fun p => p <> [] /\ ~ In apostrophe p /\ Forall (fun x => uri_char x = true) p) [lit "urn:a"; lit "b"].
Proof.
  split; [apply lt_id; vm_compute; reflexivity|]. split; [apply lt_id; vm_compute; reflexivity|]. split; [apply lt_type; [discriminate|vm_compute; reflexivity]|].
  split; [apply lt_uri; vm_compute; reflexivity|]. split; [apply lt_none; vm_compute; reflexivity|].
  constructor; [|constructor; [|constructor]]; (split; [discriminate|]; split; [apply lt_none; vm_compute; reflexivity|]; apply Forall_forall; apply forallb_forall; vm_compute; reflexivity).
Qed.
(** Legal URIs: one that loses its apostrophes, and one whose literal ends before a plus sign, after which Python goes on to
    call a function. *)
Theorem C98_refuted : exists u1 v1 u2 v2 code, uri u1 /\ uri u2 /\
  (forall module ty b, yang_identifier module -> type_ref ty -> arguments_read u1 module ty b = Some ([v1; module; ty], config_code b)) /\ v1 <> u1 /\
  argument (lit ", namespace=") (arguments_text u2 (lit "m") (lit "string") true) = Doc v2 (lit "+exit()+" ++ code).
Proof.
  exists (lit "urn:a''b"), (lit "urn:ab"), (lit "urn:a'+exit()+'b"), (lit "urn:a"). eexists.
  split; [apply lt_uri; vm_compute; reflexivity|]. split; [apply lt_uri; vm_compute; reflexivity|].
  split; [|split; [intros E; apply (f_equal (@length _)) in E; vm_compute in E; discriminate|vm_compute; reflexivity]].
  intros module ty b Hm Ht. refine (proj1 (C98_pairs (lit "x") [lit "urn:a"; lit "b"] module ty b _ Hm Ht _ _)); [apply lt_id; reflexivity|discriminate|].
  constructor; [|constructor; [|constructor]]; (split; [discriminate|]; split; [apply lt_none; vm_compute; reflexivity|]; apply Forall_forall; apply forallb_forall; vm_compute; reflexivity).
Qed.
Print Assumptions C98_refuted.
