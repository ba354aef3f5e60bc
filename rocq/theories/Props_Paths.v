(** Property theorems: paths of objects (C74), methods attached by path (C75). *)
From Verif Require Import PyStr PyStr_facts PyVal Spec_Path RegTree Spec_RegTree Paths Spec_Paths.
From Verif Require Paths_proofs.
From Coq Require Import Lia.

(* ------------------------------------------------------------------ C74 *)
(** False as stated: entries of a list without keys all have the path of the list; and a quote in a key
    value can end the value early. *)
Definition pa_log : list rschema := [RList (lit "log") [] [RLeaf (lit "msg") (VStr [])]].
Definition pa_two (a b : list str) : list robj := [TList [(a, (1%nat, [TLeaf (VStr [])])); (b, (2%nat, [TLeaf (VStr [])]))]].
Theorem C74_keyless_refuted : exists cs kids p q a, p <> q /\ reaches cs kids p /\ reaches cs kids q /\ path_of cs p = Some a /\ path_of cs q = Some a.
Proof.
  exists pa_log, (pa_two [lit "u1"] [lit "u2"]), [Kid 0; Ent [lit "u1"]], [Kid 0; Ent [lit "u2"]], [lit "log"].
  split; [discriminate|]. split; [eapply rc_entry; [reflexivity|reflexivity|now left]|]. split; [eapply rc_entry; [reflexivity|reflexivity|right; now left]|].
  split; reflexivity.
Qed.
Print Assumptions C74_keyless_refuted.
Definition pa_pair : list rschema := [RList (lit "l") [lit "a"; lit "b"] [RLeaf (lit "a") (VStr []); RLeaf (lit "b") (VStr [])]].
Lemma pa_pair_ok : module_ok pa_pair.
Proof.
  assert (X : forall n, In n [lit "l"; lit "a"; lit "b"] -> xml_name n).
  { intros n [<-|[<-|[<-|[]]]]; do 2 eexists; (split; [reflexivity|]); (split; [left; vm_compute; split; discriminate|constructor]). }
  split; [repeat constructor; cbn; tauto|]. intros s [<-|[]]. apply ok_list.
  - apply X; cbn; tauto.
  - repeat constructor; cbn; intuition discriminate.
  - intros s [<-|[<-|[]]]; constructor; apply X; cbn; tauto.
  - discriminate.
  - repeat constructor; cbn; intuition discriminate.
  - intros k [<-|[<-|[]]]; (split; [split; [apply X; cbn; tauto|split; [apply Forall_cons; [left; vm_compute; split; discriminate|constructor]|discriminate]]|eexists; cbn; eauto]).
Qed.
Theorem C74_quotes_refuted : exists cs kids p q a, module_ok cs /\ p <> q /\ reaches cs kids p /\ reaches cs kids q /\
  path_of cs p = Some a /\ path_of cs q = Some a.
Proof.
  exists pa_pair, (pa_two [lit "x' b='y"; lit "z"] [lit "x"; lit "y' b='z"]), [Kid 0; Ent [lit "x' b='y"; lit "z"]], [Kid 0; Ent [lit "x"; lit "y' b='z"]],
    [lit "l[a='x' b='y' b='z']"].
  split; [exact pa_pair_ok|]. split; [discriminate|]. split; [eapply rc_entry; [reflexivity|reflexivity|now left]|].
  split; [eapply rc_entry; [reflexivity|reflexivity|right; now left]|]. split; reflexivity.
Qed.
Print Assumptions C74_quotes_refuted.
(** The text of the path alone is less: here the entry of one list looks like an entry of a list in it. *)
Definition pa_nested : list rschema :=
  [RList (lit "l") [lit "k"] [RLeaf (lit "k") (VStr []); RList (lit "m") [lit "k"] [RLeaf (lit "k") (VStr [])]]].
Theorem C74_text_refuted : exists cs p q a b, p <> q /\ path_of cs p = Some a /\ path_of cs q = Some b /\ a <> b /\ yang_path a = yang_path b.
Proof.
  exists pa_nested, [Kid 0; Ent [lit "x']/m[k='y"]], [Kid 0; Ent [lit "x"]; Kid 1; Ent [lit "y"]]. do 2 eexists.
  split; [discriminate|]. split; [reflexivity|]. split; [reflexivity|]. split; [discriminate|reflexivity].
Qed.
Print Assumptions C74_text_refuted.
(** With keys in all lists and no quotes in their values: every object has a path, and no other object has
    the same, neither as a list nor as a text. *)
Theorem C74_partial : forall cs kids p q, module_ok cs -> reaches cs kids p -> reaches cs kids q -> keys_quoted cs p -> keys_quoted cs q ->
  exists a b, path_of cs p = Some a /\ path_of cs q = Some b /\ (a = b \/ yang_path a = yang_path b -> p = q).
Proof.
  exact (fun cs kids p q Hm Hp Hq Kp Kq =>
    match Paths_proofs.reaches_path cs kids p Hp, Paths_proofs.reaches_path cs kids q Hq with
    | ex_intro _ a Ea, ex_intro _ b Eb => ex_intro _ a (ex_intro _ b (conj Ea (conj Eb (Paths_proofs.paths_identify cs p q a b Hm Kp Kq Ea Eb))))
    end).
Qed.
Print Assumptions C74_partial.
(** Keys with slashes, spaces and brackets in them. *)
Example C74_case :
  let p := [Kid 0; Ent [lit "x]/l[a="; lit "y z"]; Kid 1] in let q := [Kid 0; Ent [lit "x"; lit "y"]; Kid 0] in
  let full := [TList [([lit "x]/l[a="; lit "y z"], (1%nat, [TLeaf (VStr []); TLeaf (VStr [])])); ([lit "x"; lit "y"], (2%nat, [TLeaf (VStr []); TLeaf (VStr [])]))]] in
  module_ok pa_pair /\ reaches pa_pair full p /\ reaches pa_pair full q /\ keys_quoted pa_pair p /\ keys_quoted pa_pair q /\
  path_of pa_pair p = Some [lit "l[a='x]/l[a=' b='y z']"; lit "b"] /\ yang_path [lit "l[a='x' b='y']"; lit "a"] = lit "/l[a='x' b='y']/a".
Proof.
  intros p q full. split; [exact pa_pair_ok|]. split; [eapply rc_below; [reflexivity|reflexivity|now left|]; eapply rc_kid; reflexivity|].
  split; [eapply rc_below; [reflexivity|reflexivity|right; now left|]; eapply rc_kid; reflexivity|].
  assert (Q : forall v, In v [lit "x]/l[a="; lit "y z"; lit "x"; lit "y"] -> ~ In 39%N v).
  { intros v [<-|[<-|[<-|[<-|[]]]]]; cbn; intuition discriminate. }
  split; [split; [reflexivity|split; [repeat constructor; apply Q; cbn; tauto|exact I]]|]. split; [split; [reflexivity|split; [repeat constructor; apply Q; cbn; tauto|exact I]]|].
  split; vm_compute; reflexivity.
Qed.

(* ------------------------------------------------------------------ C75 *)
(** module m { container c { leaf a; } leaf x; } *)
Definition pa_plain : list rschema := [RCont (lit "c") [RLeaf (lit "a") (VInt 0)]; RLeaf (lit "x") (VInt 0)].
Definition no_attrs (n : str) : list str * list str := ([lit "_pybind_generated_by"], []).
(** False as stated.  A method called "unset_a" takes the place of the container's own _unset_a (which
    choices use). *)
Theorem C75_own_refuted : exists x cs p n, node_attr no_attrs [] cs p n = Some AOwn /\ node_attr no_attrs x cs p n = Some AExt.
Proof. exists [(lit "/c", [(lit "unset_a", true)])], pa_plain, [Kid 0], (lit "_unset_a"). split; vm_compute; reflexivity. Qed.
Print Assumptions C75_own_refuted.
(** With a method called "set" the container cannot be constructed, whereas a leaf keeps its own _set. *)
Theorem C75_construction_refuted : exists m cs p q, node_methods no_attrs [(lit "/c", [(m, true)])] cs p = Some (Raise ValueError) /\
  node_methods no_attrs [(lit "/x", [(m, true)])] cs q = Some (Ok []).
Proof. exists (lit "set"), pa_plain, [Kid 0], [Kid 1]. split; vm_compute; reflexivity. Qed.
Print Assumptions C75_construction_refuted.
(** After a method called "method" no other is attached. *)
Theorem C75_method_refuted : exists x cs p ns m, names_at cs p = Some ns /\ offers x ns m true /\ node_attr no_attrs x cs p (lit "_" ++ m) = Some ANone.
Proof.
  exists [(lit "/x", [(lit "method", true); (lit "ping", true)])], pa_plain, [Kid 1], [lit "x"], (lit "ping"). split; [reflexivity|].
  split; [|vm_compute; reflexivity]. eexists. split; [now left|]. split; [right; now left|]. intros (r & E). discriminate.
Qed.
Print Assumptions C75_method_refuted.

(** The methods offered for a path are attached to the objects with this schema path, whatever the keys of
    the entries on the way, and nothing else of them changes: given that the names are free and that none
    is "method". *)
Theorem C75_partial : forall la x cs p ns, (forall s, In s cs -> yang_named s) -> names_at cs p = Some ns -> NoDup (map fst x) ->
  (forall m b, offers x ns m b -> m <> lit "method" /\ node_attr la [] cs p (lit "_" ++ m) = Some ANone) ->
  node_attr la [] cs p (lit "_method") = Some ANone ->
  forall n, (node_attr la x cs p n = Some AExt <-> exists m, n = lit "_" ++ m /\ offers x ns m true) /\
    ((forall m, n = lit "_" ++ m -> ~ offers x ns m true) -> node_attr la x cs p n = node_attr la [] cs p n).
Proof. exact Paths_proofs.attached. Qed.
Print Assumptions C75_partial.
(** Objects with other schema paths are not affected. *)
Theorem C75_elsewhere : forall la x cs p ns, (forall s, In s cs -> yang_named s) -> names_at cs p = Some ns -> (forall l, ~ In (schema_path ns, l) x) ->
  node_methods la x cs p = Some (Ok []) /\ forall n, node_attr la x cs p n = node_attr la [] cs p n.
Proof. exact Paths_proofs.elsewhere. Qed.
Print Assumptions C75_elsewhere.
(** Leaves, leaf-lists and entries without keys keep what they have, whatever the methods are called. *)
Theorem C75_leaves : forall la x cs p, light cs p ->
  exists l, node_methods la x cs p = Some (Ok l) /\ forall n, node_attr la [] cs p n = Some AOwn -> node_attr la x cs p n = Some AOwn.
Proof. exact Paths_proofs.light_keeps. Qed.
Print Assumptions C75_leaves.
(** What becomes of every name, by the names that are in use: construction fails for the names of the wrapper class;
    otherwise a method is attached unless every object has an attribute of this name or - leaves, leaf-lists and entries
    without keys - its class has; an attribute of the class is kept unless the application's object has one of its name. *)
Theorem C75_exact : forall la x cs p ns k, (forall s, In s cs -> yang_named s) -> names_at cs p = Some ns -> kind_at cs p = Some k -> NoDup (map fst x) ->
  (node_methods la x cs p = Some (Raise ValueError) <-> slotted k /\ exists m b, offers x ns m b /\ In m wrapper_words) /\
  (~ (slotted k /\ exists m b, offers x ns m b /\ In m wrapper_words) -> (forall b, ~ offers x ns (lit "method") b) -> ~ class_words la k (lit "method") ->
   forall m, let kept := In m wrapper_words \/ In m object_words \/ late_words la k m in
     (node_attr la x cs p (lit "_" ++ m) = Some AExt <-> offers x ns m true /\ ~ kept /\ (slotted k \/ ~ class_words la k m)) /\
     (node_attr la x cs p (lit "_" ++ m) = Some AOwn <-> kept \/ (class_words la k m /\ ~ (slotted k /\ exists b, offers x ns m b)))).
Proof. exact Paths_proofs.exactly. Qed.
Print Assumptions C75_exact.
(** So something that is not a method is enough to take an attribute away. *)
Theorem C75_hidden_refuted : exists x cs p n, node_attr no_attrs [] cs p n = Some AOwn /\ (forall ns m, ~ offers x ns m true) /\ node_attr no_attrs x cs p n = Some ANone.
Proof.
  exists [(lit "/c", [(lit "unset_a", false)])], pa_plain, [Kid 0], (lit "_unset_a"). split; [vm_compute; reflexivity|]. split; [|vm_compute; reflexivity].
  intros ns m (l & [[= _ <-]|[]] & [[=]|[]] & _).
Qed.
Print Assumptions C75_hidden_refuted.
(** An entry with keys and an entry without, offered the same. *)
Definition pa_both : list rschema := [RList (lit "l") [lit "a"] [RLeaf (lit "a") (VInt 0)]; RList (lit "w") [] [RLeaf (lit "a") (VInt 0)]].
Example C75_exact_case : let l := [(lit "get_a", true); (lit "set_a", false); (lit "members", true); (lit "parent", true)] in let x := [(lit "/l", l); (lit "/w", l)] in
  let p := [Kid 0; Ent [lit "1"]] in let q := [Kid 1; Ent [lit "u"]] in
  kind_at pa_both p = Some (KEntry [lit "a"] [RLeaf (lit "a") (VInt 0)]) /\ names_at pa_both p = Some [lit "l"] /\ slotted (KEntry [lit "a"] []) /\
  node_methods no_attrs x pa_both p = Some (Ok [lit "_get_a"; lit "_members"]) /\ node_methods no_attrs x pa_both q = Some (Ok [lit "_members"]) /\
  node_attr no_attrs x pa_both p (lit "_set_a") = Some ANone /\ node_attr no_attrs x pa_both q (lit "_set_a") = Some AOwn /\
  node_attr no_attrs x pa_both [Kid 0] (lit "_members") = Some AOwn /\ node_attr no_attrs x pa_both p (lit "_parent") = Some AOwn.
Proof.
  intros l x p q. split; [reflexivity|]. split; [reflexivity|]. split; [exact I|].
  split; [vm_compute; reflexivity|]. split; [vm_compute; reflexivity|]. split; [vm_compute; reflexivity|]. split; [vm_compute; reflexivity|]. split; vm_compute; reflexivity.
Qed.
(** The leaf b of an entry whose keys look like parts of a path; the entry itself and its list. *)
Example C75_case :
  let p := [Kid 0; Ent [lit "x]/l[a="; lit "y/z"]; Kid 1] in let e := [Kid 0; Ent [lit "x[1"; lit "y"]] in
  let x := [(lit "/l/b", [(lit "_private", true); (lit "commit", true); (lit "version", false)]); (lit "/l", [(lit "audit", true)])] in
  (forall s, In s pa_pair -> yang_named s) /\ names_at pa_pair p = Some [lit "l"; lit "b"] /\ names_at pa_pair e = Some [lit "l"] /\ NoDup (map fst x) /\
  light pa_pair p /\ offers x [lit "l"; lit "b"] (lit "commit") true /\
  node_attr no_attrs [] pa_pair p (lit "_commit") = Some ANone /\ node_attr no_attrs [] pa_pair p (lit "_method") = Some ANone /\
  node_attr no_attrs x pa_pair p (lit "_commit") = Some AExt /\ node_attr no_attrs x pa_pair p (lit "_version") = Some ANone /\
  node_attr no_attrs x pa_pair p (lit "_audit") = Some ANone /\
  node_attr no_attrs x pa_pair e (lit "_audit") = Some AExt /\ node_attr no_attrs x pa_pair [Kid 0] (lit "_audit") = Some AExt.
Proof.
  intros p e x. split.
  { intros s [<-|[]]. destruct pa_pair_ok as [_ H]. specialize (H _ (or_introl eq_refl)). inversion H; subst. constructor; [assumption|].
    intros s [<-|[<-|[]]]; constructor; [apply (Paths_proofs.ok_name (RLeaf (lit "a") (VStr [])))|apply (Paths_proofs.ok_name (RLeaf (lit "b") (VStr [])))]; match goal with G : forall s, In s _ -> schema_ok s |- _ => apply G end; cbn; tauto. }
  split; [reflexivity|]. split; [reflexivity|]. split; [repeat constructor; cbn; intuition discriminate|]. split; [left; now eexists _, _|].
  split; [eexists; split; [now left|]; split; [right; now left|]; intros (r & E); discriminate|].
  split; [vm_compute; reflexivity|]. split; [vm_compute; reflexivity|]. split; [vm_compute; reflexivity|]. split; [vm_compute; reflexivity|].
  split; [vm_compute; reflexivity|]. split; vm_compute; reflexivity.
Qed.
