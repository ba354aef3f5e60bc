(** Property C76: in the package of --split-class-dir every class finds the classes below it. *)
From Verif Require Import PyStr PyVal SafeName Restricted Tree Compile Split Spec_Split Split_proofs.
Import ListNotations.

Definition sp_head (n : str) : yhead := {| y_name := n; y_ns := lit "urn:m"; y_mod := lit "m"; y_config := None |}.
Definition sp_leaf (n : str) : ystmt := YLeaf (sp_head n) (LUnion []) None (lit "string").
Definition sp_cont (n : str) (cs : list ystmt) : ystmt := YCont (sp_head n) false cs.
Definition sp_list (n : str) (cs : list ystmt) : ystmt := YList (sp_head n) None false cs.

(** A container with the name of a reserved word inside one of the same name: the class is written to
    "class__", the import says "class_". *)
Theorem C76_reserved_refuted : exists po m ss f md c, In f (emit_module po m ss) /\ In (md, c) (f_uses f) /\
  ~ In md (f_imports f) /\ forall g, In g (emit_module po m ss) -> forall i, In i (f_imports f) -> f_dir g <> f_dir f ++ [i].
Proof.
  exists false, (lit "m"), [sp_cont (lit "class") [sp_cont (lit "class") [sp_leaf (lit "x")]]].
  eexists (file_of false (lit "m") (lit "class") [lit "class"] [sp_cont (lit "class") [sp_leaf (lit "x")]]), (lit "class__"), (lit "class_").
  split; [right; left; reflexivity|]. split; [left; reflexivity|].
  split; [intros [E|[]]; discriminate|]. intros g Hg i [<-|[]]. vm_compute in Hg. destruct Hg as [<-|[<-|[<-|[]]]]; vm_compute; discriminate.
Qed.
Print Assumptions C76_reserved_refuted.
(** A container "a_b" inside "a-b": the class of the file hides the module. *)
Theorem C76_shadow_refuted : exists po m ss f md c, In f (emit_module po m ss) /\ In (md, c) (f_uses f) /\ f_class f = md.
Proof.
  exists false, (lit "m"), [sp_cont (lit "a-b") [sp_cont (lit "a_b") [sp_leaf (lit "x")]]].
  eexists (file_of false (lit "m") (lit "a-b") [lit "a-b"] [sp_cont (lit "a_b") [sp_leaf (lit "x")]]), (lit "a_b"), (lit "a_b").
  split; [right; left; reflexivity|]. split; [left; reflexivity|reflexivity].
Qed.
Print Assumptions C76_shadow_refuted.
(** "a" and "a_" inside "a" share a directory; so do the containers "c" inside each, and only the second
    of the two classes "c" is left, with other elements than the first. *)
Theorem C76_shared_refuted : exists po m ss f md c g g', In f (emit_module po m ss) /\ In (md, c) (f_uses f) /\
  In g (emit_module po m ss) /\ In g' (emit_module po m ss) /\ f_dir g = f_dir f ++ [md] /\ f_dir g' = f_dir f ++ [md] /\
  f_class g = c /\ f_class g' = c /\ f_uses g <> f_uses g'.
Proof.
  exists false, (lit "m"), [sp_cont (lit "a") [sp_cont (lit "a") [sp_cont (lit "c") [sp_cont (lit "d") [sp_leaf (lit "x")]]];
                                               sp_cont (lit "a_") [sp_cont (lit "c") [sp_leaf (lit "y")]]]].
  exists (file_of false (lit "m") (lit "a") [lit "a"; lit "a"] [sp_cont (lit "c") [sp_cont (lit "d") [sp_leaf (lit "x")]]]), (lit "c"), (lit "c").
  exists (file_of false (lit "m") (lit "c") [lit "a"; lit "a"; lit "c"] [sp_cont (lit "d") [sp_leaf (lit "x")]]), (file_of false (lit "m") (lit "c") [lit "a"; lit "a_"; lit "c"] [sp_leaf (lit "y")]).
  split; [right; right; left; reflexivity|]. split; [left; reflexivity|]. split; [do 3 right; left; reflexivity|]. split; [do 6 right; left; reflexivity|].
  split; [reflexivity|]. split; [reflexivity|]. split; [reflexivity|]. split; [reflexivity|]. vm_compute. discriminate.
Qed.
Print Assumptions C76_shared_refuted.
(** A container "long" takes the name that the file above uses for integers. *)
Theorem C76_header_refuted : exists po m ss f n, In f (emit_module po m ss) /\ In n header_names /\ In n (f_imports f).
Proof.
  exists false, (lit "m"), [sp_cont (lit "long") [sp_leaf (lit "x")]], (file_of false (lit "m") (lit "m") [] [sp_cont (lit "long") [sp_leaf (lit "x")]]), (lit "long").
  split; [left; reflexivity|]. split; [do 14 right; left; reflexivity|]. left; reflexivity.
Qed.
Print Assumptions C76_header_refuted.

(** The module named where a class is used is the directory the class is written to, whatever the names. *)
Theorem C76_modules : forall po m ss f md c, named po ss -> In f (emit_module po m ss) -> In (md, c) (f_uses f) ->
  exists g, In g (emit_module po m ss) /\ f_dir g = f_dir f ++ [md] /\ f_class g = c.
Proof. exact Split_proofs.module_is_dir. Qed.
Print Assumptions C76_modules.
(** With tidy names each class is found by the class above. *)
Theorem C76_partial : forall po m ss, tidy po m ss -> ~ In (safe_name m) header_names -> importable (emit_module po m ss).
Proof. exact Split_proofs.split_importable. Qed.
Print Assumptions C76_partial.
Theorem C76_apart : forall po m ss, tidy po m ss -> NoDup (map f_dir (emit_module po m ss)).
Proof. exact Split_proofs.dirs_differ. Qed.
Print Assumptions C76_apart.

(** A container called like the module, with one of its own name in a case of a choice beside "if", "a-b"
    and a list. *)
Definition sp_inner : list ystmt :=
  [sp_leaf (lit "v"); YChoice (lit "how") None [(lit "one", [sp_cont (lit "m") [sp_leaf (lit "x")]]); (lit "two", [sp_list (lit "if") [sp_leaf (lit "m")]])]; sp_cont (lit "a-b") [sp_leaf (lit "y")]].
Definition sp_case : list ystmt := [sp_cont (lit "m") sp_inner; sp_leaf (lit "w")].
Lemma sp_node (n n' : str) cs sub : node_of (sp_cont n cs) n' sub \/ node_of (sp_list n cs) n' sub -> n' = n /\ sub = cs.
Proof. intros [[(h & pr & E & En)|(h & k & od & E & En)]|[(h & pr & E & En)|(h & k & od & E & En)]]; inversion E; subst; now split. Qed.
Lemma sp_leafs n x : tidy false n [sp_leaf x].
Proof. apply tidy_leaves. intros s [<-|[]]. now eexists _, _, _, _. Qed.
Lemma sp_leaf_node x n sub : ~ node_of (sp_leaf x) n sub.
Proof. intros [(a & b & E & _)|(a & b & c & E & _)]; discriminate. Qed.
Example C76_case : tidy false (lit "m") sp_case /\ ~ In (safe_name (lit "m")) header_names /\ named false sp_case /\
  exists f, In f (emit_module false (lit "m") sp_case) /\ f_dir f = [lit "m_"] /\
    f_uses f = [(lit "m_", lit "m"); (lit "if_", lit "if_"); (lit "a_b", lit "a_b")] /\ f_imports f = [lit "m_"; lit "if_"; lit "a_b"] /\
    exists g, In g (emit_module false (lit "m") sp_case) /\ f_dir g = [lit "m_"; lit "m_"] /\ f_class g = lit "m".
Proof.
  assert (Hin : tidy false (lit "m") sp_inner).
  { assert (En : flat_map (class_names false) sp_inner = [lit "m"; lit "if"; lit "a-b"]) by reflexivity. constructor; rewrite ?En.
    - repeat constructor; vm_compute; intuition discriminate.
    - intros a [<-|[<-|[<-|[]]]]; (split; [discriminate|split; [vm_compute; intuition discriminate|vm_compute; intuition discriminate]]).
    - intros _. split; [vm_compute; intuition discriminate|]. split; [vm_compute; intuition discriminate|]. intros a [<-|[<-|[<-|[]]]]; vm_compute; discriminate.
    - intros s n' sub Hc Hn. unfold sp_inner in Hc. apply child_cons in Hc as [[-> _]|[(? & ? & ? & ? & ? & E & _)|Hc]]; [now apply sp_leaf_node in Hn|discriminate|].
      apply child_cons in Hc as [[-> Hx]|[(nm & c & cases & k & l & E & Hk & Hc)|Hc]]; [edestruct Hx; reflexivity| |].
      + injection E as _ _ <-. destruct Hk as [Hk|[Hk|[]]]; injection Hk as _ <-; apply child_cons in Hc as [[-> _]|[(? & ? & ? & ? & ? & E & _)|Hc]]; try discriminate; try now apply child_nil in Hc.
        * destruct (sp_node (lit "m") n' [sp_leaf (lit "x")] sub (or_introl Hn)) as [-> ->]. apply sp_leafs.
        * destruct (sp_node (lit "if") n' [sp_leaf (lit "m")] sub (or_intror Hn)) as [-> ->]. apply sp_leafs.
      + apply child_cons in Hc as [[-> _]|[(? & ? & ? & ? & ? & E & _)|Hc]]; [|discriminate|now apply child_nil in Hc].
        destruct (sp_node (lit "a-b") n' [sp_leaf (lit "y")] sub (or_introl Hn)) as [-> ->]. apply sp_leafs. }
  assert (Ht : tidy false (lit "m") sp_case).
  { assert (En : flat_map (class_names false) sp_case = [lit "m"]) by reflexivity. constructor; rewrite ?En.
    - repeat constructor. intros [].
    - intros a [<-|[]]. split; [discriminate|]. split; [intros H; now destruct H|vm_compute; intuition discriminate].
    - intros _. split; [vm_compute; intuition discriminate|]. split; [vm_compute; intuition discriminate|]. intros a [<-|[]]; vm_compute; discriminate.
    - intros s n' sub Hc Hn. unfold sp_case in Hc. apply child_cons in Hc as [[-> _]|[(? & ? & ? & ? & ? & E & _)|Hc]]; [|discriminate|].
      + destruct (sp_node (lit "m") n' sp_inner sub (or_introl Hn)) as [-> ->]. exact Hin.
      + apply child_cons in Hc as [[-> _]|[(? & ? & ? & ? & ? & E & _)|Hc]]; [now apply sp_leaf_node in Hn|discriminate|now apply child_nil in Hc]. }
  split; [exact Ht|]. split; [vm_compute; intuition discriminate|]. split; [now apply (tidy_named false (lit "m"))|].
  eexists. split; [right; left; reflexivity|]. split; [reflexivity|]. split; [reflexivity|]. split; [reflexivity|].
  eexists. split; [right; right; left; reflexivity|]. split; reflexivity.
Qed.
