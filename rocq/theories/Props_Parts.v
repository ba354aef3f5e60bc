(** Property theorems about the XML documents of parts of a tree: C97. *)
From Coq Require Import String.
From Verif Require Import PyStr PyVal Restricted SafeName Spec_Types Spec_Lists MemberTypes YList Tree Spec_Tree Compile Serialise Spec_Serialise Xml Parts Spec_Parts Props_Serialise.
From Verif Require Parts_proofs PartsJson_proofs Serialise_cases.
Import ListNotations.

(* ------------------------------------------------------------------ C97 *)
(** The document of the object of a module is one element with the name of the module in its namespace; for a submodule, in
    the namespace of the module it belongs to. *)
Theorem C97_module : forall O im ins flt ctx m main ns cs kids d, NoDup (map m_name ctx) -> In main ctx -> m_namespace main = Some ns ->
  (m = main /\ m_belongs m = None) \/ m_belongs m = Some (m_name main) -> encode_module O im ins flt ctx m cs kids = Ok d -> x_ns d = ns /\ x_name d = m_name m.
Proof. exact Parts_proofs.module_thm. Qed.
Print Assumptions C97_module.
(** Whenever the whole tree can be written, so can every container and entry of a list in it, at any depth.  If it has
    content (or is an entry, or present), then its own document is the element that the document of the tree has for it,
    but in the namespace of the module: it is that element exactly if the node is in that namespace. *)
Theorem C97_partial : forall O im ins flt ctx m cs kids d i b cs' kids', encode_module O im ins flt ctx m cs kids = Ok d -> part cs kids i b cs' kids' ->
  exists e, encode_part O im ins flt ctx m i cs' kids' = Ok e /\ x_ns e = x_ns d /\
    (b = true \/ x_kids e <> [] -> inside (in_namespace (e_ns i) e) d) /\ (e = in_namespace (e_ns i) e <-> x_ns d = e_ns i).
Proof. exact Parts_proofs.parts_thm. Qed.
Print Assumptions C97_partial.

(** The same for JSON in the IETF format.  The names in the document of the part have the names of the modules in front, as
    at the top of every document; but for these the members are those that the document of the tree has for the part. *)
Theorem C97_ietf : forall O im flt wd cs kids d i b cs' kids', dumps_ietf O im flt wd cs kids = Ok d -> part cs kids i b cs' kids' ->
  exists ms ms', dumps_ietf O im flt wd cs' kids' = Ok (JObj ms') /\ same_but_prefixes ms ms' /\
    (b = true \/ ms' <> [] -> exists n, (n = e_yang i \/ n = e_mod i ++ lit ":" ++ e_yang i) /\ held n (JObj ms) d).
Proof. exact PartsJson_proofs.ietf_thm. Qed.
Print Assumptions C97_ietf.
(** And for the default format: the document of the part is in the document of the tree, under the name of the node. *)
Theorem C97_json : forall O im cs kids d i b cs' kids', distinct_names cs -> dumps O im cs kids = Ok d -> part cs kids i b cs' kids' ->
  exists ms, dumps O im cs' kids' = Ok (JObj ms) /\ (b = true \/ ms <> [] -> held (e_yang i) (JObj ms) d).
Proof. exact PartsJson_proofs.default_thm. Qed.
Print Assumptions C97_json.

(** Whole lists.  In the IETF format their document is an array with one object per entry, in order, and again only the names
    of the modules in front may differ. *)
Theorem C97_ietf_list : forall O im flt wd cs kids d i keys od cs' es, dumps_ietf O im flt wd cs kids = Ok d -> list_in cs kids i keys od cs' es ->
  exists js js', dumps_ietf_list O im flt wd cs' es = Ok (JArr js') /\ length js = length es /\
    Forall2 (fun j j' => exists ms ms', j = JObj ms /\ j' = JObj ms' /\ same_but_prefixes ms ms') js js' /\
    (es <> [] -> exists n, (n = e_yang i \/ n = e_mod i ++ lit ":" ++ e_yang i) /\ held n (JArr js) d).
Proof. exact PartsJson_proofs.ietf_list_thm. Qed.
Print Assumptions C97_ietf_list.
(** In the default format it is what the document of the tree has under the name of the list. *)
Theorem C97_json_list : forall O im cs kids d i keys od cs' es, distinct_names cs -> dumps O im cs kids = Ok d -> list_in cs kids i keys od cs' es ->
  exists j, dumps_list O im i keys od cs' es = Ok j /\ (es <> [] -> held (e_yang i) j d).
Proof. exact PartsJson_proofs.default_list_thm. Qed.
Print Assumptions C97_json_list.

(** module a { container c { leaf x; list l { key k; leaf k; } } }, and module b { augment "/a:c" { container e { leaf y; } } }. *)
Definition pt_head (ns mod' n : string) : yhead := {| y_name := lit n; y_ns := lit ns; y_mod := lit mod'; y_config := None |}.
Definition pt_leaf (ns mod' n : string) : ystmt := YLeaf (pt_head ns mod' n) (LOne (pty_of MText)) None (lit "string").
Definition pt_stmts : list ystmt :=
  [YCont (pt_head "urn:a" "a" "c") false
     [pt_leaf "urn:a" "a" "x"; YList (pt_head "urn:a" "a" "l") (Some (lit "k")) false [pt_leaf "urn:a" "a" "k"];
      YCont (pt_head "urn:b" "b" "e") false [pt_leaf "urn:b" "b" "y"]]].
Definition pt_cs : list schema := compile_module false pt_stmts.
Definition pt_a : ymodule := {| m_name := lit "a"; m_namespace := Some (lit "urn:a"); m_belongs := None |}.
Definition pt_b : ymodule := {| m_name := lit "b"; m_namespace := Some (lit "urn:b"); m_belongs := None |}.
Definition pt_ops : list (list pstep * op) :=
  [([Kid 0; Kid 0], assign (VStr (lit "1"))); ([Kid 0; Kid 1], add "k1"); ([Kid 0; Kid 2; Kid 0], assign (VStr (lit "2")))].
Definition pt_none (i : einfo) (s : str) : option str := None.
Definition pt_e : list schema := compile_module false [pt_leaf "urn:b" "b" "y"].
Definition pt_l : list schema := match compile_module false [YList (pt_head "urn:a" "a" "l") (Some (lit "k")) false [pt_leaf "urn:a" "a" "k"]] with [SList _ _ _ cs] => cs | _ => [] end.
Definition pt_info (ns mod' n : string) : einfo := info_of (pt_head ns mod' n) None true.
Lemma pt_parts O : exists c, part pt_cs (run O pt_cs pt_ops) (pt_info "urn:a" "a" "l") true pt_l [OLeaf true (VStr (lit "k1"))] /\
  part pt_cs (run O pt_cs pt_ops) (pt_info "urn:b" "b" "e") c pt_e [OLeaf true (VStr (lit "2"))].
Proof.
  eexists. split.
  - eapply PIn; [eapply (PCont _ _ 0); vm_compute; reflexivity|]. eapply (PEntry _ _ 1); [vm_compute; reflexivity|vm_compute; reflexivity|]. left. reflexivity.
  - eapply PIn; [eapply (PCont _ _ 0); vm_compute; reflexivity|]. eapply (PCont _ _ 2); vm_compute; reflexivity.
Qed.
Lemma pt_written O : exists d, encode_module O pt_none pt_none true [pt_a; pt_b] pt_a pt_cs (run O pt_cs pt_ops) = Ok d.
Proof. eexists. vm_compute. reflexivity. Qed.
Example C97_case : forall O, exists d e, NoDup (map m_name [pt_a; pt_b]) /\ encode_module O pt_none pt_none true [pt_a; pt_b] pt_a pt_cs (run O pt_cs pt_ops) = Ok d /\
  part pt_cs (run O pt_cs pt_ops) (pt_info "urn:a" "a" "l") true pt_l [OLeaf true (VStr (lit "k1"))] /\
  encode_part O pt_none pt_none true [pt_a; pt_b] pt_a (pt_info "urn:a" "a" "l") pt_l [OLeaf true (VStr (lit "k1"))] = Ok e /\ inside e d.
Proof.
  intros O. destruct (pt_written O) as (d & Hd). destruct (pt_parts O) as (c & Hp & _). exists d.
  destruct (C97_partial _ _ _ _ _ _ _ _ _ _ _ _ _ Hd Hp) as (e & He & _ & Hin & Heq). exists e.
  split; [constructor; [intros [E|[]]; apply (f_equal (@hd N 0%N)) in E; vm_compute in E; discriminate|constructor; [intros []|constructor]]|].
  split; [assumption|]. split; [assumption|]. split; [assumption|]. rewrite (proj2 Heq); [apply Hin; left; reflexivity|].
  destruct (C97_module O pt_none pt_none true [pt_a; pt_b] pt_a pt_a (lit "urn:a") pt_cs (run O pt_cs pt_ops) d) as [H _]; [|left; reflexivity|reflexivity|left; split; reflexivity|exact Hd|exact H].
  constructor; [intros [E|[]]; apply (f_equal (@hd N 0%N)) in E; vm_compute in E; discriminate|constructor; [intros []|constructor]].
Qed.
Lemma pt_distinct : distinct_names pt_cs.
Proof.
  intros p i pr cs H. apply Serialise_cases.distinctb_ok. revert H.
  apply (Serialise_cases.everywhere_at (fun cs => Serialise_cases.distinctb (map (fun s => e_yang (s_info s)) cs))). vm_compute. reflexivity.
Qed.
Example C97_json_case : forall O, exists d d', dumps O pt_none pt_cs (run O pt_cs pt_ops) = Ok d /\ dumps_ietf O pt_none true WNone pt_cs (run O pt_cs pt_ops) = Ok d' /\ distinct_names pt_cs.
Proof. intros O. eexists _, _. split; [vm_compute; reflexivity|]. split; [vm_compute; reflexivity|exact pt_distinct]. Qed.
Example C97_list_case : forall O, exists d d', dumps O pt_none pt_cs (run O pt_cs pt_ops) = Ok d /\ dumps_ietf O pt_none true WNone pt_cs (run O pt_cs pt_ops) = Ok d' /\
  list_in pt_cs (run O pt_cs pt_ops) (pt_info "urn:a" "a" "l") [lit "k"] false pt_l [(VStr (lit "k1"), OCont true false [OLeaf true (VStr (lit "k1"))])].
Proof.
  intros O. eexists _, _. split; [vm_compute; reflexivity|]. split; [vm_compute; reflexivity|]. right. eexists _, _, _, _, 1%nat, _. split; [eapply (PCont _ _ 0); vm_compute; reflexivity|].
  split; vm_compute; reflexivity.
Qed.
(** A container that another module adds: its own document has the namespace of the module it is added to. *)
Theorem C97_augment_refuted : forall O, exists b d e, encode_module O pt_none pt_none true [pt_a; pt_b] pt_a pt_cs (run O pt_cs pt_ops) = Ok d /\
  part pt_cs (run O pt_cs pt_ops) (pt_info "urn:b" "b" "e") b pt_e [OLeaf true (VStr (lit "2"))] /\
  encode_part O pt_none pt_none true [pt_a; pt_b] pt_a (pt_info "urn:b" "b" "e") pt_e [OLeaf true (VStr (lit "2"))] = Ok e /\
  x_ns e = lit "urn:a" /\ inside (in_namespace (lit "urn:b") e) d /\ ~ inside e d.
Proof.
  intros O. destruct (pt_parts O) as (b & _ & Hp). exists b. eexists. eexists. split; [vm_compute; reflexivity|]. split; [exact Hp|]. split; [vm_compute; reflexivity|].
  split; [vm_compute; reflexivity|]. split.
  - eapply InDeeper; [left; reflexivity|]. apply InKid. right. right. left. vm_compute. reflexivity.
  - intros H. inversion H as [? H1|? ? H1 H2]; subst; clear H.
    + destruct H1 as [E|[]]. apply (f_equal x_name) in E. vm_compute in E. discriminate.
    + destruct H1 as [<-|[]]. inversion H2 as [? H1|k ? H1 H3]; subst; clear H2.
      * destruct H1 as [E|[E|[E|[]]]]; [apply (f_equal x_name) in E|apply (f_equal x_name) in E|apply (f_equal x_ns) in E]; vm_compute in E; discriminate.
      * destruct H1 as [<-|[<-|[<-|[]]]]; inversion H3 as [? H1|k' ? H1 H4]; subst; cbn [x_kids] in H1; try (destruct H1; fail).
        -- destruct H1 as [E|[]]. apply (f_equal x_name) in E. vm_compute in E. discriminate.
        -- destruct H1 as [<-|[]]. inversion H4 as [? H1|? ? H1 ?]; destruct H1.
        -- destruct H1 as [E|[]]. apply (f_equal x_name) in E. vm_compute in E. discriminate.
        -- destruct H1 as [<-|[]]. inversion H4 as [? H1|? ? H1 ?]; destruct H1.
Qed.
Print Assumptions C97_augment_refuted.
