(** Property theorems about the object tree: C11, C27-C34. *)
From Verif Require Import PyStr PyVal Restricted IntTypes StrTypes SafeName Spec_Types Spec_Lists TypedList YList
  Tree Spec_Tree Compile Spec_Compile.
From Verif Require Tree_proofs Tree_frame Tree_main Tree_hist Tree_dump Tree_choice Tree_copy Compile_proofs.
From Coq Require Import Lia.
Import ListNotations.

(* ------------------------------------------------------------------ data for the cases *)
Definition hd (n : str) : yhead := {| y_name := n; y_ns := lit "urn:m"; y_mod := lit "m"; y_config := None |}.
Definition ro (n : str) : yhead := {| y_name := n; y_ns := lit "urn:m"; y_mod := lit "m"; y_config := Some false |}.
Definition u8 : ltype := LOne (int_chain [[Between (Some 0%Z) (Some 255%Z) 0 0]]).
Definition narrow : ltype := LOne (int_chain [[Between (Some 5%Z) (Some 50%Z) 0 0]; [Between (Some 0%Z) (Some 255%Z) 0 0]]).
Definition txt : ltype := LOne TStr.
(** container c { leaf a; leaf b { default x; } choice pick { case one { leaf o; } case two {
    container t { leaf z; } } } list l { key k; leaf k; leaf v; } leaf-list ll; container s { config
    false; leaf y; } }  leaf w; *)
Definition demo : list ystmt :=
  [YCont (hd (lit "c")) true
     [YLeaf (hd (lit "a")) u8 None (lit "uint8");
      YLeaf (hd (lit "b")) txt (Some (VStr (lit "x"))) (lit "string");
      YChoice (lit "pick") None
        [(lit "one", [YLeaf (hd (lit "o")) txt None (lit "string")]);
         (lit "two", [YCont (hd (lit "t")) false [YLeaf (hd (lit "z")) u8 None (lit "uint8")]])];
      YList (hd (lit "l")) (Some (lit "k")) false
        [YLeaf (hd (lit "k")) txt None (lit "string"); YLeaf (hd (lit "v")) u8 None (lit "uint8")];
      YLeafList (hd (lit "ll")) [TStr] (lit "string");
      YCont (ro (lit "s")) false [YLeaf (hd (lit "y")) u8 None (lit "uint8")]];
   YLeaf (hd (lit "w")) u8 None (lit "uint8")].
Definition demo_cs := compile_module true demo.
(** The same without the choice. *)
Definition flat : list ystmt :=
  [YCont (hd (lit "c")) true
     [YLeaf (hd (lit "a")) u8 None (lit "uint8");
      YLeaf (hd (lit "b")) txt (Some (VStr (lit "x"))) (lit "string");
      YCont (hd (lit "t")) false [YLeaf (hd (lit "z")) u8 None (lit "uint8")];
      YList (hd (lit "l")) (Some (lit "k")) false
        [YLeaf (hd (lit "k")) txt None (lit "string"); YLeaf (hd (lit "v")) u8 None (lit "uint8")]]].
Definition flat_cs := compile_module true flat.

Ltac elems :=
  intros; repeat match goal with
  | H : In _ (_ :: _) |- _ => destruct H as [H|H]
  | H : In _ [] |- _ => destruct H
  | H : (_, _) = (_, _) |- _ => injection H; clear H; intros; subst
  | H : _ = ?y |- _ => is_var y; subst y
  end.
Ltac nodup := repeat (constructor; [cbn; intuition discriminate|]); constructor.
Ltac statements := unfold demo, flat, ywf_all;
  repeat match goal with
  | |- _ /\ _ => split
  | |- NoDup _ => nodup
  | |- _ = _ => reflexivity
  | |- forall _, _ => progress elems
  | |- _ => constructor
  end.

Lemma demo_wf : ywf_all demo.
Proof. statements. Qed.
Lemma flat_wf : ywf_all flat.
Proof. statements. Qed.
Lemma demo_nn : forall y, In y demo -> no_nested_choice y.
Proof. statements. Qed.
Lemma demo_cc : forall y, In y demo -> choice_config_free y.
Proof. statements. Qed.
Lemma flat_nc : forall y, In y flat -> no_choice y.
Proof. statements. Qed.

Definition run (O : oracle) cs os := module_run O cs (module_new O cs) os.
Lemma run_shaped O cs os : shaped cs (run O cs os).
Proof. apply Tree_proofs.module_run_shaped, Tree_proofs.fresh_shaped. Qed.

(* ------------------------------------------------------------------ C03 *)
(** The leaves that are treated as keys - they refuse assignment and name the entry - are those that the key statement of
    their list names: directly in the list or in the cases of a choice in it, whatever their names. *)
Theorem C03_key_leaves : forall po cfg ch keys h key od cs s, In s (compile po cfg ch keys (YList h key od cs)) ->
  exists i ka cs', s = SList i ka od cs' /\
    forall j lt d yt k, In (SLeaf j lt d yt k) cs' -> (k = true <-> exists ks, key = Some (join (lit " ") ks) /\ Forall (fun w => ~ In 32%N w) ks /\ In (e_yang j) ks).
Proof. exact Compile_proofs.key_flags. Qed.
Print Assumptions C03_key_leaves.
Theorem C03_no_keys : forall po cfg ch keys h pr cs s, In s (compile po cfg ch keys (YCont h pr cs)) ->
  exists i p cs', s = SCont i p cs' /\ forall j lt d yt k, In (SLeaf j lt d yt k) cs' -> k = false.
Proof. exact Compile_proofs.no_key_flags. Qed.
Print Assumptions C03_no_keys.
(** list l { key "a b"; leaf a; leaf b; leaf c; } *)
Example C03_keys_case : exists i i1 i2 i3, compile false true None [] (YList (hd (lit "l")) (Some (lit "a b")) false
    [YLeaf (hd (lit "a")) u8 None (lit "uint8"); YLeaf (hd (lit "b")) u8 None (lit "uint8"); YLeaf (hd (lit "c")) u8 None (lit "uint8")]) =
  [SList i [lit "a"; lit "b"] false [SLeaf i1 u8 None (lit "uint8") true; SLeaf i2 u8 None (lit "uint8") true; SLeaf i3 u8 None (lit "uint8") false]].
Proof. do 4 eexists. vm_compute. reflexivity. Qed.

(* ------------------------------------------------------------------ C11 *)
(** Full statement: when an assignment to a leaf raises, the tree is as it was.  False: the new leaf
    object notifies its parents before its last checks, so a rejected value for the leaf of one case
    wipes the other case. *)
Theorem C11_rejection_refuted : forall O, exists cs kids p v i lt d y k kids' e,
  shaped cs kids /\ schema_at cs p = Some (SLeaf i lt d y k) /\
  module_exec O cs kids p (ASet Attr (AVal v)) = (kids', Raise e) /\
  get_kids true cs kids <> [] /\ get_kids true cs kids' = [].
Proof.
  intros O. pose (cs := compile_module false [YCont (hd (lit "c")) false
    [YChoice (lit "ch") None [(lit "x", [YLeaf (hd (lit "a")) narrow None (lit "t")]); (lit "y", [YLeaf (hd (lit "b")) txt None (lit "string")])]]]).
  exists cs, (run O cs [([Kid 0; Kid 1], ASet Attr (AVal (VStr (lit "keep"))))]), [Kid 0; Kid 0], (VInt 300).
  do 5 eexists. eexists _, _.
  split; [apply run_shaped|]. split; [vm_compute; reflexivity|].
split; [vm_compute; reflexivity|]. split; [vm_compute; discriminate|vm_compute; reflexivity].
Qed.
Print Assumptions C11_rejection_refuted.

(** Missing: values whose rejection comes after the notification, i.e. for types with several
    restriction levels a value that fails an inner level.  For everything the constructor rejects
    ([checked_first]), for list keys and for config false leaves nothing changes. *)
Theorem C11_rejection_partial : forall O cs kids p w v i lt d y k kids' e,
  shaped cs kids -> schema_at cs p = Some (SLeaf i lt d y k) ->
  module_exec O cs kids p (ASet w (AVal v)) = (kids', Raise e) ->
  checked_first lt v \/ (k = true /\ w <> Priv true) \/ (w = Attr /\ e_rw i = false) ->
  kids' = kids.
Proof. exact Tree_main.rejection_main. Qed.
Print Assumptions C11_rejection_partial.

Example C11_case : forall O,
  let kids := run O demo_cs [([Kid 0; Kid 2], ASet Attr (AVal (VStr (lit "keep"))))] in
  shaped demo_cs kids /\
  schema_at demo_cs [Kid 0; Kid 3; Kid 0] <> None /\ checked_first u8 (VInt 300%Z) /\
  module_exec O demo_cs kids [Kid 0; Kid 3; Kid 0] (ASet Attr (AVal (VInt 300%Z))) = (kids, Raise ValueError) /\
  get_kids true demo_cs kids <> [].
Proof.
  intros O. cbv zeta. split; [apply run_shaped|]. split; [vm_compute; discriminate|]. split.
  - apply CfInt; [|right; constructor]. cbn [levels_wf]. split; [repeat constructor|]. split; [repeat constructor|exact I].
  - split; [vm_compute; reflexivity|vm_compute; discriminate].
Qed.

(* ------------------------------------------------------------------ C27 *)
(** Full statement: a successful assignment to a leaf marks it and everything that encloses it.
    False: a choice nested in a case of a choice with the same name makes the enclosing object
    discard the case that was just written to. *)
Theorem C27_change_tracking_refuted : forall O, exists ss p v i lt d y k kids' u,
  ywf_all ss /\
  schema_at (compile_module false ss) p = Some (SLeaf i lt d y k) /\
  module_exec O (compile_module false ss) (module_new O (compile_module false ss)) p (ASet Attr (AVal v)) = (kids', Ok tt) /\
  at_path kids' p = Some (OLeaf false u).
Proof.
  intros O. exists [YCont (hd (lit "top")) false [YChoice (lit "c") None [(lit "x", [YCont (hd (lit "m")) false
    [YChoice (lit "c") None [(lit "y", [YLeaf (hd (lit "a")) txt None (lit "string")])]]])]]].
  exists [Kid 0; Kid 0; Kid 0], (VStr (lit "v")). do 7 eexists.
  split; [statements|]. split; [vm_compute; reflexivity|]. split; [vm_compute; reflexivity|vm_compute; reflexivity].
Qed.
Print Assumptions C27_change_tracking_refuted.

(** Missing: the situation above, i.e. objects on the way to the leaf (or the leaf) that are in
    another case of a choice of the same name than something further down. *)
Theorem C27_change_tracking_partial : forall O cs kids p w v i lt d y k kids',
  shaped cs kids -> schema_at cs p = Some (SLeaf i lt d y k) ->
  (forall r, prefix r p -> ~ rival cs p r) ->
  module_exec O cs kids p (ASet w (AVal v)) = (kids', Ok tt) ->
  (exists u, d_out (leaf_assign O lt v) = Ok u /\ at_path kids' p = Some (OLeaf true u)) /\
  (forall q, prefix q p -> q <> [] -> q <> p -> on_the_way (at_path kids q) (at_path kids' q)) /\
  (forall q, apart p q -> at_path kids' q = at_path kids q \/
             exists r, prefix r q /\ reset_rival O cs p kids' r).
Proof. exact Tree_main.set_leaf_effect. Qed.
Print Assumptions C27_change_tracking_partial.

(** In particular for every schema in which no choice is nested in a case of another. *)
Theorem C27_compiled_partial : forall O po ss kids p w v i lt d y k kids',
  (forall t, In t ss -> no_nested_choice t) ->
  let cs := compile_module po ss in
  shaped cs kids -> schema_at cs p = Some (SLeaf i lt d y k) ->
  module_exec O cs kids p (ASet w (AVal v)) = (kids', Ok tt) ->
  (exists u, d_out (leaf_assign O lt v) = Ok u /\ at_path kids' p = Some (OLeaf true u)) /\
  (forall q, prefix q p -> q <> [] -> q <> p -> on_the_way (at_path kids q) (at_path kids' q)) /\
  (forall q, apart p q -> at_path kids' q = at_path kids q \/
             exists r, prefix r q /\ reset_rival O cs p kids' r).
Proof.
  intros O po ss kids p w v i lt d y k kids' Hn cs Hs Hsc H.
  eapply Tree_main.set_leaf_effect; eauto. apply Compile_proofs.uniform_no_rival, Compile_proofs.compile_uniform, Hn.
Qed.
Print Assumptions C27_compiled_partial.

Example C27_case : forall O,
  let kids := run O demo_cs [([Kid 0; Kid 0], ASet Attr (AVal (VInt 1%Z))); ([Kid 0; Kid 2], ASet Attr (AVal (VStr (lit "o"))))] in
  let kids' := fst (module_exec O demo_cs kids [Kid 0; Kid 3; Kid 0] (ASet Attr (AVal (VInt 9%Z)))) in
  (forall t, In t demo -> no_nested_choice t) /\ shaped demo_cs kids /\
  snd (module_exec O demo_cs kids [Kid 0; Kid 3; Kid 0] (ASet Attr (AVal (VInt 9%Z)))) = Ok tt /\
  at_path kids' [Kid 0; Kid 3; Kid 0] = Some (OLeaf true (VInt 9%Z)) /\
  at_path kids' [Kid 0; Kid 0] = Some (OLeaf true (VInt 1%Z)) /\
  at_path kids' [Kid 0; Kid 2] = Some (OLeaf false (VStr [])) /\
  rival demo_cs [Kid 0; Kid 3; Kid 0] [Kid 0; Kid 2].
Proof.
  intros O. cbv zeta. split; [exact demo_nn|]. split; [apply run_shaped|].
  split; [vm_compute; reflexivity|]. split; [vm_compute; reflexivity|]. split; [vm_compute; reflexivity|].
  split; [vm_compute; reflexivity|].
  eexists _, (lit "pick"), (lit "one"), [Kid 0; Kid 3], _, (lit "two"). split; [cbn; lia|].
  split; [repeat constructor|]. split; [vm_compute; reflexivity|]. split; [reflexivity|]. split; [now exists [Kid 0]|].
  split; [cbn; lia|]. split; [vm_compute; reflexivity|]. split; [reflexivity|discriminate].
Qed.

(** The same for operations on a leaf-list: every one but deletion by index marks it and everything
    that encloses it, whatever the outcome. *)
Theorem C27_leaf_lists_partial : forall O cs kids p lo i ts y kids' r,
  shaped cs kids -> schema_at cs p = Some (SLeafList i ts y) -> ends_kid p -> at_path kids p <> None ->
  (forall r, prefix r p -> ~ rival cs p r) -> (forall n, lo <> LDelItem n) ->
  module_exec O cs kids p (ALeafList lo) = (kids', r) ->
  (exists l, at_path kids' p = Some (OLeafList true l)) /\
  (forall q, prefix q p -> q <> [] -> q <> p -> on_the_way (at_path kids q) (at_path kids' q)) /\
  (forall q, apart p q -> at_path kids' q = at_path kids q \/
             exists r, prefix r q /\ reset_rival O cs p kids' r).
Proof. exact Tree_main.leaf_list_effect. Qed.
Print Assumptions C27_leaf_lists_partial.

(** And for lists: adding an entry marks everything that encloses the list, assigning or appending
    one also the list.  Missing: schemas with choices. *)
Theorem C27_lists_partial : forall O cs kids p uid yo i keys od cs' kids',
  shaped cs kids -> choice_free cs -> schema_at cs p = Some (SList i keys od cs') -> creating keys yo ->
  module_exec O cs kids p (AList uid yo) = (kids', Ok tt) ->
  (exists ch es, at_path kids' p = Some (OList ch es) /\ (item_assign yo -> ch = true)) /\
  (forall q, prefix q p -> q <> [] -> q <> p -> on_the_way (at_path kids q) (at_path kids' q)) /\
  (forall q, apart p q -> at_path kids' q = at_path kids q).
Proof. exact Tree_main.list_effect. Qed.
Print Assumptions C27_lists_partial.

Example C27_lists_case : forall O,
  let kids := module_new O flat_cs in
  let kids' := fst (module_exec O flat_cs kids [Kid 0; Kid 3] (AList (lit "u") (YAdd (VStr (lit "k1"))))) in
  shaped flat_cs kids /\ choice_free flat_cs /\ creating [lit "k"] (YAdd (VStr (lit "k1"))) /\
  snd (module_exec O flat_cs kids [Kid 0; Kid 3] (AList (lit "u") (YAdd (VStr (lit "k1"))))) = Ok tt /\
  option_map o_changed (at_path kids [Kid 0]) = Some false /\
  option_map o_changed (at_path kids' [Kid 0]) = Some true.
Proof.
  intros O. cbv zeta. split; [apply (run_shaped O flat_cs [])|].
  split; [apply Compile_proofs.compile_choice_free; exact flat_nc|].
  split; [discriminate|]. split; [vm_compute; reflexivity|]. split; vm_compute; reflexivity.
Qed.
Example C27_leaf_lists_case : forall O,
  let kids := module_new O demo_cs in
  let kids' := fst (module_exec O demo_cs kids [Kid 0; Kid 5] (ALeafList (LAppend (VStr (lit "m"))))) in
  shaped demo_cs kids /\ (forall r, prefix r [Kid 0; Kid 5] -> ~ rival demo_cs [Kid 0; Kid 5] r) /\
  at_path kids' [Kid 0; Kid 5] = Some (OLeafList true [VStr (lit "m")]) /\
  option_map o_changed (at_path kids' [Kid 0]) = Some true.
Proof.
  intros O. cbv zeta. split; [apply (run_shaped O demo_cs [])|].
  split; [apply Compile_proofs.uniform_no_rival, Compile_proofs.compile_uniform; exact demo_nn|].
  split; vm_compute; reflexivity.
Qed.

(* ------------------------------------------------------------------ C31 *)
(** The node is replaced by a new one; nothing else changes. *)
Theorem C31_unset : forall O cs kids p s x,
  shaped cs kids -> ends_kid p -> schema_at cs p = Some s -> at_path kids p = Some x ->
  exists kids', module_exec O cs kids p AUnset = (kids', Ok tt) /\
    OCont false false kids' = graft (OCont false false kids) p (fresh O s).
Proof. exact Tree_main.unset_effect. Qed.
Print Assumptions C31_unset.

Example C31_case : forall O,
  let kids := run O demo_cs [([Kid 0; Kid 0], ASet Attr (AVal (VInt 1%Z)));
                             ([Kid 0; Kid 4], AList (lit "u") (YAdd (VStr (lit "k1"))));
                             ([Kid 0; Kid 4; Ent (VStr (lit "k1")); Kid 1], ASet Attr (AVal (VInt 7%Z)))] in
  let p := [Kid 0; Kid 4; Ent (VStr (lit "k1")); Kid 1] in
  shaped demo_cs kids /\ ends_kid p /\
  at_path kids p = Some (OLeaf true (VInt 7%Z)) /\
  at_path (fst (module_exec O demo_cs kids p AUnset)) p = Some (OLeaf false (VInt 0%Z)) /\
  at_path (fst (module_exec O demo_cs kids p AUnset)) [Kid 0; Kid 0] = Some (OLeaf true (VInt 1%Z)).
Proof.
  intros O. cbv zeta. split; [apply run_shaped|]. split; [now exists [Kid 0; Kid 4; Ent (VStr (lit "k1"))], 1%nat|].
  split; [vm_compute; reflexivity|]. split; vm_compute; reflexivity.
Qed.

(* ------------------------------------------------------------------ C28 *)
(** What can be looked up in get(filter=True), node by node: [filtered] (in Spec_Tree.v) says a leaf is
    there iff it is marked changed, with its value; a leaf-list iff it has members; a list iff it has
    entries, with their keys; a container iff something inside is there, or it is a list entry or a
    present presence container. *)
Theorem C28_filtered_dump : forall po ss kids p t y dp,
  ywf_all ss -> let cs := compile_module po ss in
  p <> [] -> shaped cs kids -> schema_at cs p = Some t -> at_path kids p = Some y -> named_at cs p = Some dp ->
  filtered t y (is_entry p) (dlook (DDict (get_kids true cs kids)) dp).
Proof.
  intros po ss kids p t y dp Hw cs Hp Hs. apply Tree_dump.filtered_main; auto. now apply Compile_proofs.compile_distinct.
Qed.
Print Assumptions C28_filtered_dump.

(** Nothing else is in it. *)
Theorem C28_filtered_dump_only : forall cs kids dp d,
  shaped cs kids -> dlook (DDict (get_kids true cs kids)) dp = Some d ->
  exists p, named_at cs p = Some dp /\ at_path kids p <> None.
Proof. intros cs kids dp d. apply (Tree_dump.dlook_inv true (length dp)). lia. Qed.
Print Assumptions C28_filtered_dump_only.

(** And a leaf is marked changed iff it was successfully assigned and not unset since.  Missing:
    leaves inside list entries, schemas with choices, histories in which whole objects are assigned. *)
Theorem C28_set_leaves_partial : forall O cs q i lt d y k os ch v,
  choice_free cs -> kid_path q -> schema_at cs q = Some (SLeaf i lt d y k) ->
  Forall (fun po => simple_op (snd po)) os ->
  at_path (module_run O cs (module_new O cs) os) q = Some (OLeaf ch v) ->
  (ch = true <->
   exists os1 w a os2, os = os1 ++ (q, ASet w (AVal a)) :: os2 /\
     snd (module_exec O cs (module_run O cs (module_new O cs) os1) q (ASet w (AVal a))) = Ok tt /\
     forall p, In (p, AUnset) os2 -> p <> [] -> ~ prefix p q).
Proof. exact Tree_hist.leaf_history. Qed.
Print Assumptions C28_set_leaves_partial.

Example C28_case : forall O,
  let os := [([Kid 0; Kid 0], ASet Attr (AVal (VInt 0%Z))); ([Kid 0; Kid 1], ASet Attr (AVal (VStr (lit "gone"))));
             ([Kid 0; Kid 3], AList (lit "u") (YAdd (VStr (lit "k1")))); ([Kid 0; Kid 1], AUnset)] in
  ywf_all flat /\ choice_free flat_cs /\ Forall (fun po => simple_op (snd po)) os /\
  dlook (DDict (get_kids true flat_cs (run O flat_cs os))) [DName (lit "c"); DName (lit "a")] = Some (DLeaf (VInt 0%Z)) /\
  dlook (DDict (get_kids true flat_cs (run O flat_cs os))) [DName (lit "c"); DName (lit "b")] = None /\
  dlook (DDict (get_kids true flat_cs (run O flat_cs os))) [DName (lit "c"); DName (lit "l"); DKey (VStr (lit "k1")); DName (lit "k")]
    = Some (DLeaf (VStr (lit "k1"))) /\
  dlook (DDict (get_kids true flat_cs (run O flat_cs os))) [DName (lit "c"); DName (lit "t")] = None.
Proof.
  intros O. cbv zeta. split; [exact flat_wf|]. split; [apply Compile_proofs.compile_choice_free, flat_nc|].
  split; [repeat constructor|]. split; [vm_compute; reflexivity|]. split; [vm_compute; reflexivity|].
  split; vm_compute; reflexivity.
Qed.

(* ------------------------------------------------------------------ C29 *)
(** What can be looked up in get(filter=False): every node; [unfiltered] (in Spec_Tree.v) says a set
    leaf appears with its value, an unset one with its default if that is truthy (else with the
    value of a new object), containers list exactly the names of their schema. *)
Theorem C29_unfiltered_dump : forall po ss kids p t y dp,
  ywf_all ss -> let cs := compile_module po ss in
  p <> [] -> shaped cs kids -> schema_at cs p = Some t -> at_path kids p = Some y -> named_at cs p = Some dp ->
  unfiltered t y (dlook (DDict (get_kids false cs kids)) dp).
Proof.
  intros po ss kids p t y dp Hw cs Hp Hs. apply Tree_dump.unfiltered_main; auto. now apply Compile_proofs.compile_distinct.
Qed.
Print Assumptions C29_unfiltered_dump.

(** Every node of the schema that is not inside a list exists, whatever was done. *)
Theorem C29_nodes_exist : forall O cs q s os, kid_path q -> schema_at cs q = Some s ->
  exists x, at_path (module_run O cs (module_new O cs) os) q = Some x /\ conf s x.
Proof. exact Tree_hist.kid_exists. Qed.
Print Assumptions C29_nodes_exist.

Example C29_case : forall O,
  let kids := run O demo_cs [([Kid 0; Kid 0], ASet Attr (AVal (VInt 3%Z)))] in
  ywf_all demo /\ shaped demo_cs kids /\
  dlook (DDict (get_kids false demo_cs kids)) [DName (lit "c"); DName (lit "a")] = Some (DLeaf (VInt 3%Z)) /\
  dlook (DDict (get_kids false demo_cs kids)) [DName (lit "c"); DName (lit "b")] = Some (DLeaf (VStr (lit "x"))) /\
  dlook (DDict (get_kids false demo_cs kids)) [DName (lit "c"); DName (lit "t"); DName (lit "z")] = Some (DLeaf (VInt 0%Z)).
Proof.
  intros O. cbv zeta. split; [exact demo_wf|]. split; [apply run_shaped|]. split; [vm_compute; reflexivity|]. split; vm_compute; reflexivity.
Qed.

(* ------------------------------------------------------------------ C30 *)
(** Full statement: at most one case of a choice has data.  False for a choice at the top level of a
    module (the module object has no [_set]) and for a choice nested directly in a case. *)
Theorem C30_top_level_refuted : forall O, exists ss os,
  (forall t, In t ss -> no_nested_choice t) /\ ywf_all ss /\
  let cs := compile_module false ss in
  exists s1 s2 x1 x2 c k1 k2, k1 <> k2 /\
    schema_at cs [Kid 0] = Some s1 /\ schema_at cs [Kid 1] = Some s2 /\
    at_path (run O cs os) [Kid 0] = Some x1 /\ at_path (run O cs os) [Kid 1] = Some x2 /\
    s_tag s1 = Some (c, k1) /\ s_tag s2 = Some (c, k2) /\ has_data s1 x1 /\ has_data s2 x2.
Proof.
  intros O. exists [YChoice (lit "c") None [(lit "x", [YLeaf (hd (lit "a")) txt None (lit "string")]);
                                            (lit "y", [YLeaf (hd (lit "b")) txt None (lit "string")])]].
  exists [([Kid 0], ASet Attr (AVal (VStr (lit "1")))); ([Kid 1], ASet Attr (AVal (VStr (lit "2"))))].
  split; [statements|]. split; [statements|]. do 4 eexists. exists (lit "c"), (lit "x"), (lit "y").
  split; [discriminate|]. split; [vm_compute; reflexivity|]. split; [vm_compute; reflexivity|].
  split; [vm_compute; reflexivity|]. split; [vm_compute; reflexivity|]. split; [vm_compute; reflexivity|].
  split; [vm_compute; reflexivity|]. split; vm_compute; discriminate.
Qed.
Print Assumptions C30_top_level_refuted.

(** Here [inner] is in case k1 and [other] in case k2 of the choice c. *)
Theorem C30_nested_refuted : forall O, exists h c k1 k2 inner other os,
  let ss := [YCont h false [YChoice c None [(k1, [inner]); (k2, [other])]]] in
  let cs := compile_module false ss in
  ywf_all ss /\ k1 <> k2 /\
  exists s1 s2 x1 x2,
    compile false true (Some (c, k1)) [] inner = [s1] /\ compile false true (Some (c, k2)) [] other = [s2] /\
    at_path (run O cs os) [Kid 0; Kid 0] = Some x1 /\ at_path (run O cs os) [Kid 0; Kid 1] = Some x2 /\
    has_data s1 x1 /\ has_data s2 x2.
Proof.
  intros O. exists (hd (lit "top")), (lit "c"), (lit "x"), (lit "y"),
    (YChoice (lit "d") None [(lit "p", [YLeaf (hd (lit "a")) txt None (lit "string")])]),
    (YLeaf (hd (lit "b")) txt None (lit "string")),
    [([Kid 0; Kid 1], ASet Attr (AVal (VStr (lit "1")))); ([Kid 0; Kid 0], ASet Attr (AVal (VStr (lit "2"))))].
  cbv zeta. split; [statements|]. split; [discriminate|]. do 4 eexists.
  split; [vm_compute; reflexivity|]. split; [vm_compute; reflexivity|]. split; [vm_compute; reflexivity|].
  split; [vm_compute; reflexivity|]. split; vm_compute; discriminate.
Qed.
Print Assumptions C30_nested_refuted.

(** Missing: choices at the top level, nested choices, and among the operations the assignment of
    whole objects and list operations. *)
Theorem C30_one_case_partial : forall O po ss os,
  (forall t, In t ss -> no_nested_choice t) -> Forall (fun po => choice_op (snd po)) os ->
  one_case (compile_module po ss) (run O (compile_module po ss) os).
Proof.
  intros O po ss os Hn Ho. apply Tree_choice.one_case_run; auto.
  - now apply Compile_proofs.compile_uniform.
  - apply Tree_proofs.fresh_shaped.
  - apply Tree_choice.new_one_case.
Qed.
Print Assumptions C30_one_case_partial.

(** The same one step at a time, for schemas given directly. *)
Theorem C30_step_partial : forall O cs kids p o, uniform cs -> shaped cs kids -> choice_op o -> one_case cs kids ->
  one_case cs (fst (module_exec O cs kids p o)).
Proof. exact Tree_choice.one_case_step. Qed.
Print Assumptions C30_step_partial.

Example C30_case : forall O,
  let os := [([Kid 0; Kid 2], ASet Attr (AVal (VStr (lit "o")))); ([Kid 0; Kid 3; Kid 0], ASet Attr (AVal (VInt 9%Z)))] in
  (forall t, In t demo -> no_nested_choice t) /\ Forall (fun po => choice_op (snd po)) os /\
  at_path (run O demo_cs (firstn 1 os)) [Kid 0; Kid 2] = Some (OLeaf true (VStr (lit "o"))) /\
  at_path (run O demo_cs os) [Kid 0; Kid 2] = Some (OLeaf false (VStr [])) /\
  at_path (run O demo_cs os) [Kid 0; Kid 3; Kid 0] = Some (OLeaf true (VInt 9%Z)).
Proof.
  intros O. cbv zeta. split; [exact demo_nn|]. split; [repeat constructor|].
  split; [vm_compute; reflexivity|]. split; vm_compute; reflexivity.
Qed.

(* ------------------------------------------------------------------ C32 *)
(** Full statement: assignable through the attribute iff neither the node nor anything that encloses
    it is config false.  False: the config statement of a choice is not looked at. *)
Theorem C32_config_refuted : forall O, exists ss ns kids' p dp,
  ywf_all ss /\ declared true ss ns false /\
  let cs := compile_module false ss in
  named_at cs p = Some dp /\ plain_names dp = ns /\
  module_exec O cs (module_new O cs) p (ASet Attr (AVal (VInt 1%Z))) = (kids', Ok tt).
Proof.
  intros O. exists [YCont (hd (lit "c")) false [YChoice (lit "ch") (Some false) [(lit "x", [YLeaf (hd (lit "a")) u8 None (lit "uint8")])]]].
  exists [lit "c"; lit "a"]. eexists. exists [Kid 0; Kid 0], [DName (lit "c"); DName (lit "a")].
  split; [statements|]. split.
  - eapply (DcInCont _ _ (hd (lit "c"))); [now left|]. eapply DcInChoice; [now left|now left|].
    apply (DcLeaf (own_config (Some false) && (own_config (y_config (hd (lit "c"))) && true)) _ (hd (lit "a")) u8 None (lit "uint8")). now left.
  - cbv zeta. split; [vm_compute; reflexivity|]. split; vm_compute; reflexivity.
Qed.
Print Assumptions C32_config_refuted.

(** Missing: choices with config false. *)
Theorem C32_config_partial : forall O po ss p s dp kids x a,
  (forall y, In y ss -> choice_config_free y) -> ywf_all ss ->
  shaped (compile_module po ss) kids -> ends_kid p ->
  schema_at (compile_module po ss) p = Some s -> at_path kids p = Some x -> named_at (compile_module po ss) p = Some dp ->
  exists b, declared true ss (plain_names dp) b /\ (forall b', declared true ss (plain_names dp) b' -> b' = b) /\
    (b = true -> module_exec O (compile_module po ss) kids p (ASet Attr a) = module_exec O (compile_module po ss) kids p (ASet (Priv false) a)) /\
    (b = false -> module_exec O (compile_module po ss) kids p (ASet Attr a) = (kids, Raise AttributeError)).
Proof. exact Compile_proofs.config_main. Qed.
Print Assumptions C32_config_partial.

Example C32_case : forall O,
  (forall y, In y demo -> choice_config_free y) /\ ywf_all demo /\
  declared true demo [lit "c"; lit "s"; lit "y"] false /\
  snd (module_exec O demo_cs (module_new O demo_cs) [Kid 0; Kid 6; Kid 0] (ASet Attr (AVal (VInt 1%Z)))) = Raise AttributeError /\
  snd (module_exec O demo_cs (module_new O demo_cs) [Kid 0; Kid 6; Kid 0] (ASet (Priv false) (AVal (VInt 1%Z)))) = Ok tt /\
  declared true demo [lit "c"; lit "t"; lit "z"] true /\
  snd (module_exec O demo_cs (module_new O demo_cs) [Kid 0; Kid 3; Kid 0] (ASet Attr (AVal (VInt 1%Z)))) = Ok tt.
Proof.
  intros O. split; [exact demo_cc|]. split; [exact demo_wf|]. split.
  - eapply (DcInCont _ _ (hd (lit "c"))); [now left|]. eapply (DcInCont _ _ (ro (lit "s"))); [do 5 right; now left|].
    apply (DcLeaf (own_config (y_config (ro (lit "s"))) && (own_config (y_config (hd (lit "c"))) && true)) _ (hd (lit "y")) u8 None (lit "uint8")). now left.
  - split; [vm_compute; reflexivity|]. split; [vm_compute; reflexivity|]. split; [|vm_compute; reflexivity].
    eapply (DcInCont _ _ (hd (lit "c"))); [now left|]. eapply DcInChoice; [do 2 right; now left|right; now left|].
    eapply (DcInCont _ _ (hd (lit "t"))); [now left|].
    apply (DcLeaf (own_config (y_config (hd (lit "t"))) && (own_config None && (own_config (y_config (hd (lit "c"))) && true))) _ (hd (lit "z")) u8 None (lit "uint8")). now left.
Qed.

(* ------------------------------------------------------------------ C33 *)
(** Full statement: after parent.c = other the dumps are equal.  False: the entries of a list are
    lost without an error; a leaf-list makes the assignment fail. *)
Theorem C33_list_copy_refuted : forall O, exists cs s x kids',
  schema_at cs [Kid 0] = Some s /\ conf s x /\
  module_exec O cs (module_new O cs) [Kid 0] (ASet Attr (AObj x)) = (kids', Ok tt) /\
  exists y, at_path kids' [Kid 0] = Some y /\ get_kid true s x <> None /\ get_kid true s y = None.
Proof.
  intros O.
  pose (cs := compile_module false [YCont (hd (lit "c")) false [YList (hd (lit "l")) (Some (lit "k")) false [YLeaf (hd (lit "k")) txt None (lit "string")]]]).
  pose (src := run O cs [([Kid 0; Kid 0], AList (lit "u") (YAdd (VStr (lit "k1"))))]).
  exists cs. eexists. exists (nth 0 src (OLeaf false VNone)). eexists.
  split; [vm_compute; reflexivity|]. split; [vm_compute; repeat constructor|].
  split; [vm_compute; reflexivity|]. eexists. split; [vm_compute; reflexivity|]. split; [vm_compute; discriminate|vm_compute; reflexivity].
Qed.
Print Assumptions C33_list_copy_refuted.

Theorem C33_leaf_list_copy_refuted : forall O, exists cs s x e,
  schema_at cs [Kid 0] = Some s /\ conf s x /\ get_kid true s x <> None /\
  snd (module_exec O cs (module_new O cs) [Kid 0] (ASet Attr (AObj x))) = Raise e.
Proof.
  intros O.
  pose (cs := compile_module false [YCont (hd (lit "c")) false [YLeafList (hd (lit "l")) [int_chain [[Between (Some 0%Z) (Some 255%Z) 0 0]]] (lit "uint8")]]).
  pose (src := run O cs [([Kid 0; Kid 0], ALeafList (LAppend (VInt 7%Z)))]).
  exists cs. eexists. exists (nth 0 src (OLeaf false VNone)). eexists.
  split; [vm_compute; reflexivity|]. split; [vm_compute; repeat constructor|]. split; [vm_compute; discriminate|].
  vm_compute. reflexivity.
Qed.
Print Assumptions C33_leaf_list_copy_refuted.

(** Missing: sources with members in lists or leaf-lists, schemas with choices; leaves are required
    to hold values their type maps to themselves (see C10, C60). *)
Theorem C33_copy_partial : forall O cs kids p w x x0 i pr cs',
  choice_free cs -> shaped cs kids -> ends_kid p ->
  schema_at cs p = Some (SCont i pr cs') -> at_path kids p = Some x0 ->
  (w = Attr -> e_rw i = true) -> copyable O (SCont i pr cs') x ->
  match x with OCont _ pres _ => pr = true -> pres = true | _ => False end ->
  exists kids' y, module_exec O cs kids p (ASet w (AObj x)) = (kids', Ok tt) /\ at_path kids' p = Some y /\
    get_kid true (SCont i pr cs') y = get_kid true (SCont i pr cs') x.
Proof. exact Tree_copy.assign_container. Qed.
Print Assumptions C33_copy_partial.

Example C33_case : forall O,
  let src := nth 0 (run O flat_cs [([Kid 0; Kid 0], ASet Attr (AVal (VInt 3%Z))); ([Kid 0; Kid 2; Kid 0], ASet Attr (AVal (VInt 4%Z)))])
                 (OLeaf false VNone) in
  let kids := run O flat_cs [([Kid 0; Kid 1], ASet Attr (AVal (VStr (lit "old"))))] in
  exists i cs', schema_at flat_cs [Kid 0] = Some (SCont i true cs') /\ copyable O (SCont i true cs') src /\
  get_kids true flat_cs (fst (module_exec O flat_cs kids [Kid 0] (ASet Attr (AObj src))))
  = [(lit "c", DDict [(lit "a", DLeaf (VInt 3%Z)); (lit "t", DDict [(lit "z", DLeaf (VInt 4%Z))])])].
Proof.
  intros O. cbv zeta. eexists _, _. split; [vm_compute; reflexivity|]. split; [|vm_compute; reflexivity].
  vm_compute nth. apply CyCont; [|reflexivity|reflexivity].
  constructor; [constructor; vm_compute; reflexivity|]. constructor; [constructor; discriminate|].
  constructor; [|constructor; [constructor|constructor]].
  apply CyCont; [|reflexivity|discriminate]. constructor; [constructor; vm_compute; reflexivity|constructor].
Qed.

(* ------------------------------------------------------------------ C34 *)
(** Full statement: present iff marked present or something below was set since the last unset.
    False: an assignment below that is rejected makes the container present, too. *)
Theorem C34_presence_refuted : forall O, exists cs p v i cs' kids' e kk,
  schema_at cs [Kid 0] = Some (SCont i true cs') /\ prefix [Kid 0] p /\
  module_exec O cs (module_new O cs) p (ASet Attr (AVal v)) = (kids', Raise e) /\
  at_path kids' [Kid 0] = Some (OCont true true kk) /\ get_kids true cs kids' <> [].
Proof.
  intros O. exists (compile_module true [YCont (hd (lit "c")) true [YLeaf (hd (lit "a")) narrow None (lit "t")]]).
  exists [Kid 0; Kid 0], (VInt 300%Z). do 5 eexists. split; [vm_compute; reflexivity|]. split; [now exists [Kid 0]|].
  split; [vm_compute; reflexivity|]. split; [vm_compute; reflexivity|]. vm_compute; discriminate.
Qed.
Print Assumptions C34_presence_refuted.

(** Missing: histories with rejected operations, list and leaf-list operations and whole-object
    assignments; schemas with choices; presence containers inside list entries. *)
Theorem C34_presence_partial : forall O cs q i cs' os ch pres kk,
  choice_free cs -> kid_path q -> q <> [] -> schema_at cs q = Some (SCont i true cs') ->
  all_ok O cs os -> Forall (fun po => basic_op (snd po)) os ->
  at_path (module_run O cs (module_new O cs) os) q = Some (OCont ch pres kk) ->
  (pres = true <->
   exists os1 p o os2, os = os1 ++ (p, o) :: os2 /\ marks q p o /\
     Forall (fun po => ~ unmarks q (fst po) (snd po)) os2).
Proof. exact Tree_hist.presence_history. Qed.
Print Assumptions C34_presence_partial.

(** A present presence container is in the filtered dump; one that is not present is not, unless
    something inside it is. *)
Theorem C34_presence_dump : forall po ss kids p i cs' ch pres kk dp,
  ywf_all ss -> let cs := compile_module po ss in
  p <> [] -> shaped cs kids -> schema_at cs p = Some (SCont i true cs') -> at_path kids p = Some (OCont ch pres kk) ->
  named_at cs p = Some dp -> is_entry p = false ->
  match dlook (DDict (get_kids true cs kids)) dp with
  | Some d => pres = true \/ inhabited d
  | None => pres = false
  end.
Proof.
  intros po ss kids p i cs' ch pres kk dp Hw cs Hp Hs Hsc Hx Hn He.
  pose proof (C28_filtered_dump po ss kids p _ _ dp Hw Hp Hs Hsc Hx Hn) as H. rewrite He in H. cbn [filtered andb] in H.
  change (compile_module po ss) with cs in H.
  destruct (dlook (DDict (get_kids true cs kids)) dp) as [[]|]; try contradiction.
  - destruct H as [H|[H|H]]; [now right|discriminate|now left].
  - exact (proj2 H).
Qed.
Print Assumptions C34_presence_dump.

Example C34_case : forall O,
  let os := [([Kid 0; Kid 2; Kid 0], ASet Attr (AVal (VInt 1%Z))); ([Kid 0; Kid 2; Kid 0], AUnset)] in
  choice_free flat_cs /\ ywf_all flat /\ all_ok O flat_cs os /\ Forall (fun po => basic_op (snd po)) os /\
  get_kids true flat_cs (run O flat_cs os) = [(lit "c", DDict [])] /\
  get_kids true flat_cs (run O flat_cs (os ++ [([Kid 0], APresent false)])) = [].
Proof.
  intros O. cbv zeta. split; [apply Compile_proofs.compile_choice_free, flat_nc|]. split; [exact flat_wf|]. split.
  - apply (AllSnoc O flat_cs [([Kid 0; Kid 2; Kid 0], ASet Attr (AVal (VInt 1%Z)))] [Kid 0; Kid 2; Kid 0] AUnset).
    + apply (AllSnoc O flat_cs [] [Kid 0; Kid 2; Kid 0] (ASet Attr (AVal (VInt 1%Z)))); [constructor|vm_compute; reflexivity].
    + vm_compute; reflexivity.
  - split; [repeat constructor|]. split; vm_compute; reflexivity.
Qed.
