(** Property theorems about histories, with choices and list entries: C27, C28, C30, C34. *)
From Verif Require Import PyStr PyVal Restricted IntTypes StrTypes SafeName Spec_Types Spec_Lists TypedList YList
  Tree Spec_Tree Compile Spec_Compile.
From Verif Require Tree_past Tree_case Tree_cases Tree_choice Compile_proofs.
From Verif Require Import Props_Tree.
From Coq Require Import Lia.
Import ListNotations.

Ltac succeeds :=
  repeat match goal with
  | |- all_ok ?O ?cs ?os =>
      match os with
      | [] => constructor
      | _ => let l := constr:(removelast os) in let l' := eval cbn in l in
             let x := eval cbn in (last os ([], AUnset)) in
             match x with (?p, ?o) => change os with (l' ++ [(p, o)]); apply AllSnoc; [|vm_compute; reflexivity] end
      end
  end.

(* ------------------------------------------------------------------ C27 *)
(** What any operation but the assignment of a whole object does to the rest of the tree, at any
    point of such a history, in a schema without choices nested in cases: what lies apart is as it
    was unless it is inside a node that the operation clears as belonging to another case; the
    objects around are all marked if it succeeds and puts data there, and keep their flags if
    it does not put data there; and if it succeeds then all nodes it should clear are as new.
    Missing: the assignment of whole objects; nested choices (false, see C27_change_tracking_refuted). *)
Theorem C27_every_operation_partial : forall O cs os p o kids' r,
  uniform cs -> even_keys cs ->
  Forall (fun po => plain_op (snd po)) (os ++ [(p, o)]) -> new_uids O cs (os ++ [(p, o)]) ->
  let kids := module_run O cs (module_new O cs) os in
  module_exec O cs kids p o = (kids', r) ->
  (forall q, apart p q -> at_path kids' q = at_path kids q \/
     exists t s, prefix t q /\ ousts cs p o t /\ schema_at cs t = Some s /\ at_path kids' t = Some (fresh O s)) /\
  (forall q, prefix q p -> q <> [] -> q <> p -> at_path kids p <> None ->
     (writes cs p o -> r = Ok tt -> on_the_way (at_path kids q) (at_path kids' q)) /\
     (~ writes cs p o -> flags_kept (at_path kids q) (at_path kids' q))) /\
  (forall t s, r = Ok tt -> ousts cs p o t -> schema_at cs t = Some s -> at_path kids t <> None -> at_path kids' t = Some (fresh O s)).
Proof. exact Tree_past.op_effect. Qed.
Print Assumptions C27_every_operation_partial.

(** A list in a container that is a case: adding an entry clears the other case; adding to a list outside does not. *)
Definition boxed : list ystmt :=
  [YCont (hd (lit "c")) true
     [YChoice (lit "pick") None
        [(lit "one", [YLeaf (hd (lit "o")) txt None (lit "string")]);
         (lit "two", [YCont (hd (lit "t")) true [YList (hd (lit "l")) (Some (lit "k")) false
            [YLeaf (hd (lit "k")) txt None (lit "string"); YLeaf (hd (lit "v")) u8 None (lit "uint8")]]])];
      YList (hd (lit "m")) (Some (lit "k")) false
        [YLeaf (hd (lit "k")) txt None (lit "string");
         YChoice (lit "sub") None
           [(lit "x", [YLeaf (hd (lit "a")) u8 None (lit "uint8")]);
            (lit "y", [YCont (hd (lit "p")) true [YLeaf (hd (lit "z")) u8 None (lit "uint8")]])]]]].
Definition boxed_cs := compile_module true boxed.
Lemma boxed_nn : forall y, In y boxed -> no_nested_choice y.
Proof. unfold boxed. statements. Qed.
Lemma boxed_uniform : uniform boxed_cs.
Proof. apply Compile_proofs.compile_uniform, boxed_nn. Qed.
Lemma boxed_keyed : forallb Tree_cases.keyed_b boxed_cs = true.
Proof. vm_compute. reflexivity. Qed.

Definition entry_m : list pstep := [Kid 0; Kid 2; Ent (VStr (lit "e"))].
Definition boxed_ops : list (list pstep * op) :=
  [([Kid 0; Kid 2], AList (lit "u") (YAdd (VStr (lit "e"))));
   (entry_m ++ [Kid 1], ASet Attr (AVal (VInt 1%Z)));
   ([Kid 0; Kid 0], ASet Attr (AVal (VStr (lit "o"))))].

Example C27_every_operation_case : forall O,
  let os := boxed_ops in let p := [Kid 0; Kid 1; Kid 0] in let o := AList (lit "u") (YAdd (VStr (lit "k1"))) in
  let kids' := fst (module_exec O boxed_cs (run O boxed_cs os) p o) in
  uniform boxed_cs /\ even_keys boxed_cs /\ Forall (fun po => plain_op (snd po)) (os ++ [(p, o)]) /\
  new_uids O boxed_cs (os ++ [(p, o)]) /\ snd (module_exec O boxed_cs (run O boxed_cs os) p o) = Ok tt /\
  writes boxed_cs p o /\ ousts boxed_cs p o [Kid 0; Kid 0] /\ apart p [Kid 0; Kid 0] /\ apart p (entry_m ++ [Kid 1]) /\
  at_path (run O boxed_cs os) [Kid 0; Kid 0] = Some (OLeaf true (VStr (lit "o"))) /\
  at_path kids' [Kid 0; Kid 0] = Some (OLeaf false (VStr [])) /\
  at_path kids' (entry_m ++ [Kid 1]) = Some (OLeaf true (VInt 1%Z)) /\
  option_map o_changed (at_path (run O boxed_cs os) [Kid 0; Kid 1]) = Some false /\
  option_map o_changed (at_path kids' [Kid 0; Kid 1]) = Some true.
Proof.
  intros O. cbv zeta.
  assert (Hw : writes boxed_cs [Kid 0; Kid 1; Kid 0] (AList (lit "u") (YAdd (VStr (lit "k1"))))).
  { eexists _, _, _, _. split; [vm_compute; reflexivity|discriminate]. }
  split; [exact boxed_uniform|]. split; [apply Tree_cases.leaf_even_keys, Tree_cases.keyed_leaf_keys, boxed_keyed|].
  split; [repeat constructor|]. split; [apply Tree_cases.keyed_uids, boxed_keyed|]. split; [vm_compute; reflexivity|].
  split; [exact Hw|]. split.
  { split; [exact Hw|]. eexists _, (lit "pick"), (lit "one"), [Kid 0; Kid 1], _, (lit "two").
    split; [cbn; lia|]. split; [repeat constructor|]. split; [vm_compute; reflexivity|]. split; [reflexivity|].
    split; [now exists [Kid 0]|]. split; [cbn; lia|]. split; [vm_compute; reflexivity|]. split; [reflexivity|].
    split; [discriminate|]. reflexivity. }
  split; [right; left; intros Hse; inversion Hse|]. split; [right; left; intros Hse; inversion Hse|].
  split; [vm_compute; reflexivity|]. split; [vm_compute; reflexivity|]. split; [vm_compute; reflexivity|].
  split; vm_compute; reflexivity.
Qed.

(* ------------------------------------------------------------------ C28 *)
(** A leaf anywhere but the keys of list entries, in a schema without choices nested in cases, is
    marked changed - i.e. in get(filter=True), C28_filtered_dump - iff it was successfully assigned and
    since then none of the following succeeded: unsetting it or something around it, writing into
    another case; and no entry around it went away.  Missing: nested choices, keys, histories in which
    whole objects are assigned or in which a refused operation has cleared another case
    (C11_rejection_refuted). *)
Theorem C28_set_anywhere_partial : forall O cs q i lt d y k os ch v,
  uniform cs -> even_keys cs -> off_keys cs q -> ends_kid q -> schema_at cs q = Some (SLeaf i lt d y k) ->
  Forall (fun po => plain_op (snd po)) os -> new_uids O cs os -> orderly O cs os q ->
  at_path (module_run O cs (module_new O cs) os) q = Some (OLeaf ch v) ->
  (ch = true <->
   exists os1 p w a os2, os = os1 ++ (p, ASet w (AVal a)) :: os2 /\ Forall2 step_eq p q /\
     snd (module_exec O cs (module_run O cs (module_new O cs) os1) p (ASet w (AVal a))) = Ok tt /\
     lasting O cs (os1 ++ [(p, ASet w (AVal a))]) os2 q).
Proof.
  intros O cs q i lt d y k os ch v Hu Hpk Hoff Heq Hsq Hpl Hnu Hord Hx.
  rewrite <- (Tree_past.leaf_past O cs q i lt d y k os Hu Hpk Hoff Heq Hsq Hpl Hnu Hord). rewrite Hx. split.
  - intros ->. now exists (OLeaf true v).
  - intros (x & E & H). injection E as <-. exact H.
Qed.
Print Assumptions C28_set_anywhere_partial.

Lemma off_keys_m : off_keys boxed_cs (entry_m ++ [Kid 1]).
Proof.
  intros q1 k n q2 i keys od cs' s E Hs Hn.
  destruct q1 as [|a1 [|a2 [|a3 [|a4 [|a5 q1]]]]]; try discriminate; injection E; intros; subst; try discriminate.
  unfold schema_at in Hs. vm_compute in Hs. injection Hs as <- <- <- <-. cbn in Hn. injection Hn as <-. cbn. intuition discriminate.
Qed.

Example C28_set_anywhere_case : forall O,
  let os := boxed_ops ++ [([Kid 0; Kid 1; Kid 0], AList (lit "u") (YAdd (VStr (lit "k1"))))] in
  let q := entry_m ++ [Kid 1] in
  uniform boxed_cs /\ even_keys boxed_cs /\ off_keys boxed_cs q /\ ends_kid q /\
  Forall (fun po => plain_op (snd po)) os /\ new_uids O boxed_cs os /\ orderly O boxed_cs os q /\ orderly O boxed_cs os [Kid 0; Kid 0] /\
  at_path (run O boxed_cs os) q = Some (OLeaf true (VInt 1%Z)) /\
  at_path (run O boxed_cs os) [Kid 0; Kid 0] = Some (OLeaf false (VStr [])) /\
  at_path (run O boxed_cs (os ++ [(entry_m ++ [Kid 2; Kid 0], ASet Attr (AVal (VInt 2%Z)))])) q = Some (OLeaf false (VInt 0%Z)) /\
  at_path (run O boxed_cs (os ++ [([Kid 0; Kid 2], AList (lit "u") (YDelete (VStr (lit "e"))))])) q = None.
Proof.
  intros O. cbv zeta.
  assert (Hok : all_ok O boxed_cs (boxed_ops ++ [([Kid 0; Kid 1; Kid 0], AList (lit "u") (YAdd (VStr (lit "k1"))))])).
  { unfold boxed_ops. cbn [app]. succeeds. }
  split; [exact boxed_uniform|]. split; [apply Tree_cases.leaf_even_keys, Tree_cases.keyed_leaf_keys, boxed_keyed|].
  split; [exact off_keys_m|]. split; [now exists entry_m, 1%nat|]. split; [repeat constructor|].
  split; [apply Tree_cases.keyed_uids, boxed_keyed|].
  split; [apply Tree_cases.clean_orderly, Tree_cases.ok_clean, Hok|]. split; [apply Tree_cases.clean_orderly, Tree_cases.ok_clean, Hok|].
  split; [vm_compute; reflexivity|]. split; [vm_compute; reflexivity|]. split; vm_compute; reflexivity.
Qed.

(* ------------------------------------------------------------------ C30 *)
(** False also when the data is in a list without keys: adding to it tells nobody (yangtypes.py:726-735) ... *)
Theorem C30_keyless_refuted : forall O, exists ss os,
  (forall t, In t ss -> no_nested_choice t) /\ ywf_all ss /\
  let cs := compile_module false ss in
  exists s1 s2 x1 x2 c k1 k2, k1 <> k2 /\
    schema_at cs [Kid 0; Kid 0] = Some s1 /\ schema_at cs [Kid 0; Kid 1] = Some s2 /\
    at_path (run O cs os) [Kid 0; Kid 0] = Some x1 /\ at_path (run O cs os) [Kid 0; Kid 1] = Some x2 /\
    s_tag s1 = Some (c, k1) /\ s_tag s2 = Some (c, k2) /\ has_data s1 x1 /\ has_data s2 x2.
Proof.
  intros O. exists [YCont (ro (lit "top")) false [YChoice (lit "c") None [(lit "x", [YLeaf (hd (lit "a")) txt None (lit "string")]);
      (lit "y", [YCont (hd (lit "b")) false [YList (hd (lit "l")) None false [YLeaf (hd (lit "v")) txt None (lit "string")]]])]]].
  exists [([Kid 0; Kid 0], ASet (Priv false) (AVal (VStr (lit "1")))); ([Kid 0; Kid 1; Kid 0], AList (lit "u") YAddNone)].
  split; [statements|]. split; [statements|]. do 4 eexists. exists (lit "c"), (lit "x"), (lit "y").
  split; [discriminate|]. split; [vm_compute; reflexivity|]. split; [vm_compute; reflexivity|].
  split; [vm_compute; reflexivity|]. split; [vm_compute; reflexivity|]. split; [vm_compute; reflexivity|].
  split; [vm_compute; reflexivity|]. split; vm_compute; discriminate.
Qed.
Print Assumptions C30_keyless_refuted.

(** ... or behind two more choices on the way down (yangtypes.py:1124-1133: what goes up to the third object is
    the case of the second), even if they are in containers of their own and differently named. *)
Theorem C30_deep_refuted : forall O, exists ss os, ywf_all ss /\
  let cs := compile_module false ss in
  exists s1 s2 x1 x2 c k1 k2, k1 <> k2 /\
    schema_at cs [Kid 0; Kid 0] = Some s1 /\ schema_at cs [Kid 0; Kid 1] = Some s2 /\
    at_path (run O cs os) [Kid 0; Kid 0] = Some x1 /\ at_path (run O cs os) [Kid 0; Kid 1] = Some x2 /\
    s_tag s1 = Some (c, k1) /\ s_tag s2 = Some (c, k2) /\ has_data s1 x1 /\ has_data s2 x2 /\
  (* while one more choice on the way does no harm *)
  forall os', os' = [([Kid 0; Kid 0], ASet Attr (AVal (VStr (lit "1")))); ([Kid 0; Kid 1; Kid 1], ASet Attr (AVal (VStr (lit "2"))))] ->
    exists x1' x2', at_path (run O cs os') [Kid 0; Kid 0] = Some x1' /\ at_path (run O cs os') [Kid 0; Kid 1] = Some x2' /\
      ~ has_data s1 x1' /\ has_data s2 x2'.
Proof.
  intros O. exists [YCont (hd (lit "top")) false [YChoice (lit "c") None
    [(lit "x", [YLeaf (hd (lit "z")) txt None (lit "string")]);
     (lit "y", [YCont (hd (lit "m")) false [YChoice (lit "d") None
        [(lit "p", [YCont (hd (lit "n")) false [YChoice (lit "e") None [(lit "r", [YLeaf (hd (lit "a")) txt None (lit "string")])]]]);
         (lit "q", [YLeaf (hd (lit "b")) txt None (lit "string")])]]])]]].
  exists [([Kid 0; Kid 0], ASet Attr (AVal (VStr (lit "1")))); ([Kid 0; Kid 1; Kid 0; Kid 0], ASet Attr (AVal (VStr (lit "2"))))].
  split; [statements|]. do 4 eexists. exists (lit "c"), (lit "x"), (lit "y").
  split; [discriminate|]. split; [vm_compute; reflexivity|]. split; [vm_compute; reflexivity|].
  split; [vm_compute; reflexivity|]. split; [vm_compute; reflexivity|]. split; [vm_compute; reflexivity|].
  split; [vm_compute; reflexivity|]. split; [vm_compute; discriminate|]. split; [vm_compute; discriminate|].
  intros os' ->. eexists _, _. split; [vm_compute; reflexivity|]. split; [vm_compute; reflexivity|].
  split; [intros H; apply H; vm_compute; reflexivity|vm_compute; discriminate].
Qed.
Print Assumptions C30_deep_refuted.

(** With list operations, where entries are only added to lists that have keys ([case_op]).  Missing: choices at the top level, nested choices, the assignment of whole objects, and what the theorems above
    refute. *)
Theorem C30_histories_partial : forall O cs os, uniform cs -> leaf_keys cs ->
  Forall (fun po => case_op cs (fst po) (snd po)) os ->
  one_case cs (module_run O cs (module_new O cs) os).
Proof. exact Tree_case.one_case_past. Qed.
Print Assumptions C30_histories_partial.

Example C30_histories_case : forall O,
  let os := boxed_ops ++ [([Kid 0; Kid 1; Kid 0], AList (lit "u") (YAdd (VStr (lit "k1"))));
                          (entry_m ++ [Kid 2; Kid 0], ASet Attr (AVal (VInt 2%Z)))] in
  uniform boxed_cs /\ leaf_keys boxed_cs /\ Forall (fun po => case_op boxed_cs (fst po) (snd po)) os /\
  at_path (run O boxed_cs boxed_ops) [Kid 0; Kid 0] = Some (OLeaf true (VStr (lit "o"))) /\
  get_kids true boxed_cs (run O boxed_cs os) =
    [(lit "c", DDict [(lit "t", DDict [(lit "l", DList [(VStr (lit "k1"), DDict [(lit "k", DLeaf (VStr (lit "k1")))])])]);
                      (lit "m", DList [(VStr (lit "e"), DDict [(lit "k", DLeaf (VStr (lit "e"))); (lit "p", DDict [(lit "z", DLeaf (VInt 2%Z))])])])])].
Proof.
  intros O. cbv zeta. split; [exact boxed_uniform|]. split; [apply Tree_cases.keyed_leaf_keys, boxed_keyed|]. split.
  - assert (Hl : forall p i keys od cs', schema_at boxed_cs p = Some (SList i keys od cs') ->
       p = [Kid 0; Kid 2] \/ p = [Kid 0; Kid 1; Kid 0] -> keys <> []).
    { intros p i keys od cs' H [-> | ->]; vm_compute in H; injection H as _ <- _ _; discriminate. }
    repeat constructor; cbn [fst snd]; intros; eapply Hl; eauto.
  - split; vm_compute; reflexivity.
Qed.

(* ------------------------------------------------------------------ C34 *)
(** A presence container anywhere in a schema without choices nested in cases is present iff something
    put data in or below it (or it was marked present) successfully, and since then none of the following succeeded: unsetting it or
    something around it, writing into another case, marking it absent; and no entry around it went
    away.  Missing: nested choices, the assignment of whole objects, histories in which refused
    operations change something (C34_presence_refuted). *)
Theorem C34_present_anywhere_partial : forall O cs q i cs' os ch pres kk,
  uniform cs -> even_keys cs -> off_keys cs q -> ends_kid q -> schema_at cs q = Some (SCont i true cs') ->
  Forall (fun po => plain_op (snd po)) os -> new_uids O cs os -> clean_refusals O cs os ->
  at_path (module_run O cs (module_new O cs) os) q = Some (OCont ch pres kk) ->
  (pres = true <->
   exists os1 p o os2, os = os1 ++ (p, o) :: os2 /\ writes cs p o /\ reaches q p /\
     snd (module_exec O cs (module_run O cs (module_new O cs) os1) p o) = Ok tt /\
     lasting O cs (os1 ++ [(p, o)]) os2 q /\ kept_present O cs (os1 ++ [(p, o)]) os2 q).
Proof.
  intros O cs q i cs' os ch pres kk Hu Hpk Hoff Heq Hsq Hpl Hnu Hcr Hx.
  rewrite <- (Tree_past.presence_past O cs q i cs' os Hu Hpk Hoff Heq Hsq Hpl Hnu Hcr). rewrite Hx. split.
  - intros ->. now exists ch, kk.
  - intros (ch' & kk' & E). now injection E as _ -> _.
Qed.
Print Assumptions C34_present_anywhere_partial.

Lemma off_keys_p : off_keys boxed_cs (entry_m ++ [Kid 2]).
Proof.
  intros q1 k n q2 i keys od cs' s E Hs Hn.
  destruct q1 as [|a1 [|a2 [|a3 [|a4 [|a5 q1]]]]]; try discriminate; injection E; intros; subst; try discriminate.
  unfold schema_at in Hs. vm_compute in Hs. injection Hs as <- <- <- <-. cbn in Hn. injection Hn as <-. cbn. intuition discriminate.
Qed.

Example C34_present_anywhere_case : forall O,
  let os := boxed_ops ++ [(entry_m ++ [Kid 2; Kid 0], ASet Attr (AVal (VInt 2%Z))); (entry_m ++ [Kid 2; Kid 0], AUnset);
                          ([Kid 0; Kid 1; Kid 0], AList (lit "u") (YAdd (VStr (lit "k1"))))] in
  let present kids q := match at_path kids q with Some (OCont _ b _) => Some b | _ => None end in
  let q := entry_m ++ [Kid 2] in
  uniform boxed_cs /\ even_keys boxed_cs /\ off_keys boxed_cs q /\ ends_kid q /\
  Forall (fun po => plain_op (snd po)) os /\ new_uids O boxed_cs os /\ clean_refusals O boxed_cs os /\
  present (run O boxed_cs boxed_ops) q = Some false /\ present (run O boxed_cs os) q = Some true /\
  present (run O boxed_cs boxed_ops) [Kid 0; Kid 1] = Some false /\ present (run O boxed_cs os) [Kid 0; Kid 1] = Some true /\
  present (run O boxed_cs (os ++ [(entry_m ++ [Kid 1], ASet Attr (AVal (VInt 1%Z)))])) q = Some false /\
  present (run O boxed_cs (os ++ [([Kid 0; Kid 0], ASet Attr (AVal (VStr (lit "o"))))])) [Kid 0; Kid 1] = Some false.
Proof.
  intros O. cbv zeta.
  assert (Hok : all_ok O boxed_cs (boxed_ops ++ [(entry_m ++ [Kid 2; Kid 0], ASet Attr (AVal (VInt 2%Z))); (entry_m ++ [Kid 2; Kid 0], AUnset);
                          ([Kid 0; Kid 1; Kid 0], AList (lit "u") (YAdd (VStr (lit "k1"))))])).
  { unfold boxed_ops. cbn [app]. succeeds. }
  split; [exact boxed_uniform|]. split; [apply Tree_cases.leaf_even_keys, Tree_cases.keyed_leaf_keys, boxed_keyed|].
  split; [exact off_keys_p|]. split; [now exists entry_m, 2%nat|]. split; [repeat constructor|].
  split; [apply Tree_cases.keyed_uids, boxed_keyed|]. split; [apply Tree_cases.ok_clean, Hok|].
  split; [vm_compute; reflexivity|]. split; [vm_compute; reflexivity|]. split; [vm_compute; reflexivity|].
  split; [vm_compute; reflexivity|]. split; vm_compute; reflexivity.
Qed.
