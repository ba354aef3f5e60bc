(** Property theorems about config statements: C32. *)
From Verif Require Import PyStr PyVal Restricted SafeName Spec_Lists YList Tree Spec_Tree Compile Spec_Compile Spec_ChoiceConfig Props_Tree.
From Verif Require ChoiceConfig_proofs.
Import ListNotations.

(* ------------------------------------------------------------------ C32 *)
(** All modules: a node can be assigned exactly if there is no config false at the node itself or at a container or list around
    it.  What a choice says does not count, see the refutation. *)
Theorem C32_config_exact : forall O po ss p s dp kids x a, ywf_all ss ->
  shaped (compile_module po ss) kids -> ends_kid p ->
  schema_at (compile_module po ss) p = Some s -> at_path kids p = Some x -> named_at (compile_module po ss) p = Some dp ->
  exists b, declared_own true ss (plain_names dp) b /\ (forall b', declared_own true ss (plain_names dp) b' -> b' = b) /\
    (b = true -> module_exec O (compile_module po ss) kids p (ASet Attr a) = module_exec O (compile_module po ss) kids p (ASet (Priv false) a)) /\
    (b = false -> module_exec O (compile_module po ss) kids p (ASet Attr a) = (kids, Raise AttributeError)).
Proof. exact ChoiceConfig_proofs.own_thm. Qed.
Print Assumptions C32_config_exact.
(** So configuration can always be assigned. *)
Theorem C32_config_writable : forall O po ss p s dp kids x a, ywf_all ss ->
  shaped (compile_module po ss) kids -> ends_kid p ->
  schema_at (compile_module po ss) p = Some s -> at_path kids p = Some x -> named_at (compile_module po ss) p = Some dp ->
  declared true ss (plain_names dp) true ->
  module_exec O (compile_module po ss) kids p (ASet Attr a) = module_exec O (compile_module po ss) kids p (ASet (Priv false) a).
Proof. exact ChoiceConfig_proofs.writable_thm. Qed.
Print Assumptions C32_config_writable.
(** container c { choice ch { config false; case x { leaf a; container s { config false; leaf y; } } } leaf z; } *)
Definition state_choice : list ystmt :=
  [YCont (hd (lit "c")) false [YChoice (lit "ch") (Some false) [(lit "x", [YLeaf (hd (lit "a")) u8 None (lit "uint8");
     YCont (ro (lit "s")) false [YLeaf (hd (lit "y")) u8 None (lit "uint8")]])]; YLeaf (hd (lit "z")) u8 None (lit "uint8")]].
Example C32_exact_case : forall O, let cs := compile_module false state_choice in
  ywf_all state_choice /\ shaped cs (module_new O cs) /\
  named_at cs [Kid 0; Kid 0] = Some [DName (lit "c"); DName (lit "a")] /\
  declared true state_choice [lit "c"; lit "a"] false /\ declared_own true state_choice [lit "c"; lit "a"] true /\
  snd (module_exec O cs (module_new O cs) [Kid 0; Kid 0] (ASet Attr (AVal (VInt 1%Z)))) = Ok tt /\
  declared_own true state_choice [lit "c"; lit "s"; lit "y"] false /\
  snd (module_exec O cs (module_new O cs) [Kid 0; Kid 1; Kid 0] (ASet Attr (AVal (VInt 1%Z)))) = Raise AttributeError /\
  declared true state_choice [lit "c"; lit "z"] true.
Proof.
  intros O. cbv zeta. split; [unfold state_choice; statements|]. split; [apply Tree_proofs.fresh_shaped|]. split; [vm_compute; reflexivity|]. split.
  { eapply (DcInCont _ _ (hd (lit "c"))); [now left|]. eapply DcInChoice; [now left|now left|].
    apply (DcLeaf (own_config (Some false) && (own_config (y_config (hd (lit "c"))) && true)) _ (hd (lit "a")) u8 None (lit "uint8")). now left. }
  split.
  { eapply (DoInCont _ _ (hd (lit "c"))); [now left|]. eapply DoInChoice; [now left|now left|].
    apply (DoLeaf (own_config (y_config (hd (lit "c"))) && true) _ (hd (lit "a")) u8 None (lit "uint8")). now left. }
  split; [vm_compute; reflexivity|]. split.
  { eapply (DoInCont _ _ (hd (lit "c"))); [now left|]. eapply DoInChoice; [now left|now left|].
    eapply (DoInCont _ _ (ro (lit "s"))); [right; now left|].
    apply (DoLeaf (own_config (y_config (ro (lit "s"))) && (own_config (y_config (hd (lit "c"))) && true)) _ (hd (lit "y")) u8 None (lit "uint8")). now left. }
  split; [vm_compute; reflexivity|].
  eapply (DcInCont _ _ (hd (lit "c"))); [now left|].
  apply (DcLeaf (own_config (y_config (hd (lit "c"))) && true) _ (hd (lit "z")) u8 None (lit "uint8")). right. now left.
Qed.
