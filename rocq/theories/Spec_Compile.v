(** Vocabulary for properties of the compiled schema. *)
From Verif Require Import PyStr PyVal Restricted SafeName Tree Spec_Tree Compile.

(** RFC 6020: the nodes a list of statements declares - by the names on the way, choices and cases
    not counting - and whether they are configuration: a node is if it and everything that encloses
    it, choices included, is not config false. *)
Inductive declared : bool -> list ystmt -> list str -> bool -> Prop :=
| DcLeaf ctx ss h lt d y : In (YLeaf h lt d y) ss -> declared ctx ss [y_name h] (own_config (y_config h) && ctx)
| DcLeafList ctx ss h ts y : In (YLeafList h ts y) ss -> declared ctx ss [y_name h] (own_config (y_config h) && ctx)
| DcCont ctx ss h pr cs : In (YCont h pr cs) ss -> declared ctx ss [y_name h] (own_config (y_config h) && ctx)
| DcList ctx ss h key od cs : In (YList h key od cs) ss -> declared ctx ss [y_name h] (own_config (y_config h) && ctx)
| DcInCont ctx ss h pr cs ns b : In (YCont h pr cs) ss ->
    declared (own_config (y_config h) && ctx) cs ns b -> declared ctx ss (y_name h :: ns) b
| DcInList ctx ss h key od cs ns b : In (YList h key od cs) ss ->
    declared (own_config (y_config h) && ctx) cs ns b -> declared ctx ss (y_name h :: ns) b
| DcInChoice ctx ss n c cases k cs ns b : In (YChoice n c cases) ss -> In (k, cs) cases ->
    declared (own_config c && ctx) cs ns b -> declared ctx ss ns b.

(** Names of the data nodes directly inside a list of statements, looking through choices. *)
Fixpoint level_names (s : ystmt) : list str :=
  match s with
  | YLeaf h _ _ _ => [y_name h]
  | YLeafList h _ _ => [y_name h]
  | YCont h _ _ => [y_name h]
  | YList h _ _ _ => [y_name h]
  | YChoice _ _ cases => flat_map (fun kc => match kc with (_, ss) => flat_map level_names ss end) cases
  end.

(** Sibling data nodes have different names, everywhere. *)
Inductive ywf : ystmt -> Prop :=
| WfLeaf h lt d y : ywf (YLeaf h lt d y)
| WfLeafList h ts y : ywf (YLeafList h ts y)
| WfCont h pr cs : NoDup (flat_map level_names cs) -> (forall s, In s cs -> ywf s) -> ywf (YCont h pr cs)
| WfList h key od cs : NoDup (flat_map level_names cs) -> (forall s, In s cs -> ywf s) -> ywf (YList h key od cs)
| WfChoice n c cases : (forall k ss s, In (k, ss) cases -> In s ss -> ywf s) -> ywf (YChoice n c cases).
Definition ywf_all (ss : list ystmt) : Prop := NoDup (flat_map level_names ss) /\ forall s, In s ss -> ywf s.

(** No choice statement is config false. *)
Inductive choice_config_free : ystmt -> Prop :=
| CcLeaf h lt d y : choice_config_free (YLeaf h lt d y)
| CcLeafList h ts y : choice_config_free (YLeafList h ts y)
| CcCont h pr cs : (forall s, In s cs -> choice_config_free s) -> choice_config_free (YCont h pr cs)
| CcList h key od cs : (forall s, In s cs -> choice_config_free s) -> choice_config_free (YList h key od cs)
| CcChoice n c cases : own_config c = true -> (forall k ss s, In (k, ss) cases -> In s ss -> choice_config_free s) ->
    choice_config_free (YChoice n c cases).

(** No choice anywhere inside; no choice inside a case, at any depth. *)
Inductive no_choice : ystmt -> Prop :=
| NcLeaf h lt d y : no_choice (YLeaf h lt d y)
| NcLeafList h ts y : no_choice (YLeafList h ts y)
| NcCont h pr cs : (forall s, In s cs -> no_choice s) -> no_choice (YCont h pr cs)
| NcList h key od cs : (forall s, In s cs -> no_choice s) -> no_choice (YList h key od cs).
Inductive no_nested_choice : ystmt -> Prop :=
| NnLeaf h lt d y : no_nested_choice (YLeaf h lt d y)
| NnLeafList h ts y : no_nested_choice (YLeafList h ts y)
| NnCont h pr cs : (forall s, In s cs -> no_nested_choice s) -> no_nested_choice (YCont h pr cs)
| NnList h key od cs : (forall s, In s cs -> no_nested_choice s) -> no_nested_choice (YList h key od cs)
| NnChoice n c cases : (forall k ss s, In (k, ss) cases -> In s ss -> no_choice s) -> no_nested_choice (YChoice n c cases).

Fixpoint plain_names (dp : list dstep) : list str :=
  match dp with [] => [] | DName n :: dp' => n :: plain_names dp' | DKey _ :: dp' => plain_names dp' end.
