(** What the generated classes make of config statements (C32). *)
From Verif Require Import PyStr PyVal Tree Compile.
Import ListNotations.

(** The nodes a list of statements declares, and whether a config false stands at the node or at a container or list that
    encloses it; config statements of choices do not count. *)
Inductive declared_own : bool -> list ystmt -> list str -> bool -> Prop :=
| DoLeaf ctx ss h lt d y : In (YLeaf h lt d y) ss -> declared_own ctx ss [y_name h] (own_config (y_config h) && ctx)
| DoLeafList ctx ss h ts y : In (YLeafList h ts y) ss -> declared_own ctx ss [y_name h] (own_config (y_config h) && ctx)
| DoCont ctx ss h pr cs : In (YCont h pr cs) ss -> declared_own ctx ss [y_name h] (own_config (y_config h) && ctx)
| DoList ctx ss h key od cs : In (YList h key od cs) ss -> declared_own ctx ss [y_name h] (own_config (y_config h) && ctx)
| DoInCont ctx ss h pr cs ns b : In (YCont h pr cs) ss ->
    declared_own (own_config (y_config h) && ctx) cs ns b -> declared_own ctx ss (y_name h :: ns) b
| DoInList ctx ss h key od cs ns b : In (YList h key od cs) ss ->
    declared_own (own_config (y_config h) && ctx) cs ns b -> declared_own ctx ss (y_name h :: ns) b
| DoInChoice ctx ss n c cases k cs ns b : In (YChoice n c cases) ss -> In (k, cs) cases ->
    declared_own ctx cs ns b -> declared_own ctx ss ns b.
