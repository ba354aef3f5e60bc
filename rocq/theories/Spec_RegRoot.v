(** What users expect of the root object of the path helper, and of get_list. *)
From Verif Require Import PyStr PyVal SafeName PathHelper Spec_Path RegTree Spec_RegTree.

(** The container or list entry at the place [q] has the children [cs'] and [kids']. *)
Inductive children_at : list rschema -> list robj -> place -> list rschema -> list robj -> Prop :=
| at_cont cs kids i n cs' id kids' : nth_error cs i = Some (RCont n cs') -> nth_error kids i = Some (TCont id kids') ->
    children_at cs kids [(n, [])] cs' kids'
| at_cont_below cs kids i n cs' id kids' q cs'' kids'' : nth_error cs i = Some (RCont n cs') -> nth_error kids i = Some (TCont id kids') ->
    children_at cs' kids' q cs'' kids'' -> children_at cs kids ((n, []) :: q) cs'' kids''
| at_entry cs kids i n keys cs' es ks id ekids : nth_error cs i = Some (RList n keys cs') -> nth_error kids i = Some (TList es) ->
    In (ks, (id, ekids)) es -> children_at cs kids [(n, combine keys ks)] cs' ekids
| at_entry_below cs kids i n keys cs' es ks id ekids q cs'' kids'' : nth_error cs i = Some (RList n keys cs') -> nth_error kids i = Some (TList es) ->
    In (ks, (id, ekids)) es -> children_at cs' ekids q cs'' kids'' -> children_at cs kids ((n, combine keys ks) :: q) cs'' kids''.

(** Siblings have different names in Python. *)
Definition py_names (cs : list rschema) : Prop := NoDup (map (fun s => safe_name (r_name s)) cs).

(** The object that a child is, if it is one for the helper: lists are not. *)
Definition as_object (x : robj) : option pobj :=
  match x with TLeaf v => Some (PLeaf v) | TLeafList id => Some (PLeafList id) | TCont id _ => Some (PNode id) | TList _ => None end.

(** The steps [p] lead to the leaf-list [id], at the place [q]. *)
Inductive reaches : list rschema -> list robj -> list rstep -> place -> nat -> Prop :=
| reach_here cs kids i n id : nth_error cs i = Some (RLeafList n) -> nth_error kids i = Some (TLeafList id) -> reaches cs kids [Kid i] [(n, [])] id
| reach_cont cs kids i n cs' cid kids' p q id : nth_error cs i = Some (RCont n cs') -> nth_error kids i = Some (TCont cid kids') ->
    reaches cs' kids' p q id -> reaches cs kids (Kid i :: p) ((n, []) :: q) id
| reach_entry cs kids i n keys cs' es ks eid ekids p q id : nth_error cs i = Some (RList n keys cs') -> nth_error kids i = Some (TList es) ->
    In (ks, (eid, ekids)) es -> reaches cs' ekids p q id -> reaches cs kids (Kid i :: Ent ks :: p) ((n, combine keys ks) :: q) id.
