(** What is asked of several modules with one path helper (C96). *)
From Verif Require Import PyStr PyVal PathHelper Spec_Path RegTree Spec_RegTree Modules.

(** No two nodes at the top have one name. *)
Definition modules_ok (mods : list (list rschema)) : Prop := NoDup (map r_name (concat mods)) /\ forall cs s, In cs mods -> In s cs -> schema_ok s.
Definition fine_event (mods : list (list rschema)) (e : event) : Prop :=
  match e with New _ => True | Do m p o => forall cs, nth_error mods m = Some cs -> fine cs (p, o) end.
(** Objects without data. *)
Inductive blank (heap : list (nat * list pyval)) : rschema -> robj -> Prop :=
| blank_leaf n v0 : blank heap (RLeaf n v0) (TLeaf v0)
| blank_leaf_list n id : members id heap = [] -> blank heap (RLeafList n) (TLeafList id)
| blank_cont n cs id kids : Forall2 (blank heap) cs kids -> blank heap (RCont n cs) (TCont id kids)
| blank_list n keys cs : blank heap (RList n keys cs) (TList []).
