(** What leafrefs in a data tree should accept. *)
From Verif Require Import PyStr PyVal PathHelper Spec_Path RegTree Spec_RegTree.

(** What a search in a tree returns: what is in the tree at the places that are wanted, each once. *)
Definition found_in (cs : list rschema) (kids : list robj) (wanted : place -> Prop) (r : res (list (option pobj))) : Prop :=
  exists qs os, NoDup qs /\ (forall q, In q qs <-> wanted q /\ exists o, in_tree cs kids q o) /\
    Forall2 (fun q o' => forall o, in_tree cs kids q o -> agrees o' o) qs os /\ r = Ok (map Some os).

(** The path of a leafref: [up] times "..", then names, with or without prefix; for [up] = 0 the path
    begins with "/". *)
Definition part_name (part n : str) : Prop := xml_name n /\ (part = n \/ exists prefix, xml_name prefix /\ part = prefix ++ lit ":" ++ n).
Definition reads (ref : str) (up : nat) (ns : list str) : Prop :=
  exists parts, parts <> [] /\ Forall2 part_name parts ns /\
    ref = match up with 0%nat => lit "/" ++ join (lit "/") parts | _ => join (lit "/") (repeat (lit "..") up ++ parts) end.
(** The nodes that it means, for a leafref at the place [c]: those with these names, below the node that is
    [up] levels above, or below the top. *)
Definition meant (c : place) (up : nat) (ns : list str) (q : place) : Prop :=
  match up with
  | 0%nat => map fst q = ns
  | _ => exists r, q = firstn (length c - up) c ++ r /\ map fst r = ns
  end.
