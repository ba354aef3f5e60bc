(** What users expect of the path helper of a tree: what is in the tree is found under its path, and
    nothing else is. *)
From Verif Require Import PyStr PyVal PathHelper Spec_Path RegTree.

(** The object [o] is in the tree, [q] says where. *)
Inductive in_tree : list rschema -> list robj -> place -> pobj -> Prop :=
| in_leaf cs kids i n v0 v : nth_error cs i = Some (RLeaf n v0) -> nth_error kids i = Some (TLeaf v) -> in_tree cs kids [(n, [])] (PLeaf v)
| in_leaf_list cs kids i n id : nth_error cs i = Some (RLeafList n) -> nth_error kids i = Some (TLeafList id) -> in_tree cs kids [(n, [])] (PLeafList id)
| in_cont cs kids i n cs' id kids' : nth_error cs i = Some (RCont n cs') -> nth_error kids i = Some (TCont id kids') -> in_tree cs kids [(n, [])] (PNode id)
| in_cont_below cs kids i n cs' id kids' q o : nth_error cs i = Some (RCont n cs') -> nth_error kids i = Some (TCont id kids') ->
    in_tree cs' kids' q o -> in_tree cs kids ((n, []) :: q) o
| in_entry cs kids i n keys cs' es ks id ekids : nth_error cs i = Some (RList n keys cs') -> nth_error kids i = Some (TList es) ->
    In (ks, (id, ekids)) es -> in_tree cs kids [(n, combine keys ks)] (PNode id)
| in_entry_below cs kids i n keys cs' es ks id ekids q o : nth_error cs i = Some (RList n keys cs') -> nth_error kids i = Some (TList es) ->
    In (ks, (id, ekids)) es -> in_tree cs' ekids q o -> in_tree cs kids ((n, combine keys ks) :: q) o.

(** What is found for an object: the object itself, or for a leaf an equal value. *)
Definition agrees (found o : pobj) : Prop :=
  match found, o with PLeaf a, PLeaf b => a = b \/ py_eq a b = true | _, _ => found = o end.
Definition is_leaf_list (o : pobj) : bool := match o with PLeafList _ => true | _ => false end.

(* ------------------------------------------------------------------ schemas *)
(** Names as YANG has them, without "." in names of keys; siblings have different names; every list has
    keys and they are leaves of it. *)
Definition key_name_ok (k : str) : Prop := xml_name k /\ Forall key_char k /\ k <> lit "obj_ptr".
Inductive schema_ok : rschema -> Prop :=
| ok_leaf n v0 : xml_name n -> schema_ok (RLeaf n v0)
| ok_leaf_list n : xml_name n -> schema_ok (RLeafList n)
| ok_cont n cs : xml_name n -> NoDup (map r_name cs) -> (forall s, In s cs -> schema_ok s) -> schema_ok (RCont n cs)
| ok_list n keys cs : xml_name n -> NoDup (map r_name cs) -> (forall s, In s cs -> schema_ok s) ->
    keys <> [] -> NoDup keys -> (forall k, In k keys -> key_name_ok k /\ exists v0, In (RLeaf k v0) cs) -> schema_ok (RList n keys cs).
Definition module_ok (cs : list rschema) : Prop := NoDup (map r_name cs) /\ forall s, In s cs -> schema_ok s.

(** The names of the keys, by the names from the top. *)
Definition named (n : str) (cs : list rschema) : option rschema := find (fun s => str_eqb n (r_name s)) cs.
Fixpoint keys_of (cs : list rschema) (tags : list str) : list str :=
  match tags with
  | [] => []
  | t :: tags' =>
      match named t cs with
      | Some (RList _ keys cs') => match tags' with [] => keys | _ => keys_of cs' tags' end
      | Some (RCont _ cs') => keys_of cs' tags'
      | _ => []
      end
  end.
(** The class of the child that an operation is about. *)
Fixpoint schema_at (cs : list rschema) (p : list rstep) : option rschema :=
  match p with
  | Kid i :: p' =>
      match p' with
      | [] => nth_error cs i
      | Kid _ :: _ => match nth_error cs i with Some (RCont _ cs') => schema_at cs' p' | _ => None end
      | Ent _ :: p'' => match nth_error cs i with Some (RList _ _ cs') => schema_at cs' p'' | _ => None end
      end
  | _ => None
  end.

(* ------------------------------------------------------------------ operations *)
(** Texts of keys that the helper can hold. *)
Definition key_text_ok (v : str) : Prop :=
  v <> [] /\ (forall c, In c v -> ~ In c (lit " ^'""[]")) /\ no_bars v /\ xml_text v /\ forall a b, v <> a ++ lit "current()" ++ b.
Definition keys_fit (cs : list rschema) (p : list rstep) (ks : list str) : Prop :=
  forall n keys cs', schema_at cs p = Some (RList n keys cs') -> length ks = length keys /\ Forall key_text_ok ks.
(** A value whose construction goes through. *)
Inductive good_for : rschema -> value -> Prop :=
| good_leaf n v0 v : good_for (RLeaf n v0) (VLeaf (Good v))
| good_leaf_list n l : good_for (RLeafList n) (VMembers (Ok l))
| good_list n keys cs v : good_for (RList n keys cs) v
| good_cont n cs ch : (forall i v, In (i, v) ch -> exists s, nth_error cs i = Some s /\ good_for s v) -> good_for (RCont n cs) (VObject ch).
Definition is_good (o : outcome) : Prop := match o with Good _ => True | _ => False end.
Definition not_late (v : value) : Prop := match v with VLeaf (Late _ _) => False | _ => True end.

(** Operations that do not fail after they have registered something in place of what the tree keeps: no
    leaf that is refused late, only fitting objects for containers and for existing entries.  New entries
    may fail. *)
Definition fine (cs : list rschema) (po : list rstep * rop) : Prop :=
  let (p, o) := po in
  match o with
  | Set_ v => not_late v /\ (forall n cs', schema_at cs p = Some (RCont n cs') -> good_for (RCont n cs') v)
  | Unset | Members _ | Del _ => True
  | Add ks _ | Delete ks => keys_fit cs p ks
  | Put ks ko arg => keys_fit cs p ks /\ Forall is_good ko /\ exists ch, arg = Some ch /\
      forall n keys cs' i v, schema_at cs p = Some (RList n keys cs') -> In (i, v) ch -> exists s, nth_error cs' i = Some s /\ good_for s v
  end.
(** Operations that construct nothing in place of a container, a leaf-list or an entry, and take entries
    away with delete() only. *)
Definition tame (cs : list rschema) (po : list rstep * rop) : Prop :=
  let (p, o) := po in
  match o with
  | Set_ v => not_late v /\ exists n v0, schema_at cs p = Some (RLeaf n v0)
  | Unset => exists n v0, schema_at cs p = Some (RLeaf n v0)
  | Members _ => True
  | Add ks ko => keys_fit cs p ks /\ Forall is_good ko
  | Delete ks => keys_fit cs p ks
  | Put _ _ _ | Del _ => False
  end.
