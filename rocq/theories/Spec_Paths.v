(** What users expect of paths and of the methods attached by path. *)
From Verif Require Import PyStr PyVal Spec_Path RegTree Spec_RegTree Paths.

(* ------------------------------------------------------------------ objects in a tree *)
(** The steps lead to an object of the tree. *)
Inductive reaches : list rschema -> list robj -> list rstep -> Prop :=
| rc_kid cs kids i s x : nth_error cs i = Some s -> nth_error kids i = Some x -> reaches cs kids [Kid i]
| rc_entry cs kids i n keys cs' es ks e : nth_error cs i = Some (RList n keys cs') -> nth_error kids i = Some (TList es) -> In (ks, e) es ->
    reaches cs kids [Kid i; Ent ks]
| rc_cont cs kids i n cs' id kids' j p : nth_error cs i = Some (RCont n cs') -> nth_error kids i = Some (TCont id kids') ->
    reaches cs' kids' (Kid j :: p) -> reaches cs kids (Kid i :: Kid j :: p)
| rc_below cs kids i n keys cs' es ks id ekids j p : nth_error cs i = Some (RList n keys cs') -> nth_error kids i = Some (TList es) ->
    In (ks, (id, ekids)) es -> reaches cs' ekids (Kid j :: p) -> reaches cs kids (Kid i :: Ent ks :: Kid j :: p).

(** Every entry on the way has a value for each key of its list, without quotes. *)
Fixpoint keys_quoted (cs : list rschema) (p : list rstep) : Prop :=
  match p with
  | [] => True
  | Ent _ :: _ => True
  | Kid i :: p' =>
      match p', nth_error cs i with
      | Ent ks :: p'', Some (RList _ keys cs') => length ks = length keys /\ Forall (fun v => ~ In 39%N v) ks /\ keys_quoted cs' p''
      | Kid _ :: _, Some (RCont _ cs') => keys_quoted cs' p'
      | _, _ => True
      end
  end.

(* ------------------------------------------------------------------ methods *)
(** Names as YANG has them. *)
Inductive yang_named : rschema -> Prop :=
| yn_leaf n v0 : xml_name n -> yang_named (RLeaf n v0)
| yn_leaf_list n : xml_name n -> yang_named (RLeafList n)
| yn_cont n cs : xml_name n -> (forall s, In s cs -> yang_named s) -> yang_named (RCont n cs)
| yn_list n keys cs : xml_name n -> (forall s, In s cs -> yang_named s) -> yang_named (RList n keys cs).

(** The names of the data nodes on the way: the schema path.  Entries count with their list. *)
Fixpoint names_at (cs : list rschema) (p : list rstep) : option (list str) :=
  match p with
  | Kid i :: p' =>
      match nth_error cs i, p' with
      | Some s, [] => Some [r_name s]
      | Some (RList n _ cs'), [Ent _] => Some [n]
      | Some (RList n _ cs'), Ent _ :: p'' => option_map (cons n) (names_at cs' p'')
      | Some (RCont n cs'), Kid _ :: _ => option_map (cons n) (names_at cs' p')
      | _, _ => None
      end
  | _ => None
  end.
Definition schema_path (ns : list str) : str := concat (map (fun n => lit "/" ++ n) ns).
(** The application's objects have this attribute for the path; it is not a private one. *)
Definition offers (x : extmethods) (ns : list str) (m : str) (callable : bool) : Prop :=
  exists l, In (schema_path ns, l) x /\ In (m, callable) l /\ ~ (exists r, m = lit "_" ++ r).
(** Leaves, leaf-lists, and entries of a list without keys. *)
Definition light (cs : list rschema) (p : list rstep) : Prop :=
  (exists n v0, schema_at cs p = Some (RLeaf n v0)) \/ (exists n, schema_at cs p = Some (RLeafList n)) \/
  (exists q ks n cs', p = q ++ [Ent ks] /\ schema_at cs q = Some (RList n [] cs')).

(** The names that are in use already, without the "_" in front: by kind of object. *)
Inductive kind := KLeaf (n : str) | KLeafList | KCont (cs : list rschema) | KList | KEntry (keys : list str) (cs : list rschema).
Fixpoint kind_at (cs : list rschema) (p : list rstep) : option kind :=
  match p with
  | Kid i :: p' =>
      match nth_error cs i, p' with
      | Some (RLeaf n _), [] => Some (KLeaf n)
      | Some (RLeafList _), [] => Some KLeafList
      | Some (RCont _ cs'), [] => Some (KCont cs')
      | Some (RList _ _ _), [] => Some KList
      | Some (RList _ keys cs'), [Ent _] => Some (KEntry keys cs')
      | Some (RList _ _ cs'), Ent _ :: p'' => kind_at cs' p''
      | Some (RCont _ cs'), Kid _ :: _ => kind_at cs' p'
      | _, _ => None
      end
  | _ => None
  end.
Definition words (s : String.string) : list str := split_on 32 (lit s).
(** Of every object: what the wrapper class defines, and what every object has. *)
Definition wrapper_words : list str :=
  words "changed extensions path yang_path set present set_present add_metadata register_path pybind_base_class YANGBaseClass__generate_extmethod".
Definition object_words : list str :=
  words "default mchanged yang_name parent choice path_helper supplied_register_path base_type is_leaf is_container is_config extensionsd extmethods is_keyval register_paths namespace yang_type defining_module metadata presence cpresent".
(** Of the class that is wrapped; [la]: the attributes of the type of a leaf, and those it sets itself. *)
Definition class_words (la : str -> list str * list str) (k : kind) (m : str) : Prop :=
  match k with
  | KLeaf n => In (lit "_" ++ m) (fst (la n))
  | KLeafList => In m (words "pybind_generated_by list")
  | KList => In m (words "pybind_generated_by key_to_native_key_type generate_key extract_key new_item item")
  | KCont cs | KEntry _ cs =>
      m = lit "pyangbind_elements" \/ (cs <> [] /\ In m (words "yang_name yang_namespace pybind_generated_by")) \/
      exists s, In s cs /\ (m = lit "get_" ++ r_name s \/ m = lit "set_" ++ r_name s \/ m = lit "unset_" ++ r_name s)
  end.
(** Those it sets after the methods were attached. *)
Definition late_words (la : str -> list str * list str) (k : kind) (m : str) : Prop :=
  match k with
  | KLeaf n => In (lit "_" ++ m) (snd (la n))
  | KLeafList => In m (words "unique allowed_type list")
  | KList => In m (words "ordered members keyval contained_class path_helper yang_keys")
  | _ => False
  end.
(** Containers, lists, and entries of lists with keys: their classes have slots. *)
Definition slotted (k : kind) : Prop :=
  match k with KCont _ | KList | KEntry (_ :: _) _ => True | _ => False end.
