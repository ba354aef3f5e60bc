(** The paths of the objects of a tree, and the methods that an application attaches to them by path
    ("extmethods").  No proofs in this file.

    Trees and steps are those of RegTree.v, so names in Python and in YANG are the same, and key values
    are texts. *)
From Verif Require Import PyStr PyVal RegTree.

(* ------------------------------------------------------------------ _path() and _yang_path() *)
(** yangtypes.py:675-683 and 692, 706: the path given to an entry when it is made; an entry of a list
    without keys is given none (722-731) and so has that of a child called like the list. *)
Definition entry_part (n : str) (keys ks : list str) : str := match keys with [] => n | _ => n ++ key_part keys ks end.
(** [_path()] of the object the steps lead to, from an object with path [path] (yangtypes.py:1099-1100,
    1183-1189).  The [_parent] of an entry is the object that has the list (yangtypes.py:539, 688). *)
Fixpoint path_from (path : list str) (cs : list rschema) (p : list rstep) {struct p} : option (list str) :=
  match p with
  | [] => Some path
  | Ent _ :: _ => None
  | Kid i :: p' =>
      match nth_error cs i with
      | None => None
      | Some s =>
          match p' with
          | [] => Some (path ++ [r_name s])
          | Ent ks :: p'' => match s with RList n keys cs' => path_from (path ++ [entry_part n keys ks]) cs' p'' | _ => None end
          | Kid _ :: _ => match s with RCont n cs' => path_from (path ++ [n]) cs' p' | _ => None end
          end
      end
  end.
(** The module object has no parent and the path [] (plugin/pybind.py:1089-1097). *)
Definition path_of : list rschema -> list rstep -> option (list str) := path_from [].
(** yangtypes.py:1102-1103. *)
Definition yang_path (path : list str) : str := lit "/" ++ join (lit "/") path.

(* ------------------------------------------------------------------ extmethods *)
(** yangtypes.py:111-119. *)
Definition remove_path_attributes (p : list str) : list str :=
  map (fun i => if existsb (N.eqb 91) i then hd [] (split_on 91 i) else i) p.
(** yangtypes.py:1005 and 1052. *)
Definition chk_path (p : list str) : str := lit "/" ++ join (lit "/") (remove_path_attributes p).

(** An attribute of the application's object, as dir() lists them: its name, and whether it can be called. *)
Definition member := (str * bool)%type.
(** The argument extmethods of the module: by path, the attributes of the object given for it. *)
Definition extmethods := list (str * list member).
Fixpoint ext_get (p : str) (x : extmethods) : option (list member) :=
  match x with [] => None | (q, l) :: x' => if str_eqb p q then Some l else ext_get p x' end.
Definition public (l : list member) : list member := filter (fun m => negb (startswith (lit "_") (fst m))) l.
Definition under (n : str) : str := lit "_" ++ n.

(** The attributes set before the methods are attached (yangtypes.py:1030-1049). *)
Definition early_names : list str :=
  [lit "_default"; lit "_mchanged"; lit "_yang_name"; lit "_parent"; lit "_choice"; lit "_path_helper"; lit "_supplied_register_path";
   lit "_base_type"; lit "_is_leaf"; lit "_is_container"; lit "_is_config"; lit "_extensionsd"; lit "_extmethods"; lit "_is_keyval";
   lit "_register_paths"; lit "_namespace"; lit "_yang_type"; lit "_defining_module"; lit "_metadata"; lit "_presence"; lit "_cpresent"].
(** The attributes that the body of YANGBaseClass defines, with one "_" in front (yangtypes.py:1010-1209);
    [__generate_extmethod] is there under its mangled name. *)
Definition body_names : list str :=
  [lit "_pybind_base_class"; lit "_changed"; lit "_extensions"; lit "_path"; lit "_yang_path"; lit "_set"; lit "_add_metadata";
   lit "_register_path"; lit "_YANGBaseClass__generate_extmethod"; lit "_set_present"; lit "_present"].
(** What the base class has: whether YANGBaseClass gets __slots__ (yangtypes.py:1018-1019); the attributes
    of the base class; those that its __init__ sets.  Mangled names of children, and leaves whose type is
    a typedef called "list" or "container" (they get __slots__ too), are not looked at. *)
Record nclass := { c_slots : bool; c_base : list str; c_late : list str }.
Definition child_names (s : rschema) : list str := [lit "_get_" ++ r_name s; lit "_set_" ++ r_name s; lit "_unset_" ++ r_name s].
(** plugin/pybind.py:842-870, 1013-1187; of a class without children nothing is written (842-843). *)
Definition cont_names (cs : list rschema) : list str :=
  lit "_pyangbind_elements" ::
  match cs with [] => [] | _ => lit "_yang_name" :: lit "_yang_namespace" :: lit "_pybind_generated_by" :: flat_map child_names cs end.
Definition cont_class (slots : bool) (cs : list rschema) : nclass :=
  {| c_slots := slots; c_base := cont_names cs; c_late := [lit "_path_helper"; lit "_extmethods"] |}.
(** yangtypes.py:546-561, 597, 751-864. *)
Definition list_class : nclass :=
  {| c_slots := true;
     c_base := [lit "_pybind_generated_by"; lit "_key_to_native_key_type"; lit "_generate_key"; lit "_extract_key"; lit "_new_item"; lit "_item"];
     c_late := [lit "_ordered"; lit "_members"; lit "_keyval"; lit "_contained_class"; lit "_path_helper"; lit "_yang_keys"] |}.
(** yangtypes.py:413-420. *)
Definition leaf_list_class : nclass :=
  {| c_slots := false; c_base := [lit "_pybind_generated_by"; lit "_list"]; c_late := [lit "_unique"; lit "_allowed_type"; lit "_list"] |}.

Section Ext.
(** The attributes of the type of a leaf, and those that it sets itself. *)
Context (leaf_attrs : str -> list str * list str).
Definition class_of (s : rschema) : nclass :=
  match s with
  | RLeaf n _ => {| c_slots := false; c_base := fst (leaf_attrs n); c_late := snd (leaf_attrs n) |}
  | RLeafList _ => leaf_list_class
  | RCont _ cs => cont_class true cs
  | RList _ _ _ => list_class
  end.
(** Entries of a list with keys are containers (is_container="container"), those of one without are marked
    as lists and have no yang_type (yangtypes.py:686-711 and 722-731). *)
Definition entry_class (keys : list str) (cs : list rschema) : nclass := cont_class (match keys with [] => false | _ => true end) cs.

Definition has (n : str) (l : list str) : bool := existsb (str_eqb n) l.
(** The additional slots (yangtypes.py:997-1008): the path is that of the parent with the name of the node. *)
Definition ext_slots (x : extmethods) (cls_path : list str) : list str :=
  match x with
  | [] => []
  | _ => match ext_get (chk_path cls_path) x with Some l => map (fun m => under (fst m)) (public l) | None => [] end
  end.
(** [hasattr(self, n)] while the methods are attached, and what [self.n] is in the end.  A slot is empty
    until it is set, and it is found before the attribute of the base class. *)
Definition has_attr (c : nclass) (slots attached : list str) (n : str) : bool :=
  has n early_names || has n body_names || has n attached ||
  (has n (c_base c) && negb (c_slots c && has n slots)).
(** yangtypes.py:1054-1062. *)
Fixpoint attach (c : nclass) (slots : list str) (l : list member) (attached : list str) : list str :=
  match l with
  | [] => attached
  | (m, call) :: l' =>
      if has_attr c slots attached (under m) then attach c slots l' attached
      else if call && negb (has_attr c slots attached (lit "_method")) then attach c slots l' (attached ++ [under m])
      else attach c slots l' attached
  end.
(** The construction of an object, as far as the methods go: the names that were attached.  Slots with the
    name of an attribute in the body of the class are refused by Python. *)
Definition construct_ext (c : nclass) (x : extmethods) (cls_path obj_path : list str) : res (list str) :=
  let slots := ext_slots x cls_path in
  if c_slots c && existsb (fun n => has n body_names) slots then Raise ValueError
  else match x with
       | [] => Ok []
       | _ => match ext_get (chk_path obj_path) x with
              | Some l => Ok (attach c slots (public l) [])
              | None => Ok []
              end
       end.
Inductive attr := AExt | AOwn | ANone.
Definition attribute (c : nclass) (x : extmethods) (cls_path : list str) (attached : list str) (n : str) : attr :=
  if has n (c_late c) then AOwn
  else if has n attached then AExt
  else if has_attr c (ext_slots x cls_path) [] n then AOwn else ANone.

(** The object the steps lead to: its class, the path used for the slots, its own path. *)
Fixpoint node_from (path : list str) (cs : list rschema) (p : list rstep) {struct p} : option (nclass * list str * list str) :=
  match p with
  | [] | Ent _ :: _ => None
  | Kid i :: p' =>
      match nth_error cs i with
      | None => None
      | Some s =>
          match p' with
          | [] => Some (class_of s, path ++ [r_name s], path ++ [r_name s])
          | [Ent ks] => match s with
                        | RList n keys cs' => Some (entry_class keys cs', path ++ [n], path ++ [entry_part n keys ks])
                        | _ => None
                        end
          | Ent ks :: p'' => match s with RList n keys cs' => node_from (path ++ [entry_part n keys ks]) cs' p'' | _ => None end
          | Kid _ :: _ => match s with RCont n cs' => node_from (path ++ [n]) cs' p' | _ => None end
          end
      end
  end.
(** The methods of the object the steps lead to; [caller], that its methods are called with
    (yangtypes.py:1191-1197), is its path. *)
Definition node_methods (x : extmethods) (cs : list rschema) (p : list rstep) : option (res (list str)) :=
  match node_from [] cs p with Some (c, cp, op) => Some (construct_ext c x cp op) | None => None end.
Definition node_attr (x : extmethods) (cs : list rschema) (p : list rstep) (n : str) : option attr :=
  match node_from [] cs p with
  | Some (c, cp, op) => match construct_ext c x cp op with Ok l => Some (attribute c x cp l n) | Raise _ => None end
  | None => None
  end.
End Ext.
