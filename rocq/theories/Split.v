(** The files of --split-class-dir: one directory for each generated class, with the imports of the
    classes below.  No proofs in this file.

    Statements are those of Compile.v.  The classes of RPCs and notifications are not modelled, nor those
    of submodules. *)
From Verif Require Import PyStr PyVal SafeName Tree Compile.

(** plugin/pybind.py:722-732: the name of the directory for the node [a] below [prev]; at the top it is
    compared with the name of the module. *)
Fixpoint dirs_from (m : str) (top : bool) (prev : str) (p : list str) : list str :=
  match p with
  | [] => []
  | a :: p' =>
      (if str_eqb a prev then safe_name a ++ lit "_"
       else if top && str_eqb a m then safe_name a ++ lit "_"
       else safe_name a) :: dirs_from m false a p'
  end.
(** [path.split("/")] has an empty part in front. *)
Definition dirs (m : str) (p : list str) : list str := dirs_from m true [] p.

(** plugin/pybind.py:787-793. *)
Definition import_name (parent a : str) : str := safe_name (if str_eqb a parent then a ++ lit "_" else a).
(** plugin/pybind.py:1520-1528: the class of an element, as module and name. *)
Definition use_of (parent a : str) : str * str :=
  ((if str_eqb a parent then safe_name a ++ lit "_" else safe_name a), safe_name a).

(** plugin/pybind.py:695-699 and 1484-1485: the elements that have a class of their own; the cases of a choice
    count as children (667-684). *)
Definition has_class (po : bool) (s : ystmt) : bool :=
  match s with
  | YCont _ pr cs => match cs with [] => po && pr | _ => true end
  | YList _ _ _ cs => match cs with [] => false | _ => true end
  | _ => false
  end.
Fixpoint class_names (po : bool) (s : ystmt) {struct s} : list str :=
  match s with
  | YCont h _ _ | YList h _ _ _ => if has_class po s then [y_name h] else []
  | YChoice _ _ cases => flat_map (fun kc => match kc with (_, ss) => flat_map (class_names po) ss end) cases
  | _ => []
  end.

(** A file: its directory below that of the module, the modules it imports, the class it defines and the
    classes that class uses. *)
Record pyfile := { f_dir : list str; f_imports : list str; f_class : str; f_uses : list (str * str) }.
Definition file_of (po : bool) (m parent : str) (path : list str) (cs : list ystmt) : pyfile :=
  let names := flat_map (class_names po) cs in
  {| f_dir := dirs m path; f_imports := map (import_name parent) names; f_class := safe_name parent; f_uses := map (use_of parent) names |}.
(** plugin/pybind.py:702-799: the files for a statement below [path]. *)
Fixpoint emit (po : bool) (m : str) (path : list str) (s : ystmt) {struct s} : list pyfile :=
  match s with
  | YCont h _ cs | YList h _ _ cs =>
      if has_class po s
      then file_of po m (y_name h) (path ++ [y_name h]) cs :: flat_map (emit po m (path ++ [y_name h])) cs
      else []
  | YChoice _ _ cases => flat_map (fun kc => match kc with (_, ss) => flat_map (emit po m path) ss end) cases
  | _ => []
  end.
Definition emit_module (po : bool) (m : str) (ss : list ystmt) : list pyfile := file_of po m m [] ss :: flat_map (emit po m []) ss.

(** Names that the head of every file defines for the classes below it (plugin/pybind.py:303-333). *)
Definition header_names : list str :=
  map lit ["attrgetter"; "RestrictedPrecisionDecimalType"; "RestrictedClassType"; "TypedListType"; "YANGBool"; "YANGListType"; "YANGDynClass";
           "ReferenceType"; "YANGBinary"; "YANGBitsType"; "PybindBase"; "OrderedDict"; "Decimal"; "__builtin__"; "long"]%string.
