(** The file that the plugin writes without --split-class-dir: its classes, which refer to one another by name, and what
    instantiating one of them gives.  No proofs in this file.

    Statements are those of Compile.v; an rpc is a container of containers input and output, a notification a container
    (plugin/pybind.py:1467-1485, 797).  The text of the file is not modelled but what Python makes of it: a class is found by
    its name when an object is made, so that of several classes of the same name the last one counts. *)
From Verif Require Import PyStr PyVal SafeName Tree Compile Serialise Split.

(** What a class says about a child: a leaf or leaf-list with all there is to it, or a container or list with the name of
    the class for it (plugin/pybind.py:1532-1536). *)
Inductive shape := ShCont (presence : bool) | ShList (keys : list str) (ordered : bool).
Inductive cmember := MLeaf (s : schema) | MNode (i : einfo) (k : shape) (cls : str).
Record pyclass := { k_name : str; k_members : list cmember }.

(** plugin/pybind.py:648-699, 1422-1560: the elements for a statement of the class at [path] in module [m].  Arguments as
    for [compile]. *)
Fixpoint members (po cfg : bool) (choice : option (str * str)) (keys : list str) (m : str) (path : list str) (s : ystmt) {struct s} : list cmember :=
  match s with
  | YLeaf h lt dflt ytype => [MLeaf (SLeaf (info_of h choice cfg) lt dflt ytype (str_in (y_name h) keys))]
  | YLeafList h ts ytype => [MLeaf (SLeafList (info_of h choice cfg) ts ytype)]
  | YCont h pr _ =>
      if has_class po s then [MNode (info_of h choice cfg) (ShCont (po && pr)) (class_name m (y_name h) (path ++ [y_name h]))] else []
  | YList h key ordered _ =>
      if has_class po s
      then [MNode (info_of h choice cfg) (ShList (match key with Some k => list_key_attrs k | None => [] end) ordered) (class_name m (y_name h) (path ++ [y_name h]))]
      else []
  | YChoice name _ cases =>
      flat_map (fun kc => match kc with (k, ss) => flat_map (members po cfg (Some (name, k)) keys m path) ss end) cases
  end.
(** plugin/pybind.py:702-816: the classes for a statement; those of the children are written first (771-783). *)
Definition class_of (po cfg : bool) (choice : option (str * str)) (keys : list str) (m name : str) (path : list str) (cs : list ystmt) : pyclass :=
  {| k_name := name; k_members := flat_map (members po cfg choice keys m path) cs |}.
Fixpoint classes (po cfg : bool) (choice : option (str * str)) (m : str) (path : list str) (s : ystmt) {struct s} : list pyclass :=
  match s with
  | YLeaf _ _ _ _ | YLeafList _ _ _ => []
  | YCont h _ cs =>
      if has_class po s
      then let path' := path ++ [y_name h] in let cfg' := cfg && own_config (y_config h) in
           flat_map (classes po cfg' choice m path') cs ++ [class_of po cfg' choice [] m (class_name m (y_name h) path') path' cs]
      else []
  | YList h key _ cs =>
      if has_class po s
      then let path' := path ++ [y_name h] in let cfg' := cfg && own_config (y_config h) in
           flat_map (classes po cfg' choice m path') cs ++
           [class_of po cfg' choice (match key with Some k => split_on 32 k | None => [] end) m (class_name m (y_name h) path') path' cs]
      else []
  | YChoice name _ cases =>
      flat_map (fun kc => match kc with (k, ss) => flat_map (classes po cfg (Some (name, k)) m path) ss end) cases
  end.
(** The statements [ss] below [path] of module [m] and the class [name] that holds them. *)
Definition group (po : bool) (m name : str) (path : list str) (ss : list ystmt) : list pyclass :=
  flat_map (classes po true None m path) ss ++ [class_of po true None [] m name path ss].

(** A module that pyang was asked to build: its data definition statements - with those of its submodules -, its rpcs and
    notifications, and the names of the submodules it includes. *)
Record ymod := { ym_name : str; ym_data : list ystmt; ym_rpcs : list ystmt; ym_notes : list ystmt; ym_subs : list str }.
(** plugin/pybind.py:419-422 and 428-437. *)
Definition side_path (m : str) (suffix : String.string) : list str := [safe_name m ++ lit suffix].
Definition side (po : bool) (m : str) (suffix : String.string) (ss : list ystmt) : list pyclass :=
  match ss with [] => [] | _ => group po m (class_name m m (side_path m suffix)) (side_path m suffix) ss end.
(** plugin/pybind.py:402-437: all data nodes of the module for the module and again for each submodule. *)
Definition build_one (po rpcs notes : bool) (y : ymod) : list pyclass :=
  flat_map (fun x => group po x (safe_name x) [] (ym_data y) ++
                     (if rpcs then side po (ym_name y) "_rpc" (ym_rpcs y) else []) ++
                     (if notes then side po (ym_name y) "_notification" (ym_notes y) else []))
           (ym_name y :: ym_subs y).
Definition build (po rpcs notes : bool) (ys : list ymod) : list pyclass := flat_map (build_one po rpcs notes) ys.

(** [d[k] = v], and the classes of a file by name. *)
Fixpoint put {A} (k : str) (v : A) (d : list (str * A)) : list (str * A) :=
  match d with [] => [(k, v)] | (n, a) :: d' => if str_eqb k n then (k, v) :: d' else (n, a) :: put k v d' end.
Definition find_class (n : str) (f : list pyclass) : option pyclass := find (fun c => str_eqb n (k_name c)) (rev f).
(** plugin/pybind.py:855-857 (the ordered dictionary of the elements) and 1004 ([classes[i["name"]] = ...]): elements of the
    same Python name are one. *)
Definition member_py (x : cmember) : str := match x with MLeaf s => e_py (s_info s) | MNode i _ _ => e_py i end.
Definition attrs (l : list cmember) : list (str * cmember) := fold_left (fun d x => put (member_py x) x d) l [].
Definition node (i : einfo) (k : shape) (cs : list schema) : schema :=
  match k with ShCont pr => SCont i pr cs | ShList keys ordered => SList i keys ordered cs end.
(** plugin/pybind.py:1058-1061: an object of the class called [n], as the schema of Tree.v; also the entries of its lists
    are looked at.  [fuel]: how deep calls may nest (RecursionError). *)
Fixpoint instantiate (fuel : nat) (f : list pyclass) (n : str) {struct fuel} : res (list schema) :=
  match fuel with
  | 0%nat => Raise RuntimeError
  | S fuel' =>
      match find_class n f with
      | None => Raise NameError
      | Some c => map_res (fun nx => match snd nx with
                                     | MLeaf s => Ok s
                                     | MNode i k cls => cs <- instantiate fuel' f cls ;; Ok (node i k cs)
                                     end) (attrs (k_members c))
      end
  end.
(** Importing the file and making an object.  A class called like something that the head of the file defines hides that:
    what then happens is not modelled. *)
Definition run_file (fuel : nat) (f : list pyclass) (n : str) : res (list schema) :=
  if existsb (fun c => str_in (k_name c) header_names) f then Raise RuntimeError else instantiate fuel f n.
