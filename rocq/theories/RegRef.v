(** Leafrefs in a data tree with a path helper, and the lookups of the helper that are built on [get].
    No proofs in this file. *)
From Verif Require Import PyStr PyVal PathHelper RegTree.

(** xpathhelper.py:313-319, [get_unique]: the exception is the one that the caller asks for. *)
Definition get_unique {A} (e : exn) (caller path : list str) (st : helper A) : res (option A) :=
  objs <- get caller path st ;;
  match objs with
  | [] => Raise e
  | [o] => Ok o
  | _ => Raise e
  end.

(** What a leafref sees of an object that its path leads to (yangtypes.py:1271, 1297-1313): [text] is str()
    of the value of a leaf, [other] that of other objects; [key]: _is_keyval of the leaves the path leads to,
    which all have the same class. *)
Definition target_of (text : pyval -> str) (other : option pobj -> str) (key : bool) (w : world) (o : option pobj) : target :=
  match o with
  | Some (PLeaf v) => {| t_text := text v; t_members := None; t_keyval := key; t_list := false |}
  | Some (PLeafList id) => {| t_text := other o; t_members := Some (map text (members id (w_heap w))); t_keyval := false; t_list := true |}
  | _ => {| t_text := other o; t_members := None; t_keyval := false; t_list := false |}
  end.
(** yangtypes.py:1247-1325: a leafref with the path [ref] in the leaf whose own path is [caller]
    (plugin/pybind.py:941-944) is given the value [v]. *)
Definition leafref_new (text : pyval -> str) (other : option pobj -> str) (require key : bool) (caller : list str) (ref : str) (w : world)
  (assign : res unit) (v : str) : res reference :=
  objs <- get caller (path_parts ref) (w_help w) ;;
  reference_new require (Some (map (target_of text other key w) objs)) assign (Some v).
