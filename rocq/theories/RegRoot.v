(** The root object of the path helper, and get_list.  No proofs in this file.

    An object that the helper still has but that is no longer in the tree is not modelled
    ([RuntimeError]). *)
From Verif Require Import PyStr PyVal SafeName PathHelper RegTree RegRef.

(** The containers and list entries of a tree with their identities: classes and values of their
    children. *)
Fixpoint nodes (s : rschema) (x : robj) {struct s} : list (nat * (list rschema * list robj)) :=
  let below := fix below cs kids := match cs, kids with
                                    | s' :: cs', x' :: kids' => nodes s' x' ++ below cs' kids'
                                    | _, _ => []
                                    end in
  match s, x with
  | RCont _ cs, TCont id kids => (id, (cs, kids)) :: below cs kids
  | RList _ _ cs, TList es => flat_map (fun e => (fst (snd e), (cs, snd (snd e))) :: below cs (snd (snd e))) es
  | _, _ => []
  end.
Fixpoint all_nodes (cs : list rschema) (kids : list robj) : list (nat * (list rschema * list robj)) :=
  match cs, kids with
  | s :: cs', x :: kids' => nodes s x ++ all_nodes cs' kids'
  | _, _ => []
  end.
Definition node_with (id : nat) (cs : list rschema) (kids : list robj) : option (list rschema * list robj) :=
  option_map snd (find (fun e => Nat.eqb (fst e) id) (all_nodes cs kids)).
(** The methods _get_x of generated classes (plugin/pybind.py:1122-1127): the child x. *)
Fixpoint getter (x : str) (cs : list rschema) (kids : list robj) : option robj :=
  match cs, kids with
  | s :: cs', y :: kids' => if str_eqb x (safe_name (r_name s)) then Some y else getter x cs' kids'
  | _, _ => None
  end.

(** What get_list returns: a child of an object of the tree, or an attribute of the FakeRoot. *)
Inductive got := GotChild (x : robj) | GotTop (o : pobj).
(** xpathhelper.py:321-333, [get_list] for a path given as a list of parts or, with [path_parts], as text.
    Without a part before the last one the search is for "/", that is the document, which lxml leaves out
    of its results. *)
Definition get_list (e : exn) (caller path : list str) (cs : list rschema) (kids : list robj) (w : world) : res got :=
  match removelast path with
  | [] => Raise e
  | parent =>
      o <- get_unique e caller parent (w_help w) ;;
      let x := safe_name (last path []) in
      match o with
      | None => match look x (w_gets w) with Some t => Ok (GotTop t) | None => Raise e end
      | Some (PNode id) => match node_with id cs kids with
                           | Some (cs', kids') => match getter x cs' kids' with Some y => Ok (GotChild y) | None => Raise e end
                           | None => Raise RuntimeError
                           end
      | Some _ => Raise e
      end
  end.
(** [elements()] of the FakeRoot (lib/base.py:16-17), and its attributes. *)
Definition root_elements (w : world) : list str := map fst (w_root w).
Definition root_attribute (n : str) (w : world) : option pobj := look n (w_root w).
