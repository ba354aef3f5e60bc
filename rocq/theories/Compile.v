(** From YANG data definition statements to the generated classes: names, choices, config.  Types are
    taken as already built (see IntTypes.v, StrTypes.v, Compiler.v).  No proofs in this file. *)
From Verif Require Import PyStr PyVal Restricted SafeName Tree.

(** Statements after pyang has expanded uses and augment.  [y_config] is the argument of a config
    substatement.  The argument of a list's key
    statement is [key].  A choice holds its cases (pyang inserts the implicit ones). *)
Record yhead := { y_name : str; y_ns : str; y_mod : str; y_config : option bool }.
Inductive ystmt :=
| YLeaf (h : yhead) (lt : ltype) (dflt : option pyval) (ytype : str)
| YLeafList (h : yhead) (ts : list pty) (ytype : str)
| YCont (h : yhead) (presence : bool) (cs : list ystmt)
| YList (h : yhead) (key : option str) (ordered : bool) (cs : list ystmt)
| YChoice (name : str) (config : option bool) (cases : list (str * list ystmt)).

(** plugin/pybind.py:1499-1500 and 1668-1669: an element without a config statement counts as config
    true. *)
Definition own_config (c : option bool) : bool := match c with Some b => b | None => true end.

Definition info_of (h : yhead) (choice : option (str * str)) (cfg : bool) : einfo :=
  {| e_py := safe_name (y_name h); e_yang := y_name h; e_ns := y_ns h; e_mod := y_mod h;
     e_choice := choice; e_rw := own_config (y_config h) && cfg |}.

(** plugin/pybind.py:648-699 (get_children_elements), 702-764 (get_children: config false of the
    parent is handed down), 811-817, 998-999 (key leaves) and 1422-1560 (get_element): [presence_opt] is --presence, [cfg] is parent_cfg, [choice] the (choice, case) in
    force - which a container hands on to its children -, [keys] the keys of the enclosing list.
    - A choice contributes the elements of its cases; its own config statement is never read.
    - A container (or list) without children yields no element, unless it is a presence container
      and presence is generated. *)
Fixpoint compile (presence_opt cfg : bool) (choice : option (str * str)) (keys : list str) (s : ystmt) : list schema :=
  match s with
  | YLeaf h lt dflt ytype => [SLeaf (info_of h choice cfg) lt dflt ytype (str_in (y_name h) keys)]
  | YLeafList h ts ytype => [SLeafList (info_of h choice cfg) ts ytype]
  | YCont h presence cs =>
      match cs with
      | [] => if presence_opt && presence then [SCont (info_of h choice cfg) true []] else []
      | _ => [SCont (info_of h choice cfg) (presence_opt && presence)
                (flat_map (compile presence_opt (cfg && own_config (y_config h)) choice []) cs)]
      end
  | YList h key ordered cs =>
      match cs with
      | [] => []
      | _ => [SList (info_of h choice cfg) (match key with Some k => list_key_attrs k | None => [] end) ordered
                (flat_map (compile presence_opt (cfg && own_config (y_config h)) choice
                             (match key with Some k => split_on 32 k | None => [] end)) cs)]
      end
  | YChoice name _ cases =>
      flat_map (fun kc => match kc with
                          | (k, ss) => flat_map (compile presence_opt cfg (Some (name, k)) keys) ss
                          end) cases
  end.
Definition compile_module (presence_opt : bool) (ss : list ystmt) : list schema :=
  flat_map (compile presence_opt true None []) ss.
