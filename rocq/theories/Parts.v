(** The XML document of a part of a tree: the namespace stored in the generated classes.  No proofs in this file. *)
From Verif Require Import PyStr PyVal Restricted SafeName Tree Serialise Xml.

(** A module or submodule that pyang has read: its name, the argument of its namespace statement, and for a submodule the
    module it belongs to. *)
Record ymodule := { m_name : str; m_namespace : option str; m_belongs : option str }.

(** plugin/pybind.py:864-869: the namespace written into every class generated for the module [m], whichever module
    defines the node of the class; [ctx] is ctx.modules.  Without the module: StopIteration, here RuntimeError. *)
Definition class_namespace (ctx : list ymodule) (m : ymodule) : res str :=
  loc <- match m_belongs m with
         | Some n => match find (fun v => str_eqb (m_name v) n) ctx with Some v => Ok v | None => Raise RuntimeError end
         | None => Ok m
         end ;;
  match m_namespace loc with Some s => Ok s | None => Raise IndexError end.

(** plugin/pybind.py:862, 869, lib/serialise.py:377-383: [encode(obj, filter=flt)] for a container or an entry of a list,
    of the node [i], in the classes of the module [m]. *)
Definition encode_part (O : oracle) (im ins : einfo -> str -> option str) (flt : bool) (ctx : list ymodule) (m : ymodule)
  (i : einfo) (cs : list schema) (kids : list obj) : res xml :=
  ns <- class_namespace ctx m ;; encode O im ins flt ns (e_yang i) cs kids.
(** The same for the object of the module. *)
Definition encode_module (O : oracle) (im ins : einfo -> str -> option str) (flt : bool) (ctx : list ymodule) (m : ymodule)
  (cs : list schema) (kids : list obj) : res xml :=
  ns <- class_namespace ctx m ;; encode O im ins flt ns (m_name m) cs kids.

(** lib/pybindJSON.py:107-111 and lib/serialise.py:408-411: dumps(l, mode="ietf", filter=flt, with_defaults=wd) for the object
    of a list with the entries [es]; no namespace is passed for the entries. *)
Definition dumps_ietf_list (O : oracle) (im : einfo -> str -> option str) (flt : bool) (wd : with_defaults) (cs : list schema)
  (es : list (pyval * obj)) : res json :=
  enc_itree O im (IList (map (fun e => match snd e with OCont _ _ kids => IDict (gen_kids flt wd None cs kids) | _ => IDict [] end) es)).
(** lib/pybindJSON.py:112-113, lib/yangtypes.py:861-869: dumps(l) for the object of a list. *)
Definition dumps_list (O : oracle) (im : einfo -> str -> option str) (i : einfo) (keys : list str) (od : bool) (cs : list schema)
  (es : list (pyval * obj)) : res json :=
  enc_dump O im (SList i keys od cs)
    (DList (map (fun e => (fst e, match snd e with OCont _ _ kids => DDict (get_kids true cs kids) | _ => DDict [] end)) es)).
