(** The generated types of string leaves with pattern and length restrictions.
    pyangbind/plugin/pybind.py:1219-1270 ([build_elemtype]): each type statement with restrictions
    wraps the type it refers to in one more RestrictedClassType whose restriction_dict may hold a
    "length" and a "pattern"; enumeration: pybind.py:1276-1292 ("dict_key"). *)
From Verif Require Import PyStr PyVal Restricted Spec_Types.
Local Open Scope Z_scope.

Definition restr_of (r : srestr) : restr :=
  match r with
  | SPattern p => RPattern p
  | SLength ps => RLength (map show_part ps)
  end.

(** A chain of restriction levels, outermost first, on Python's str. *)
Fixpoint str_chain (levels : list (list srestr)) : pty :=
  match levels with
  | [] => TStr
  | l :: ls => TRestr (str_chain ls) (map restr_of l)
  end.

(** An enumeration type with the given names. *)
Definition enum_type (names : list str) : pty := TRestr TStr [RDict names].

(** A binary type with a length restriction (pybind.py:1252-1262 with class_map["binary"]). *)
Definition bin_len (ps : list part) : pty := TRestr TBinary [RLength (map show_part ps)].
