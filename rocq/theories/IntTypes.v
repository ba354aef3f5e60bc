(** The generated types of integer leaves.  pyangbind/plugin/pybind.py:92-180 ([class_map]) for
    the built-in types; 1236-1270 ([build_elemtype]) for a range statement: each type statement
    with a range wraps the type it refers to in one more RestrictedClassType. *)
From Verif Require Import PyStr PyVal Restricted Spec_Types.
Local Open Scope Z_scope.

(** A chain of range restrictions, outermost first, on Python's int. *)
Fixpoint int_chain (levels : list (list part)) : pty :=
  match levels with
  | [] => TInt
  | l :: ls => TRestr (int_chain ls) [RRange (map show_part l)]
  end.

(** pybind.py:92-180: the entries of [class_map] for the built-in integer types. *)
Definition class_map_int (name : String.string) : option pty :=
  if String.eqb name "uint8" then Some (TRestr TInt [RRange [lit "0..255"]])
  else if String.eqb name "uint16" then Some (TRestr TInt [RRange [lit "0..65535"]])
  else if String.eqb name "uint32" then Some (TRestr TInt [RRange [lit "0..4294967295"]])
  else if String.eqb name "uint64" then Some (TRestr TInt [RRange [lit "0..18446744073709551615"]])
  else if String.eqb name "int8" then Some (TRestr TInt [RRange [lit "-128..127"]])
  else if String.eqb name "int16" then Some (TRestr TInt [RRange [lit "-32768..32767"]])
  else if String.eqb name "int32" then Some (TRestr TInt [RRange [lit "-2147483648..2147483647"]])
  else if String.eqb name "int64" then
    Some (TRestr TInt [RRange [lit "-9223372036854775808..9223372036854775807"]])
  else None.

(** A leaf of type [b] with the range statement [own] (pybind.py:1262-1270). *)
Definition leaf_of (b : pty) (own : list part) : ltype := LOne (TRestr b [RRange (map show_part own)]).
