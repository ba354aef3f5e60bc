(** The Python types generated for the member types of a leaf-list (and for leaves).
    pyangbind/plugin/pybind.py:92-180 ([class_map]), 1221-1401 ([build_elemtype]),
    1676-1704 ([get_element], leaf-list). *)
From Verif Require Import PyStr PyVal Restricted Spec_Types Spec_Lists IntTypes StrTypes.
Local Open Scope Z_scope.

Definition pty_of (t : mtype) : pty :=
  match t with
  | MInt levels => int_chain levels
  | MStr levels => str_chain levels
  | MText => TStr
  | MBool => TBool
  | MEnum names => enum_type names
  | MBin => TBinary
  | MDec n => TDecPrec n
  end.
