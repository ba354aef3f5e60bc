(** The statement x.l += vs for a leaf-list.  No proofs in this file. *)
From Verif Require Import PyStr PyVal Restricted Spec_Lists TypedList.

(** collections.abc.MutableSequence.__iadd__ calls extend and gives the same object, which is then assigned: the setter
    (plugin/pybind.py:1137-1151) makes a new leaf-list of it.  The object is a TypedList, which is no Python list, so that
    TypedList.__init__ (yangtypes.py:418-427) takes it for one member (426).  The object as an argument of the member types is
    [VList], which is right for all that ask only for comparison, str() and len(), not for decimals.  A setter that fails leaves
    the old object, with what extend has added.  Without a path helper. *)
Definition tl_iadd (O : oracle) (ts : list pty) (l vs : list pyval) : list pyval * res unit :=
  match tl_extend O ts true l vs with
  | (l', Raise e) => (l', Raise e)
  | (l', Ok _) => match tl_check O ts true [] (VList l') with
                  | Ok w => ([w], Ok tt)
                  | Raise e => (l', Raise e)
                  end
  end.
