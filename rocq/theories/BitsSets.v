(** A bits leaf as a Python set: the class of the leaf (yangtypes.py:1010-1213) around YANGBits (yangtypes.py:1378-1445) around
    set.  No proofs in this file. *)
From Verif Require Import PyStr PyVal Restricted Bits.

(** The bits that are set, the flag _mchanged, and whether the objects around the leaf were told (a call of _set of the leaf,
    yangtypes.py:1111-1132; what they do then is in [Tree]). *)
Record bleaf := BLeaf { held : list str; mchanged : bool; told : bool }.

(** The operations on sets that change them; arguments are sets of strings, of any iterables the elements.  Operations that are
    statements (|= and the like): [set_stmt]. *)
Inductive sop := Own (o : bop) | Update (u : list str) | InterUpdate (u : list str) | DiffUpdate (u : list str) | SymUpdate (u : list str).

(** The methods of set itself, which YANGBits inherits (the Python reference, Set Types). *)
Definition set_union (l u : list str) : list str := fold_left (fun l b => if str_in b l then l else l ++ [b]) u l.
Definition set_minus (l u : list str) : list str := filter (fun b => negb (str_in b u)) l.
Definition set_inter (l u : list str) : list str := filter (fun b => str_in b u) l.

(** One call: the leaf, and what is returned ([None] for Python's None) or raised.  [helper]: the leaf has a path helper.
    add, clear, discard: yangtypes.py:1418-1432; pop and remove go through the class of the leaf first, which calls _set
    (1155-1169); remove then asks for index(), which sets do not have, if there is a path helper (1166-1168); pop of YANGBits
    (1434-1436) returns nothing. *)
Definition set_step (allowed : list (str * str)) (helper : bool) (s : bleaf) (o : sop) : bleaf * res (option str) :=
  match o with
  | Own (BRemove b) =>
      if helper then (BLeaf (held s) true true, Raise AttributeError)
      else match bits_op allowed (held s) (BRemove b) with
           | (l, Ok _) => (BLeaf l true true, Ok None)
           | (l, Raise e) => (BLeaf l true true, Raise e)
           end
  | Own (BPop i) =>
      match bits_op allowed (held s) (BPop i) with
      | (l, Ok _) => (BLeaf l true true, Ok None)
      | (l, Raise e) => (BLeaf l true true, Raise e)
      end
  | Own o =>
      match bits_op allowed (held s) o with
      | (l, Ok _) => (BLeaf l true (told s), Ok None)
      | (l, Raise e) => (BLeaf l (mchanged s) (told s), Raise e)
      end
  | Update u => (BLeaf (set_union (held s) u) (mchanged s) (told s), Ok None)
  | InterUpdate u => (BLeaf (set_inter (held s) u) (mchanged s) (told s), Ok None)
  | DiffUpdate u => (BLeaf (set_minus (held s) u) (mchanged s) (told s), Ok None)
  | SymUpdate u => (BLeaf (set_union (set_minus (held s) u) (set_minus u (held s))) (mchanged s) (told s), Ok None)
  end.
Definition set_run (allowed : list (str * str)) (helper : bool) (s : bleaf) (ops : list sop) : bleaf :=
  fold_left (fun s o => fst (set_step allowed helper s o)) ops s.

(** yangtypes.py:1442-1445, str(): the key of every bit is looked up. *)
Definition bits_text (allowed : list (str * str)) (l : list str) : res str :=
  if forallb (fun b => str_in b (map fst allowed)) l then Ok (bits_str allowed l) else Raise KeyError.

(** x.leaf |= u, &=, -= and ^=: the set is changed in place, and then x.leaf is assigned what it is already.  The setter
    (plugin/pybind.py:1137-1151) makes a new leaf of it, which tells the objects around (yangtypes.py:1067-1068) before YANGBits takes its argument apart
    (1404-1411); only TypeError and ValueError are caught.  Leaves that can be assigned; what the path helper gets is left out. *)
Definition set_stmt (allowed : list (str * str)) (s : bleaf) (o : sop) : bleaf * res unit :=
  let s' := fst (set_step allowed false s o) in
  match yang_bits allowed (VBits (held s')) with
  | Ok _ => (BLeaf (held s') true true, Ok tt)
  | Raise e => (BLeaf (held s') (mchanged s') true, Raise e)
  end.
