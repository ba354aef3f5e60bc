(** Independent vocabulary for leaf-lists and lists. *)
From Verif Require Import PyStr PyVal Spec_Types.
Local Open Scope Z_scope.

(** The member types considered: integers with any chain of ranges, strings with any chain of
    restrictions, plain strings, booleans, enumerations, binary, decimal64. *)
Inductive mtype :=
| MInt (levels : list (list part))
| MStr (levels : list (list srestr))
| MText | MBool
| MEnum (names : list str)
| MBin
| MDec (digits : Z).

(** The values of a type.  [M] is the pattern matcher. *)
Definition is_value (M : str -> str -> bool) (t : mtype) (v : pyval) : Prop :=
  match t with
  | MInt levels => exists z, v = VInt z /\ in_levels z levels
  | MStr levels => exists s, v = VStr s /\ Forall (Forall (fun r => sat M wrap_anchors r s)) levels
  | MText => exists s, v = VStr s
  | MBool => exists b, v = VBool b
  | MEnum names => exists s, v = VStr s /\ In s names
  | MBin => exists l, v = VBytes l
  | MDec n => exists q, v = VDec q (- n)
  end.

(** Well-formed types; strings with a single level, or one restriction per level (see C08). *)
Definition mtype_wf (t : mtype) : Prop :=
  match t with
  | MInt levels => levels <> [] /\ levels_wf levels
  | MStr levels => levels <> [] /\ slevels_wf levels /\
                   (length levels = 1%nat \/ Forall (fun l => length l = 1%nat) levels)
  | _ => True
  end.

(** Arguments for which a typedef chain is enforced: with more than one level neither the Python
    value False nor, for strings, a list, dict, bytes or set. *)
Definition arg_ok (t : mtype) (v : pyval) : Prop :=
  match t with
  | MInt (_ :: _ :: _) => v <> VBool false
  | MStr (_ :: _ :: _) => match v with
                          | VBool false | VList _ | VDict _ | VBytes _ | VBits _ => False
                          | _ => True
                          end
  | _ => True
  end.

(** The argument is written as a value of the type (an int for an integer type, ...). *)
Definition spelled (t : mtype) (v : pyval) : Prop :=
  match t with
  | MInt _ => exists z, v = VInt z
  | MStr _ | MText | MEnum _ => exists s, v = VStr s
  | MBool => exists b, v = VBool b
  | MBin => exists l, v = VBytes l
  | MDec n => exists q, v = VDec q (- n)
  end.

(** No two members are equal (Python equality). *)
Definition all_distinct (l : list pyval) : Prop :=
  forall i j x y, nth_error l i = Some x -> nth_error l j = Some y -> i <> j -> py_eq x y = false.

(** Where Python's list.insert puts a new member. *)
Definition insert_at (i : Z) (n : Z) : Z :=
  if i <? 0 then Z.max 0 (n + i) else Z.min i n.
(** Which member a subscript denotes. *)
Definition denotes (i : Z) (n k : Z) : Prop := 0 <= k < n /\ (i = k \/ i = k - n).

(** The operations on a leaf-list. *)
Inductive llop :=
| LAppend (v : pyval)
| LInsert (i : Z) (v : pyval)
| LSetItem (i : Z) (v : pyval)      (** l[i] = v *)
| LDelItem (i : Z)                  (** del l[i] *)
| LPop (i : Z)                      (** pop(i); pop() is pop(-1) *)
| LRemove (v : pyval)
| LExtend (vs : list pyval)
| LClear.


(** The values handed to an operation for storing. *)
Definition op_args (o : llop) : list pyval :=
  match o with
  | LAppend v | LInsert _ v | LSetItem _ v => [v]
  | LExtend vs => vs
  | _ => []
  end.

(** A leaf-list as a sequence of distinct members.  [acc v] is what the member type makes of [v], if
    it accepts it. *)
Definition has (l : list pyval) (v : pyval) : Prop := Exists (fun x => py_eq v x = true) l.
Definition len (l : list pyval) : Z := Z.of_nat (length l).
Inductive seq_step (acc : pyval -> option pyval) : list pyval -> llop -> list pyval -> res unit -> Prop :=
| append_dup l v : has l v -> seq_step acc l (LAppend v) l (Ok tt)
| append_new l v w : ~ has l v -> acc v = Some w -> seq_step acc l (LAppend v) (l ++ [w]) (Ok tt)
| append_bad l v : ~ has l v -> acc v = None -> seq_step acc l (LAppend v) l (Raise ValueError)
| insert_new l1 l2 i v w o : o = LInsert i v \/ o = LSetItem i v ->
    ~ has (l1 ++ l2) v -> acc v = Some w -> len l1 = insert_at i (len (l1 ++ l2)) ->
    seq_step acc (l1 ++ l2) o (l1 ++ w :: l2) (Ok tt)
| insert_bad l i v o : o = LInsert i v \/ o = LSetItem i v ->
    has l v \/ acc v = None -> seq_step acc l o l (Raise ValueError)
| delete_ok l1 x l2 i o : o = LDelItem i \/ o = LPop i -> denotes i (len (l1 ++ x :: l2)) (len l1) ->
    seq_step acc (l1 ++ x :: l2) o (l1 ++ l2) (Ok tt)
| delete_bad l i o : o = LDelItem i \/ o = LPop i -> (forall k, ~ denotes i (len l) k) ->
    seq_step acc l o l (Raise IndexError)
| remove_ok l1 x l2 v : py_eq x v = true -> Forall (fun y => py_eq y v = false) l1 ->
    seq_step acc (l1 ++ x :: l2) (LRemove v) (l1 ++ l2) (Ok tt)
| remove_bad l v : Forall (fun y => py_eq y v = false) l -> seq_step acc l (LRemove v) l (Raise ValueError)
| extend_nil l : seq_step acc l (LExtend []) l (Ok tt)
| extend_go l v vs l' l'' r : seq_step acc l (LAppend v) l' (Ok tt) -> seq_step acc l' (LExtend vs) l'' r ->
    seq_step acc l (LExtend (v :: vs)) l'' r
| extend_stop l v vs l' e : seq_step acc l (LAppend v) l' (Raise e) -> seq_step acc l (LExtend (v :: vs)) l' (Raise e)
| clear_all l : seq_step acc l LClear [] (Ok tt).

(* ------------------------------------------------------------------ lists of entries *)
(** A list as an insertion-ordered map from keys to entries. *)
Definition has_key {A} (ms : list (pyval * A)) (k : pyval) : Prop := exists k' a, In (k', a) ms /\ py_eq k k' = true.

Inductive map_add {A} (k : pyval) (a : A) (ms : list (pyval * A)) : list (pyval * A) -> Prop :=
  Map_add : ~ has_key ms k -> map_add k a ms (ms ++ [(k, a)]).
Inductive map_replace {A} (k : pyval) (a : A) : list (pyval * A) -> list (pyval * A) -> Prop :=
  Map_replace l1 k' a' l2 : py_eq k k' = true -> map_replace k a (l1 ++ (k', a') :: l2) (l1 ++ (k', a) :: l2).
Inductive map_remove {A} (k : pyval) : list (pyval * A) -> list (pyval * A) -> Prop :=
  Map_remove l1 k' a' l2 : py_eq k k' = true -> map_remove k (l1 ++ (k', a') :: l2) (l1 ++ l2).

(** Text without spaces. *)
Definition no_space (s : str) : Prop := ~ In 32%N s.

(** Types whose values are strings, spelled as they are. *)
Definition string_like (t : mtype) : Prop := match t with MStr _ | MText | MEnum _ => True | _ => False end.
(** At most two levels of integer ranges. *)
Definition shallow (t : mtype) : Prop := match t with MInt levels => (length levels <= 2)%nat | _ => True end.

(** The operations.  [add(k)], [add()], [add(k1=v1, ...)], [l[k] = entry], [append(entry)],
    [delete(k)] / [del l[k]], [delete(k1=v1, ...)].  [YSet] and [YAppend] are modelled for
    instances of the contained class, wrapped as list entries or not; [__check__] (yangtypes.py:
    569-589) lets through every object with a [__slots__] attribute, and other objects than those
    are not modelled, nor is [add(..., _v=entry)]. *)
Inductive yop (A : Type) :=
| YAdd (k : pyval) | YAddNone | YAddKw (kw : list (str * pyval))
| YSet (k : pyval) (a : A) | YAppend (a : A)
| YDelete (k : pyval) | YDeleteKw (kw : list (str * pyval)).
Arguments YAdd {A} k. Arguments YAddNone {A}. Arguments YAddKw {A} kw. Arguments YSet {A} k a.
Arguments YAppend {A} a. Arguments YDelete {A} k. Arguments YDeleteKw {A} kw.

(** Only positional keys, all satisfying [P]. *)
Definition positional (P : pyval -> Prop) {X} (o : yop X) : Prop :=
  match o with YAdd k => P k | YSet k _ => P k | YAppend _ => False | YAddKw kw => kw = [] | _ => True end.

(** Keys are given as strings; an entry is represented by the values of its key leaves and the
    rest. *)
Definition string_args {B} (o : yop (list pyval * B)) : Prop :=
  match o with
  | YAdd k => exists s, k = VStr s
  | YSet k _ => exists s, k = VStr s
  | YAppend a => exists ss, fst a = map VStr ss
  | YAddKw kw => Forall (fun p => exists s, snd p = VStr s) kw
  | _ => True
  end.
