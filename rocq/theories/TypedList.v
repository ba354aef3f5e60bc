(** Leaf-lists: TypedListType and the wrapper methods of YANGDynClass around it.
    No proofs in this file. *)
From Verif Require Import PyStr PyVal Restricted Spec_Lists.
Local Open Scope Z_scope.

(** pyangbind/lib/yangtypes.py:436-473, one allowed type of [TypedList.check].  A plain [str] type
    accepts only strings (456-459, 437-440); a bits type has a [_pybind_generated_by] that none of
    the branches at 444-455 tests, so nothing is converted; every other type is called, any
    exception means "next type" (468-472).  Raw Python values only: passing an existing leaf
    object of exactly the allowed class (437) is not modelled. *)
Definition member_try (O : oracle) (t : pty) (v : pyval) : option pyval :=
  match t with
  | TStr => match v with VStr s => Some (VStr s) | _ => None end
  | TBits _ => None
  | _ => match ty_call O t v with Ok w => Some w | Raise _ => None end
  end.

Fixpoint member_value (O : oracle) (ts : list pty) (v : pyval) : option pyval :=
  match ts with
  | [] => None
  | t :: ts' => match member_try O t v with Some w => Some w | None => member_value O ts' v end
  end.

(** yangtypes.py:429-477, [TypedList.check]. *)
Definition tl_check (O : oracle) (ts : list pty) (unique : bool) (l : list pyval) (v : pyval) : res pyval :=
  if unique && py_in v l then Raise ValueError
  else match member_value O ts v with Some w => Ok w | None => Raise ValueError end.

(** yangtypes.py:414-427, [TypedList.__init__] with an argument. *)
Fixpoint tl_build (O : oracle) (ts : list pty) (unique : bool) (tmp vs : list pyval) : res (list pyval) :=
  match vs with
  | [] => Ok tmp
  | v :: vs' =>
      if unique && py_in v tmp then tl_build O ts unique tmp vs'
      else w <- tl_check O ts unique [] v ;; tl_build O ts unique (tmp ++ [w]) vs'
  end.
Definition tl_init (O : oracle) (ts : list pty) (unique : bool) (v : pyval) : res (list pyval) :=
  match v with
  | VList vs => tl_build O ts unique [] vs
  | _ => w <- tl_check O ts unique [] v ;; Ok [w]
  end.

(** Python's list.insert position: negative indices count from the end, out of range is clamped. *)
Definition insert_pos (n : nat) (i : Z) : nat :=
  if i <? 0 then Z.to_nat (Z.max 0 (i + Z.of_nat n)) else Nat.min (Z.to_nat i) n.
Definition list_insert {A} (i : Z) (x : A) (l : list A) : list A :=
  let k := insert_pos (length l) i in firstn k l ++ x :: skipn k l.

(** Python's subscript: negative indices count from the end, None when out of range. *)
Definition index_pos (n : nat) (i : Z) : option nat :=
  let j := if i <? 0 then i + Z.of_nat n else i in
  if (0 <=? j) && (j <? Z.of_nat n) then Some (Z.to_nat j) else None.
Definition list_delete {A} (k : nat) (l : list A) : list A := firstn k l ++ skipn (S k) l.

(** MutableSequence.index: position of the first member equal to [v]. *)
Fixpoint find_eq (v : pyval) (l : list pyval) : option nat :=
  match l with
  | [] => None
  | x :: l' => if py_eq x v then Some O else option_map S (find_eq v l')
  end.

(** yangtypes.py:495-498, [append]. *)
Definition tl_append (O : oracle) (ts : list pty) (unique : bool) (l : list pyval) (v : pyval)
  : list pyval * res unit :=
  if unique && py_in v l then (l, Ok tt)
  else match tl_check O ts unique l v with
       | Ok w => (l ++ [w], Ok tt)
       | Raise e => (l, Raise e)
       end.

(** yangtypes.py:491-493, [insert]. *)
Definition tl_insert (O : oracle) (ts : list pty) (unique : bool) (l : list pyval) (i : Z) (v : pyval)
  : list pyval * res unit :=
  match tl_check O ts unique l v with
  | Ok w => (list_insert i w l, Ok tt)
  | Raise e => (l, Raise e)
  end.

(** collections.abc.MutableSequence.extend: append one by one, stopping at an exception. *)
Fixpoint tl_extend (O : oracle) (ts : list pty) (unique : bool) (l vs : list pyval)
  : list pyval * res unit :=
  match vs with
  | [] => (l, Ok tt)
  | v :: vs' => match tl_append O ts unique l v with
                | (l', Ok _) => tl_extend O ts unique l' vs'
                | r => r
                end
  end.

(** The operations.  [__setitem__] is [insert] (488-489); [__delitem__] 485-486;
    [pop]/[remove]/[extend]/[clear] are those of collections.abc.MutableSequence in terms of
    them ([clear] pops until IndexError). *)
Definition tl_op (O : oracle) (ts : list pty) (unique : bool) (l : list pyval) (o : llop)
  : list pyval * res unit :=
  match o with
  | LAppend v => tl_append O ts unique l v
  | LInsert i v | LSetItem i v => tl_insert O ts unique l i v
  | LDelItem i | LPop i => match index_pos (length l) i with
                           | Some k => (list_delete k l, Ok tt)
                           | None => (l, Raise IndexError)
                           end
  | LRemove v => match find_eq v l with
                 | Some k => (list_delete k l, Ok tt)
                 | None => (l, Raise ValueError)
                 end
  | LExtend vs => tl_extend O ts unique l vs
  | LClear => ([], Ok tt)
  end.

(** yangtypes.py:1145-1181: the wrapper calls [_set()] before the operation itself - whether or
    not that succeeds - except for [del], which is not wrapped.  [clear] goes through the wrapped
    [pop] (at least once), [extend] also through the wrapped [append]. *)
Definition tl_notifies (o : llop) : bool := match o with LDelItem _ => false | _ => true end.

Fixpoint tl_run (O : oracle) (ts : list pty) (unique : bool) (l : list pyval) (os : list llop) : list pyval :=
  match os with
  | [] => l
  | o :: os' => tl_run O ts unique (fst (tl_op O ts unique l o)) os'
  end.
