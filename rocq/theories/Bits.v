(** The bits type: pyangbind/lib/yangtypes.py:1377-1447.  A Python set of strings is a
    duplicate-free list; its iteration order is arbitrary, so theorems must not depend on the
    order of the list. *)
From Verif Require Import PyStr PyVal Restricted.

(** Python's [<=] on strings: lexicographic by code point. *)
Fixpoint str_leb (a b : str) : bool :=
  match a, b with
  | [], _ => true
  | _ :: _, [] => false
  | x :: a', y :: b' => if N.eqb x y then str_leb a' b' else N.ltb x y
  end.

(** The position of a bit as stored by the generated code: the text of the position statement
    (pyangbind/plugin/pybind.py:1365-1371; a bit without position statement makes the plugin
    crash, so every bit has one). *)
Fixpoint pos_of (allowed : list (str * str)) (b : str) : str :=
  match allowed with
  | [] => []
  | (n, p) :: a => if str_eqb n b then p else pos_of a b
  end.

(** [sorted(self, key=...)], a stable sort. *)
Fixpoint insert_by (key : str -> str) (x : str) (l : list str) : list str :=
  match l with
  | [] => [x]
  | y :: l' => if str_leb (key x) (key y) then x :: l else y :: insert_by key x l'
  end.
Fixpoint sort_by (key : str -> str) (l : list str) : list str :=
  match l with [] => [] | x :: l' => insert_by key x (sort_by key l') end.

(** yangtypes.py:1442-1445. *)
Definition bits_str (allowed : list (str * str)) (l : list str) : str :=
  join [32%N] (sort_by (pos_of allowed) l).

Fixpoint remove_str (b : str) (l : list str) : list str :=
  match l with
  | [] => []
  | x :: l' => if str_eqb x b then remove_str b l' else x :: remove_str b l'
  end.

(** The mutating operations; [BPop i] pops the element that happens to be at index [i] of the
    set's internal order.  Inherited set operations ([update], [|=], ...) are not overridden by
    the class and are not modelled. *)
Inductive bop := BAdd (b : str) | BDiscard (b : str) | BRemove (b : str) | BClear | BPop (i : nat).

(** yangtypes.py:1418-1440: new content and outcome. *)
Definition bits_op (allowed : list (str * str)) (l : list str) (o : bop) : list str * res unit :=
  match o with
  | BAdd b => match bits_add allowed l b with Ok l' => (l', Ok tt) | Raise e => (l, Raise e) end
  | BDiscard b => if str_in b (map fst allowed) then (remove_str b l, Ok tt) else (l, Raise ValueError)
  | BRemove b => if str_in b l then (remove_str b l, Ok tt) else (l, Raise KeyError)
  | BClear => ([], Ok tt)
  | BPop i => match nth_error l i with
              | Some b => (remove_str b l, Ok tt)
              | None => (l, Raise KeyError)
              end
  end.

Definition bits_run (allowed : list (str * str)) (l : list str) (ops : list bop) : list str :=
  fold_left (fun l o => fst (bits_op allowed l o)) ops l.
