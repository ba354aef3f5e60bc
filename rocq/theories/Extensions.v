(** --interesting-extension: what [_extensions()] of the objects gives.  No proofs in this file. *)
From Verif Require Import PyStr PyVal Restricted SafeName Tree.

(** The keyword of a statement, as pyang has it: a word (which has a first letter), or a pair of a module and
    a name for extensions. *)
Inductive keyword := Word (c : N) (w : str) | Ext (m n : str).
(** A substatement; without an argument [arg] is None. *)
Record sub := { sb_kw : keyword; sb_arg : option str }.

(** [keyword[n]]: a character of a word, or a part of the pair. *)
Definition kw_at (n : nat) (k : keyword) : res str :=
  match k with
  | Word c w => match nth_error (c :: w) n with Some c => Ok [c] | None => Raise IndexError end
  | Ext m x => match n with O => Ok m | S O => Ok x | _ => Raise IndexError end
  end.

(** Python's dicts, in order of insertion. *)
Fixpoint dget {A} (k : str) (d : list (str * A)) : option A :=
  match d with [] => None | (k', a) :: d' => if str_eqb k k' then Some a else dget k d' end.
Fixpoint dput {A} (k : str) (a : A) (d : list (str * A)) : list (str * A) :=
  match d with
  | [] => [(k, a)]
  | (k', a') :: d' => if str_eqb k k' then (k', a) :: d' else (k', a') :: dput k a d'
  end.
Definition exts := list (str * list (str * option str)).

(** plugin/pybind.py:1453-1462 (get_element): the dictionary for an element; [ints] are the arguments of
    --interesting-extension. *)
Definition ext_step (ints : list str) (d : exts) (s : sub) : res exts :=
  m <- kw_at 0 (sb_kw s) ;;
  if str_in m ints then
    let d' := match dget m d with Some _ => d | None => dput m [] d end in
    n <- kw_at 1 (sb_kw s) ;;
    Ok (dput m (dput n (sb_arg s) (match dget m d' with Some e => e | None => [] end)) d')
  else Ok d.
Fixpoint ext_loop (ints : list str) (d : exts) (ss : list sub) : res exts :=
  match ss with [] => Ok d | s :: ss' => d' <- ext_step ints d s ;; ext_loop ints d' ss' end.
(** 1514 and 1730-1731: an empty dictionary is not handed on. *)
Definition ext_arg (ints : list str) (ss : list sub) : res (option exts) :=
  d <- ext_loop ints [] ss ;; Ok (match d with [] => None | _ => Some d end).

(** Data definitions after uses and augment, with their substatements; a choice holds its cases.  The substatements of
    choices and cases are never looked at. *)
Inductive ynode :=
| NLeaf (name : str) (subs : list sub)                          (* a leaf or a leaf-list *)
| NCont (name : str) (subs : list sub) (presence : bool) (kids : list ynode)
| NList (name : str) (subs : list sub) (kids : list ynode)
| NChoice (cases : list (list ynode)).

(** The elements of a class: the name in Python, the argument "extensions", and the class of the element. *)
Inductive elem := Elem (py : str) (ext : option exts) (cls : ecls)
with ecls := CLeaf | CCont (kids : list elem) | CList (kids : list elem).
Definition el_py (e : elem) : str := match e with Elem n _ _ => n end.

(** plugin/pybind.py:648-699 (get_children_elements) and 1422-1560, 1710-1731 (get_element), for names and extensions;
    containers and lists without children as in Compile.v. *)
Fixpoint gather (ints : list str) (presence_opt : bool) (s : ynode) {struct s} : res (list elem) :=
  let all := fix all l := match l with
    | [] => Ok []
    | s :: l' => e <- gather ints presence_opt s ;; r <- all l' ;; Ok (e ++ r)
    end in
  match s with
  | NLeaf n ss => x <- ext_arg ints ss ;; Ok [Elem (safe_name n) x CLeaf]
  | NCont n ss pr ks =>
      x <- ext_arg ints ss ;;
      match ks with
      | [] => Ok (if presence_opt && pr then [Elem (safe_name n) x (CCont [])] else [])
      | _ => es <- all ks ;; Ok [Elem (safe_name n) x (CCont es)]
      end
  | NList n ss ks =>
      x <- ext_arg ints ss ;;
      match ks with
      | [] => Ok []
      | _ => es <- all ks ;; Ok [Elem (safe_name n) x (CList es)]
      end
  | NChoice cases =>
      (fix alls cs := match cs with [] => Ok [] | c :: cs' => e <- all c ;; r <- alls cs' ;; Ok (e ++ r) end) cases
  end.
Fixpoint gather_all (ints : list str) (presence_opt : bool) (l : list ynode) : res (list elem) :=
  match l with
  | [] => Ok []
  | s :: l' => e <- gather ints presence_opt s ;; r <- gather_all ints presence_opt l' ;; Ok (e ++ r)
  end.

(** From an object to its child of a name (in Python), or from a list to an entry. *)
Inductive xstep := Child (py : str) | AnEntry.
(** plugin/pybind.py:871, 1006 ([classes[i["name"]] = class_str]): of two elements with one name the last counts. *)
Fixpoint named (n : str) (es : list elem) : option elem :=
  match es with
  | [] => None
  | e :: es' => match named n es' with Some x => Some x | None => if str_eqb (el_py e) n then Some e else None end
  end.
(** lib/yangtypes.py:1042, 1096-1097: what [_extensions()] gives for the object at a path.  694, 709, 732: the entries of
    a list are made with the extensions of the list. *)
Fixpoint extensions_at (es : list elem) (p : list xstep) {struct p} : option (option exts) :=
  match p with
  | Child n :: p' =>
      match named n es with
      | Some (Elem _ x c) =>
          match p' with
          | [] => Some x
          | Child _ :: _ => match c with CCont ks => extensions_at ks p' | _ => None end
          | AnEntry :: p2 => match c with
                             | CList ks => match p2 with [] => Some x | _ => extensions_at ks p2 end
                             | _ => None
                             end
          end
      | None => None
      end
  | _ => None
  end.
