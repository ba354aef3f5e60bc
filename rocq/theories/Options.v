(** dumps: the arguments skip_subtrees and select (lib/pybindJSON.py:29-44, 86-160).  No proofs in this
    file. *)
From Verif Require Import PyStr PyVal Restricted TypedList YList Tree Spec_Tree Serialise.
Local Open Scope Z_scope.

(* ------------------------------------------------------------------ dictionaries keyed by text *)
(** [del d[n]] and [d[n] = a] for an existing key. *)
Fixpoint del_name {A} (n : str) (l : list (str * A)) : list (str * A) :=
  match l with [] => [] | (m, a) :: l' => if str_eqb n m then l' else (m, a) :: del_name n l' end.
Fixpoint put_name {A} (n : str) (a : A) (l : list (str * A)) : list (str * A) :=
  match l with [] => [] | (m, b) :: l' => if str_eqb n m then (m, a) :: l' else (m, b) :: put_name n a l' end.

(** lib/pybindJSON.py:29-44, [remove_path], on what get() returned.  A missing key is ignored; leaves and
    leaf-lists cannot be indexed by text. *)
Fixpoint remove_path (path : list str) (d : dump) {struct path} : res dump :=
  match path with
  | [] => Raise IndexError
  | [n] => match d with
           | DDict l => Ok (DDict (del_name n l))
           | DList es => Ok (DList (mdel (VStr n) es))
           | _ => Raise TypeError
           end
  | n :: path' =>
      match d with
      | DDict l => match assoc n l with
                   | Some x => x' <- remove_path path' x ;; Ok (DDict (put_name n x' l))
                   | None => Ok d
                   end
      | DList es => match mget (VStr n) es with
                    | Some x => x' <- remove_path path' x ;; Ok (DList (mput (VStr n) x' es))
                    | None => Ok d
                    end
      | _ => Raise TypeError
      end
  end.
(** ... and on what generate_ietf_tree returned, where lists are lists. *)
Fixpoint iremove_path (path : list str) (t : itree) {struct path} : res itree :=
  match path with
  | [] => Raise IndexError
  | [n] => match t with IDict l => Ok (IDict (del_name n l)) | _ => Raise TypeError end
  | n :: path' =>
      match t with
      | IDict l => match assoc n l with
                   | Some x => x' <- iremove_path path' x ;; Ok (IDict (put_name n x' l))
                   | None => Ok t
                   end
      | _ => Raise TypeError
      end
  end.

(** lib/pybindJSON.py:112-129.  [own]: the path of the object, whose parts may have attributes
    ("name[key='...']"). *)
Fixpoint before (c : N) (s : str) : str :=
  match s with [] => [] | x :: s' => if N.eqb x c then [] else x :: before c s' end.
Fixpoint trim (own pp : list str) : option (list str) :=
  match own, pp with
  | i :: own', j :: pp' => if str_eqb (before 91 i) j then trim own' pp' else None
  | _, _ => Some pp
  end.
Definition skip_one {T} (remove : list str -> T -> res T) (own : list str) (p : str) (t : T) : res T :=
  match trim own (tl (split_on 47 p)) with
  | Some (n :: pp) => remove (n :: pp) t
  | _ => Ok t
  end.
Fixpoint skip_all {T} (remove : list str -> T -> res T) (own : list str) (ps : list str) (t : T) : res T :=
  match ps with [] => Ok t | p :: ps' => t' <- skip_one remove own p t ;; skip_all remove own ps' t' end.

(** dumps(obj, skip_subtrees=skip) and dumps(obj, skip_subtrees=skip, mode="ietf") for the module object
    or a container. *)
Definition dumps_skip (O : oracle) (im : einfo -> str -> option str) (own skip : list str) (cs : list schema) (kids : list obj)
  : res json :=
  t <- skip_all remove_path own skip (DDict (get_kids true cs kids)) ;; enc_dump O im (entry_schema cs) t.
(** [ns]: None for the module object as for a container: generate_element is called without the
    namespace of the parent. *)
Definition dumps_ietf_skip (O : oracle) (im : einfo -> str -> option str) (own skip : list str) (cs : list schema) (kids : list obj)
  : res json :=
  t <- skip_all iremove_path own skip (IDict (gen_kids true WNone None cs kids)) ;; enc_itree O im t.

(* ------------------------------------------------------------------ select *)
(** [":" in k] and [k.split(":")[1]]. *)
Definition second_part (n : str) : str :=
  if has_char 58 n then match split_on 58 n with _ :: s :: _ => s | _ => n end else n.

Section Select.
(** [T]: trees; [items]: the items of a dictionary; [show]: str(). *)
Context {T : Type} (items : T -> res (list (str * T))) (show : T -> str).

(** lib/pybindJSON.py:87-102, [lookup_subdict].  Of two names with the same second part the last one
    counts. *)
Fixpoint lookup_subdict (key : list str) (d : T) {struct key} : res T :=
  l <- items d ;;
  match key with
  | [] => Raise IndexError
  | k :: key' =>
      match assoc k (rev (map (fun nx => (second_part (fst nx), snd nx)) l)) with
      | None => Raise KeyError
      | Some x => match key' with
                  | [] => Ok x
                  | _ => match assoc k l with Some y => lookup_subdict key' y | None => Raise KeyError end
                  end
      end
  end.

(** lib/pybindJSON.py:132-145: whether an entry is kept.  [sel]: the items of [select], values as texts;
    once a value differs nothing more is looked up. *)
Fixpoint keep (sel : list (str * str)) (d : T) : res bool :=
  match sel with
  | [] => Ok true
  | (k, v) :: sel' => x <- lookup_subdict (split_on 46 k) d ;; if str_eqb (show x) v then keep sel' d else Ok false
  end.
End Select.

(** A dictionary with a key that is not text: [":" in k] fails (TypeError). *)
Definition dump_items (d : dump) : res (list (str * dump)) :=
  match d with
  | DDict l => Ok l
  | DList es => map_res (fun e => match fst e with VStr s => Ok (s, snd e) | _ => Raise TypeError end) es
  | _ => Raise AttributeError
  end.
Definition itree_items (t : itree) : res (list (str * itree)) :=
  match t with IDict l => Ok l | _ => Raise AttributeError end.
(** [text]: str() of a dictionary or of a list. *)
Definition dump_text (O : oracle) (text : dump -> str) (d : dump) : str := match d with DLeaf v => py_str O v | _ => text d end.
Definition itree_text (O : oracle) (text : itree -> str) (t : itree) : str := match t with ILeaf _ _ _ v => py_str O v | _ => text t end.

(** The loop over the entries: those that are to go. *)
Fixpoint unwanted {E} (keeps : E -> res bool) (es : list E) : res (list E) :=
  match es with
  | [] => Ok []
  | e :: es' => b <- keeps e ;; r <- unwanted keeps es' ;; Ok (if b then r else e :: r)
  end.
(** [del tree[k]] for each of them. *)
Definition del_all (gone : list (pyval * dump)) (es : list (pyval * dump)) : list (pyval * dump) :=
  fold_left (fun es e => mdel (fst e) es) gone es.

(** The dictionary of a list (yangtypes.py:861-869). *)
Definition get_entries (cs : list schema) (es : list (pyval * obj)) : list (pyval * dump) :=
  map (fun e => (fst e, match snd e with OCont _ _ kids => DDict (get_kids true cs kids) | _ => DDict [] end)) es.

(** dumps(l, select=sel) for a list object [l] of schema [SList i keys od cs]; an empty [sel] selects
    everything. *)
Definition dumps_select (O : oracle) (im : einfo -> str -> option str) (text : dump -> str) (i : einfo) (keys : list str) (od : bool)
  (cs : list schema) (sel : list (str * str)) (es : list (pyval * obj)) : res json :=
  let tree := get_entries cs es in
  gone <- unwanted (fun e => keep dump_items (dump_text O text) sel (snd e)) tree ;;
  enc_dump O im (SList i keys od cs) (DList (del_all gone tree)).

(** Python's == on trees: values by ==, leaf-lists member by member, dictionaries whatever the order. *)
Fixpoint all_eq (l m : list pyval) : bool :=
  match l, m with [], [] => true | v :: l', w :: m' => py_eq v w && all_eq l' m' | _, _ => false end.
Fixpoint teq (a b : itree) {struct a} : bool :=
  match a, b with
  | ILeaf _ _ _ v, ILeaf _ _ _ w => py_eq v w
  | ILeafList _ l, ILeafList _ m => all_eq l m
  | IDict l, IDict m =>
      Nat.eqb (length l) (length m) &&
      forallb (fun na => match assoc (fst na) m with Some b => teq (snd na) b | None => false end) l
  | IList l, IList m => (fix go l m := match l, m with
                           | [], [] => true
                           | x :: l', y :: m' => teq x y && go l' m'
                           | _, _ => false
                           end) l m
  | _, _ => false
  end.
(** [tree.remove(e)]: the first entry that equals [e]. *)
Fixpoint remove_first (e : itree) (l : list itree) : list itree :=
  match l with [] => [] | x :: l' => if teq x e then l' else x :: remove_first e l' end.

(** dumps(l, select=sel, mode="ietf") for a list object; generate_ietf_tree is called on the entries
    without the namespace of the list (lib/serialise.py:410-411). *)
Definition dumps_ietf_select (O : oracle) (im : einfo -> str -> option str) (text : itree -> str) (cs : list schema)
  (sel : list (str * str)) (es : list (pyval * obj)) : res json :=
  let tree := map (fun e => match snd e with OCont _ _ kids => IDict (gen_kids true WNone None cs kids) | _ => IDict [] end) es in
  gone <- unwanted (keep itree_items (itree_text O text) sel) tree ;;
  enc_itree O im (IList (fold_left (fun l e => remove_first e l) gone tree)).
