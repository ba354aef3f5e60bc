(** The data tree and the path helper together: what a tree whose classes were given a path helper
    registers and unregisters.  No proofs in this file.

    Types, choices and change marks are those of Tree.v and are left out here: the outcome of the
    construction of a leaf is an argument, and the members of another case that a choice unsets are
    separate operations [Unset] that come first (yangtypes.py:1112-1122 is called at 1068, before the
    registration).  Python and YANG names are the same, dictionary keys are taken as texts (5 and "5" are
    the same key).  Loading of documents, register_paths=False and keys that are leafrefs
    (yangtypes.py:717-718) are not modelled. *)
From Verif Require Import PyStr PyVal SafeName PathHelper.

(** Generated classes: the value of a fresh leaf; names of the keys of a list, and the contained class. *)
Inductive rschema :=
| RLeaf (name : str) (v0 : pyval)
| RLeafList (name : str)
| RCont (name : str) (cs : list rschema)
| RList (name : str) (keys : list str) (cs : list rschema).
Definition r_name (s : rschema) : str :=
  match s with RLeaf n _ => n | RLeafList n => n | RCont n _ => n | RList n _ _ => n end.

(** Objects.  Containers, list entries and leaf-lists are mutable and have an identity; leaves are
    replaced, never changed.  Entries: key texts, identity, children. *)
Inductive robj :=
| TLeaf (v : pyval)
| TLeafList (id : nat)
| TCont (id : nat) (kids : list robj)
| TList (es : list (list str * (nat * list robj))).
(** What the helper stores: a reference. *)
Inductive pobj := PLeaf (v : pyval) | PLeafList (id : nat) | PNode (id : nat).

(** The helper, the next identity, the members of each leaf-list; the attributes of the FakeRoot
    (xpathhelper.py:100-104) by the name that was registered, which are also its _pyangbind_elements, and its
    methods _get_x by x. *)
Record world := { w_help : helper pobj; w_next : nat; w_heap : list (nat * list pyval);
                  w_root : list (str * pobj); w_gets : list (str * pobj) }.
Fixpoint members (id : nat) (h : list (nat * list pyval)) : list pyval :=
  match h with [] => [] | (i, l) :: h' => if Nat.eqb i id then l else members id h' end.
(** [==] in [register] (xpathhelper.py:247): leaves compare by value, containers have no __eq__.  The new
    leaf-list is not initialised at this point: its [_list] is that of the class, an empty list
    (yangtypes.py:415, 506-509, 1073-1081). *)
Definition same_ref (heap : list (nat * list pyval)) (old new : pobj) : bool :=
  match old, new with
  | PLeaf a, PLeaf b => py_eq a b
  | PLeafList i, PLeafList _ => match members i heap with [] => true | _ => false end
  | PNode i, PNode j => Nat.eqb i j
  | _, _ => false
  end.

Section RegTree.
Context (uid : nat -> str).

(** Computations that may change the world and may raise. *)
Definition act (A : Type) := world -> world * res A.
Definition ret {A} (a : A) : act A := fun w => (w, Ok a).
Definition fail {A} (e : exn) : act A := fun w => (w, Raise e).
Definition andthen {A B} (m : act A) (k : A -> act B) : act B :=
  fun w => let (w1, r) := m w in match r with Ok a => k a w1 | Raise e => (w1, Raise e) end.

(** xpathhelper.py:236-239: what is registered at the top becomes an attribute of the FakeRoot (no name
    begins with ".."). *)
Definition at_top (name : str -> str) (path : list str) (o : pobj) (d : list (str * pobj)) : list (str * pobj) :=
  match path with [p] => dict_set (name p) o d | _ => d end.
(** yangtypes.py:1072-1081. *)
Definition reg (path : list str) (o : pobj) : act unit := fun w =>
  let (h, r) := register (same_ref (w_heap w)) uid path o (w_help w) in
  ({| w_help := h; w_next := w_next w; w_heap := w_heap w;
      w_root := at_top (fun p => p) path o (w_root w); w_gets := at_top safe_name path o (w_gets w) |}, r).
Definition new_id : act nat := fun w => ({| w_help := w_help w; w_next := S (w_next w); w_heap := w_heap w; w_root := w_root w; w_gets := w_gets w |}, Ok (w_next w)).
Definition set_members (id : nat) (l : list pyval) : act unit := fun w =>
  ({| w_help := w_help w; w_next := w_next w; w_heap := (id, l) :: w_heap w; w_root := w_root w; w_gets := w_gets w |}, Ok tt).

Definition mapA {A B} (f : A -> act B) : list A -> act (list B) :=
  fix go l := match l with
              | [] => ret []
              | a :: l' => andthen (f a) (fun b => andthen (go l') (fun bs => ret (b :: bs)))
              end.

(** The construction without arguments of the child [s] of an object with path [path]
    (plugin/pybind.py:1061 and 1181, yangtypes.py:1043-1091): first the object is registered, then its
    children are constructed. *)
Fixpoint build (path : list str) (s : rschema) {struct s} : act robj :=
  match s with
  | RLeaf n v0 => andthen (reg (path ++ [n]) (PLeaf v0)) (fun _ => ret (TLeaf v0))
  | RLeafList n => andthen new_id (fun id => andthen (set_members id []) (fun _ =>
      andthen (reg (path ++ [n]) (PLeafList id)) (fun _ => ret (TLeafList id))))
  | RCont n cs => andthen new_id (fun id => andthen (reg (path ++ [n]) (PNode id)) (fun _ =>
      andthen (mapA (build (path ++ [n])) cs) (fun kids => ret (TCont id kids))))
  | RList _ _ _ => ret (TList [])   (* lists are not registered *)
  end.

(* ------------------------------------------------------------------ values *)
(** The construction of a leaf with a value: done; refused by [__new__], before the registration; refused
    by [__init__], after it. *)
Inductive outcome := Good (v : pyval) | Refused (e : exn) | Late (v : pyval) (e : exn).
(** What is assigned: a value for a leaf; for a leaf-list the members, or the exception (always from
    [__init__]); an object for a container: its changed children and their positions; anything for a
    list; something without the right attributes. *)
Inductive value :=
| VLeaf (o : outcome)
| VMembers (r : res (list pyval))
| VObject (changed : list (nat * value))
| VAny.

Fixpoint set_nth {A} (n : nat) (x : A) (l : list A) : list A :=
  match l, n with [], _ => [] | _ :: l', 0%nat => x :: l' | a :: l', S n' => a :: set_nth n' x l' end.

(** The construction with an argument, for the setter (plugin/pybind.py:1142-1172): as above, then the
    changed children of the argument are set (1063-1087). *)
Fixpoint construct (path : list str) (s : rschema) (v : value) {struct v} : act robj :=
  match s, v with
  | RLeaf n _, VLeaf (Good x) => andthen (reg (path ++ [n]) (PLeaf x)) (fun _ => ret (TLeaf x))
  | RLeaf n _, VLeaf (Refused e) => fail e
  | RLeaf n _, VLeaf (Late x e) => andthen (reg (path ++ [n]) (PLeaf x)) (fun _ => fail e)
  | RLeafList n, VMembers r => andthen new_id (fun id => andthen (set_members id []) (fun _ =>
      andthen (reg (path ++ [n]) (PLeafList id)) (fun _ =>
      match r with Ok l => andthen (set_members id l) (fun _ => ret (TLeafList id)) | Raise e => fail e end)))
  | RCont n cs, VObject ch => andthen new_id (fun id => andthen (reg (path ++ [n]) (PNode id)) (fun _ =>
      andthen (mapA (build (path ++ [n])) cs) (fun kids =>
      andthen ((fix copy ch kids := match ch with
                                    | [] => ret kids
                                    | (i, v') :: ch' =>
                                        match nth_error cs i with
                                        | None => fail ValueError
                                        | Some s' => andthen (construct (path ++ [n]) s' v') (fun x => copy ch' (set_nth i x kids))
                                        end
                                    end) ch kids)
              (fun kids => ret (TCont id kids)))))
  | RCont n cs, _ => andthen new_id (fun id => andthen (reg (path ++ [n]) (PNode id)) (fun _ =>
      andthen (mapA (build (path ++ [n])) cs) (fun _ => fail ValueError)))
  | RList _ _ _, _ => ret (TList [])   (* yangtypes.py:550-561: the argument is ignored *)
  | _, _ => fail ValueError
  end.
(** The loop of the container, named. *)
Definition copy_into (path : list str) (cs : list rschema) : list (nat * value) -> list robj -> act (list robj) :=
  fix copy ch kids := match ch with
                      | [] => ret kids
                      | (i, v') :: ch' =>
                          match nth_error cs i with
                          | None => fail ValueError
                          | Some s' => andthen (construct path s' v') (fun x => copy ch' (set_nth i x kids))
                          end
                      end.

(* ------------------------------------------------------------------ list entries *)
(** yangtypes.py:675-683: [k1='v1' k2='v2']. *)
Definition quoted (kv : str * str) : str := fst kv ++ lit "='" ++ snd kv ++ lit "'".
Definition key_part (keys ks : list str) : str := lit "[" ++ join (lit " ") (map quoted (combine keys ks)) ++ lit "]".
(** yangtypes.py:822-835, for [delete]: [@k=v] or [k1=v1 k2=v2]; the text of a composite key is joined
    (_generate_key, 757-775) and split again. *)
Definition unquoted (kv : str * str) : str := fst kv ++ lit "=" ++ snd kv ++ lit " ".
Definition rstrip_space (s : str) : str := rev (snd (span (N.eqb 32) (rev s))).
Definition delete_part (keys ks : list str) : str :=
  match keys with
  | [k] => lit "[@" ++ k ++ lit "=" ++ join (lit " ") ks ++ lit "]"
  | _ => rstrip_space (lit "[" ++ concat (map unquoted (combine keys (split_on 32 (join (lit " ") ks))))) ++ lit "]"
  end.

Fixpoint texts_eqb (a b : list str) : bool :=
  match a, b with [], [] => true | x :: a', y :: b' => str_eqb x y && texts_eqb a' b' | _, _ => false end.
Fixpoint entry {A} (ks : list str) (es : list (list str * A)) : option A :=
  match es with [] => None | (k, x) :: es' => if texts_eqb k ks then Some x else entry ks es' end.
Fixpoint put_entry {A} (ks : list str) (x : A) (es : list (list str * A)) : list (list str * A) :=
  match es with [] => [(ks, x)] | (k, y) :: es' => if texts_eqb k ks then (k, x) :: es' else (k, y) :: put_entry ks x es' end.
Definition del_entry {A} (ks : list str) (es : list (list str * A)) : list (list str * A) :=
  filter (fun kx => negb (texts_eqb (fst kx) ks)) es.

Fixpoint index_of (n : str) (cs : list rschema) : option nat :=
  match cs with [] => None | s :: cs' => if str_eqb n (r_name s) then Some 0%nat else option_map S (index_of n cs') end.
(** yangtypes.py:712-715: the keys are set; [ko] is what comes out for each. *)
Fixpoint set_keys (path : list str) (cs : list rschema) (keys : list str) (ko : list outcome) (kids : list robj) : act (list robj) :=
  match keys, ko with
  | k :: keys', o :: ko' =>
      match index_of k cs with
      | None => fail AttributeError
      | Some i => match nth_error cs i with
                  | Some s => andthen (construct path s (VLeaf o)) (fun x => set_keys path cs keys' ko' (set_nth i x kids))
                  | None => fail AttributeError
                  end
      end
  | _, _ => ret kids
  end.
(** yangtypes.py:685-711: the entry, registered with its own path; with an argument ([Some]) its changed
    children are copied, [Some None] is an argument without the right attributes. *)
Definition make_entry (path : list str) (n : str) (keys : list str) (cs : list rschema) (ks : list str) (ko : list outcome)
  (arg : option (option (list (nat * value)))) : act (nat * list robj) :=
  let epath := path ++ [n ++ key_part keys ks] in
  andthen new_id (fun id => andthen (reg epath (PNode id)) (fun _ =>
  andthen (mapA (build epath) cs) (fun kids =>
  andthen (match arg with None => ret kids | Some (Some ch) => copy_into epath cs ch kids | Some None => fail ValueError end) (fun kids =>
  andthen (set_keys epath cs keys ko kids) (fun kids => ret (id, kids)))))).
(** yangtypes.py:722-732: without keys the entry is itself marked as a list and so it is not registered. *)
Definition make_keyless (path : list str) (n : str) (cs : list rschema) : act (nat * list robj) :=
  andthen new_id (fun id => andthen (mapA (build (path ++ [n])) cs) (fun kids => ret (id, kids))).

(* ------------------------------------------------------------------ operations *)
Inductive rop :=
| Set_ (v : value)                       (** c.x = v, c._set_x(v) *)
| Unset                                  (** c._unset_x() *)
| Members (l : list pyval)               (** c.x.append() and the like: the members afterwards *)
| Add (ks : list str) (ko : list outcome)     (** c.x.add(...); of a keyless list: [ks] is the uuid *)
| Put (ks : list str) (ko : list outcome) (arg : option (list (nat * value)))  (** c.x[k] = v, c.x.append(v) *)
| Delete (ks : list str)                 (** c.x.delete(...) *)
| Del (ks : list str).                   (** del c.x[k] *)

(** On the child [x] of an object with path [path]: the child afterwards. *)
Definition apply (path : list str) (s : rschema) (x : robj) (o : rop) (w : world) : world * robj * res unit :=
  let store (m : act robj) := match m w with (w', Ok y) => (w', y, Ok tt) | (w', Raise e) => (w', x, Raise e) end in
  match o with
  | Set_ v => store (construct path s v)
  | Unset => store (build path s)
  | Members l => match x with
                 | TLeafList id => (fst (set_members id l w), x, Ok tt)
                 | _ => (w, x, Raise AttributeError)
                 end
  | Add ks ko =>   (* yangtypes.py:789-816 *)
      match s, x with
      | RList n keys cs, TList es =>
          match entry ks es with
          | Some _ => (w, x, Raise KeyError)
          | None => store (andthen (match keys with [] => make_keyless path n cs | _ => make_entry path n keys cs ks ko None end)
                                   (fun e => ret (TList (put_entry ks e es))))
          end
      | _, _ => (w, x, Raise AttributeError)
      end
  | Put ks ko arg =>   (* yangtypes.py:617-720 *)
      match s, x with
      | RList n keys cs, TList es =>
          let how := match arg with
                     | Some ch => Some (Some ch)
                     | None => match entry ks es with Some _ => Some None | None => None end
                     end in
          store (andthen (match keys with [] => make_keyless path n cs | _ => make_entry path n keys cs ks ko how end)
                         (fun e => ret (TList (put_entry ks e es))))
      | _, _ => (w, x, Raise AttributeError)
      end
  | Delete ks =>   (* yangtypes.py:818-845 *)
      match s, x with
      | RList n [] _, TList _ => (w, x, Raise TypeError)
      | RList n keys cs, TList es =>
          match entry ks es with
          | None => (w, x, Raise KeyError)
          | Some _ => let (h, r) := unregister (path ++ [n ++ delete_part keys ks]) (w_help w) in
                      ({| w_help := h; w_next := w_next w; w_heap := w_heap w; w_root := w_root w; w_gets := w_gets w |}, TList (del_entry ks es), r)
          end
      | _, _ => (w, x, Raise AttributeError)
      end
  | Del ks =>   (* yangtypes.py:734-735 *)
      match s, x with
      | RList _ _ _, TList es => match entry ks es with Some _ => (w, TList (del_entry ks es), Ok tt) | None => (w, x, Raise KeyError) end
      | _, _ => (w, x, Raise AttributeError)
      end
  end.

(** Where: the n-th child, an entry of the list just reached. *)
Inductive rstep := Kid (n : nat) | Ent (ks : list str).
(** [_path] of the objects on the way (yangtypes.py:1183-1189). *)
Fixpoint exec (path : list str) (cs : list rschema) (kids : list robj) (p : list rstep) (o : rop) (w : world) {struct p}
  : world * list robj * res unit :=
  match p with
  | Kid n :: p' =>
      match nth_error cs n, nth_error kids n with
      | Some s, Some x =>
          match p' with
          | [] => let '(w', y, r) := apply path s x o w in (w', set_nth n y kids, r)
          | Ent ks :: p'' =>
              match s, x with
              | RList ln keys cs', TList es =>
                  match entry ks es with
                  | Some (id, ekids) =>
                      let epath := path ++ [match keys with [] => ln | _ => ln ++ key_part keys ks end] in
                      let '(w', ekids', r) := exec epath cs' ekids p'' o w in
                      (w', set_nth n (TList (put_entry ks (id, ekids') es)) kids, r)
                  | None => (w, kids, Raise KeyError)
                  end
              | _, _ => (w, kids, Raise TypeError)
              end
          | Kid _ :: _ =>
              match s, x with
              | RCont cn cs', TCont id kids' =>
                  let '(w', kids'', r) := exec (path ++ [cn]) cs' kids' p' o w in
                  (w', set_nth n (TCont id kids'') kids, r)
              | _, _ => (w, kids, Raise AttributeError)
              end
          end
      | _, _ => (w, kids, Raise AttributeError)
      end
  | _ => (w, kids, Raise AttributeError)
  end.

(** A module object with a new helper (plugin/pybind.py:1049-1061), and what is done with it.  The
    construction of the module is assumed to succeed (it does, see the theorems). *)
Definition world_new : world := {| w_help := helper_new; w_next := 0; w_heap := []; w_root := []; w_gets := [] |}.
Definition module_new (cs : list rschema) : world * list robj :=
  match mapA (build []) cs world_new with (w, Ok kids) => (w, kids) | (w, Raise _) => (w, []) end.
Fixpoint run (cs : list rschema) (w : world) (kids : list robj) (os : list (list rstep * rop)) : world * list robj :=
  match os with
  | [] => (w, kids)
  | (p, o) :: os' => let '(w', kids', _) := exec [] cs kids p o w in run cs w' kids' os'
  end.
Definition session (cs : list rschema) (os : list (list rstep * rop)) : world * list robj :=
  let (w, kids) := module_new cs in run cs w kids os.
End RegTree.
