(** The object tree built by the generated classes: assignment, unset, change notification,
    choices, presence, list and leaf-list operations, copying and get().  No proofs in this file.

    Objects are addressed by a path from the module object; Python's parent pointers become the
    enclosing levels of the path.  A path helper is not part of this model (see PathHelper.v). *)
From Verif Require Import PyStr PyVal Restricted Spec_Lists TypedList YList.

(** What the compiler stores about every data node (plugin/pybind.py:860-990): attribute name, YANG name,
    namespace, defining module, the (choice, case) it belongs to, and whether the property has a
    setter (config true here and above, 1189-1200). *)
Record einfo := {
  e_py : str; e_yang : str; e_ns : str; e_mod : str;
  e_choice : option (str * str);
  e_rw : bool
}.

(** Generated classes.  A leaf: type, default, YANG type name, is it a list key.  A leaf-list:
    allowed member types (always unique=True).  A container: presence (with the compiler option
    --presence), children.  A list: attribute names of the keys, ordered-by user, children. *)
Inductive schema :=
| SLeaf (i : einfo) (lt : ltype) (dflt : option pyval) (ytype : str) (iskey : bool)
| SLeafList (i : einfo) (ts : list pty) (ytype : str)
| SCont (i : einfo) (presence : bool) (cs : list schema)
| SList (i : einfo) (keys : list str) (ordered : bool) (cs : list schema).

Definition s_info (s : schema) : einfo :=
  match s with SLeaf i _ _ _ _ => i | SLeafList i _ _ => i | SCont i _ _ => i | SList i _ _ _ => i end.
Definition s_tag (s : schema) : option (str * str) := e_choice (s_info s).

(** Objects; [ch] is [_mchanged], [pres] is [_cpresent].  The children of a container (or list
    entry) stand in the order of [_pyangbind_elements].  An entry of a list is an [OCont]. *)
Inductive obj :=
| OLeaf (ch : bool) (v : pyval)
| OLeafList (ch : bool) (l : list pyval)
| OCont (ch pres : bool) (kids : list obj)
| OList (ch : bool) (es : list (pyval * obj)).

Definition o_changed (x : obj) : bool :=
  match x with OLeaf c _ => c | OLeafList c _ => c | OCont c _ _ => c | OList c _ => c end.

(** A notification: the [choice] argument of [_set]. *)
Definition event := option (str * str).

Definition tag_eqb (a b : str * str) : bool := str_eqb (fst a) (fst b) && str_eqb (snd a) (snd b).

Section Tree.
Context (O : oracle).

(** The argument-less construction of a node (plugin/pybind.py:1061 and 1181).  The compiler emits
    only types whose argument-less construction works; should it fail the model says None. *)
Fixpoint fresh (s : schema) : obj :=
  match s with
  | SLeaf _ lt _ _ _ => OLeaf false (match dyn_unset O lt with Ok v => v | Raise _ => VNone end)
  | SLeafList _ _ _ => OLeafList false []
  | SCont _ _ cs => OCont false false (map fresh cs)
  | SList _ _ _ _ => OList false []
  end.

(** yangtypes.py:1112-1122: children in another case of the notified choice are unset
    ([__choices__] is built at plugin/pybind.py:973-979, 1204). *)
Definition other_case (ev : event) (s : schema) : bool :=
  match ev, s_tag s with
  | Some (c, k), Some (c', k') => str_eqb c c' && negb (str_eqb k k')
  | _, _ => false
  end.
Fixpoint clear (cs : list schema) (kids : list obj) (ev : event) : list obj :=
  match cs, kids with
  | s :: cs', x :: kids' => (if other_case ev s then fresh s else x) :: clear cs' kids' ev
  | _, _ => kids
  end.
Definition clears (cs : list schema) (kids : list obj) (evs : list event) : list obj :=
  fold_left (clear cs) evs kids.

(** yangtypes.py:1124-1125 and 1132-1133: what is passed on to the parent. *)
Definition forward (tag : option (str * str)) (ev : event) : event :=
  match ev with Some c => Some c | None => tag end.

Fixpoint set_nth {A} (n : nat) (x : A) (l : list A) : list A :=
  match n, l with
  | 0%nat, _ :: l' => x :: l'
  | S n', y :: l' => y :: set_nth n' x l'
  | _, [] => []
  end.

(** The effect of an operation on one child, seen from the object that holds it: notifications it
    receives before the child is (re)placed, the new child, notifications afterwards, outcome. *)
Record effect := { f_pre : list event; f_new : option obj; f_post : list event; f_out : res unit }.
Definition no_effect (r : res unit) : effect := {| f_pre := []; f_new := None; f_post := []; f_out := r |}.

(** Apply an effect to child [n] of an object; [live]: the object has a [_set] method (everything
    but the module object). *)
Definition absorb (live : bool) (cs : list schema) (kids : list obj) (n : nat) (f : effect) : list obj :=
  let step evs k := if live then clears cs k evs else k in
  let k1 := step (f_pre f) kids in
  let k2 := match f_new f with Some x => set_nth n x k1 | None => k1 end in
  step (f_post f) k2.

(** The flags of a container that received [evs] (yangtypes.py:1127-1130). *)
Definition mark (evs : list event) (ch : bool) : bool := match evs with [] => ch | _ => true end.
Definition mark_present (presence : bool) (evs : list event) (pres : bool) : bool :=
  match evs with [] => pres | _ => pres || presence end.

(* ------------------------------------------------------------------ setters *)
(** A generated setter [_set_x] (plugin/pybind.py:1142-1172): the new object is constructed - its
    [__init__] notifies the parent first (yangtypes.py:1067-1068), then may fail - stored, and the
    parent's own [_set()] is called. *)
Definition setter (evs : list event) (r : res obj) : effect :=
  match r with
  | Ok x => {| f_pre := evs; f_new := Some x; f_post := [None]; f_out := Ok tt |}
  | Raise e => {| f_pre := evs; f_new := None; f_post := []; f_out := Raise (setter_exn e) |}
  end.

Definition set_leaf (i : einfo) (lt : ltype) (v : pyval) : effect :=
  let d := leaf_assign O lt v in
  setter (if d_notified d then [e_choice i] else []) (w <- d_out d ;; Ok (OLeaf true w)).

(** A plain value for a leaf-list. *)
Definition set_leaf_list (i : einfo) (ts : list pty) (v : pyval) : effect :=
  setter [e_choice i] (l <- tl_init O ts true v ;; Ok (OLeafList true l)).

(** An object as the value: the generated [__init__] of a container copies the children that are
    marked changed with their setters (plugin/pybind.py:1063-1087).
    - a leaf is passed by value;
    - a leaf-list object is not a [list], so TypedList treats it as a single member;
    - a list ignores its argument (yangtypes.py:550-561) and starts out empty;
    - a container is constructed and filled recursively; one without children has no generated
      [__init__] and accepts anything. *)
Fixpoint set_obj (s : schema) (x : obj) {struct s} : effect :=
  match s, x with
  | SLeaf i lt _ _ _, OLeaf _ v => set_leaf i lt v
  | SLeafList i ts _, OLeafList _ l =>
      setter [e_choice i] (w <- tl_check O ts true [] (VList l) ;; Ok (OLeafList true [w]))
  | SList i _ _ _, _ => setter [e_choice i] (Ok (OList true []))
  | SCont i presence cs, OCont _ _ src =>
      let '(kids, evs, r) :=
        (fix copy (n : nat) (cs' : list schema) (src : list obj) (kids : list obj) {struct cs'}
           : list obj * list event * res unit :=
           match cs', src with
           | s' :: cs'', x' :: src' =>
               if o_changed x' then
                 let f := set_obj s' x' in
                 let kids1 := absorb true cs kids n f in
                 match f_out f with
                 | Ok _ => let '(k, e, r) := copy (S n) cs'' src' kids1 in (k, f_pre f ++ f_post f ++ e, r)
                 | Raise ex => (kids1, f_pre f ++ f_post f, Raise ex)
                 end
               else copy (S n) cs'' src' kids
           | _, _ => (kids, [], Ok tt)
           end) 0%nat cs src (map fresh cs) in
      setter (e_choice i :: map (forward (e_choice i)) evs) (_ <- r ;; Ok (OCont true presence kids))
  | SCont i presence [], _ => setter [e_choice i] (Ok (OCont true presence []))
  | SCont i _ _, _ => setter [e_choice i] (Raise ValueError)
  | _, _ => no_effect (Raise ValueError)
  end.

(** The same loop, named. *)
Definition copy_kids : list schema -> nat -> list schema -> list obj -> list obj -> list obj * list event * res unit :=
  fun cs => fix copy n cs' src kids {struct cs'} :=
    match cs', src with
    | s' :: cs'', x' :: src' =>
        if o_changed x' then
          let f := set_obj s' x' in
          let kids1 := absorb true cs kids n f in
          match f_out f with
          | Ok _ => let '(k, e, r) := copy (S n) cs'' src' kids1 in (k, f_pre f ++ f_post f ++ e, r)
          | Raise ex => (kids1, f_pre f ++ f_post f, Raise ex)
          end
        else copy (S n) cs'' src' kids
    | _, _ => (kids, [], Ok tt)
    end.

(** Values one can assign. *)
Inductive sarg := AVal (v : pyval) | AObj (x : obj).

Definition set_any (s : schema) (a : sarg) : effect :=
  match s, a with
  | SLeaf i lt _ _ _, AVal v => set_leaf i lt v
  | SLeafList i ts _, AVal v => set_leaf_list i ts v
  | SList i _ _ _, AVal _ => setter [e_choice i] (Ok (OList true []))
  | SCont i presence [], AVal _ => setter [e_choice i] (Ok (OCont true presence []))
  | SCont i _ _, AVal _ => setter [e_choice i] (Raise ValueError)
  | _, AObj x => set_obj s x
  end.

(** [c.x = a] goes through the property, [c._set_x(a, load=b)] does not. *)
Inductive via := Attr | Priv (load : bool).

Definition is_key (s : schema) : bool := match s with SLeaf _ _ _ _ k => k | _ => false end.
Definition assign (s : schema) (w : via) (a : sarg) : effect :=
  let load := match w with Attr => false | Priv b => b end in
  match w with
  | Attr => if e_rw (s_info s)
            then if is_key s && negb load then no_effect (Raise AttributeError) else set_any s a
            else no_effect (Raise AttributeError)
  | Priv _ => if is_key s && negb load then no_effect (Raise AttributeError) else set_any s a
  end.

(* ------------------------------------------------------------------ list entries *)
Fixpoint kid_index (name : str) (cs : list schema) : option nat :=
  match cs with
  | [] => None
  | s :: cs' => if str_eqb name (e_py (s_info s)) then Some 0%nat else option_map S (kid_index name cs')
  end.

(** yangtypes.py:712-715: [_set_<key>(v, load=True)] on the entry for every key.  Returns the
    children, the notifications the entry received, the outcome. *)
Fixpoint fill_keys (cs : list schema) (kids : list obj) (kd : list (str * pyval))
  : list obj * list event * res unit :=
  match kd with
  | [] => (kids, [], Ok tt)
  | (n, v) :: kd' =>
      match kid_index n cs with
      | None => (kids, [], Raise AttributeError)
      | Some j =>
          match nth_error cs j with
          | None => (kids, [], Raise AttributeError)
          | Some s =>
              let f := set_any s (AVal v) in
              let kids1 := absorb true cs kids j f in
              match f_out f with
              | Raise e => (kids1, f_pre f ++ f_post f, Raise e)
              | Ok _ => let '(k, e, r) := fill_keys cs kids1 kd' in (k, f_pre f ++ f_post f ++ e, r)
              end
          end
      end
  end.

(** yangtypes.py:685-720: a new entry, or one that starts as a copy of [x].  The entry's own
    choice is unset, so it passes on what it receives. *)
Definition mk_entry (cs : list schema) (kd : list (str * pyval)) : list event * res obj :=
  let '(kids, evs, r) := fill_keys cs (map fresh cs) kd in
  (evs, _ <- r ;; Ok (OCont (mark evs false) false kids)).
Definition copy_entry (cs : list schema) (x : obj) (kd : list (str * pyval)) : list event * res obj :=
  match x with
  | OCont _ _ src =>
      let '(kids0, evs0, r0) := copy_kids cs 0 cs src (map fresh cs) in
      match r0 with
      | Raise e => (None :: evs0, Raise e)
      | Ok _ => let '(kids, evs, r) := fill_keys cs kids0 kd in
                (None :: evs0 ++ evs, _ <- r ;; Ok (OCont true false kids))
      end
  | _ => ([None], Raise ValueError)
  end.
Definition leaf_value (x : obj) : pyval := match x with OLeaf _ v => v | _ => VNone end.
Definition extract_key (cs : list schema) (keys : list str) (x : obj) : res pyval :=
  match x with
  | OCont _ _ kids =>
      let get k := match kid_index k cs with
                   | None => Raise KeyError
                   | Some j => match nth_error kids j with Some y => Ok (leaf_value y) | None => Raise KeyError end
                   end in
      match keys with
      | [k] => get k
      | _ => (fix all ks vs := match ks with
                               | [] => Ok (VStr (rstrip_sp (join [32%N] (map (py_str O) (rev vs)))))
                               | k :: ks' => v <- get k ;; all ks' (v :: vs)
                               end) keys []
      end
  | _ => Raise KeyError
  end.

Definition list_op (keys : list str) (cs : list schema) (uid : str) (es : list (pyval * obj)) (o : yop obj)
  : list (pyval * obj) * list event * res unit :=
  yl_op O keys (mk_entry cs) (copy_entry cs) (OCont false false (map fresh cs)) (extract_key cs keys) uid es o.

(* ------------------------------------------------------------------ operations on a child *)
Inductive op :=
| ASet (w : via) (a : sarg)        (** c.x = a, c._set_x(a, load=...) *)
| AUnset                           (** c._unset_x() *)
| APresent (b : bool)              (** c.x._set_present(b) *)
| ALeafList (o : llop)             (** c.x.append(...) etc. *)
| AList (uid : str) (o : yop obj). (** c.x.add(...) etc. *)

Definition apply (s : schema) (x : obj) (o : op) : effect :=
  match o with
  | ASet w a => assign s w a
  | AUnset => {| f_pre := []; f_new := Some (fresh s); f_post := []; f_out := Ok tt |}
  | APresent b =>   (* yangtypes.py:1199-1206 *)
      match s, x with
      | SCont i presence _, OCont ch pres kids =>
          if b then {| f_pre := []; f_new := Some (OCont true true kids); f_post := [e_choice i]; f_out := Ok tt |}
          else {| f_pre := []; f_new := Some (OCont false false kids); f_post := []; f_out := Ok tt |}
      | _, _ => no_effect (Raise AttributeError)
      end
  | ALeafList lo =>  (* yangtypes.py:1145-1181 *)
      match s, x with
      | SLeafList i ts _, OLeafList ch l =>
          let '(l', r) := tl_op O ts true l lo in
          {| f_pre := []; f_new := Some (OLeafList (ch || tl_notifies lo) l');
             f_post := if tl_notifies lo then [e_choice i] else []; f_out := r |}
      | _, _ => no_effect (Raise AttributeError)
      end
  | AList uid yo =>
      match s, x with
      | SList i keys _ cs, OList ch es =>
          let '(es', evs, r) := list_op keys cs uid es yo in
          {| f_pre := []; f_new := Some (OList (ch || yl_notifies yo) es');
             f_post := (if yl_notifies yo then [e_choice i] else []) ++ evs; f_out := r |}
      | _, _ => no_effect (Raise AttributeError)
      end
  end.

(* ------------------------------------------------------------------ operations anywhere *)
(** [Kid n]: the n-th child; [Ent k]: the entry with key [k] of the list just reached. *)
Inductive pstep := Kid (n : nat) | Ent (k : pyval).

Definition entry_of (k : pyval) (es : list (pyval * obj)) : option obj := mget k es.

(** Perform [o] at path [p] below an object with children [kids].  The result: the children
    afterwards, the notifications the object received (in order), the outcome.  Each container on
    the way marks itself, clears the other cases and passes the notification on; a list entry does
    the same, its parent being the object that holds the list (yangtypes.py:646-652), so the list
    object itself takes no part. *)
Fixpoint exec (live : bool) (cs : list schema) (kids : list obj) (p : list pstep) (o : op) {struct p}
  : list obj * list event * res unit :=
  match p with
  | Kid n :: p' =>
      match nth_error cs n, nth_error kids n with
      | Some s, Some x =>
          let f :=
            match p' with
            | [] => apply s x o
            | Ent k :: p'' =>
                match s, x with
                | SList _ _ _ cs', OList ch es =>
                    match mget k es with
                    | Some (OCont ech epres ekids) =>
                        let '(ekids', evs, r) := exec true cs' ekids p'' o in
                        {| f_pre := []; f_new := Some (OList ch (mput k (OCont (mark evs ech) epres ekids') es));
                           f_post := evs; f_out := r |}
                    | _ => no_effect (Raise KeyError)
                    end
                | _, _ => no_effect (Raise TypeError)
                end
            | Kid _ :: _ =>
                match s, x with
                | SCont i presence cs', OCont ch pres kids' =>
                    let '(kids'', evs, r) := exec true cs' kids' p' o in
                    {| f_pre := []; f_new := Some (OCont (mark evs ch) (mark_present presence evs pres) kids'');
                       f_post := map (forward (e_choice i)) evs; f_out := r |}
                | _, _ => no_effect (Raise AttributeError)
                end
            end in
          (absorb live cs kids n f, f_pre f ++ f_post f, f_out f)
      | _, _ => (kids, [], Raise AttributeError)
      end
  | _ => (kids, [], Raise AttributeError)
  end.

(** A module object. *)
Definition module_new (cs : list schema) : list obj := map fresh cs.
Definition module_exec (cs : list schema) (kids : list obj) (p : list pstep) (o : op) : list obj * res unit :=
  let '(k, _, r) := exec false cs kids p o in (k, r).
Fixpoint module_run (cs : list schema) (kids : list obj) (os : list (list pstep * op)) : list obj :=
  match os with
  | [] => kids
  | (p, o) :: os' => module_run cs (fst (module_exec cs kids p o)) os'
  end.

(* ------------------------------------------------------------------ get() *)
(** What get() returns: leaf objects by value; a leaf-list, a list (keys and dictionaries), a
    dictionary keyed by YANG name. *)
Inductive dump :=
| DLeaf (v : pyval) | DLeafList (l : list pyval) | DDict (d : list (str * dump)) | DList (es : list (pyval * dump)).

(** lib/base.py:31-98 (and yangtypes.py:511-512 and 861-869 for leaf-lists and lists): the value for
    one child, None if it is left out.  Sibling names are distinct (a schema invariant). *)
Fixpoint get_kid (filter : bool) (s : schema) (x : obj) {struct s} : option dump :=
  match s, x with
  | SLeaf _ _ dflt _ _, OLeaf ch v =>
      if ch then Some (DLeaf v)
      else if filter then None
      else Some (DLeaf (match dflt with Some d => if truthy d then d else v | None => v end))
  | SLeafList _ _ _, OLeafList _ l =>
      match filter, l with true, [] => None | _, _ => Some (DLeafList l) end
  | SCont _ presence cs, OCont _ pres kids =>
      match filter, (fix get cs kids := match cs, kids with
                              | s :: cs', x :: kids' =>
                                  match get_kid filter s x with
                                  | Some d => (e_yang (s_info s), d) :: get cs' kids'
                                  | None => get cs' kids'
                                  end
                              | _, _ => []
                              end) cs kids with
      | true, [] => if presence && pres then Some (DDict []) else None
      | _, d => Some (DDict d)
      end
  | SList _ _ _ cs, OList _ es =>
      match filter, es with
      | true, [] => None
      | _, _ => Some (DList (map (fun '(k, x) =>
                  (k, match x with
                      | OCont _ _ kids =>
                          DDict ((fix get cs kids := match cs, kids with
                                    | s :: cs', x :: kids' =>
                                        match get_kid filter s x with
                                        | Some d => (e_yang (s_info s), d) :: get cs' kids'
                                        | None => get cs' kids'
                                        end
                                    | _, _ => []
                                    end) cs kids)
                      | _ => DDict []
                      end)) es))
      end
  | _, _ => None
  end.

Fixpoint get_kids (filter : bool) (cs : list schema) (kids : list obj) : list (str * dump) :=
  match cs, kids with
  | s :: cs', x :: kids' =>
      match get_kid filter s x with
      | Some d => (e_yang (s_info s), d) :: get_kids filter cs' kids'
      | None => get_kids filter cs' kids'
      end
  | _, _ => []
  end.
End Tree.
