(** helpers/identity.py, and build_identities of plugin/pybind.py.  No proofs in this file.

    What pyang knows about modules is a parameter ([modules]): the prefix and the namespace of a module,
    what a prefix means in it (util.prefix_to_module), and the prefixes under which it is imported
    anywhere (helpers/misc.py:23-31, module_import_prefixes).  Identity objects that refer to one another
    are named by module and name, under which the store holds at most one (identity.py:54-64). *)
From Verif Require Import PyStr PyVal PathHelper.

Record modules := { m_prefix : str -> str; m_namespace : str -> str; m_resolve : str -> str -> option str; m_refs : str -> list str }.
(** An identity statement: its name, the name of the main module, the arguments of its base statements. *)
Record idef := { d_name : str; d_module : str; d_bases : list str }.
Definition ident := (str * str)%type.
Record identity := { id_module : str; id_name : str; id_prefixes : list str; id_children : list ident }.

Section Identity.
Context (c : modules).

(** identity.py:32-36, [add_prefix]. *)
Definition add_new (p : str) (l : list str) : list str := if existsb (str_eqb p) l then l else l ++ [p].
Definition add_prefix (p : str) (i : identity) : identity :=
  {| id_module := id_module i; id_name := id_name i; id_prefixes := add_new p (add_new (id_module i) (id_prefixes i)); id_children := id_children i |}.
(** identity.py:38-41, [add_child]. *)
Definition add_child (ch : ident) (i : identity) : identity :=
  {| id_module := id_module i; id_name := id_name i; id_prefixes := id_prefixes i; id_children := id_children i ++ [ch] |}.

(** identity.py:54-57, [find_identity_by_source_name]. *)
Definition is_ident (n : ident) (i : identity) : bool := str_eqb (id_module i) (fst n) && str_eqb (id_name i) (snd n).
Definition find_ident (n : ident) (store : list identity) : option identity := find (is_ident n) store.
Definition on_ident (n : ident) (f : identity -> identity) (store : list identity) : list identity :=
  map (fun i => if is_ident n i then f i else i) store.

(** identity.py:104-109: the identity that a base statement names. *)
Definition base_of (d : idef) (b : str) : res ident :=
  pn <- (if ch_in 58 b then match split_on 58 b with [p; n] => Ok (p, n) | _ => Raise ValueError end
         else Ok (m_prefix c (d_module d), b)) ;;
  match m_resolve c (d_module d) (fst pn) with Some m => Ok (m, snd pn) | None => Raise AttributeError end.
(** identity.py:99-126: None if a base is not in the store. *)
Fixpoint find_bases (d : idef) (bases : list str) (store : list identity) : res (option (list ident)) :=
  match bases with
  | [] => Ok (Some [])
  | b :: bases' =>
      n <- base_of d b ;;
      match find_ident n store with
      | None => Ok None
      | Some _ => r <- find_bases d bases' store ;; Ok (option_map (cons n) r)
      end
  end.
(** identity.py:131-141. *)
Definition new_identity (d : idef) : identity :=
  fold_left (fun i p => add_prefix p i) (m_refs c (d_module d))
    (add_prefix (m_prefix c (d_module d)) {| id_module := d_module d; id_name := d_name d; id_prefixes := []; id_children := [] |}).
Definition ident_of (d : idef) : ident := (d_module d, d_name d).
(** identity.py:79-144, the loop of [build_store_from_definitions] (it has no other end than the empty
    list; the counters in it are not used). *)
Fixpoint build_loop (fuel : nat) (queue : list idef) (store : list identity) : res (list identity) :=
  match queue with
  | [] => Ok store
  | d :: queue' =>
      match fuel with
      | 0%nat => Raise OutOfFuel
      | S fuel' =>
          match find_ident (ident_of d) store with
          | Some _ => build_loop fuel' queue' store
          | None =>
              r <- find_bases d (d_bases d) store ;;
              match r with
              | None => build_loop fuel' (queue' ++ [d]) store
              | Some bs => build_loop fuel' queue' (fold_left (fun st b => on_ident b (add_child (ident_of d)) st) bs (store ++ [new_identity d]))
              end
          end
      end
  end.

(** identity.py:148-152, [_recurse_children].  The depth of the recursion is limited in Python. *)
Fixpoint recurse_children (fuel : nat) (store : list identity) (n : ident) : res (list ident) :=
  match fuel with
  | 0%nat => Raise OutOfFuel
  | S fuel' =>
      match find_ident n store with
      | None => Raise OutOfFuel (* not reached *)
      | Some i =>
          (fix each (l : list ident) : res (list ident) :=
             match l with
             | [] => Ok []
             | ch :: l' => r1 <- recurse_children fuel' store ch ;; r2 <- each l' ;; Ok (ch :: r1 ++ r2)
             end) (id_children i)
      end
  end.
(** identity.py:154-158, [_build_inheritance]: the lists of children are replaced one after the other. *)
Definition set_children (l : list ident) (i : identity) : identity :=
  {| id_module := id_module i; id_name := id_name i; id_prefixes := id_prefixes i; id_children := l |}.
Fixpoint inherit_loop (fuel : nat) (todo : list ident) (store : list identity) : res (list identity) :=
  match todo with
  | [] => Ok store
  | n :: todo' => l <- recurse_children fuel store n ;; inherit_loop fuel todo' (on_ident n (set_children l) store)
  end.
Definition id_of (i : identity) : ident := (id_module i, id_name i).
(** identity.py:72-146, [build_store_from_definitions]. *)
Definition build_store (fuel depth : nat) (defs : list idef) : res (list identity) :=
  store <- build_loop fuel defs [] ;; inherit_loop depth (map id_of store) store.

(** pybind.py:446-465: the dictionaries of values by the name of the base. *)
Definition values := list (str * (str * str)).
Definition key_of (p n : str) : str := p ++ lit ":" ++ n.
Definition add_value (key t : str) (v : str * str) (D : list (str * values)) : list (str * values) :=
  match look key D with Some e => dict_set key (dict_set t v e) D | None => D (* not reached *) end.
Definition add_values (i : identity) (key : str) (store : list identity) (ch : ident) (D : list (str * values)) : list (str * values) :=
  let v := (fst ch, m_namespace c (fst ch)) in
  let pfxs := match find_ident ch store with Some j => id_prefixes j | None => [] end in
  fold_left (fun D t => add_value (id_name i) t v (add_value key t v D)) (flat_map (fun p => [snd ch; key_of p (snd ch)]) pfxs ++ [snd ch; snd ch]) D.
Definition identity_dict (store : list identity) : list (str * values) :=
  fold_left (fun D i =>
    let D' := fold_left (fun D p => fold_left (fun D ch => add_values i (key_of p (id_name i)) store ch D) (id_children i)
                                      (dict_set (id_name i) [] (dict_set (key_of p (id_name i)) [] D))) (id_prefixes i) D in
    match look (id_name i) D' with Some _ => D' | None => dict_set (id_name i) [] D' end) store [].
(** pybind.py:440-479, [build_identities]: the values of an identityref by the argument of its base
    statement (1347). *)
Definition build_identities (fuel depth : nat) (defs : list idef) : res (list (str * values)) :=
  store <- build_store fuel depth defs ;; Ok (identity_dict store).
End Identity.
