(** Which typedefs and identities the plugin knows: helpers/misc.py and the beginning of build_pybind in
    plugin/pybind.py.  No proofs in this file.

    The statements of a module as pyang hands them over: a definition (of a typedef or an identity) with its name and whatever
    else it says, or another statement with its keyword, whether it has data nodes below it ([i_children],
    after all uses have been expanded), and its substatements.  Modules are told apart by their names (one
    revision of each). *)
From Verif Require Import PyStr PyVal PathHelper Identity Typedefs.

Inductive stm (D : Type) := Defn (kw name : str) (d : D) | Block (kw : str) (data : bool) (subs : list (stm D)).
Arguments Defn {D}. Arguments Block {D}.
(** A module or submodule: its name, its prefix statement, the prefix in its belongs-to statement, the imports (module and
    prefix), the included submodules, and the statements in it. *)
Record ymod (D : Type) := { mo_name : str; mo_prefix : option str; mo_belongs : option str;
  mo_imports : list (str * str); mo_includes : list str; mo_body : list (stm D) }.
Arguments mo_name {D}. Arguments mo_prefix {D}. Arguments mo_belongs {D}. Arguments mo_imports {D}. Arguments mo_includes {D}. Arguments mo_body {D}.

Section Collect.
Context {D : Type}.

Definition has {A} (k : str) (d : list (str * A)) : bool := match look k d with Some _ => true | None => false end.
Definition pkey (prefix name : str) : str := prefix ++ lit ":" ++ name.

(** misc.py:35-39: the bare name is compared with the keys so far, which begin with the prefix. *)
Definition own_def (kw prefix : str) (defs : list (str * D)) (s : stm D) : list (str * D) :=
  match s with
  | Defn kw' n d => if str_eqb kw' kw then (if has n defs then defs else dict_set (pkey prefix n) d defs) else defs
  | Block _ _ _ => defs
  end.
(** misc.py:41. *)
Definition possible_parents : list str :=
  map lit ["grouping"; "container"; "list"; "rpc"; "input"; "output"; "notification"]%string.
(** misc.py:34-48, [find_child_definitions]. *)
Fixpoint find_child (kw prefix : str) (s : stm D) (defs : list (str * D)) {struct s} : list (str * D) :=
  match s with
  | Defn _ _ _ => defs
  | Block _ _ subs =>
      fold_left (fun ds pt =>
        (fix each (l : list (stm D)) (ds : list (str * D)) : list (str * D) :=
           match l with
           | [] => ds
           | ch :: l' =>
               each l' (match ch with
                        | Block kw' true _ => if str_eqb kw' pt then find_child kw prefix ch ds else ds
                        | _ => ds
                        end)
           end) subs ds) possible_parents (fold_left (own_def kw prefix) subs defs)
  end.
(** misc.py:51-57, [find_definitions]. *)
Definition find_definitions (kw prefix : str) (m : ymod D) : list (str * D) :=
  find_child kw prefix (Block (lit "module") true (mo_body m)) [].

Context (c : str -> option (ymod D)).  (** ctx.get_module *)

(** pybind.py:347-354. *)
Definition local_prefix (m : ymod D) : res str :=
  match mo_prefix m with
  | Some p => Ok p
  | None => match mo_belongs m with Some p => Ok p | None => Raise AttributeError end
  end.
Definition modules_of (names : list str) : list (ymod D) :=
  flat_map (fun n => match c n with Some m => [m] | None => [] end) names.
Definition imported (l : list (str * str)) : list (str * ymod D) :=
  flat_map (fun np => match c (fst np) with Some m => [(snd np, m)] | None => [] end) l.
(** pybind.py:345-377: the list of modules grows while it is gone through. *)
Fixpoint gather (fuel : nat) (queue : list (ymod D)) (acc : list (str * ymod D)) : res (list (str * ymod D)) :=
  match queue with
  | [] => Ok acc
  | m :: queue' =>
      match fuel with
      | 0%nat => Raise OutOfFuel
      | S fuel' =>
          p <- local_prefix m ;;
          let subs := modules_of (mo_includes m) in
          let imps := imported (mo_imports m ++ flat_map mo_imports subs) in
          gather fuel' (queue' ++ map snd imps) (acc ++ (p, m) :: map (pair p) subs ++ imps)
      end
  end.
(** pybind.py:379-384. *)
Definition same_mod (a b : str * ymod D) : bool := str_eqb (fst a) (fst b) && str_eqb (mo_name (snd a)) (mo_name (snd b)).
Definition dedup (l : list (str * ymod D)) : list (str * ymod D) :=
  fold_left (fun acc m => if existsb (same_mod m) acc then acc else acc ++ [m]) l [].
(** pybind.py:388-395. *)
Definition keep_first (defs new : list (str * D)) : list (str * D) :=
  fold_left (fun ds kd => if has (fst kd) ds then ds else dict_set (fst kd) (snd kd) ds) new defs.
Definition definitions (kw : str) (all : list (str * ymod D)) : list (str * D) :=
  fold_left (fun ds pm => keep_first ds (find_definitions kw (fst pm) (snd pm))) all [].
Definition collect (fuel : nat) (ms : list (ymod D)) (kw : str) : res (list (str * D)) :=
  all <- gather fuel ms [] ;; Ok (definitions kw (dedup all)).
End Collect.

(** A typedef statement: its module, its type, its default.  pybind.py:388-400 for typedefs: found, put in order and entered
    in the class map (in which the identities already are). *)
Record tbody := { tb_module : str; tb_type : ytype; tb_default : option str }.
Definition typedefs_of (defs : list (str * tbody)) : list tdef :=
  map (fun kd => {| td_key := fst kd; td_module := tb_module (snd kd); td_type := tb_type (snd kd); td_default := tb_default (snd kd) |}) defs.
Definition compile_types (ctx : str -> option (ymod tbody)) (c : modules) (xpath : bool) (limit fuel fuel' : nat) (cm : class_map) (ms : list (ymod tbody)) : res class_map :=
  defs <- collect ctx fuel ms (lit "typedef") ;; build_typedefs c xpath limit fuel' cm (typedefs_of defs).
