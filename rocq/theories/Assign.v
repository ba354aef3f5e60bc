(** Attributes of generated objects: reading and assignment by name, indexing, iteration.  No proofs in this file.

    Names with "_" in front, which the library uses itself, are not looked at. *)
From Verif Require Import PyStr PyVal SafeName Tree.

(** The class around the generated class of an object (YANGBaseClass, yangtypes.py:1010-1217): none for a module and for the
    classes of all rpcs and of all notifications of a module; that of a container, of an entry of a list, of an rpc, its
    input or output, or of a notification. *)
Inductive wrapper := WNone | WCont | WEntry (keys : list str) | WSide.
(** yangtypes.py:1018-1019: whether it has __slots__.  yang_type is the keyword of the statement (plugin/pybind.py:1002,
    1504); is_container is "container" for containers and for entries of lists with keys (plugin/pybind.py:971-981,
    yangtypes.py:686-711), but that of the list for other entries, which have no yang_type (yangtypes.py:722-731). *)
Definition wrapper_slots (w : wrapper) : bool :=
  match w with WNone | WCont => true | WEntry keys => match keys with [] => false | _ => true end | WSide => false end.
(** plugin/pybind.py:842-859: a class without elements has no __slots__, so its objects have a __dict__. *)
Definition has_dict (w : wrapper) (cs : list schema) : bool := match cs with [] => true | _ => negb (wrapper_slots w) end.

(** The methods of the class around: yangtypes.py:1138-1181; those of the class below the generated one: base.py:25-31. *)
Definition wrapper_methods : list str := map lit ["yang_name"; "default"; "append"; "pop"; "remove"; "extend"; "insert"]%string.
Definition base_methods : list str := map lit ["elements"; "get"]%string.
(** Attribute lookup on the type of the object: first the class around, then the properties of the generated class
    (plugin/pybind.py:1170-1187), then its base. *)
Inductive found := FElement (s : schema) | FWrapper | FBase | FNothing.
Definition element (cs : list schema) (a : str) : option schema := find (fun s => str_eqb a (e_py (s_info s))) cs.
Definition wrapped (w : wrapper) : bool := match w with WNone => false | _ => true end.
Definition lookup (w : wrapper) (cs : list schema) (a : str) : found :=
  if wrapped w && str_in a wrapper_methods then FWrapper
  else match element cs a with
       | Some s => FElement s
       | None => if str_in a base_methods then FBase else FNothing
       end.

(** [obj.a]. *)
Inductive value := VChild (s : schema) | VMethod.
Definition read (w : wrapper) (cs : list schema) (a : str) : res value :=
  match lookup w cs a with
  | FElement s => Ok (VChild s)
  | FWrapper | FBase => Ok VMethod
  | FNothing => Raise AttributeError
  end.
(** [obj.a = v]: a property has a setter if the element and its parents are configuration; everything else can only go to
    the __dict__. *)
Inductive outcome := Setter (s : schema) | Stored.
Definition assign (w : wrapper) (cs : list schema) (a : str) : res outcome :=
  match lookup w cs a with
  | FElement s => if e_rw (s_info s) then Ok (Setter s) else Raise AttributeError
  | _ => if has_dict w cs then Ok Stored else Raise AttributeError
  end.
(** [obj.a.b.c], an entry standing for its list.  The first [side] levels are rpcs, inputs and outputs or notifications. *)
Fixpoint object_at (side : nat) (w : wrapper) (cs : list schema) (q : list str) {struct q} : res (wrapper * list schema) :=
  match q with
  | [] => Ok (w, cs)
  | a :: q' =>
      match read w cs a with
      | Ok (VChild (SCont _ _ cs')) => match side with O => object_at O WCont cs' q' | S n => object_at n WSide cs' q' end
      | Ok (VChild (SList _ keys _ cs')) => object_at (pred side) (WEntry keys) cs' q'
      | Ok _ => Raise AttributeError
      | Raise e => Raise e
      end
  end.

(** base.py:31-98, as far as it reads attributes: get() of the object, of the containers below and of an entry of each list.
    A method has no _changed. *)
Fixpoint gets (w : wrapper) (s : schema) {struct s} : res unit :=
  let all := fix all (w : wrapper) (l : list schema) : res unit :=
    match l with
    | [] => Ok tt
    | s :: l' => if wrapped w && str_in (e_py (s_info s)) wrapper_methods then Raise AttributeError else _ <- gets WCont s ;; all w l'
    end in
  match s with
  | SCont _ _ cs => all w cs
  | SList _ keys _ cs => all (WEntry keys) cs
  | _ => Ok tt
  end.
Fixpoint gets_all (w : wrapper) (l : list schema) : res unit :=
  match l with
  | [] => Ok tt
  | s :: l' => if wrapped w && str_in (e_py (s_info s)) wrapper_methods then Raise AttributeError else _ <- gets WCont s ;; gets_all w l'
  end.

(** base.py:100-105: [obj[k]] calls what is called [k]; of the methods, [yang_name], [default], [elements] and [get] need no
    arguments, and the others do not get as far as returning. *)
Definition get_item (w : wrapper) (cs : list schema) (k : str) : res unit :=
  match lookup w cs k with
  | FElement _ => Raise TypeError
  | FWrapper => if str_in k (map lit ["yang_name"; "default"]%string) then Ok tt
                else match element cs k with Some _ => Raise TypeError | None => Raise AttributeError end
  | FBase => Ok tt
  | FNothing => Raise KeyError
  end.
(** base.py:107-109. *)
Definition iterate (w : wrapper) (cs : list schema) : list (str * res value) := map (fun s => (e_py (s_info s), read w cs (e_py (s_info s)))) cs.
