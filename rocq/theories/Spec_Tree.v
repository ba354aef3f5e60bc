(** Vocabulary for the properties of the object tree: nodes by path, shapes, names, dumps. *)
From Verif Require Import PyStr PyVal Restricted IntTypes StrTypes Spec_Types Spec_Lists YList Tree.

(** The object found by following a path; the module is a container with children [kids]. *)
Fixpoint node (x : obj) (p : list pstep) : option obj :=
  match p with
  | [] => Some x
  | Kid n :: p' => match x with
                   | OCont _ _ ks => match nth_error ks n with Some y => node y p' | None => None end
                   | _ => None
                   end
  | Ent k :: p' => match x with
                   | OList _ es => match mget k es with Some y => node y p' | None => None end
                   | _ => None
                   end
  end.
Definition at_path (kids : list obj) (p : list pstep) : option obj := node (OCont false false kids) p.

(** The tree with the object at path [p] replaced by [y] and everything else as it was. *)
Fixpoint graft (x : obj) (p : list pstep) (y : obj) {struct p} : obj :=
  match p with
  | [] => y
  | Kid n :: p' =>
      match x with
      | OCont ch pres ks =>
          OCont ch pres ((fix at_kid n ks := match ks, n with
                            | z :: ks', 0%nat => graft z p' y :: ks'
                            | z :: ks', S n' => z :: at_kid n' ks'
                            | [], _ => []
                            end) n ks)
      | _ => x
      end
  | Ent k :: p' =>
      match x with
      | OList ch es =>
          OList ch ((fix at_key es := match es with
                       | (k', z) :: es' => if py_eq k k' then (k', graft z p' y) :: es' else (k', z) :: at_key es'
                       | [] => []
                       end) es)
      | _ => x
      end
  end.

(** The same for schemas; an entry of a list is a container that is in no choice. *)
Definition plain : einfo :=
  {| e_py := []; e_yang := []; e_ns := []; e_mod := []; e_choice := None; e_rw := true |}.
Definition entry_schema (cs : list schema) : schema := SCont plain false cs.
Fixpoint sub (s : schema) (p : list pstep) : option schema :=
  match p with
  | [] => Some s
  | Kid n :: p' => match s with
                   | SCont _ _ cs => match nth_error cs n with Some y => sub y p' | None => None end
                   | _ => None
                   end
  | Ent k :: p' => match s with SList _ _ _ cs => sub (entry_schema cs) p' | _ => None end
  end.
Definition schema_at (cs : list schema) (p : list pstep) : option schema := sub (entry_schema cs) p.

(** An object has the shape of a schema. *)
Inductive conf : schema -> obj -> Prop :=
| ConfLeaf i lt d y k ch v : conf (SLeaf i lt d y k) (OLeaf ch v)
| ConfLeafList i ts y ch l : conf (SLeafList i ts y) (OLeafList ch l)
| ConfCont i pr cs ch pres kids : Forall2 conf cs kids -> conf (SCont i pr cs) (OCont ch pres kids)
| ConfList i keys od cs ch es :
    Forall (fun e => conf (entry_schema cs) (snd e)) es -> conf (SList i keys od cs) (OList ch es).
Definition shaped (cs : list schema) (kids : list obj) : Prop := Forall2 conf cs kids.

(** Paths in relation to each other. *)
Definition prefix (q p : list pstep) : Prop := exists r, p = q ++ r.
Definition below (p q : list pstep) : Prop := exists s r, q = p ++ s :: r.
(** Neither lies on the way to the other.  (Keys that Python considers equal address the same
    entry.) *)
Inductive step_eq : pstep -> pstep -> Prop :=
| SeKid n : step_eq (Kid n) (Kid n)
| SeEnt k k' : py_eq k k' = true -> step_eq (Ent k) (Ent k').
Fixpoint apart (p q : list pstep) : Prop :=
  match p, q with
  | a :: p', b :: q' => ~ step_eq a b \/ apart p' q'
  | _, _ => False
  end.

(** Node [r] is in a case of a choice, some node on the way to [p] at the same depth or deeper is in
    another case of a choice of that name, and [r] hangs off an object on the way to [p] that is not
    the module. *)
Definition rival (cs : list schema) (p r : list pstep) : Prop :=
  exists s c k' t st k,
    (2 <= length r)%nat /\ Forall2 step_eq (removelast r) (firstn (length r - 1) p) /\
    schema_at cs r = Some s /\ s_tag s = Some (c, k') /\
    prefix t p /\ (length r <= length t)%nat /\
    schema_at cs t = Some st /\ s_tag st = Some (c, k) /\ k <> k'.

(** Nothing is in any choice. *)
Definition choice_free (cs : list schema) : Prop :=
  forall p s, schema_at cs p = Some s -> s_tag s = None.

(** The keys of a list are in no choice, or in the case their list is in. *)
Definition plain_keys (cs : list schema) : Prop :=
  forall p i keys od cs' n s, schema_at cs p = Some (SList i keys od cs') -> nth_error cs' n = Some s ->
    In (e_py (s_info s)) keys -> s_tag s = None \/ s_tag s = e_choice i.

(** Leaf types and values for which a rejection happens before anything else does: unions and plain
    types with any value; an integer type with ranges and an integer that passes all but the
    outermost range (or 0); a string type with one restriction per level and a string; an
    enumeration and a string. *)
Inductive checked_first : ltype -> pyval -> Prop :=
| CfUnion ts v : checked_first (LUnion ts) v
| CfPlain t v : match t with TRestr _ _ | TBits _ => False | _ => True end -> checked_first (LOne t) v
| CfInt l ls z : levels_wf (l :: ls) -> z = 0%Z \/ in_levels z ls ->
    checked_first (LOne (int_chain (l :: ls))) (VInt z)
| CfStr levels s : slevels_wf levels -> Forall (fun l => length l = 1%nat) levels ->
    checked_first (LOne (str_chain levels)) (VStr s)
| CfEnum names s : checked_first (LOne (enum_type names)) (VStr s).

(** A path to a child (rather than to a list entry). *)
Definition ends_kid (p : list pstep) : Prop := exists p0 n, p = p0 ++ [Kid n].

(** A path that goes through no list entry. *)
Definition kid_path (p : list pstep) : Prop := Forall (fun a => exists n, a = Kid n) p.

(** Histories without the assignment of whole objects; histories of assignments of values, unset and
    _set_present. *)
Definition simple_op (o : op) : Prop := match o with ASet _ (AObj _) => False | _ => True end.
Definition basic_op (o : op) : Prop :=
  match o with ASet _ (AVal _) | AUnset | APresent _ => True | _ => False end.

(** A history from a new module in which every operation succeeds. *)
Inductive all_ok (O : oracle) (cs : list schema) : list (list pstep * op) -> Prop :=
| AllNil : all_ok O cs []
| AllSnoc os p o : all_ok O cs os ->
    snd (module_exec O cs (module_run O cs (module_new O cs) os) p o) = Ok tt ->
    all_ok O cs (os ++ [(p, o)]).

(** Operations after which something at or below [q] has been set; operations that undo that. *)
Definition marks (q p : list pstep) (o : op) : Prop :=
  prefix q p /\ (o = APresent true \/ exists w v, o = ASet w (AVal v)).
Definition unmarks (q p : list pstep) (o : op) : Prop :=
  (o = AUnset /\ p <> [] /\ prefix p q) \/ (o = APresent false /\ p = q).

(** Looking things up in what get() returned. *)
Inductive dstep := DName (n : str) | DKey (k : pyval).
Fixpoint assoc {A} (n : str) (l : list (str * A)) : option A :=
  match l with [] => None | (m, a) :: l' => if str_eqb n m then Some a else assoc n l' end.
Fixpoint dlook (d : dump) (p : list dstep) : option dump :=
  match p with
  | [] => Some d
  | DName n :: p' => match d with
                     | DDict l => match assoc n l with Some e => dlook e p' | None => None end
                     | _ => None
                     end
  | DKey k :: p' => match d with
                    | DList es => match mget k es with Some e => dlook e p' | None => None end
                    | _ => None
                    end
  end.

(** A path in YANG names and keys. *)
Fixpoint named (s : schema) (p : list pstep) : option (list dstep) :=
  match p with
  | [] => Some []
  | Kid n :: p' => match s with
                   | SCont _ _ cs => match nth_error cs n with
                                     | Some t => option_map (cons (DName (e_yang (s_info t)))) (named t p')
                                     | None => None
                                     end
                   | _ => None
                   end
  | Ent k :: p' => match s with
                   | SList _ _ _ cs => option_map (cons (DKey k)) (named (entry_schema cs) p')
                   | _ => None
                   end
  end.
Definition named_at (cs : list schema) (p : list pstep) : option (list dstep) := named (entry_schema cs) p.

(** Siblings have different names. *)
Definition distinct_names (cs : list schema) : Prop :=
  forall p i pr cs', schema_at cs p = Some (SCont i pr cs') -> NoDup (map (fun s => e_yang (s_info s)) cs').

(** A dictionary in which something can be looked up. *)
Definition inhabited (d : dump) : Prop := exists n, dlook d [DName n] <> None.

(** What must have become of the objects on the way to the target. *)
Definition on_the_way (old new : option obj) : Prop :=
  match old, new with
  | Some (OCont _ _ _), Some (OCont ch _ _) => ch = true
  | Some (OList ch _), Some (OList ch' _) => ch' = ch
  | _, _ => False
  end.

(** A rival that is now as new. *)
(** Operations on a list that create an entry in it. *)
Definition creating (keys : list str) (o : yop obj) : Prop :=
  match o with YSet _ _ | YAppend _ => True | YAdd _ | YAddKw _ => keys <> [] | _ => False end.
(** Operations on a list that replace an entry wholesale. *)
Definition item_assign (o : yop obj) : Prop := match o with YSet _ _ | YAppend _ => True | _ => False end.

Definition reset_rival (O : oracle) (cs : list schema) (p : list pstep) (kids' : list obj) (r : list pstep) : Prop :=
  rival cs p r /\ exists s, schema_at cs r = Some s /\ at_path kids' r = Some (fresh O s).

(** The filtered dump. *)
Definition filtered (t : schema) (y : obj) (entry : bool) (d : option dump) : Prop :=
  match t, y with
  | SLeaf _ _ _ _ _, OLeaf ch v => d = if ch then Some (DLeaf v) else None
  | SLeafList _ _ _, OLeafList _ l => d = match l with [] => None | _ => Some (DLeafList l) end
  | SList _ _ _ _, OList _ es =>
      match d with
      | None => es = []
      | Some (DList des) => es <> [] /\ map fst des = map fst es
      | _ => False
      end
  | SCont _ pr _, OCont _ pres _ =>
      match d with
      | None => entry = false /\ pr && pres = false
      | Some (DDict l) => inhabited (DDict l) \/ entry = true \/ pr && pres = true
      | _ => False
      end
  | _, _ => False
  end.
Definition is_entry (p : list pstep) : bool := match last p (Kid 0) with Ent _ => true | Kid _ => false end.

(** The unfiltered dump. *)
Definition unfiltered (t : schema) (y : obj) (d : option dump) : Prop :=
  match t, y with
  | SLeaf _ _ dflt _ _, OLeaf true v => d = Some (DLeaf v)
  | SLeaf _ _ dflt _ _, OLeaf false v =>
      match dflt with
      | Some w => if truthy w then d = Some (DLeaf w) else d = Some (DLeaf v)
      | None => d = Some (DLeaf v)
      end
  | SLeafList _ _ _, OLeafList _ l => d = Some (DLeafList l)
  | SList _ _ _ _, OList _ es => exists des, d = Some (DList des) /\ map fst des = map fst es
  | SCont _ _ cs, OCont _ _ _ =>
      exists l, d = Some (DDict l) /\ map fst l = map (fun s => e_yang (s_info s)) cs
  | _, _ => False
  end.

(** Of two children of an object other than the module that are in different cases of one choice, at
    most one has data. *)
Definition has_data (s : schema) (x : obj) : Prop := get_kid true s x <> None.
Definition one_case (cs : list schema) (kids : list obj) : Prop :=
  forall p i pr cs' ch pres ks m n s1 s2 x1 x2 c k1 k2, p <> [] ->
    schema_at cs p = Some (SCont i pr cs') -> at_path kids p = Some (OCont ch pres ks) ->
    nth_error cs' m = Some s1 -> nth_error cs' n = Some s2 ->
    nth_error ks m = Some x1 -> nth_error ks n = Some x2 ->
    s_tag s1 = Some (c, k1) -> s_tag s2 = Some (c, k2) -> k1 <> k2 ->
    ~ (has_data s1 x1 /\ has_data s2 x2).

(** No rival of a node with data has data. *)
Definition unrivalled (cs : list schema) (kids : list obj) : Prop :=
  forall p r s t x y, schema_at cs p = Some s -> at_path kids p = Some x -> has_data s x -> rival cs p r ->
    schema_at cs r = Some t -> at_path kids r = Some y -> ~ has_data t y.

(** No node in a case has a descendant in another choice or case. *)
Definition uniform (cs : list schema) : Prop :=
  forall p q s t tg tg', schema_at cs p = Some s -> s_tag s = Some tg ->
    schema_at cs (p ++ q) = Some t -> s_tag t = Some tg' -> tg' = tg.

(** Where a child of an object is in a choice, a choice of that name further down is below a child
    that is in a choice. *)
Definition own_choices (cs : list schema) : Prop :=
  forall p n m q s t u c k k', schema_at cs (p ++ [Kid n]) = Some s -> s_tag s = Some (c, k) ->
    schema_at cs (p ++ [Kid m]) = Some u -> schema_at cs (p ++ Kid m :: q) = Some t -> s_tag t = Some (c, k') ->
    s_tag u <> None.

(** Assignments of values, unset, leaf-list operations, _set_present. *)
Definition choice_op (o : op) : Prop :=
  match o with ASet _ (AVal _) | AUnset | APresent _ | ALeafList _ => True | _ => False end.

(** Trees that survive being assigned: set leaves hold values their type maps to themselves, lists and
    leaf-lists are empty, a container with data (or presence) is marked changed and a changed presence
    container is present. *)
Inductive copyable (O : oracle) : schema -> obj -> Prop :=
| CyLeaf i lt d y k ch v : (ch = true -> d_out (leaf_assign O lt v) = Ok v) -> copyable O (SLeaf i lt d y k) (OLeaf ch v)
| CyLeafList i ts y : copyable O (SLeafList i ts y) (OLeafList false [])
| CyList i keys od cs ch : copyable O (SList i keys od cs) (OList ch [])
| CyCont i pr cs ch pres kids : Forall2 (copyable O) cs kids ->
    (has_data (SCont i pr cs) (OCont ch pres kids) -> ch = true) -> (ch = true -> pr = true -> pres = true) ->
    copyable O (SCont i pr cs) (OCont ch pres kids).

(* ------------------------------------------------------------------ histories with choices and entries *)
(** Everything but the assignment of whole objects and entries. *)
Definition plain_op (o : op) : Prop :=
  match o with ASet _ (AObj _) | AList _ (YSet _ _) | AList _ (YAppend _) => False | _ => True end.

(** Operations that put data where they are applied. *)
Definition writes (cs : list schema) (p : list pstep) (o : op) : Prop :=
  match o with
  | ASet _ (AVal _) | APresent true => True
  | ALeafList lo => forall n, lo <> LDelItem n
  | AList _ yo => exists i keys od cs', schema_at cs p = Some (SList i keys od cs') /\ creating keys yo
  | _ => False
  end.

(** Writing at [p] clears [r]: a rival of a container on the way to [p], or of the node at [p] itself. *)
Definition ousts (cs : list schema) (p : list pstep) (o : op) (r : list pstep) : Prop :=
  writes cs p o /\
  exists s c k' t st k,
    (2 <= length r)%nat /\ Forall2 step_eq (removelast r) (firstn (length r - 1) p) /\
    schema_at cs r = Some s /\ s_tag s = Some (c, k') /\
    prefix t p /\ (length r <= length t)%nat /\
    schema_at cs t = Some st /\ s_tag st = Some (c, k) /\ k <> k' /\
    match st with SList _ _ _ _ => t = p | _ => True end.

(** Following [p] is following a part of [q]. *)
Definition reaches (p q : list pstep) : Prop := exists p', Forall2 step_eq p p' /\ prefix p' q.

(** What makes the node at [q] lose its data: success in unsetting it or something above, or in
    clearing it or something above as a rival; an entry on the way that is gone afterwards. *)
Definition reasons (cs : list schema) (p : list pstep) (o : op) (q : list pstep) : Prop :=
  (o = AUnset /\ reaches p q) \/ exists r, prefix r q /\ ousts cs p o r.
Definition drops (O : oracle) (cs : list schema) (kids : list obj) (p : list pstep) (o : op) (q : list pstep) : Prop :=
  (snd (module_exec O cs kids p o) = Ok tt /\ reasons cs p o q) \/
  (exists q1 k q2, q = q1 ++ Ent k :: q2 /\ at_path (fst (module_exec O cs kids p o)) (q1 ++ [Ent k]) = None).

(** None of the operations [os2], performed after [os1], does that. *)
Definition lasting (O : oracle) (cs : list schema) (os1 os2 : list (list pstep * op)) (q : list pstep) : Prop :=
  forall os3 p o os4, os2 = os3 ++ (p, o) :: os4 ->
    ~ drops O cs (module_run O cs (module_new O cs) (os1 ++ os3)) p o q.

(** A refused operation that would have cleared something on the way to [q] has changed nothing. *)
Definition orderly (O : oracle) (cs : list schema) (os : list (list pstep * op)) (q : list pstep) : Prop :=
  forall os1 p o os2 r, os = os1 ++ (p, o) :: os2 -> prefix r q -> ousts cs p o r ->
    let kids := module_run O cs (module_new O cs) os1 in
    snd (module_exec O cs kids p o) = Ok tt \/ fst (module_exec O cs kids p o) = kids.

(** The names made up for entries of lists without keys are new. *)
Definition adds {A} (yo : yop A) : Prop := match yo with YAdd _ | YAddNone | YAddKw _ => True | _ => False end.
Definition new_uids (O : oracle) (cs : list schema) (os : list (list pstep * op)) : Prop :=
  forall os1 p uid yo os2 i od cs', os = os1 ++ (p, AList uid yo) :: os2 -> adds yo ->
    schema_at cs p = Some (SList i [] od cs') ->
    at_path (module_run O cs (module_new O cs) os1) (p ++ [Ent (VStr uid)]) = None.

(** No step of [q] from an entry leads to a key of that entry. *)
Definition off_keys (cs : list schema) (q : list pstep) : Prop :=
  forall q1 k n q2 i keys od cs' s, q = q1 ++ Ent k :: Kid n :: q2 ->
    schema_at cs q1 = Some (SList i keys od cs') -> nth_error cs' n = Some s -> ~ In (e_py (s_info s)) keys.

(** Every refused operation has changed nothing. *)
Definition clean_refusals (O : oracle) (cs : list schema) (os : list (list pstep * op)) : Prop :=
  forall os1 p o os2, os = os1 ++ (p, o) :: os2 ->
    let kids := module_run O cs (module_new O cs) os1 in
    snd (module_exec O cs kids p o) = Ok tt \/ fst (module_exec O cs kids p o) = kids.

(** Marking the container at [q] as absent; not done by any of [os2], performed after [os1]. *)
Definition hides (O : oracle) (cs : list schema) (kids : list obj) (p : list pstep) (o : op) (q : list pstep) : Prop :=
  snd (module_exec O cs kids p o) = Ok tt /\ Forall2 step_eq p q /\ o = APresent false.
Definition kept_present (O : oracle) (cs : list schema) (os1 os2 : list (list pstep * op)) (q : list pstep) : Prop :=
  forall os3 p o os4, os2 = os3 ++ (p, o) :: os4 ->
    ~ hides O cs (module_run O cs (module_new O cs) (os1 ++ os3)) p o q.

(** An enclosing object that is still there, with its flags (and, for a list, its keys) as they were. *)
Definition flags_kept (old new : option obj) : Prop :=
  match old, new with
  | Some (OCont ch pres _), Some (OCont ch' pres' _) => ch' = ch /\ pres' = pres
  | Some (OList ch es), Some (OList ch' es') => ch' = ch /\ map fst es' = map fst es
  | _, _ => False
  end.

(** A key is in the choice its list is in, if any. *)
Definition even_keys (cs : list schema) : Prop :=
  forall p i keys od cs' n s, schema_at cs p = Some (SList i keys od cs') -> nth_error cs' n = Some s ->
    In (e_py (s_info s)) keys -> s_tag s = e_choice i.
(** ... and a leaf. *)
Definition leaf_keys (cs : list schema) : Prop :=
  forall p i keys od cs' n s, schema_at cs p = Some (SList i keys od cs') -> nth_error cs' n = Some s ->
    In (e_py (s_info s)) keys -> exists i' lt d y k, s = SLeaf i' lt d y k /\ e_choice i' = e_choice i.

(** Entries are only added to lists that have keys. *)
Definition case_op (cs : list schema) (p : list pstep) (o : op) : Prop :=
  plain_op o /\
  match o with
  | AList _ (YAdd _) | AList _ YAddNone | AList _ (YAddKw _) =>
      forall i keys od cs', schema_at cs p = Some (SList i keys od cs') -> keys <> []
  | _ => True
  end.
