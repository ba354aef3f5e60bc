(** Vocabulary for the property that documents in the default JSON format are accepted and mean what they say (C87). *)
From Verif Require Import PyStr PyVal Restricted TypedList YList Tree Spec_Tree Serialise Spec_Serialise Spec_Loading Spec_Shape.

Definition equal_in (v : pyval) (l : list pyval) : Prop := exists w, In w l /\ py_eq v w = true.
(** What a document says about a node. *)
Inductive told :=
| ToldValue (v : pyval)          (* the leaf has the value [v] *)
| ToldMembers (l : list pyval)   (* the members of the leaf-list are those in [l], in some order *)
| ToldPresent                    (* the container is present *)
| ToldEntry                      (* the entry is there *)
| ToldEmpty.                     (* the list has no entries *)
Definition so (t : told) (x : obj) : Prop :=
  match t with
  | ToldValue v => x = OLeaf true v
  | ToldMembers l => exists c vs, x = OLeafList c vs /\ (forall v, In v l -> equal_in v vs) /\ (forall v, In v vs -> equal_in v l)
  | ToldPresent => exists c kids, x = OCont c true kids
  | ToldEntry => True
  | ToldEmpty => exists c, x = OList c []
  end.
(** [od]: the object is an entry of a list ordered by the user; it may have a member with its position. *)
Definition set_aside (od : bool) (key : str) : Prop := od = true /\ key = lit "__yang_order".
(** No two members are for the same child. *)
Definition once_each (od : bool) (cs : list schema) (ms : list (str * json)) : Prop :=
  NoDup (map fst ms) /\
  forall ms1 key j ms2 key' j' ms3, ms = ms1 ++ (key, j) :: ms2 ++ (key', j') :: ms3 -> ~ set_aside od key -> ~ set_aside od key' ->
    forall n s s', spelt cs key n s -> ~ spelt cs key' n s'.

Section Valid.
Context (O : oracle) (skip : bool).
(** The member is taken as it is. *)
Definition as_it_is (ts : list pty) (j : json) : Prop := exists v, tl_init O ts true (jval (JArr [j])) = Ok [v] /\ py_eq v (jval j) = true.
(** The name of an entry: the value of its key, or the values of its keys with spaces between them. *)
Definition part_taken (cs : list schema) (name part : str) : Prop :=
  exists n i lt dd yt v, nth_error cs n = Some (SLeaf i lt dd yt true) /\ e_py i = name /\ d_out (leaf_assign O lt (VStr part)) = Ok v.
Definition entry_name (cs : list schema) (keys : list str) (t : str) : Prop :=
  (exists name, keys = [name] /\ t <> [] /\ part_taken cs name t) \/
  ((1 < length keys)%nat /\ exists parts, t = join (lit " ") parts /\ Forall (fun p => ~ In 32%N p) parts /\ Forall2 (part_taken cs) keys parts).

Inductive json_valid : bool -> schema -> json -> Prop :=
| JvLeaf od i lt d yt k j v : d_out (leaf_assign O lt (jval j)) = Ok v -> json_valid od (SLeaf i lt d yt k) j
| JvLeafList od i ts yt l : (forall j, In j l -> as_it_is ts j) -> json_valid od (SLeafList i ts yt) (JArr l)
| JvCont od i pr cs ms : once_each od cs ms ->
    (forall key j, In (key, j) ms ->
       set_aside od key \/ (exists n s, spelt cs key n s /\ json_valid false s j) \/ (skip = true /\ foreign cs key)) ->
    json_valid od (SCont i pr cs) (JObj ms)
| JvList od0 i keys od cs es : NoDup (map fst es) ->
    (forall t e, In (t, e) es -> entry_name cs keys t /\ json_valid od (entry_schema cs) e) ->
    (od = true -> (forall t e j, In (t, e) es -> position e = Some j -> exists z, j = JInt z) /\
       forall es1 t e es2 t' e' es3, es = es1 ++ (t, e) :: es2 ++ (t', e') :: es3 -> position e <> None -> position e <> position e') ->
    json_valid od0 (SList i keys od cs) (JObj es).

Inductive tells : bool -> schema -> json -> list pstep -> told -> Prop :=
| TellsLeaf od i lt d yt k j v : d_out (leaf_assign O lt (jval j)) = Ok v -> tells od (SLeaf i lt d yt k) j [] (ToldValue v)
| TellsLeafList od i ts yt l : tells od (SLeafList i ts yt) (JArr l) [] (ToldMembers (map jval l))
| TellsPresent od i cs ms : tells od (SCont i true cs) (JObj ms) [] ToldPresent
| TellsIn od i pr cs ms key j n s q w : In (key, j) ms -> ~ set_aside od key -> spelt cs key n s -> tells false s j q w ->
    tells od (SCont i pr cs) (JObj ms) (Kid n :: q) w
| TellsEntry od0 i keys od cs es t e : In (t, e) es -> tells od0 (SList i keys od cs) (JObj es) [Ent (VStr t)] ToldEntry
| TellsInEntry od0 i keys od cs es t e q w : In (t, e) es -> tells od (entry_schema cs) e q w ->
    tells od0 (SList i keys od cs) (JObj es) (Ent (VStr t) :: q) w
| TellsEmpty od0 i keys od cs : tells od0 (SList i keys od cs) (JObj []) [] ToldEmpty.
End Valid.
