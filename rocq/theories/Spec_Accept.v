(** Vocabulary for the property that valid documents are accepted and mean what they say (C84). *)
From Verif Require Import PyStr PyVal Restricted TypedList YList Tree Spec_Tree Serialise Spec_Serialise Spec_Loading Spec_Shape.

(** What a document says about a node. *)
Inductive want :=
| WLeaf (v : pyval)          (* the leaf has the value [v] *)
| WLeafList (l : list pyval) (* the leaf-list has the members [l] *)
| WPresent                   (* the container is present *)
| WThere.                    (* the entry is there *)
Definition meets (w : want) (x : obj) : Prop :=
  match w with
  | WLeaf v => x = OLeaf true v
  | WLeafList l => x = OLeafList true l
  | WPresent => exists c kids, x = OCont c true kids
  | WThere => True
  end.
(** No two members are for the same child. *)
Definition once (cs : list schema) (ms : list (str * json)) : Prop :=
  NoDup (map fst ms) /\
  forall ms1 key j ms2 key' j' ms3, ms = ms1 ++ (key, j) :: ms2 ++ (key', j') :: ms3 -> ~ In 64%N key -> ~ In 64%N key' ->
    forall n s s', spelt cs (local_name key) n s -> ~ spelt cs (local_name key') n s'.

Section Valid.
Context (O : oracle) (skip : bool).
(** The value that is meant by a value of a leaf: RFC 7951, 6.8 and 6.9. *)
Definition sent (yt : str) (j j' : json) : Prop :=
  (yt = lit "empty" /\ j = JArr [JNull] /\ j' = JBool true) \/
  (yt <> lit "empty" /\ scalar j /\ given yt j j' /\ (yt = lit "identityref" -> exists t, j = JStr t)).
(** The key of an entry; its parts are taken by the key leaves. *)
Definition entry_key (cs : list schema) (keys : list str) (e : json) (k : pyval) : Prop :=
  exists kd, i_key_values cs keys e kd /\ k = match kd with [(_, v)] => v | _ => VStr (key_text O kd) end.
Definition good_key (cs : list schema) (keys : list str) (e : json) : Prop :=
  exists ms, e = JObj ms /\
  Forall (fun name => exists n i lt dd yt j v, nth_error cs n = Some (SLeaf i lt dd yt true) /\ e_py i = name /\
     In (e_yang i, j) ms /\ scalar j /\ d_out (leaf_assign O lt (jval j)) = Ok v) keys /\
  forall k, entry_key cs keys e k -> k <> VStr [] /\ forall t, k = VStr t -> length keys <> 1%nat -> rstrip_sp t = t.

Inductive ietf_valid : schema -> json -> Prop :=
| VLeaf i lt d yt j j' v : sent yt j j' -> d_out (leaf_assign O lt (jval j')) = Ok v -> ietf_valid (SLeaf i lt d yt false) j
| VKey i lt d yt j : scalar j -> ietf_valid (SLeaf i lt d yt true) j
| VLeafList i ts yt l : yt <> lit "empty" -> (yt = lit "identityref" -> ~ In (JStr (lit ":")) l) -> l = [] \/ takes_all O ts (JArr l) -> ietf_valid (SLeafList i ts yt) (JArr l)
| VCont i pr cs ms : once cs ms ->
    (forall key j, In (key, j) ms ->
       In 64%N key \/ (exists n s, spelt cs (local_name key) n s /\ ietf_valid s j) \/
       (skip = true /\ foreign cs (local_name key) /\ forall l, j <> JArr l)) ->
    ietf_valid (SCont i pr cs) (JObj ms)
| VList i keys od cs l : keys <> [] -> NoDup keys ->
    (forall e, In e l -> good_key cs keys e /\ ietf_valid (entry_schema cs) e) ->
    (forall l1 e1 l2 e2 l3 k1 k2, l = l1 ++ e1 :: l2 ++ e2 :: l3 -> entry_key cs keys e1 k1 -> entry_key cs keys e2 k2 -> py_eq k1 k2 = false) ->
    ietf_valid (SList i keys od cs) (JArr l).

Inductive says : schema -> json -> list pstep -> want -> Prop :=
| SaysLeaf i lt d yt j j' v : sent yt j j' -> d_out (leaf_assign O lt (jval j')) = Ok v -> says (SLeaf i lt d yt false) j [] (WLeaf v)
| SaysLeafList i ts yt l vs : l <> [] -> tl_init O ts true (jval (JArr l)) = Ok vs -> says (SLeafList i ts yt) (JArr l) [] (WLeafList vs)
| SaysPresent i cs ms : says (SCont i true cs) (JObj ms) [] WPresent
| SaysIn i pr cs ms key j n s q w : In (key, j) ms -> ~ In 64%N key -> spelt cs (local_name key) n s -> says s j q w ->
    says (SCont i pr cs) (JObj ms) (Kid n :: q) w
| SaysEntry i keys od cs l e k : In e l -> entry_key cs keys e k -> says (SList i keys od cs) (JArr l) [Ent k] WThere
| SaysInEntry i keys od cs l e k q w : In e l -> entry_key cs keys e k -> says (entry_schema cs) e q w ->
    says (SList i keys od cs) (JArr l) (Ent k :: q) w.
End Valid.
