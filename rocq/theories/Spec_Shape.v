(** Vocabulary for the property of the shape of documents that load (C83). *)
From Verif Require Import PyStr PyVal Restricted TypedList Tree Spec_Tree Serialise Spec_Serialise Spec_Loading.

Definition scalar (j : json) : Prop := match j with JNull | JArr _ | JObj _ => False | _ => True end.
(** A name that no child has. *)
Definition foreign (cs : list schema) (name : str) : Prop := forall n s, ~ spelt cs name n s.
Definition container (s : schema) : Prop := match s with SCont _ _ _ => True | _ => False end.
(** The value that is meant: identities may be given with the name or prefix of a module. *)
Inductive given (yt : str) : json -> json -> Prop :=
| GivenPlain j : yt <> lit "identityref" \/ (forall v, j = JStr v -> ~ In 58%N v) -> given yt j j
| GivenLocal a b : yt = lit "identityref" -> ~ In 58%N a -> given yt (JStr (a ++ lit ":" ++ b)) (JStr b).
(** An object has all the keys of a list. *)
Definition keyed (cs : list schema) (keys : list str) (ms : list (str * json)) : Prop :=
  forall k, In k keys -> exists n s j, nth_error cs n = Some s /\ e_py (s_info s) = k /\ In (e_yang (s_info s), j) ms.

Section Shape.
Context (O : oracle).
Definition takes (lt : ltype) (j : json) : Prop := exists v, d_out (leaf_assign O lt (jval j)) = Ok v.
Definition takes_all (ts : list pty) (j : json) : Prop := exists l, tl_init O ts true (jval j) = Ok l.
(** [skip]: members that the schema does not have are allowed.  [strict]: RFC 7951; otherwise there are the exceptions
    named X... and Z.... *)
Context (skip strict : bool).

(* ------------------------------------------------------------------ IETF JSON *)
Inductive ietf_fits : schema -> json -> Prop :=
| ILeaf i lt d yt k j : scalar j -> yt <> lit "empty" -> k = true \/ (exists j', given yt j j' /\ takes lt j') -> ietf_fits (SLeaf i lt d yt k) j
| IEmpty i lt d yt k : yt = lit "empty" -> k = true \/ takes lt (JBool true) -> ietf_fits (SLeaf i lt d yt k) (JArr [JNull])
| ILeafList i ts yt l : (forall j, In j l -> scalar j) -> l = [] \/ takes_all ts (JArr l) -> ietf_fits (SLeafList i ts yt) (JArr l)
| ICont i pr cs ms :
    (forall key j, In (key, j) ms ->
       In 64%N key \/ (exists n s, spelt cs (local_name key) n s /\ ietf_fits s j) \/
       (skip = true /\ foreign cs (local_name key) /\ forall l, j <> JArr l) \/
       (strict = false /\ j = JArr [])) ->
    ietf_fits (SCont i pr cs) (JObj ms)
| IList i keys od cs l : (forall e, In e l -> exists ms, e = JObj ms /\ keyed cs keys ms /\ ietf_fits (entry_schema cs) e) -> ietf_fits (SList i keys od cs) (JArr l)
(* null, and an empty array, are taken for nothing *)
| XNull s : strict = false -> ietf_fits s JNull
| XNothing s : strict = false -> ietf_fits s (JArr [])
(* anything for a key, once the entry is found *)
| XKey i lt d yt j : strict = false -> no_object j -> ietf_fits (SLeaf i lt d yt true) j
(* arrays for leaves, single values for leaf-lists, if the type takes them *)
| XArray i lt d yt k l : strict = false -> takes lt (JArr l) -> ietf_fits (SLeaf i lt d yt k) (JArr l)
| XSingle i ts yt j j' : strict = false -> scalar j -> given yt j j' -> takes_all ts j' -> ietf_fits (SLeafList i ts yt) j
| XMembers i ts yt l : strict = false -> takes_all ts (JArr l) \/ yt = lit "empty" -> ietf_fits (SLeafList i ts yt) (JArr l)
(* objects without members that mean something, for anything *)
| XObject s ms : strict = false -> ~ container s ->
    (forall key j, In (key, j) ms -> In 64%N key \/ j = JArr [] \/ (skip = true /\ forall l, j <> JArr l)) -> ietf_fits s (JObj ms)
(* scalars for lists and for their entries *)
| XList i keys od cs j : strict = false -> scalar j -> ietf_fits (SList i keys od cs) j
| XKeyless i od cs l : strict = false -> (forall e, In e l -> no_object e \/ ietf_fits (entry_schema cs) e) -> ietf_fits (SList i [] od cs) (JArr l)
(* anything for containers without children *)
| XCont i pr j : strict = false -> no_object j -> ietf_fits (SCont i pr []) j.

(* ------------------------------------------------------------------ the default format *)
(** [od]: the object is an entry of an ordered list. *)
Inductive json_fits : bool -> schema -> json -> Prop :=
| JLeaf od i lt d yt k j : strict = false \/ scalar j -> takes lt j -> json_fits od (SLeaf i lt d yt k) j
| JLeafList od i ts yt l : strict = false \/ (forall j, In j l -> scalar j) -> json_fits od (SLeafList i ts yt) (JArr l)
| JCont od i pr cs ms :
    (forall key j, In (key, j) ms ->
       (od = true /\ key = lit "__yang_order") \/ (exists n s, spelt cs key n s /\ json_fits false s j) \/ (skip = true /\ foreign cs key)) ->
    json_fits od (SCont i pr cs) (JObj ms)
| JList od0 i keys od cs es :
    (forall es1 k e es2, es = es1 ++ (k, e) :: es2 ->
       (exists ms, e = JObj ms /\ json_fits od (entry_schema cs) e) \/
       (strict = false /\ no_object e) \/
       (strict = false /\ od = true /\ exists z, position e = Some z /\ exists k' e', In (k', e') es2 /\ position e' = Some z)) ->
    json_fits od0 (SList i keys od cs) (JObj es)
| ZSingle od i ts yt j : strict = false -> takes_all ts j -> json_fits od (SLeafList i ts yt) j
| ZIterated od i ts yt j : strict = false -> (exists t, j = JStr t) \/ (exists ms, j = JObj ms) -> json_fits od (SLeafList i ts yt) j
| ZCont od i pr j : strict = false -> no_object j -> json_fits od (SCont i pr []) j.
End Shape.

(* ------------------------------------------------------------------ mistakes *)
(** The first member is a mistake: the exception.  IETF JSON. *)
Definition the_child (cs : list schema) (name : str) (s : schema) : Prop :=
  (exists n, spelt cs name n s) /\ forall n' s', spelt cs name n' s' -> s' = s.
Inductive ietf_mistake (O : oracle) : schema -> json -> exn -> Prop :=
| MCont i pr c cs j : no_object j -> j <> JNull -> j <> JArr [] -> ietf_mistake O (SCont i pr (c :: cs)) j ValueError
| MUnknown i pr cs key j ms : ~ In 64%N key -> foreign cs (local_name key) -> j <> JArr [] -> ietf_mistake O (SCont i pr cs) (JObj ((key, j) :: ms)) AttributeError
| MObject s key j ms : ~ container s -> ~ In 64%N key -> j <> JArr [] -> ietf_mistake O s (JObj ((key, j) :: ms)) AttributeError
| MKeys i keys od cs ms l : ~ keyed cs keys ms -> ietf_mistake O (SList i keys od cs) (JArr (JObj ms :: l)) KeyError
| MEntry i k keys od cs j l : (exists n s, nth_error cs n = Some s /\ e_py (s_info s) = k) -> no_object j -> ietf_mistake O (SList i (k :: keys) od cs) (JArr (j :: l)) TypeError
| MEmpty i lt d j : no_object j -> j <> JArr [] -> j <> JArr [JNull] -> ietf_mistake O (SLeaf i lt d (lit "empty") false) j ValueError
| MValue i lt d yt j e : scalar j -> yt <> lit "empty" -> yt <> lit "identityref" -> d_out (leaf_assign O lt (jval j)) = Raise e -> ietf_mistake O (SLeaf i lt d yt false) j e
| MIn i pr cs key s j ms e : ~ In 64%N key -> the_child cs (local_name key) s -> ietf_mistake O s j e -> ietf_mistake O (SCont i pr cs) (JObj ((key, j) :: ms)) e.
(** The default format. *)
Inductive json_mistake (O : oracle) : schema -> json -> exn -> Prop :=
| NCont i pr c cs j : no_object j -> json_mistake O (SCont i pr (c :: cs)) j ValueError
| NUnknown i pr cs key j ms : foreign cs key -> json_mistake O (SCont i pr cs) (JObj ((key, j) :: ms)) AttributeError
| NList i keys od cs j : no_object j -> json_mistake O (SList i keys od cs) j AttributeError
| NValue i lt d yt k j e : d_out (leaf_assign O lt (jval j)) = Raise e -> json_mistake O (SLeaf i lt d yt k) j e
| NSingle i ts yt j : no_object j -> (forall l, j <> JArr l) -> (forall t, j <> JStr t) -> json_mistake O (SLeafList i ts yt) j TypeError
| NIn i pr cs key s j ms e : the_child cs key s -> json_mistake O s j e -> json_mistake O (SCont i pr cs) (JObj ((key, j) :: ms)) e.
