(** The shape of XML documents that load (C83). *)
From Verif Require Import PyStr PyVal Restricted TypedList Tree Spec_Tree Serialise Spec_Serialise Xml Spec_Loading Spec_Shape.

Section Shape.
Context (O : oracle).
(** The text of the element of a leaf. *)
Inductive text_fits (lt : ltype) (yt : str) : str -> Prop :=
| TfEmpty : yt = lit "empty" -> takes O lt (JBool true) -> text_fits lt yt []
| TfIdentity t t' : yt = lit "identityref" -> t <> [] -> given yt (JStr t) (JStr t') -> takes O lt (JStr t') -> text_fits lt yt t
| TfNone : yt <> lit "empty" -> yt <> lit "identityref" -> text_fits lt yt []   (* nothing is assigned *)
| TfText t : yt <> lit "empty" -> yt <> lit "identityref" -> t <> [] -> takes O lt (JStr t) -> text_fits lt yt t.
(** The element of an entry has an element for each key. *)
Definition xkeyed (cs : list schema) (keys : list str) (e : xml) : Prop :=
  forall k, In k keys -> exists n s c, nth_error cs n = Some s /\ e_py (s_info s) = k /\ In c (x_kids e) /\ x_name c = e_yang (s_info s) /\ x_ns c = x_ns e /\ x_kids c = [].
(** Nothing is said of the texts of key leaves beyond that they are there, nor of those of members (one that is there already is not tried). *)
Inductive xml_fits : schema -> xml -> Prop :=
| XfLeaf i lt d yt k e : k = true \/ text_fits lt yt (x_text e) -> xml_fits (SLeaf i lt d yt k) e
| XfMember i ts yt e : x_kids e = [] -> xml_fits (SLeafList i ts yt) e
| XfCont i pr cs e : (forall c, In c (x_kids e) -> exists n s, spelt cs (x_name c) n s /\ xml_fits s c) -> xml_fits (SCont i pr cs) e
| XfEntry i keys od cs e : keys <> [] -> xkeyed cs keys e -> xml_fits (entry_schema cs) e -> xml_fits (SList i keys od cs) e.
(** The first element inside is a mistake: the exception. *)
Inductive xml_mistake : schema -> xml -> exn -> Prop :=
| XmUnknown i pr cs e c rest : x_kids e = c :: rest -> foreign cs (x_name c) -> xml_mistake (SCont i pr cs) e AttributeError
| XmKeyless i od cs e : xml_mistake (SList i [] od cs) e RuntimeError
| XmKey i k keys od cs e n s : nth_error cs n = Some s -> e_py (s_info s) = k -> (forall s', In s' cs -> e_py (s_info s') = k -> s' = s) ->
    (forall c, In c (x_kids e) -> x_name c <> e_yang (s_info s) \/ x_ns c <> x_ns e) -> xml_mistake (SList i (k :: keys) od cs) e AttributeError
| XmEmpty i lt d e : x_text e <> [] -> xml_mistake (SLeaf i lt d (lit "empty") false) e ValueError
| XmIdentity i lt d e : x_text e = [] -> xml_mistake (SLeaf i lt d (lit "identityref") false) e TypeError
| XmValue i lt d yt e ex : x_text e <> [] -> yt <> lit "empty" -> yt <> lit "identityref" -> d_out (leaf_assign O lt (VStr (x_text e))) = Raise ex -> xml_mistake (SLeaf i lt d yt false) e ex
| XmMember i ts yt e : x_kids e <> [] -> xml_mistake (SLeafList i ts yt) e AttributeError
| XmIn i pr cs e c rest s ex : x_kids e = c :: rest -> the_child cs (x_name c) s -> xml_mistake s c ex -> xml_mistake (SCont i pr cs) e ex.
End Shape.
