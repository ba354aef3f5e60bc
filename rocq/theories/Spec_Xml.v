(** Vocabulary for the properties of the XML encoder and decoder. *)
From Coq Require Import Permutation Sorted.
From Verif Require Import PyStr PyVal Base64 Restricted Spec_Types Spec_Lists MemberTypes SafeName Tree Spec_Tree Bits Serialise Spec_Serialise Xml.
Local Open Scope Z_scope.

(* ------------------------------------------------------------------ what a document looks like *)
(** The element is one for the node: its YANG name, in the namespace of the module that defines it. *)
Definition element_of (i : einfo) (e : xml) : Prop := x_name e = e_yang i /\ x_ns e = e_ns i.

(** [group L flt s x els]: the elements written for the child [x] of class [s]; [groups] for all children of
    an object.  A leaf is one element; a leaf-list one for each member; a container one; a list one for each
    entry, in order.  With [flt], leaves and leaf-lists that were not set are left out; so are containers
    without content that are not present.  [L] is what is asked of the elements of values. *)
Inductive group (L : schema -> pyval -> xml -> Prop) (flt : bool) : schema -> obj -> list xml -> Prop :=
| GLeaf i lt d yt k ch v e : flt = false \/ ch = true -> element_of i e -> x_kids e = [] -> L (SLeaf i lt d yt k) v e ->
    group L flt (SLeaf i lt d yt k) (OLeaf ch v) [e]
| GNoLeaf i lt d yt k v : flt = true -> group L flt (SLeaf i lt d yt k) (OLeaf false v) []
| GLeafList i ts yt ch l es : flt = false \/ ch = true ->
    Forall2 (fun v e => element_of i e /\ x_kids e = [] /\ L (SLeafList i ts yt) v e) l es ->
    group L flt (SLeafList i ts yt) (OLeafList ch l) es
| GNoLeafList i ts yt l : flt = true -> group L flt (SLeafList i ts yt) (OLeafList false l) []
| GCont i pr cs ch pres kids e : element_of i e -> x_text e = [] -> groups L flt cs kids (x_kids e) ->
    group L flt (SCont i pr cs) (OCont ch pres kids) [e]
| GNoCont i pr cs ch kids : groups L flt cs kids [] -> group L flt (SCont i pr cs) (OCont ch false kids) []
| GList i keys od cs ch es els :
    Forall2 (fun ke e => element_of i e /\ x_text e = [] /\
               exists c ps kids, snd ke = OCont c ps kids /\ groups L flt cs kids (x_kids e)) es els ->
    group L flt (SList i keys od cs) (OList ch es) els
with groups (L : schema -> pyval -> xml -> Prop) (flt : bool) : list schema -> list obj -> list xml -> Prop :=
| GsNil : groups L flt [] [] []
| GsCons s cs x kids g gs : group L flt s x g -> groups L flt cs kids gs -> groups L flt (s :: cs) (x :: kids) (g ++ gs).

(** Texts that XML can carry. *)
Definition xml_letter (c : N) : Prop :=
  (c = 9 \/ c = 10 \/ c = 13 \/ 32 <= c <= 55295 \/ 57344 <= c <= 65533 \/ 65536 <= c <= 1114111)%N.
Definition xml_text (s : str) : Prop := Forall xml_letter s.

(** The text of a value. *)
Definition text_of (t : mtype) (v : pyval) (s : str) : Prop :=
  match t, v with
  | MInt _, VInt z => s = print_Z z
  | (MStr _ | MText | MEnum _), VStr w => s = w
  | MBool, VBool b => s = if b then lit "true" else lit "false"
  | MDec _, VDec c e => s = print_dec c e
  | MBin, VBytes l => s = b64encode l
  | _, _ => False
  end.

(** The element of a value of a known type carries the text of that value; that of a leaf of type empty has
    no text.  Bits: the names, separated by spaces, sorted by the text of their positions.  A union: the text
    of the value in the member type chosen for it.  A leafref (without a path helper): the text itself.
    Members of leaf-lists that are booleans are written as numbers. *)
Definition value_element (O : oracle) (s : schema) (v : pyval) (e : xml) : Prop :=
  match s with
  | SLeaf _ lt _ yt _ =>
      (yt = lit "empty" -> x_text e = []) /\
      (forall t w, lt = LOne (pty_of t) -> type_name (WVal t) yt -> yt <> lit "identityref" -> yt <> lit "empty" -> text_of t v w -> x_text e = w) /\
      (forall a l, lt = LOne (TBits a) -> type_name (WBits a) yt -> v = VBits l -> exists l', Permutation l' l /\
         StronglySorted (fun x y => str_leb (pos_of a x) (pos_of a y) = true) l' /\ x_text e = join (lit " ") l') /\
      (forall w, lt = LOne TRef -> type_name WRef yt -> v = VStr w -> x_text e = w) /\
      (forall ts t w, lt = LUnion (map pty_of ts) -> type_name (WUnion ts) yt -> union_pick O (map pty_of ts) v = Some (pty_of t) ->
         text_of t v w -> x_text e = w)
  | SLeafList _ ts yt =>
      forall t w, ts = [pty_of t] -> mtype_wf t -> value_ok O Ietf t yt v -> text_of t v w ->
        x_text e = match v with VBool b => if b then lit "1" else lit "0" | _ => w end
  | _ => True
  end.

(** Identities: [im i s], [ins i s] are the name and the namespace of the module that defines identity [s], as
    recorded in leaf [i].  The element declares the module's name as a prefix for its namespace, and its text
    is the identity with that prefix, or without one if the identity is of the leaf's own module. *)
Definition identity_element (im ins : einfo -> str -> option str) (s : schema) (v : pyval) (e : xml) : Prop :=
  match s, v with
  | SLeaf i _ _ yt _, VStr w => yt = lit "identityref" ->
      exists m n, im i w = Some m /\ ins i w = Some n /\ In (m, n) (x_decl e) /\
        (m <> e_mod i -> startswith m w = false -> x_text e = m ++ lit ":" ++ w) /\
        (m = e_mod i -> x_text e = w)
  | _, _ => True
  end.

(* ------------------------------------------------------------------ unknown elements *)
(** Some element, in a place where data for the children [cs] is expected, is not for any of them. *)
Inductive unknown_element : list schema -> xml -> Prop :=
| UxHere cs e c : In c (x_kids e) -> node_for (x_name c) cs = None -> unknown_element cs e
| UxCont cs e c i pr cs' : In c (x_kids e) -> node_for (x_name c) cs = Some (SCont i pr cs') -> unknown_element cs' c ->
    unknown_element cs e
| UxList cs e c i keys od cs' : In c (x_kids e) -> node_for (x_name c) cs = Some (SList i keys od cs') -> unknown_element cs' c ->
    unknown_element cs e.

(* ------------------------------------------------------------------ the round trip *)
(** Leaves: as in the IETF format; texts are not empty and have only characters that XML has; an identity
    has a known module; a value of a union is one of the member type chosen for its text.  A leafref
    (without a path helper) is a text. *)
Definition xleaf_ok (O : oracle) (im ins : einfo -> str -> option str) (i : einfo) (w : wtype) (yt : str) (v : pyval) : Prop :=
  match w with
  | WVal t => mtype_wf t /\ value_ok O Ietf t yt v /\ v <> VBytes [] /\
      (forall s, v = VStr s -> s <> [] /\ xml_text s) /\
      (yt = lit "identityref" -> exists s m n, v = VStr s /\ im i s = Some m /\ ins i s = Some n /\ no_colon m /\ xml_text m)
  | WBits a => exists l, v = VBits l /\ l <> [] /\ legal a l /\ words (map fst a) /\ sort_by (pos_of a) l = l /\ Forall xml_text (map fst a)
  | WRef => exists s, v = VStr s /\ s <> [] /\ xml_text s
  | WUnion ts => exists t s, In t ts /\ union_pick O (map pty_of ts) v = Some (pty_of t) /\
      union_pick O (map pty_of ts) (VStr s) = Some (pty_of t) /\ mtype_wf t /\ value_ok O Ietf t [] v /\
      text_of t v s /\ s <> [] /\ xml_text s
  end.

(** Members of leaf-lists: no binary and no decimals; strings that objectify does not take for numbers or
    booleans, or that it gives back unchanged as such. *)
Definition xmember_ok (O : oracle) (ft : str -> option pyval) (t : mtype) (yt : str) (v : pyval) : Prop :=
  value_ok O Ietf t yt v /\ yt <> lit "identityref" /\ (forall s, v = VStr s -> xml_text s) /\
  match t with
  | MInt _ | MBool => True
  | MStr _ => exists s, v = VStr s /\ objectified ft s = VStr s
  | MText | MEnum _ => exists s, v = VStr s /\ py_str O (objectified ft s) = s
  | MBin | MDec _ => False
  end.

(** Keys.  The key of an entry is the text of its key leaves, joined by spaces. *)
Definition no_length (levels : list (list srestr)) : Prop :=
  Forall (Forall (fun r => match r with SLength _ => False | SPattern _ => True end)) levels.
Definition xkey_part (O : oracle) (ft : str -> option pyval) (t : mtype) (v : pyval) (p : str) : Prop :=
  xml_text p /\
  match t with
  | MInt _ => exists z, v = VInt z /\ p = print_Z z
  | MStr levels => no_length levels /\ v = VStr p /\ objectified ft p = VStr p
  | MText | MEnum _ => v = VStr p /\ py_str O (objectified ft p) = p
  | _ => False
  end.
Definition xml_key (O : oracle) (ft : str -> option pyval) (keys : list str) (cs : list schema) (kids : list obj) (k : pyval) : Prop :=
  exists parts, k = VStr (join [32%N] parts) /\
    Forall2 (fun n p => exists t yt v, key_leaf O Ietf cs kids n t yt v /\ type_name (WVal t) yt /\ yt <> lit "identityref" /\
                          xkey_part O ft t v p) keys parts.

(** The leaf of a key; what it holds may be the empty text. *)
Definition xkey_ok (w : wtype) (yt : str) (v : pyval) : Prop :=
  exists t s, w = WVal t /\ text_of t v s /\ xml_text s /\ yt <> lit "identityref" /\ yt <> lit "empty".

(** Trees that survive being written and read. *)
Inductive xstorable (O : oracle) (ft : str -> option pyval) (im ins : einfo -> str -> option str) : schema -> obj -> Prop :=
| XsLeaf i w d yt (k : bool) ch v : (ch = true -> type_name w yt /\ if k then xkey_ok w yt v else xleaf_ok O im ins i w yt v) ->
    xstorable O ft im ins (SLeaf i (ltype_of w) d yt k) (OLeaf ch v)
| XsLeafList i t yt ch l : mtype_wf t -> Forall (xmember_ok O ft t yt) l -> all_distinct l -> (ch = true -> yt <> lit "identityref") ->
    (ch = false -> l = []) ->
    xstorable O ft im ins (SLeafList i [pty_of t] yt) (OLeafList ch l)
| XsCont i pr cs ch pres kids : Forall2 (xstorable O ft im ins) cs kids ->
    (pr = true -> pres = true \/ Forall2 untouched cs kids) ->
    xstorable O ft im ins (SCont i pr cs) (OCont ch pres kids)
| XsList i keys od cs ch es : keys <> [] -> all_distinct (map fst es) ->
    Forall (fun e => exists c ps kids, snd e = OCont c ps kids /\ Forall2 (xstorable O ft im ins) cs kids /\
              xml_key O ft keys cs kids (fst e)) es ->
    xstorable O ft im ins (SList i keys od cs) (OList ch es).
