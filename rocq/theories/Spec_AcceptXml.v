(** Vocabulary for the property that valid XML documents are accepted and mean what they say (C88). *)
From Verif Require Import PyStr PyVal Restricted TypedList YList Tree Spec_Tree Serialise Spec_Serialise Xml Spec_Loading.

(** What an element says about a node. *)
Inductive shown :=
| ShownValue (v : pyval)    (* the leaf has the value [v] *)
| ShownMember (alts : list pyval) (* the leaf-list has a member that is equal to one of [alts] *)
| ShownPresent              (* the container is present *)
| ShownEntry.               (* the entry is there *)
Definition shows (w : shown) (x : obj) : Prop :=
  match w with
  | ShownValue v => x = OLeaf true v
  | ShownMember alts => exists c vs z v, x = OLeafList c vs /\ In z vs /\ In v alts /\ py_eq v z = true
  | ShownPresent => exists c kids, x = OCont c true kids
  | ShownEntry => True
  end.

(** The value that is meant by the text of a leaf: identities may be given with a prefix. *)
Inductive text_value (yt : str) : str -> pyval -> Prop :=
| TvEmpty : yt = lit "empty" -> text_value yt [] (VBool true)
| TvPlain t : t <> [] -> yt <> lit "empty" -> yt <> lit "identityref" \/ ~ In 58%N t -> text_value yt t (VStr t)
| TvLocal a b : yt = lit "identityref" -> ~ In 58%N a -> text_value yt (a ++ lit ":" ++ b) (VStr b).
(** The first child of that name in the namespace of the element. *)
Definition first_child (e : xml) (name : str) (c : xml) : Prop :=
  exists k1 k2, x_kids e = k1 ++ c :: k2 /\ x_name c = name /\ x_ns c = x_ns e /\ forall c', In c' k1 -> ~ (x_ns c' = x_ns e /\ x_name c' = name).

Section Valid.
Context (O : oracle) (ft : str -> option pyval).
(** The value of a key; the key leaf takes it. *)
Definition xkey_part (cs : list schema) (e : xml) (name : str) (v : pyval) : Prop :=
  exists n i lt dd yt c w, nth_error cs n = Some (SLeaf i lt dd yt true) /\ e_py i = name /\ first_child e (e_yang i) c /\ x_kids c = [] /\
    v = objectified ft (x_text c) /\ d_out (leaf_assign O lt v) = Ok w.
Definition xentry_key (cs : list schema) (keys : list str) (e : xml) (k : pyval) : Prop :=
  exists kd, Forall2 (fun name nv => fst nv = name /\ xkey_part cs e name (snd nv)) keys kd /\ k = VStr (key_text O kd).
(** A member is taken as lxml sees it; if no type does, then the text of that, if the leaf-list is one of strings.  The
    member that is there already, or is made, is equal to what is seen, to the text, or to what the type makes of it. *)
Definition member_seen (ts : list pty) (t : str) (alts : list pyval) : Prop :=
  let a := objectified ft t in let u := VStr (py_str O a) in
  (exists w, tl_init O ts true (VList [a]) = Ok [w] /\ alts = [a; w]) \/
  (exists e w, tl_init O ts true (VList [a]) = Raise e /\ In TStr ts /\ tl_init O ts true (VList [u]) = Ok [w] /\ alts = [a; u; w]).
(** Two elements for the same child. *)
Definition compatible (s : schema) (c1 c2 : xml) : Prop :=
  match s with
  | SLeafList _ _ _ => True
  | SList _ keys _ cs => forall k1 k2, xentry_key cs keys c1 k1 -> xentry_key cs keys c2 k2 -> k1 <> k2
  | _ => False
  end.
Definition no_clash (cs : list schema) (kids : list xml) : Prop :=
  forall l1 c1 l2 c2 l3 n s, kids = l1 ++ c1 :: l2 ++ c2 :: l3 -> spelt cs (x_name c1) n s -> spelt cs (x_name c2) n s -> compatible s c1 c2.

Inductive xml_valid : schema -> xml -> Prop :=
| XvLeaf i lt d yt c v w : text_value yt (x_text c) v -> d_out (leaf_assign O lt v) = Ok w -> xml_valid (SLeaf i lt d yt false) c
| XvBlank i lt d yt c : x_text c = [] -> yt <> lit "empty" -> yt <> lit "identityref" -> xml_valid (SLeaf i lt d yt false) c
| XvKey i lt d yt c : xml_valid (SLeaf i lt d yt true) c
| XvMember i ts yt c alts : x_kids c = [] -> member_seen ts (x_text c) alts -> xml_valid (SLeafList i ts yt) c
| XvCont i pr cs c : no_clash cs (x_kids c) -> (forall c', In c' (x_kids c) -> exists n s, spelt cs (x_name c') n s /\ xml_valid s c') -> xml_valid (SCont i pr cs) c
| XvEntry i keys od cs c k : keys <> [] -> NoDup keys -> xentry_key cs keys c k -> xml_valid (entry_schema cs) c -> xml_valid (SList i keys od cs) c.

Inductive xtells : schema -> xml -> list pstep -> shown -> Prop :=
| XtLeaf i lt d yt c v w : text_value yt (x_text c) v -> d_out (leaf_assign O lt v) = Ok w -> xtells (SLeaf i lt d yt false) c [] (ShownValue w)
| XtMember i ts yt c alts : member_seen ts (x_text c) alts -> xtells (SLeafList i ts yt) c [] (ShownMember alts)
| XtPresent i cs c : xtells (SCont i true cs) c [] ShownPresent
| XtIn i pr cs c c' n s q w : In c' (x_kids c) -> spelt cs (x_name c') n s -> xtells s c' q w -> xtells (SCont i pr cs) c (Kid n :: q) w
| XtEntry i keys od cs c k : xentry_key cs keys c k -> xtells (SList i keys od cs) c [Ent k] ShownEntry
| XtInEntry i keys od cs c k q w : xentry_key cs keys c k -> xtells (entry_schema cs) c q w -> xtells (SList i keys od cs) c (Ent k :: q) w.
End Valid.
