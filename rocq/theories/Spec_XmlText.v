(** What is asked of the texts in XML documents (C99). *)
From Verif Require Import PyStr PyVal Restricted Spec_Types MemberTypes SafeName Tree Serialise Spec_Serialise Spec_Lists Xml Spec_Xml.
Import ListNotations.

(** [held_value flt s x s' v]: below the object [x] of class [s], at any depth, is the value [v] of a leaf or leaf-list [s'],
    one that was set or any one. *)
Inductive held_value (flt : bool) : schema -> obj -> schema -> pyval -> Prop :=
| HvLeaf i lt d yt k ch v : flt = false \/ ch = true -> held_value flt (SLeaf i lt d yt k) (OLeaf ch v) (SLeaf i lt d yt k) v
| HvMember i ts yt ch l v : flt = false \/ ch = true -> In v l -> held_value flt (SLeafList i ts yt) (OLeafList ch l) (SLeafList i ts yt) v
| HvCont i pr cs ch pres kids n s x s' v : nth_error cs n = Some s -> nth_error kids n = Some x -> held_value flt s x s' v ->
    held_value flt (SCont i pr cs) (OCont ch pres kids) s' v
| HvEntry i keys od cs ch es k ch' pres kids n s x s' v : In (k, OCont ch' pres kids) es -> nth_error cs n = Some s -> nth_error kids n = Some x ->
    held_value flt s x s' v -> held_value flt (SList i keys od cs) (OList ch es) s' v.
Definition held_in (flt : bool) (cs : list schema) (kids : list obj) (s' : schema) (v : pyval) : Prop :=
  exists n s x, nth_error cs n = Some s /\ nth_error kids n = Some x /\ held_value flt s x s' v.

(** [w] is the text of the value.  Leaves: integers, strings, enumerations, booleans, decimals and binaries; nothing for the
    type empty; bits, whose names are listed here in the order of the set, which does not change the characters; leafrefs
    without a path helper; unions, the text in the member type chosen for the value.  Leaf-lists: integers, strings,
    enumerations, decimals, and booleans, which are written as 1 and 0. *)
Definition plain_text (O : oracle) (s : schema) (v : pyval) (w : str) : Prop :=
  match s with
  | SLeaf _ lt _ yt _ => (yt = lit "empty" /\ w = []) \/ (yt <> lit "empty" /\
      ((exists t, lt = LOne (pty_of t) /\ type_name (WVal t) yt /\ yt <> lit "identityref" /\ text_of t v w) \/
       (exists a l, lt = LOne (TBits a) /\ type_name (WBits a) yt /\ v = VBits l /\ w = join (lit " ") l) \/
       (lt = LOne TRef /\ type_name WRef yt /\ v = VStr w) \/
       (exists ts t, lt = LUnion (map pty_of ts) /\ type_name (WUnion ts) yt /\ union_pick O (map pty_of ts) v = Some (pty_of t) /\ text_of t v w)))
  | SLeafList _ ts yt => exists t, ts = [pty_of t] /\ mtype_wf t /\ value_ok O Ietf t yt v /\ t <> MBin /\
      match v with VBool b => t = MBool /\ w = (if b then lit "1" else lit "0") | _ => text_of t v w end
  | _ => False
  end.
(** Trees of such values. *)
Inductive plain_tree (O : oracle) (flt : bool) : schema -> obj -> Prop :=
| PtLeaf i lt d yt k ch v : (flt = false \/ ch = true -> exists w, plain_text O (SLeaf i lt d yt k) v w) -> plain_tree O flt (SLeaf i lt d yt k) (OLeaf ch v)
| PtLeafList i ts yt ch l : (ch = true -> yt <> lit "identityref") ->
    (flt = false \/ ch = true -> Forall (fun v => exists w, plain_text O (SLeafList i ts yt) v w) l) -> plain_tree O flt (SLeafList i ts yt) (OLeafList ch l)
| PtCont i pr cs ch pres kids : Forall2 (plain_tree O flt) cs kids -> plain_tree O flt (SCont i pr cs) (OCont ch pres kids)
| PtList i keys od cs ch es : Forall (fun e => exists ch' pres kids, snd e = OCont ch' pres kids /\ Forall2 (plain_tree O flt) cs kids) es ->
    plain_tree O flt (SList i keys od cs) (OList ch es).

(** [node_in s x s' x']: the object [x'] of class [s'] is [x] of class [s] or below it, at any depth. *)
Inductive node_in : schema -> obj -> schema -> obj -> Prop :=
| NiHere s x : node_in s x s x
| NiCont i pr cs ch pres kids n s x s' x' : nth_error cs n = Some s -> nth_error kids n = Some x -> node_in s x s' x' ->
    node_in (SCont i pr cs) (OCont ch pres kids) s' x'
| NiEntry i keys od cs ch es k ch' pres kids n s x s' x' : In (k, OCont ch' pres kids) es -> nth_error cs n = Some s -> nth_error kids n = Some x ->
    node_in s x s' x' -> node_in (SList i keys od cs) (OList ch es) s' x'.
Definition node_of (cs : list schema) (kids : list obj) (s' : schema) (x' : obj) : Prop :=
  exists n s x, nth_error cs n = Some s /\ nth_error kids n = Some x /\ node_in s x s' x'.
(** What has no form in XML: a leaf-list of identities that was set, an identity without a known module or namespace, a leaf-list
    of binaries with a member. *)
Definition no_form (im ins : einfo -> str -> option str) (s : schema) (x : obj) : Prop :=
  match s, x with
  | SLeaf i _ _ yt _, OLeaf true (VStr w) => yt = lit "identityref" /\ (im i w = None \/ ins i w = None)
  | SLeafList _ ts yt, OLeafList true l => yt = lit "identityref" \/ (ts = [pty_of MBin] /\ l <> [] /\ Forall (fun v => exists b, v = VBytes b) l)
  | _, _ => False
  end.
