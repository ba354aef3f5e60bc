(** What skip_subtrees and select are for. *)
From Verif Require Import PyStr PyVal Restricted Spec_Lists Tree Spec_Tree Serialise.

(* ------------------------------------------------------------------ skip_subtrees *)
(** The value at a path in a document. *)
Fixpoint jfind (q : list str) (j : json) : option json :=
  match q with
  | [] => Some j
  | n :: q' => match j with
               | JObj ms => match assoc n ms with Some x => jfind q' x | None => None end
               | _ => None
               end
  end.
Definition covered (ps : list (list str)) (q : list str) : Prop := exists p r, In p ps /\ q = p ++ r.
(** [j'] is [j] without what is at the paths [ps]: nothing is new, objects stay objects and everything
    else stays as it is.  The positions ("__yang_order") of the entries of a list may change. *)
Definition pruned (ps : list (list str)) (j j' : json) : Prop :=
  forall q, match jfind q j with
            | None => jfind q j' = None
            | Some (JObj _) => (covered ps q -> jfind q j' = None) /\ (~ covered ps q -> exists ms, jfind q j' = Some (JObj ms))
            | Some v => last q [] <> lit "__yang_order" ->
                        (covered ps q -> jfind q j' = None) /\ (~ covered ps q -> jfind q j' = Some v)
            end.
(** Nothing but objects on the way to [p]. *)
Definition leads (j : json) (p : list str) : Prop :=
  forall q r, p = q ++ r -> r <> [] -> match jfind q j with Some (JObj _) | None => True | _ => False end.

(** A part of the path of an object without its keys: name[key='...'] *)
Definition bare (s : str) : str := hd [] (split_on 91 s).
(** "/a/b/c" *)
Definition no_slash (s : str) : Prop := ~ In 47%N s.
Definition path_text (p : list str) : str := lit "/" ++ join (lit "/") p.

(** The entries of all lists have different texts for keys. *)
Inductive text_keyed : obj -> Prop :=
| TkLeaf ch v : text_keyed (OLeaf ch v)
| TkLeafList ch l : text_keyed (OLeafList ch l)
| TkCont ch pres kids : Forall text_keyed kids -> text_keyed (OCont ch pres kids)
| TkList ch es : all_distinct (map fst es) ->
    Forall (fun e => (exists s, fst e = VStr s) /\ text_keyed (snd e)) es -> text_keyed (OList ch es).

(* ------------------------------------------------------------------ select *)
(** The value of a leaf below an entry that is set, by names. *)
Inductive leaf_at : list schema -> list obj -> list str -> pyval -> Prop :=
| LaLeaf cs kids j i lt d yt k v : nth_error cs j = Some (SLeaf i lt d yt k) -> nth_error kids j = Some (OLeaf true v) ->
    leaf_at cs kids [e_yang i] v
| LaCont cs kids j i pr cs' ch pres kids' path v : nth_error cs j = Some (SCont i pr cs') -> nth_error kids j = Some (OCont ch pres kids') ->
    leaf_at cs' kids' path v -> leaf_at cs kids (e_yang i :: path) v.
Definition leaf_set (cs : list schema) (path : list str) (x : obj) (v : pyval) : Prop :=
  exists ch pres kids, x = OCont ch pres kids /\ leaf_at cs kids path v.
(** Entry [x] has the values [sel] asks for. *)
Definition selected (O : oracle) (cs : list schema) (sel : list (list str * str)) (x : obj) : Prop :=
  forall path t, In (path, t) sel -> exists v, leaf_set cs path x v /\ py_str O v = t.
(** The leaves that [sel] names are set in the entry, as far as the values of those before are the wanted
    ones. *)
Definition answerable (O : oracle) (cs : list schema) (sel : list (list str * str)) (x : obj) : Prop :=
  forall before path t after, sel = before ++ (path, t) :: after -> selected O cs before x -> exists v, leaf_set cs path x v.
(** The members of a list that have a property, in order. *)
Inductive picked {A} (P : A -> Prop) : list A -> list A -> Prop :=
| PickNil : picked P [] []
| PickIn a l l' : P a -> picked P l l' -> picked P (a :: l) (a :: l')
| PickOut a l l' : ~ P a -> picked P l l' -> picked P (a :: l) l'.
(** Two entries differ: in the value of some leaf (as entries of a list do in a key leaf), in that it is set in one of
    them only, or in the members of a leaf-list. *)
Inductive differ (cs : list schema) (kx ky : list obj) : Prop :=
| DfLeaf j i lt d yt k v w : nth_error cs j = Some (SLeaf i lt d yt k) -> nth_error kx j = Some (OLeaf true v) ->
    nth_error ky j = Some (OLeaf true w) -> py_eq v w = false -> differ cs kx ky
| DfSet j i lt d yt k b v w : nth_error cs j = Some (SLeaf i lt d yt k) -> nth_error kx j = Some (OLeaf b v) ->
    nth_error ky j = Some (OLeaf (negb b) w) -> differ cs kx ky
| DfMembers j i ts yt l m : nth_error cs j = Some (SLeafList i ts yt) -> nth_error kx j = Some (OLeafList true l) ->
    nth_error ky j = Some (OLeafList true m) -> ~ Forall2 (fun v w => py_eq v w = true) l m -> differ cs kx ky.
Definition apart (cs : list schema) (x y : obj) : Prop :=
  exists cx px kx cy py ky, x = OCont cx px kx /\ y = OCont cy py ky /\ differ cs kx ky.
Definition all_apart (cs : list schema) (l : list obj) : Prop :=
  forall i j x y, nth_error l i = Some x -> nth_error l j = Some y -> i <> j -> apart cs x y.
(** Why a path leads to nothing in an entry: no such node, or one that is not set; or it goes on below a leaf. *)
Inductive stuck : list schema -> list obj -> list str -> exn -> Prop :=
| StNone cs kids n path : (forall s, In s cs -> e_yang (s_info s) <> n) -> stuck cs kids (n :: path) KeyError
| StUnset cs kids j i lt d yt k v path : nth_error cs j = Some (SLeaf i lt d yt k) -> nth_error kids j = Some (OLeaf false v) ->
    stuck cs kids (e_yang i :: path) KeyError
| StEmpty cs kids j i ts yt ch path : nth_error cs j = Some (SLeafList i ts yt) -> nth_error kids j = Some (OLeafList ch []) ->
    stuck cs kids (e_yang i :: path) KeyError
| StLeaf cs kids j i lt d yt k v n path : nth_error cs j = Some (SLeaf i lt d yt k) -> nth_error kids j = Some (OLeaf true v) ->
    stuck cs kids (e_yang i :: n :: path) AttributeError
| StMembers cs kids j i ts yt ch v l n path : nth_error cs j = Some (SLeafList i ts yt) -> nth_error kids j = Some (OLeafList ch (v :: l)) ->
    stuck cs kids (e_yang i :: n :: path) AttributeError
| StIn cs kids j i pr cs' ch pres kids' q v path e : nth_error cs j = Some (SCont i pr cs') -> nth_error kids j = Some (OCont ch pres kids') ->
    leaf_at cs' kids' q v -> stuck cs' kids' path e -> stuck cs kids (e_yang i :: path) e.
Definition no_dot (s : str) : Prop := ~ In 46%N s.
(** "a.b.c" *)
Definition dotted (path : list str) : str := join (lit ".") path.
Definition wanted (sel : list (list str * str)) : list (str * str) := map (fun pt => (dotted (fst pt), snd pt)) sel.
