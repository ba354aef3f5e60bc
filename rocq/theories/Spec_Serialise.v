(** Vocabulary for the properties of the JSON encoders and decoders. *)
From Coq Require Import Permutation.
From Verif Require Import PyStr PyVal Restricted Spec_Types Spec_Lists IntTypes StrTypes MemberTypes SafeName Tree Spec_Tree Bits Serialise.
Local Open Scope Z_scope.

Inductive fmt := Plain | Ietf.

(** Types of leaves: those of leaf-list members, bits, leafrefs without a path helper, unions. *)
Inductive wtype := WVal (t : mtype) | WBits (allowed : list (str * str)) | WRef | WUnion (ts : list mtype).
Definition ltype_of (w : wtype) : ltype :=
  match w with
  | WVal t => LOne (pty_of t)
  | WBits a => LOne (TBits a)
  | WRef => LOne TRef
  | WUnion ts => LUnion (map pty_of ts)
  end.

(** The names of YANG types that the encoders know, and those that go with a type.  Any other name -
    a typedef, "boolean", "union", "bits" - means nothing to them. *)
Definition wide_names : list str := map lit ["int64"; "uint64"]%string.
Definition narrow_names : list str := map lit ["int8"; "int16"; "int32"; "uint8"; "uint16"; "uint32"]%string.
Definition known_names : list str :=
  wide_names ++ narrow_names ++
  map lit ["leafref"; "identityref"; "string"; "enumeration"; "binary"; "decimal64"; "bool"; "empty"]%string.
Definition names_of (w : wtype) : list str :=
  match w with
  | WVal (MInt _) => wide_names ++ narrow_names
  | WVal (MStr _) => [lit "string"]
  | WVal MText => [lit "string"; lit "leafref"]
  | WVal MBool => [lit "empty"]
  | WVal (MEnum _) => [lit "enumeration"; lit "identityref"]
  | WVal MBin => [lit "binary"]
  | WVal (MDec _) => [lit "decimal64"]
  | WRef => [lit "leafref"]
  | _ => []
  end.
Definition type_name (w : wtype) (yt : str) : Prop := In yt (names_of w) \/ ~ In yt known_names.

Definition no_colon (s : str) : Prop := ~ In 58%N s.

(** Integer types other than int64 and uint64 as they are. *)
Definition narrow (levels : list (list part)) : Prop :=
  (2 <= length levels)%nat \/
  In levels (map (fun p => [[rng (fst p) (snd p)]])
    [(-128, 127); (-32768, 32767); (-2147483648, 2147483647); (0, 255); (0, 65535); (0, 4294967295)]).

(** Types whose values JSON has as they are. *)
Definition as_is (f : fmt) (t : mtype) : Prop :=
  match t with
  | MStr _ | MText | MEnum _ | MBool => True
  | MInt levels => f = Plain \/ narrow levels
  | MBin | MDec _ => False
  end.

(** Values that survive: bytes are bytes; decimals are below 2^52 units of the last digit in the
    default format (a JSON number), have at most 28 digits in the IETF format (a JSON string); an empty
    leaf is true and an identity is written without a prefix in the IETF format. *)
Definition value_ok (O : oracle) (f : fmt) (t : mtype) (yt : str) (v : pyval) : Prop :=
  is_value (o_match O) t v /\
  match t, v with
  | MBin, VBytes l => Forall (fun b => (b < 256)%N) l
  | MDec n, VDec q _ => 0 <= n /\ match f with Plain => Z.abs q < 2 ^ 52 | Ietf => Z.abs q < 10 ^ 28 end
  | MBool, VBool b => f = Ietf -> yt = lit "empty" -> b = true
  | MEnum _, VStr s => f = Ietf -> yt = lit "identityref" -> no_colon s
  | _, _ => True
  end.
Definition leaf_ok (O : oracle) (f : fmt) (w : wtype) (yt : str) (v : pyval) : Prop :=
  match w with
  | WVal t => mtype_wf t /\ value_ok O f t yt v
  (* the model of a set of bits is a list; here in the order in which it is written *)
  | WBits a => exists l, v = VBits l /\ legal a l /\ words (map fst a) /\ sort_by (pos_of a) l = l
  | WRef => exists s, v = VStr s \/ exists z, v = VInt z
  (* the first member type that takes the value is one whose values JSON has as they are *)
  | WUnion ts => exists t, In t ts /\ union_pick O (map pty_of ts) v = Some (pty_of t) /\
                   mtype_wf t /\ is_value (o_match O) t v /\ as_is f t
  end.

(** Members of leaf-lists: no binary, and decimals only in the IETF format. *)
Definition member_ok (O : oracle) (f : fmt) (t : mtype) (yt : str) (v : pyval) : Prop :=
  value_ok O f t yt v /\
  match t with
  | MBin => False
  | MDec _ => f = Ietf /\ yt <> lit "identityref"
  | MEnum _ => True
  | _ => f = Ietf -> yt <> lit "identityref"
  end.

(** How a key is written as part of the key of an entry (default format). *)
Definition key_part (t : mtype) (v : pyval) (part : str) : Prop :=
  match t with
  | MStr _ | MText | MEnum _ => v = VStr part
  | MInt _ => exists z, v = VInt z /\ part = print_Z z
  | MBool => exists b, v = VBool b /\ bool_spells (VStr part) b
  | _ => False
  end.
(** The key leaf named [n] is set and holds a value of its type. *)
Definition key_leaf (O : oracle) (f : fmt) (cs : list schema) (kids : list obj) (n : str) (t : mtype) (yt : str) (v : pyval) : Prop :=
  exists j i d k, nth_error cs j = Some (SLeaf i (LOne (pty_of t)) d yt k) /\ e_py i = n /\
    nth_error kids j = Some (OLeaf true v) /\ mtype_wf t /\ value_ok O f t yt v.

(** The key of an entry agrees with its key leaves.  Default format: the texts of the keys, joined by
    spaces. *)
Definition plain_key (O : oracle) (keys : list str) (cs : list schema) (kids : list obj) (k : pyval) : Prop :=
  exists parts, k = VStr (join [32%N] parts) /\
    match parts with [p] => p <> [] | _ => Forall no_space parts end /\
    Forall2 (fun n p => exists t yt v, key_leaf O Plain cs kids n t yt v /\ key_part t v p) keys parts.

(** An object without data. *)
Fixpoint untouched (s : schema) (x : obj) {struct s} : Prop :=
  match s, x with
  | SLeaf _ _ _ _ _, OLeaf ch _ => ch = false
  | SLeafList _ _ _, OLeafList ch l => ch = false /\ l = []
  | SCont _ _ cs, OCont _ pres kids =>
      pres = false /\ (fix all cs kids := match cs, kids with
                         | s :: cs', x :: kids' => untouched s x /\ all cs' kids'
                         | [], [] => True
                         | _, _ => False
                         end) cs kids
  | SList _ _ _ _, OList _ es => es = []
  | _, _ => False
  end.

(** IETF format: a single key is the value of the leaf as it appears in JSON; several keys are joined as
    texts, and what results does not end in a space. *)
Definition ietf_single (t : mtype) (yt : str) (v k : pyval) : Prop :=
  match t with
  | MStr _ | MText | MEnum _ => yt <> lit "identityref" /\ k = v /\ v <> VStr []
  | MInt levels => exists z, v = VInt z /\
      ((In yt narrow_names \/ ~ In yt known_names /\ narrow levels) /\ k = v \/
       In yt wide_names /\ k = VStr (print_Z z))
  | _ => False
  end.
Definition ietf_text (t : mtype) (yt : str) (v : pyval) (p : str) : Prop :=
  match t with
  | MStr _ | MText | MEnum _ => yt <> lit "identityref" /\ v = VStr p
  | MInt _ => exists z, v = VInt z /\ p = print_Z z
  | _ => False
  end.
Definition ietf_key (O : oracle) (keys : list str) (cs : list schema) (kids : list obj) (k : pyval) : Prop :=
  match keys with
  | [n] => exists t yt v, key_leaf O Ietf cs kids n t yt v /\ type_name (WVal t) yt /\ ietf_single t yt v k
  | _ => exists parts, k = VStr (join [32%N] parts) /\ last (join [32%N] parts) 0%N <> 32%N /\
           Forall2 (fun n p => exists t yt v, key_leaf O Ietf cs kids n t yt v /\ type_name (WVal t) yt /\ ietf_text t yt v p) keys parts
  end.

(** Trees that survive being written and read. *)
Inductive storable (O : oracle) (f : fmt) : schema -> obj -> Prop :=
| SbLeaf i w d yt k ch v : (ch = true -> type_name w yt /\ leaf_ok O f w yt v) ->
    storable O f (SLeaf i (ltype_of w) d yt k) (OLeaf ch v)
| SbLeafList i t yt ch l : mtype_wf t -> yt <> lit "empty" -> Forall (member_ok O f t yt) l -> all_distinct l ->
    (f = Ietf -> ch = false -> l = []) ->
    storable O f (SLeafList i [pty_of t] yt) (OLeafList ch l)
| SbCont i pr cs ch pres kids : Forall2 (storable O f) cs kids ->
    (f = Ietf -> pr = true -> pres = true \/ Forall2 untouched cs kids) ->
    storable O f (SCont i pr cs) (OCont ch pres kids)
| SbList i keys od cs ch es : keys <> [] -> all_distinct (map fst es) ->
    Forall (fun e => exists c ps kids, snd e = OCont c ps kids /\ Forall2 (storable O f) cs kids /\
              match f with Plain => plain_key O keys cs kids (fst e) | Ietf => ietf_key O keys cs kids (fst e) end) es ->
    storable O f (SList i keys od cs) (OList ch es).

(** Attribute names are what safe_name makes of the YANG names; siblings have different ones; no node
    is called "__yang_order". *)
Definition python_names (cs : list schema) : Prop :=
  forall p i pr cs', schema_at cs p = Some (SCont i pr cs') ->
    NoDup (map (fun s => e_py (s_info s)) cs') /\
    Forall (fun s => e_py (s_info s) = safe_name (e_yang (s_info s)) /\ e_yang (s_info s) <> lit "__yang_order") cs'.

(* ------------------------------------------------------------------ what an IETF document looks like *)
(** The name of a member: plain iff the node's namespace is that of its parent. *)
Definition member_name (parent : option str) (i : einfo) (n : str) : Prop :=
  (parent = Some (e_ns i) -> n = e_yang i) /\
  (parent <> Some (e_ns i) -> n = e_mod i ++ lit ":" ++ e_yang i).

(** An object written for the children [kids] (of classes [cs]) of a node with namespace [parent];
    [L] is what is asked of the documents of leaves and leaf-lists. *)
Inductive ietf_doc (L : schema -> obj -> json -> Prop) : list schema -> option str -> list obj -> json -> Prop :=
| IdObj cs parent kids ms :
    Forall (fun kj => exists n s x, nth_error cs n = Some s /\ nth_error kids n = Some x /\
              member_name parent (s_info s) (fst kj) /\ ietf_val L s x (snd kj)) ms ->
    ietf_doc L cs parent kids (JObj ms)
with ietf_val (L : schema -> obj -> json -> Prop) : schema -> obj -> json -> Prop :=
| IvLeaf i lt d yt k x j : L (SLeaf i lt d yt k) x j -> ietf_val L (SLeaf i lt d yt k) x j
| IvLeafList i ts yt x j : L (SLeafList i ts yt) x j -> ietf_val L (SLeafList i ts yt) x j
| IvCont i pr cs c ps kids j : ietf_doc L cs (Some (e_ns i)) kids j -> ietf_val L (SCont i pr cs) (OCont c ps kids) j
| IvList i keys od cs c es js :
    Forall2 (fun e j => forall c ps kids, snd e = OCont c ps kids -> ietf_doc L cs (Some (e_ns i)) kids j) es js ->
    ietf_val L (SList i keys od cs) (OList c es) (JArr js).

(** The integer types int64 and uint64 themselves. *)
Definition wide (levels : list (list part)) : Prop :=
  levels = [[rng (-9223372036854775808) 9223372036854775807]] \/ levels = [[rng 0 18446744073709551615]].

(** RFC 7951 for integers, decimals, booleans and empty: what is written for [v].  [yt] is the name of
    the type in the leaf's type statement. *)
Definition scalar_form (t : mtype) (yt : str) (v : pyval) (j : json) : Prop :=
  match t, v with
  | MInt levels, VInt z =>
      (In yt wide_names \/ ~ In yt known_names /\ wide levels -> j = JStr (print_Z z)) /\
      (In yt narrow_names \/ ~ In yt known_names /\ narrow levels -> j = JInt z)
  | MDec _, VDec c e => j = JStr (print_dec c e)
  | MBool, VBool b => (yt <> lit "empty" -> j = JBool b) /\ (yt = lit "empty" -> b = true -> j = JArr [JNull])
  | _, _ => True
  end.
Definition leaf_scalars (O : oracle) (s : schema) (x : obj) (j : json) : Prop :=
  match s, x with
  | SLeaf _ lt _ yt _, OLeaf _ v => forall t, lt = LOne (pty_of t) -> type_name (WVal t) yt -> mtype_wf t ->
      is_value (o_match O) t v -> scalar_form t yt v j
  | SLeafList _ ts _, OLeafList _ l => exists js, j = JArr js /\
      forall t, ts = [pty_of t] -> mtype_wf t ->
        Forall2 (fun v j => is_value (o_match O) t v -> match t, v with
                                                   | MInt levels, VInt z => (wide levels -> j = JStr (print_Z z)) /\ (narrow levels -> j = JInt z)
                                                   | MDec _, VDec c e => Z.abs c < 10 ^ 28 -> j = JStr (print_dec c e)
                                                   | _, _ => True
                                                   end) l js
  | _, _ => True
  end.

(** Identities: [im i s] is the module that defines identity [s], as recorded in leaf [i]. *)
Definition identity_form (im : einfo -> str -> option str) (s : schema) (x : obj) (j : json) : Prop :=
  match s, x with
  | SLeaf i _ _ yt _, OLeaf _ (VStr v) => yt = lit "identityref" ->
      forall m, im i v = Some m ->
      (m <> e_mod i -> startswith m v = false -> j = JStr (m ++ lit ":" ++ v)) /\
      (m = e_mod i -> j = JStr v)
  | _, _ => True
  end.

(* ------------------------------------------------------------------ order of members *)
(** Two documents for the same node that differ only in the order in which the entries of lists that
    are ordered by the user stand in their objects. *)
Inductive shuffled : schema -> json -> json -> Prop :=
| ShSame s j : shuffled s j j
| ShCont i pr cs ms ms' :
    Forall2 (fun kj kj' => fst kj = fst kj' /\
               (snd kj = snd kj' \/ exists s, In s cs /\ e_yang (s_info s) = fst kj /\ shuffled s (snd kj) (snd kj'))) ms ms' ->
    shuffled (SCont i pr cs) (JObj ms) (JObj ms')
| ShList i keys (od : bool) cs es es1 es' :
    Forall2 (fun e e' => fst e = fst e' /\ shuffled (entry_schema cs) (snd e) (snd e')) es es1 ->
    (if od then Permutation es1 es' else es1 = es') ->
    shuffled (SList i keys od cs) (JObj es) (JObj es').

(* ------------------------------------------------------------------ unknown members *)
(** The child a member name stands for. *)
Definition node_for (n : str) (cs : list schema) : option schema :=
  find (fun s => str_eqb (e_py (s_info s)) (safe_name n)) cs.
(** A member that is not for a child: [od] - the object is an entry of an ordered list, whose position
    is stated by "__yang_order". *)
Definition is_position (od : bool) (n : str) : bool := od && str_eqb n (lit "__yang_order").
(** The document without the members the schema does not have. *)
Fixpoint cleaned (od : bool) (cs : list schema) (j : json) {struct j} : json :=
  match j with
  | JObj ms =>
      JObj (flat_map (fun kj =>
        if is_position od (fst kj) then [kj]
        else match node_for (fst kj) cs with
             | None => []
             | Some (SCont _ _ cs') => [(fst kj, cleaned false cs' (snd kj))]
             | Some (SList _ _ od' cs') =>
                 match snd kj with
                 | JObj es => [(fst kj, JObj (map (fun e => (fst e, cleaned od' cs' (snd e))) es))]
                 | _ => [kj]
                 end
             | Some _ => [kj]
             end) ms)
  | _ => j
  end.
Definition position (j : json) : option json := match j with JObj ms => assoc (lit "__yang_order") ms | _ => None end.
(** Some object in the document has a member the schema does not have.  Of two entries of an ordered
    list that state the same position, the second counts. *)
Inductive unknown : bool -> list schema -> json -> Prop :=
| UnHere od cs ms n j : In (n, j) ms -> is_position od n = false -> node_for n cs = None -> unknown od cs (JObj ms)
| UnCont od cs ms n j i pr cs' : In (n, j) ms -> is_position od n = false -> node_for n cs = Some (SCont i pr cs') ->
    unknown false cs' j -> unknown od cs (JObj ms)
| UnList od cs ms n i keys od' cs' es1 k j es2 : In (n, JObj (es1 ++ (k, j) :: es2)) ms -> is_position od n = false ->
    node_for n cs = Some (SList i keys od' cs') -> unknown od' cs' j ->
    (od' = true -> position j <> None -> Forall (fun e => position (snd e) <> position j) es2) ->
    unknown od cs (JObj ms).

(** The same for the IETF format: members are named "name" or "module:name"; names with "@" hold
    metadata. *)
Definition local_name (n : str) : str := last (split_on 58 n) [].
Definition metadata (n : str) : bool := existsb (N.eqb 64) n.
Fixpoint cleaned_ietf (cs : list schema) (j : json) {struct j} : json :=
  match j with
  | JObj ms =>
      JObj (flat_map (fun kj =>
        if metadata (fst kj) then [kj]
        else match node_for (local_name (fst kj)) cs with
             | None => []
             | Some (SCont _ _ cs') => [(fst kj, match snd kj with JObj _ => cleaned_ietf cs' (snd kj) | j => j end)]
             | Some (SList _ _ _ cs') => [(fst kj, match snd kj with JArr es => JArr (map (cleaned_ietf cs') es) | j => j end)]
             | Some _ => [kj]
             end) ms)
  | _ => j
  end.
(** No member that is not in the schema is a non-empty array; objects are given only for containers
    and for list entries. *)
Inductive fitting : list schema -> json -> Prop :=
| FtObj cs ms :
    Forall (fun kj => metadata (fst kj) = true \/ fitting_member (node_for (local_name (fst kj)) cs) (snd kj)) ms ->
    fitting cs (JObj ms)
| FtOther cs j : (forall ms, j <> JObj ms) -> fitting cs j
with fitting_member : option schema -> json -> Prop :=
| FmNone j : (forall l, j = JArr l -> l = []) -> fitting_member None j
| FmCont i pr cs j : fitting cs j -> fitting_member (Some (SCont i pr cs)) j
| FmList i keys od cs es : Forall (fitting cs) es -> fitting_member (Some (SList i keys od cs)) (JArr es)
| FmScalar s j : (forall ms, j <> JObj ms) -> (forall es, j <> JArr es) -> fitting_member (Some s) j
| FmLeaf i lt d yt k j : (forall ms, j <> JObj ms) -> fitting_member (Some (SLeaf i lt d yt k)) j
| FmLeafList i ts yt j : (forall ms, j <> JObj ms) -> fitting_member (Some (SLeafList i ts yt)) j.
Inductive unknown_ietf : list schema -> json -> Prop :=
| UiHere cs ms n j : In (n, j) ms -> metadata n = false -> node_for (local_name n) cs = None -> j <> JArr [] -> unknown_ietf cs (JObj ms)
| UiCont cs ms n j i pr cs' : In (n, j) ms -> metadata n = false -> node_for (local_name n) cs = Some (SCont i pr cs') ->
    unknown_ietf cs' j -> unknown_ietf cs (JObj ms)
| UiList cs ms n i keys od cs' es j : In (n, JArr es) ms -> metadata n = false ->
    node_for (local_name n) cs = Some (SList i keys od cs') -> In j es -> unknown_ietf cs' j -> unknown_ietf cs (JObj ms).
(** The YANG name of every key is a plain name, and the key is a leaf. *)
Definition keys_plain (cs : list schema) : Prop :=
  forall p i keys od cs' k n s, schema_at cs p = Some (SList i keys od cs') -> In k keys ->
    kid_index k cs' = Some n -> nth_error cs' n = Some s ->
    (exists i lt d yt key, s = SLeaf i lt d yt key) /\ local_name (e_yang (s_info s)) = e_yang (s_info s) /\ metadata (e_yang (s_info s)) = false.

(* ------------------------------------------------------------------ lists in a document *)
(** [list_doc cs d p es]: the document [d] for an object with children [cs] gives the entries [es] for the
    list (with keys) at [p], which is reached through containers.  No two members are for the same child;
    entries are objects; entries of an ordered list state different positions, if any. *)
Inductive list_doc : list schema -> json -> list pstep -> list (str * json) -> Prop :=
| LdHere cs ms n k i keys od cs' es :
    NoDup (map (fun m => safe_name (fst m)) ms) -> In (n, JObj es) ms ->
    nth_error cs k = Some (SList i keys od cs') -> e_py i = safe_name n -> keys <> [] ->
    Forall (fun e => exists ms, snd e = JObj ms) es ->
    (od = true -> forall es1 e es2, es = es1 ++ e :: es2 -> position (snd e) <> None ->
       Forall (fun e' => position (snd e') <> position (snd e)) es2) ->
    list_doc cs (JObj ms) [Kid k] es
| LdBelow cs ms n k i pr cs' j p es :
    NoDup (map (fun m => safe_name (fst m)) ms) -> In (n, j) ms ->
    nth_error cs k = Some (SCont i pr cs') -> e_py i = safe_name n ->
    list_doc cs' j p es -> list_doc cs (JObj ms) (Kid k :: p) es.

(* ------------------------------------------------------------------ places in an IETF document *)
Definition ietf_name (parent : option str) (i : einfo) : str :=
  if match parent with Some n => str_eqb n (e_ns i) | None => false end then e_yang i
  else e_mod i ++ lit ":" ++ e_yang i.
(** The number of the entry with key [k]. *)
Fixpoint entry_no {A} (k : pyval) (es : list (pyval * A)) : option nat :=
  match es with
  | [] => None
  | (k', _) :: es' => if py_eq k k' then Some 0%nat else option_map S (entry_no k es')
  end.
(** What the document [j], written for the children [kids] of a node with namespace [parent], has for
    the node at [p], if anything: containers are objects, lists are arrays in the order of the entries. *)
Fixpoint written (parent : option str) (cs : list schema) (kids : list obj) (p : list pstep) (j : json) : option json :=
  match p with
  | Kid n :: p' =>
      match nth_error cs n, nth_error kids n, j with
      | Some s, Some x, JObj ms =>
          match assoc (ietf_name parent (s_info s)) ms with
          | None => None
          | Some j' =>
              match p', s, x, j' with
              | [], _, _, _ => Some j'
              | Kid _ :: _, SCont i _ cs', OCont _ _ kids', _ => written (Some (e_ns i)) cs' kids' p' j'
              | Ent k :: p'', SList i _ _ cs', OList _ es, JArr js =>
                  match entry_no k es with
                  | Some a => match nth_error js a, nth_error (map snd es) a with
                              | Some j'', Some (OCont _ _ kids') => written (Some (e_ns i)) cs' kids' p'' j''
                              | _, _ => None
                              end
                  | None => None
                  end
              | _, _, _, _ => None
              end
          end
      | _, _, _ => None
      end
  | _ => None
  end.
(** YANG names have no colon. *)
Definition yang_names (cs : list schema) : Prop :=
  forall p i pr cs', schema_at cs p = Some (SCont i pr cs') -> Forall (fun s => no_colon (e_yang (s_info s))) cs'.
(** The default of a leaf: its default, or False. *)
Definition default_of (d : option pyval) : pyval := match d with Some v => v | None => VBool false end.

(* ------------------------------------------------------------------ schemas for the IETF round trip *)
(** Names of nodes have neither ":" nor "@" in them, names of modules no "@". *)
Definition ietf_names (cs : list schema) : Prop :=
  forall p i pr cs', schema_at cs p = Some (SCont i pr cs') ->
    Forall (fun s => no_colon (e_yang (s_info s)) /\ metadata (e_yang (s_info s)) = false /\ metadata (e_mod (s_info s)) = false) cs'.
(** The leaves marked as keys are those that the list names as such, and they are of the list's own
    namespace. *)
Definition key_leaves (cs : list schema) : Prop :=
  Forall (fun s => is_key s = false) cs /\
  (forall p n i pr cs', schema_at cs (p ++ [Kid n]) = Some (SCont i pr cs') -> Forall (fun s => is_key s = false) cs') /\
  (forall p i keys od cs', schema_at cs p = Some (SList i keys od cs') ->
     Forall (fun s => (is_key s = true -> In (e_py (s_info s)) keys) /\ (In (e_py (s_info s)) keys -> e_ns (s_info s) = e_ns i)) cs').
