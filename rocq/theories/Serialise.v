(** JSON: the two encoders (default and IETF) and the two decoders.  No proofs in this file.

    A JSON document is the value that json.loads would return for it.  The text in between is not
    modelled: json.dumps followed by json.loads is taken to keep numbers, strings, arrays and the
    order of object members, and to turn the keys of a dict into text. *)
From Verif Require Import PyStr PyVal Base64 Restricted Bits Spec_Lists TypedList YList SafeName Tree Spec_Tree.
Local Open Scope Z_scope.

Inductive json :=
| JNull | JBool (b : bool) | JInt (z : Z) | JFloat (m e : Z) | JStr (s : str)
| JArr (l : list json) | JObj (ms : list (str * json)).

(** The Python value of a document. *)
Fixpoint jval (j : json) : pyval :=
  match j with
  | JNull => VNone | JBool b => VBool b | JInt z => VInt z | JFloat m e => VFloat m e | JStr s => VStr s
  | JArr l => VList (map jval l)
  | JObj ms => VDict (map (fun kj => (VStr (fst kj), jval (snd kj))) ms)
  end.

Definition map_res {A B} (f : A -> res B) : list A -> res (list B) :=
  fix go l := match l with [] => Ok [] | a :: l' => b <- f a ;; r <- go l' ;; Ok (b :: r) end.

(* ------------------------------------------------------------------ scalars *)
(** The innermost class of a chain of RestrictedClassType ([_restricted_class_base[0]],
    lib/yangtypes.py:187-192). *)
Fixpoint base_of (t : pty) : pty := match t with TRestr b _ => base_of b | _ => t end.

(** [_restricted_int_size == 64]: only the classes of int64 and uint64 themselves
    (plugin/pybind.py:119-127, 168-176); RestrictedClassType(base_type=...) without int_size resets it
    to None (lib/yangtypes.py:182, 204). *)
Definition int64_class (t : pty) : bool :=
  match t with
  | TRestr TInt [RRange [r]] =>
      str_eqb r (lit "-9223372036854775808..9223372036854775807") || str_eqb r (lit "0..18446744073709551615")
  | _ => false
  end.

Section Enc.
(** [im i s]: the "@module" recorded for identity [s] in the class of leaf [i]. *)
Context (O : oracle) (im : einfo -> str -> option str) (ietf : bool).

(** lib/serialise.py:203-224 and 227-250 (yangt_int, yangt_long, yangt_decimal, yangt_empty). *)
Definition enc_int (v : pyval) : res json := z <- py_int v ;; Ok (JInt z).
Definition enc_long (v : pyval) : res json := if ietf then Ok (JStr (py_str O v)) else enc_int v.
Definition enc_decimal (v : pyval) : res json :=
  if ietf then Ok (JStr (py_str O v)) else f <- py_float v ;; Ok (JFloat (fst f) (snd f)).
Definition enc_empty (v : pyval) : res json :=
  if ietf then Ok (if truthy v then JArr [JNull] else JBool false) else Ok (JBool (truthy v)).
Definition enc_binary (v : pyval) : res json :=
  match v with VBytes l => Ok (JStr (b64encode l)) | _ => Raise TypeError end.

(** lib/serialise.py:150-163, a native Python value; bool is a subclass of int.  Lists and dicts are
    not modelled here. *)
Definition enc_native (v : pyval) : res json :=
  match v with
  | VStr s => Ok (JStr s)
  | VInt _ | VBool _ => enc_int v
  | VDec _ _ => enc_decimal v
  | _ => Raise AttributeError
  end.

(** lib/serialise.py:132-148 and 168-201 (map_pyangbind_type): by class.  [elem]: a leaf, which has a
    [_pybind_base_class]; the members of a leaf-list have none, so that YANGBool and YANGBinary
    members are left to the native types. *)
Definition enc_class (elem : bool) (t : pty) (v : pyval) : res json :=
  match base_of t with
  | TInt => if int64_class t then enc_long v else enc_int v
  | TStr => Ok (JStr (py_str O v))
  | TDecimal | TDecPrec _ => enc_decimal v
  | TBool => if elem || is_restr t then Ok (JBool (truthy v)) else enc_int v
  | TBinary => if elem || is_restr t then enc_binary v else Raise AttributeError
  | TBits allowed => match v with VBits l => Ok (JStr (bits_str allowed l)) | _ => Raise TypeError end
  | TRef => enc_native v
  | TRestr _ _ => Raise AttributeError
  end.

(** The class of a leaf holding [v]: for a union the member type chosen for it, here recomputed from
    the value. *)
Definition leaf_class (lt : ltype) (v : pyval) : pty :=
  match lt with
  | LOne t => t
  | LUnion ts => match union_pick O ts v with Some t => t | None => hd TStr ts end
  end.

(** lib/serialise.py:230-241 (yangt_identityref); a KeyError means no module is known. *)
Definition enc_identity (i : einfo) (v : pyval) : json :=
  let s := py_str O v in
  match im i s with
  | Some emod => if negb (str_eqb emod (e_mod i)) && negb (startswith emod s)
                 then JStr (emod ++ lit ":" ++ s) else JStr s
  | None => JStr s
  end.

(** lib/serialise.py:95-166 (default) for a leaf: first by the name of its YANG type. *)
Definition enc_leaf (i : einfo) (lt : ltype) (yt : str) (v : pyval) : res json :=
  let t := leaf_class lt v in
  let is (n : String.string) := str_eqb yt (lit n) in
  if is "leafref"%string then match base_of t with TRef => enc_native v | _ => Ok (JStr (py_str O v)) end
  else if is "int64"%string || is "uint64"%string then enc_long v
  else if is "identityref"%string && ietf then Ok (enc_identity i v)
  else if is "int8"%string || is "int16"%string || is "int32"%string || is "uint8"%string || is "uint16"%string || is "uint32"%string then enc_int v
  else if is "string"%string || is "enumeration"%string then Ok (JStr (py_str O v))
  else if is "binary"%string then enc_binary v
  else if is "decimal64"%string then enc_decimal v
  else if is "bool"%string then Ok (JBool (truthy v))
  else if is "empty"%string then enc_empty v
  else enc_class true t v.

(** A member of a leaf-list (lib/serialise.py:100-102, 222-223); its class is the first allowed type
    that takes it. *)
Fixpoint member_class (ts : list pty) (v : pyval) : pty :=
  match ts with
  | [] => TStr
  | t :: ts' => match member_try O t v with Some _ => t | None => member_class ts' v end
  end.
Definition enc_member (ts : list pty) (v : pyval) : res json := enc_class false (member_class ts v) v.
Definition enc_members (ts : list pty) (l : list pyval) : res json :=
  js <- map_res (enc_member ts) l ;; Ok (JArr js).
End Enc.

(* ------------------------------------------------------------------ default format *)
(** json.dumps on the key of a dict.  Keys that differ in type only (1 and "1") become the same member
    name; the model keeps both members. *)
Definition json_key (O : oracle) (k : pyval) : res str :=
  match k with
  | VStr s => Ok s
  | VInt z => Ok (print_Z z)
  | VBool b => Ok (if b then lit "true" else lit "false")
  | VNone => Ok (lit "null")
  | VFloat _ _ => Ok (o_str O k)
  | _ => Raise TypeError
  end.

Definition order_key : str := lit "__yang_order".
Definition add_order (j : json) (n : nat) : json :=
  match j with JObj ms => JObj (ms ++ [(order_key, JInt (Z.of_nat n))]) | _ => j end.

Fixpoint child_named (n : str) (cs : list schema) : option schema :=
  match cs with
  | [] => None
  | s :: cs' => if str_eqb n (e_yang (s_info s)) then Some s else child_named n cs'
  end.

(** lib/serialise.py:75-93 (preprocess_element) on what get(filter=True) returned
    (lib/pybindJSON.py:110-111, 155-160).  The elements of the tree know their class; here it is looked up in
    the schema.  No node is called "__yang_order". *)
Fixpoint enc_dump (O : oracle) (im : einfo -> str -> option str) (s : schema) (d : dump) {struct d} : res json :=
  match d with
  | DLeaf v => match s with SLeaf i lt _ yt _ => enc_leaf O im false i lt yt v | _ => Raise TypeError end
  | DLeafList l => match s with SLeafList _ ts _ => enc_members O false ts l | _ => Raise TypeError end
  | DDict dd =>
      match s with
      | SCont _ _ cs =>
          ms <- map_res (fun nd => match child_named (fst nd) cs with
                                   | Some t => j <- enc_dump O im t (snd nd) ;; Ok (fst nd, j)
                                   | None => Raise KeyError
                                   end) dd ;;
          Ok (JObj ms)
      | _ => Raise TypeError
      end
  | DList es =>
      match s with
      | SList _ _ od cs =>
          ms <- (fix go n es := match es with
                   | [] => Ok []
                   | (k, d') :: es' =>
                       j <- enc_dump O im (entry_schema cs) d' ;;
                       kt <- json_key O k ;;
                       r <- go (S n) es' ;;
                       Ok ((kt, if od then add_order j n else j) :: r)
                   end) 0%nat es ;;
          Ok (JObj ms)
      | _ => Raise TypeError
      end
  end.

(** dumps(obj) for the module object. *)
Definition dumps (O : oracle) (im : einfo -> str -> option str) (cs : list schema) (kids : list obj) : res json :=
  enc_dump O im (entry_schema cs) (DDict (get_kids true cs kids)).

(* ------------------------------------------------------------------ IETF format *)
(** What generate_ietf_tree returns: the element objects at the leaves. *)
Inductive itree :=
| ILeaf (i : einfo) (lt : ltype) (yt : str) (v : pyval)
| ILeafList (ts : list pty) (l : list pyval)
| IDict (l : list (str * itree))
| IList (l : list itree).

Inductive with_defaults := WNone | WIfSet.

(** lib/serialise.py:286-294, [yname_ns_func]; [ns] is the namespace of the parent. *)
Definition qualified (ns : option str) (i : einfo) : str :=
  match ns with
  | Some n => if str_eqb (e_ns i) n then e_yang i else e_mod i ++ lit ":" ++ e_yang i
  | None => e_mod i ++ lit ":" ++ e_yang i
  end.

(** lib/serialise.py:391-446 (generate_ietf_tree): the member for one child, if any.
    [element._default] is False if there is none. *)
Fixpoint gen_kid (flt : bool) (wd : with_defaults) (ns : option str) (s : schema) (x : obj) {struct s}
  : option (str * itree) :=
  let gens := fun ns => fix gens cs kids := match cs, kids with
    | s :: cs', x :: kids' => match gen_kid flt wd ns s x with
                              | Some m => m :: gens cs' kids'
                              | None => gens cs' kids'
                              end
    | _, _ => []
    end in
  let name := qualified ns (s_info s) in
  match s, x with
  | SLeaf i lt dflt yt _, OLeaf ch v =>
      let emit := match wd with
                  | WNone => negb flt || ch
                  | WIfSet => ch || py_eq (match dflt with Some d => d | None => VBool false end) v
                  end in
      if emit then Some (name, ILeaf i lt yt v) else None
  | SLeafList i ts _, OLeafList ch l =>
      let emit := match wd with WNone => negb flt || ch | WIfSet => ch end in
      if emit then Some (name, ILeafList ts l) else None
  | SCont i _ cs, OCont _ pres kids =>
      match gens (Some (e_ns i)) cs kids with
      | [] => if pres then Some (name, IDict []) else None
      | l => Some (name, IDict l)
      end
  | SList i _ _ cs, OList _ es =>
      match es with
      | [] => None
      | _ => Some (name, IList (map (fun e => match snd e with
                                              | OCont _ _ kids => IDict (gens (Some (e_ns i)) cs kids)
                                              | _ => IDict []
                                              end) es))
      end
  | _, _ => None
  end.
(** The children of a container (or of the module object, for which [ns] is None: 401-446). *)
Fixpoint gen_kids (flt : bool) (wd : with_defaults) (ns : option str) (cs : list schema) (kids : list obj)
  : list (str * itree) :=
  match cs, kids with
  | s :: cs', x :: kids' => match gen_kid flt wd ns s x with
                            | Some m => m :: gen_kids flt wd ns cs' kids'
                            | None => gen_kids flt wd ns cs' kids'
                            end
  | _, _ => []
  end.

Fixpoint enc_itree (O : oracle) (im : einfo -> str -> option str) (t : itree) : res json :=
  match t with
  | ILeaf i lt yt v => enc_leaf O im true i lt yt v
  | ILeafList ts l => enc_members O true ts l
  | IDict l => ms <- map_res (fun nt => j <- enc_itree O im (snd nt) ;; Ok (fst nt, j)) l ;; Ok (JObj ms)
  | IList l => js <- map_res (enc_itree O im) l ;; Ok (JArr js)
  end.

(** dumps(obj, mode="ietf", filter=flt, with_defaults=wd) for the module object. *)
Definition dumps_ietf (O : oracle) (im : einfo -> str -> option str) (flt : bool) (wd : with_defaults)
  (cs : list schema) (kids : list obj) : res json :=
  enc_itree O im (IDict (gen_kids flt wd None cs kids)).

(* ------------------------------------------------------------------ decoding *)
Section Load.
(** [top]: the classes of the module; objects are addressed by their path from the module object,
    [m] is the current content of the module object.  [uid es]: the uuid drawn for a new entry of a
    list without keys that holds [es]. *)
Context (O : oracle) (uid : list (pyval * obj) -> str) (top : list schema).

Definition step := (list obj * res unit)%type.
Definition run_op (m : list obj) (q : list pstep) (o : op) : step := module_exec O top m q o.
Definition andthen (r : step) (k : list obj -> step) : step :=
  match r with (m, Ok _) => k m | (m, Raise e) => (m, Raise e) end.
Definition for_each {A} (f : A -> list obj -> step) : list A -> list obj -> step :=
  fix go l m := match l with [] => (m, Ok tt) | a :: l' => andthen (f a m) (go l') end.

Definition entries (m : list obj) (q : list pstep) : list (pyval * obj) :=
  match at_path m q with Some (OList _ es) => es | _ => [] end.
Definition members (m : list obj) (q : list pstep) : list pyval :=
  match at_path m q with Some (OLeafList _ l) => l | _ => [] end.

(** [getattr(obj, "_get_%s" % safe_name(key), None)]. *)
Definition find_kid (key : str) (cs : list schema) : option (nat * schema) :=
  match kid_index (safe_name key) cs with
  | Some n => match nth_error cs n with Some s => Some (n, s) | None => None end
  | None => None
  end.

(** lib/serialise.py:618-621: every child of a container is unset. *)
Definition unset_kids (q : list pstep) (n : nat) : list obj -> step :=
  for_each (fun k m => run_op m (q ++ [Kid k]) AUnset) (seq 0 n).

(** lib/serialise.py:669-672, [for child_key in chobj: if child_key not in d[key]: chobj.delete(child_key)].
    The OrderedDict iterator notices the deletion when it is asked for a further key. *)
Fixpoint prune (q : list pstep) (names : list str) (ks : list pyval) (m : list obj) : step :=
  match ks with
  | [] => (m, Ok tt)
  | k :: ks' =>
      if match k with VStr s => str_in s names | _ => false end then prune q names ks' m
      else andthen (run_op m q (AList [] (YDelete k)))
             (fun m => match ks' with [] => (m, Ok tt) | _ => (m, Raise RuntimeError) end)
  end.

(** [p in s] for texts. *)
Fixpoint infix (p s : str) : bool :=
  startswith p s || match s with [] => false | _ :: s' => infix p s' end.

(** lib/serialise.py:637-655: the position of an entry of an ordered list, if it states one.  Only
    integer positions are modelled.  In a text the name is searched, in an array it is an element, and then
    [v["__yang_order"]] is a TypeError. *)
Definition order_of (j : json) : res (option Z) :=
  match j with
  | JObj ms => match assoc order_key ms with
               | None => Ok None
               | Some (JInt z) => Ok (Some z)
               | Some _ => Raise TypeError
               end
  | JStr t => if infix order_key t then Raise TypeError else Ok None
  | JArr l => if existsb (fun e => match e with JStr t => str_eqb t order_key | _ => false end) l then Raise TypeError else Ok None
  | _ => Raise TypeError
  end.
Fixpoint put_order {A} (z : Z) (x : A) (l : list (Z * A)) : list (Z * A) :=
  match l with
  | [] => [(z, x)]
  | (z', x') :: l' => if z =? z' then (z, x) :: l'
                      else if z <? z' then (z, x) :: l else (z', x') :: put_order z x l'
  end.
Fixpoint in_order {A} (es : list (res (option Z) * A)) (placed : list (Z * A)) (rest : list A) : res (list A) :=
  match es with
  | [] => Ok (map snd placed ++ rest)
  | (o, x) :: es' => p <- o ;; match p with
                               | Some z => in_order es' (put_order z x placed) rest
                               | None => in_order es' placed (x :: rest)
                               end
  end.

(** lib/serialise.py:657-668: the entry with key [k] is added unless it is there, then loaded. *)
Definition load_entry (q : list pstep) (k : str) (act : list obj -> step) (m : list obj) : step :=
  let es := entries m q in
  andthen (if mhas (VStr k) es then (m, Ok tt) else run_op m q (AList (uid es) (YAdd (VStr k))))
    (fun m => if mhas (VStr k) (entries m q) then act m else (m, Raise KeyError)).

(** lib/serialise.py:674-686: missing members are appended, then those not in the document removed.  A text is
    iterated over by its characters, and [e not in d[key]] is then a search in the text (TypeError if the
    member is not a text); an object is iterated over by the names of its members; other values have no
    iterator. *)
Definition append_missing (q : list pstep) (items : list json) (m : list obj) : step :=
  for_each (fun j m => if py_in (jval j) (members m q) then (m, Ok tt)
                       else run_op m q (ALeafList (LAppend (jval j)))) items m.
Definition load_members (q : list pstep) (j : json) (m : list obj) : step :=
  match j with
  | JArr items =>
      andthen (append_missing q items m)
        (fun m => for_each (fun e m => if py_in e (map jval items) then (m, Ok tt)
                                       else run_op m q (ALeafList (LRemove e))) (members m q) m)
  | JObj ms =>
      let names := map (fun kj => JStr (fst kj)) ms in
      andthen (append_missing q names m)
        (fun m => for_each (fun e m => if py_in e (map jval names) then (m, Ok tt)
                                       else run_op m q (ALeafList (LRemove e))) (members m q) m)
  | JStr t =>
      andthen (append_missing q (map (fun c => JStr [c]) t) m)
        (fun m => for_each (fun e m => match e with
                                       | VStr u => if infix u t then (m, Ok tt) else run_op m q (ALeafList (LRemove e))
                                       | _ => (m, Raise TypeError)
                                       end) (members m q) m)
  | _ => (m, Raise TypeError)
  end.

(** lib/serialise.py:569-709, [load_json(d, obj=...)] for the container (or list entry, or module) at
    path [p] with children [cs].  [self]: where [obj._parent._set_<obj>] assigns (594-597).
    [strip]: the member "__yang_order" has been taken out.  [overwrite] is not handed down. *)
Fixpoint load (overwrite skip strip : bool) (cs : list schema) (self : option (list pstep)) (p : list pstep)
  (d : json) (m : list obj) {struct d} : step :=
  match d with
  | JObj ms =>
      for_each (fun kj m =>
        let key := fst kj in
        if strip && str_eqb key order_key then (m, Ok tt)
        else match find_kid key cs with
             | None => if skip then (m, Ok tt) else (m, Raise AttributeError)
             | Some (n, s) =>
                 let q := p ++ [Kid n] in
                 match s with
                 | SCont _ pr cs' =>
                     andthen (if pr then run_op m q (APresent true) else (m, Ok tt)) (fun m =>
                     andthen (if overwrite then unset_kids q (length cs') m else (m, Ok tt)) (fun m =>
                     load false skip false cs' (Some q) q (snd kj) m))
                 | SList _ _ od cs' =>
                     match snd kj with
                     | JObj es =>
                         let acts := map (fun kj => (order_of (snd kj),
                                            load_entry q (fst kj)
                                              (load false skip od cs' (Some q) (q ++ [Ent (VStr (fst kj))]) (snd kj)))) es in
                         match (if od then in_order acts [] [] else Ok (map snd acts)) with
                         | Raise e => (m, Raise e)
                         | Ok todo =>
                             andthen (for_each (fun act m => act m) todo m) (fun m =>
                             andthen (if overwrite then prune q (map fst es) (map fst (entries m q)) m else (m, Ok tt)) (fun m =>
                             match es with
                             | [] => run_op m q (ASet (Priv true) (AVal (VDict [])))
                             | _ => (m, Ok tt)
                             end))
                         end
                     | _ => (m, Raise AttributeError)
                     end
                 | SLeafList _ _ _ =>
                     if overwrite then run_op m q (ASet (Priv true) (AVal (jval (snd kj))))
                     else load_members q (snd kj) m
                 | SLeaf _ _ _ _ _ => run_op m q (ASet (Priv true) (AVal (jval (snd kj))))
                 end
             end) ms m
  | _ => match self with
         | Some q => run_op m q (ASet (Priv false) (AVal (jval d)))
         | None => (m, Raise AttributeError)
         end
  end.

(** The text after the last ":", if any (742-745). *)
Definition after_colon (key : str) : str := last (split_on 58 key) [].
(** [val.split(":", 1)[1]] for a text with a ":". *)
Fixpoint after_first_colon (s : str) : str :=
  match s with [] => [] | c :: s' => if N.eqb c 58 then s' else after_first_colon s' end.
Definition has_char (c : N) (s : str) : bool := existsb (N.eqb c) s.

Definition s_ytype (s : schema) : str :=
  match s with
  | SLeaf _ _ _ yt _ => yt | SLeafList _ _ yt => yt | SCont _ _ _ => lit "container" | SList _ _ _ _ => lit "list"
  end.

(** lib/serialise.py:835-876: the value is set with the setter of the child; keys were set when the
    entry was added. *)
Definition ietf_value (s : schema) (j : json) : res json :=
  j1 <- (if str_eqb (s_ytype s) (lit "empty")
         then match j with JArr [JNull] => Ok (JBool true) | _ => Raise ValueError end
         else Ok j) ;;
  (if str_eqb (s_ytype s) (lit "identityref")
   then match j1 with
        | JStr v => Ok (JStr (if has_char 58 v then after_first_colon v else v))
        | JArr l => if existsb (fun e => match e with JStr [58%N] => true | _ => false end) l
                    then Raise AttributeError else Ok j1
        | JObj _ => Ok j1
        | _ => Raise TypeError
        end
   else Ok j1).
Definition std_set (q : list pstep) (s : schema) (j : json) (m : list obj) : step :=
  if is_key s then (m, Ok tt)
  else match ietf_value s j with
       | Raise e => (m, Raise e)
       | Ok JNull => (m, Ok tt)
       | Ok j' => run_op m q (ASet (Priv false) (AVal (jval j')))
       end.

(** lib/serialise.py:791-796 (overwrite): every existing key is deleted, iterating over the keys. *)
Definition wipe (q : list pstep) (m : list obj) : step :=
  match map fst (entries m q) with
  | [] => (m, Ok tt)
  | k :: ks => andthen (run_op m q (AList [] (YDelete k)))
                 (fun m => match ks with [] => (m, Ok tt) | _ => (m, Raise RuntimeError) end)
  end.

(** [elem[ykv]] for each key; the YANG name of a key is taken from the key leaf. *)
Definition elem_get (elem : json) (n : str) : res pyval :=
  match elem with
  | JObj ms => match assoc n ms with Some j => Ok (jval j) | None => Raise KeyError end
  | _ => Raise TypeError
  end.
Definition yang_key (cs : list schema) (k : str) : res str :=
  match kid_index k cs with
  | Some n => match nth_error cs n with Some s => Ok (e_yang (s_info s)) | None => Raise KeyError end
  | None => Raise KeyError
  end.
Definition elem_keys (cs : list schema) (keys : list str) (elem : json) : res (list (str * pyval)) :=
  map_res (fun k => y <- yang_key cs k ;; v <- elem_get elem y ;; Ok (k, v)) keys.

(** lib/serialise.py:797-820: find or add the entry for [elem]; the key under which it is then found. *)
Definition ietf_entry (q : list pstep) (keys : list str) (cs : list schema) (elem : json) (m : list obj)
  : list obj * res pyval :=
  let es := entries m q in
  let found k := (m, Ok k) in
  let added (o : yop obj) k := match run_op m q (AList (uid es) o) with
                               | (m', Ok _) => (m', Ok k)
                               | (m', Raise e) => (m', Raise e)
                               end in
  match keys with
  | [] => added YAddNone (VStr (uid es))
  | [n] => match elem_keys cs keys elem with
           | Ok [(_, k)] => if negb (hashable k) then (m, Raise TypeError)
                            else if mhas k es then found k else added (YAdd k) k
           | Ok _ => (m, Raise KeyError)
           | Raise e => (m, Raise e)
           end
  | _ => match elem_keys cs keys elem with
         | Ok kd => let k := VStr (rstrip_sp (key_text O kd)) in
                    if mhas k es then found k else added (YAddKw kd) (VStr (key_text O kd))
         | Raise e => (m, Raise e)
         end
  end.

(** lib/serialise.py:715-876, [load_ietf_json].  Metadata ("@..." members) are stored in the objects'
    [_metadata]; here they are skipped, Annotate.v has them. *)
Fixpoint load_ietf (overwrite skip : bool) (cs : list schema) (self : option (list pstep)) (p : list pstep)
  (d : json) (m : list obj) {struct d} : step :=
  match d with
  | JObj ms =>
      for_each (fun kj m =>
        let found := find_kid (after_colon (fst kj)) cs in
        if has_char 64 (fst kj) then (m, Ok tt)
        else match snd kj with
             | JObj _ =>
                 match found with
                 | None => if skip then (m, Ok tt) else (m, Raise AttributeError)
                 | Some (n, s) =>
                     let q := p ++ [Kid n] in
                     match s with
                     | SCont _ pr cs' =>
                         andthen (if pr then run_op m q (APresent true) else (m, Ok tt))
                           (load_ietf overwrite skip cs' (Some q) q (snd kj))
                     | _ => load_ietf overwrite skip [] (Some q) q (snd kj) m
                     end
                 end
             | JArr [] => (m, Ok tt)
             | JArr elems =>
                 match found with
                 | None => (m, Raise AttributeError)
                 | Some (n, s) =>
                     let q := p ++ [Kid n] in
                     match s with
                     | SList _ keys _ cs' =>
                         for_each (fun f m => f m)
                           (map (fun elem m =>
                              andthen (if overwrite then wipe q m else (m, Ok tt)) (fun m =>
                              match ietf_entry q keys cs' elem m with
                              | (m, Raise e) => (m, Raise e)
                              | (m, Ok k) => load_ietf overwrite skip cs' (Some q) (q ++ [Ent k]) elem m
                              end)) elems) m
                     | _ => std_set q s (snd kj) m
                     end
                 end
             | _ =>
                 match found with
                 | None => if skip then (m, Ok tt) else (m, Raise AttributeError)
                 | Some (n, s) => std_set (p ++ [Kid n]) s (snd kj) m
                 end
             end) ms m
  | _ => match self with
         | Some q => run_op m q (ASet (Priv false) (AVal (jval d)))
         | None => (m, Raise AttributeError)
         end
  end.

(** loads and loads_ietf into a new module object; load_json / load_ietf_json into an existing one. *)
Definition load_json (overwrite skip : bool) (d : json) (m : list obj) : step :=
  load overwrite skip false top None [] d m.
Definition load_ietf_json (overwrite skip : bool) (d : json) (m : list obj) : step :=
  load_ietf overwrite skip top None [] d m.
Definition loads (d : json) : step := load_json false false d (module_new O top).
Definition loads_ietf (d : json) : step := load_ietf_json false false d (module_new O top).
End Load.
