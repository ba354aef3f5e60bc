(** The XML encoder and decoder.  No proofs in this file.

    A document is its tree of elements.  The text in between is not modelled: tostring followed by
    fromstring with the decoder's parser (lib/serialise.py:464-466) is taken to keep the elements, their
    names, namespaces and prefix declarations, and every text; no text and the empty text are the same. *)
From Verif Require Import PyStr PyVal Restricted Spec_Lists TypedList YList SafeName Tree Spec_Tree Serialise.
Local Open Scope Z_scope.

(** An element: namespace, local name, declared prefixes (other than the default one), text, children. *)
Inductive xml := XElem (ns name : str) (decl : list (str * str)) (text : str) (kids : list xml).
Definition x_ns (e : xml) : str := match e with XElem ns _ _ _ _ => ns end.
Definition x_name (e : xml) : str := match e with XElem _ n _ _ _ => n end.
Definition x_decl (e : xml) : list (str * str) := match e with XElem _ _ d _ _ => d end.
Definition x_text (e : xml) : str := match e with XElem _ _ _ t _ => t end.
Definition x_kids (e : xml) : list xml := match e with XElem _ _ _ _ ks => ks end.

(* ------------------------------------------------------------------ encoding *)
(** The characters lxml accepts in a text (XML 1.0, Char); others are a ValueError. *)
Definition xml_char (c : N) : bool :=
  (N.eqb c 9 || N.eqb c 10 || N.eqb c 13 || (N.leb 32 c && N.leb c 55295) ||
   (N.leb 57344 c && N.leb c 65533) || (N.leb 65536 c && N.leb c 1114111))%N.
Definition legal_text (s : str) : res str := if forallb xml_char s then Ok s else Raise ValueError.

(** What generate_ietf_tree returns with the names of the XML encoder: the elements at the leaves; every
    name stands with its map of prefixes. *)
Inductive xtree :=
| XtLeaf (i : einfo) (lt : ltype) (yt : str) (v : pyval)
| XtLeafList (ts : list pty) (l : list pyval)
| XtDict (l : list (einfo * list (str * str) * xtree))
| XtList (l : list xtree).

Section Enc.
(** [im i s], [ins i s]: "@module" and "@namespace" recorded for identity [s] in the class of leaf [i]. *)
Context (O : oracle) (im ins : einfo -> str -> option str).

(** lib/serialise.py:366-375 ([yname_ns_func]; called at 422), for every child, whether it is then written or not: the
    prefix of a set identityref.  A leaf-list has no [_enumeration_dict]. *)
Definition prefixes (s : schema) (x : obj) : res (list (str * str)) :=
  match s, x with
  | SLeaf i _ _ yt _, OLeaf ch v =>
      if str_eqb yt (lit "identityref") && ch then
        match im i (py_str O v), ins i (py_str O v) with
        | Some m, Some n => Ok [(m, n)]
        | _, _ => Raise KeyError
        end
      else Ok []
  | SLeafList _ _ yt, OLeafList ch _ => if str_eqb yt (lit "identityref") && ch then Raise AttributeError else Ok []
  | _, _ => Ok []
  end.

(** lib/serialise.py:391-450 (generate_ietf_tree, with_defaults=None): the member for one child, if any. *)
Fixpoint xgen_kid (flt : bool) (s : schema) (x : obj) {struct s} : res (option (einfo * list (str * str) * xtree)) :=
  let gens := fix gens cs kids := match cs, kids with
    | s :: cs', x :: kids' => o <- xgen_kid flt s x ;; r <- gens cs' kids' ;;
                              Ok (match o with Some m => m :: r | None => r end)
    | _, _ => Ok []
    end in
  d <- prefixes s x ;;
  match s, x with
  | SLeaf i lt _ yt _, OLeaf ch v => Ok (if negb flt || ch then Some (i, d, XtLeaf i lt yt v) else None)
  | SLeafList i ts _, OLeafList ch l => Ok (if negb flt || ch then Some (i, d, XtLeafList ts l) else None)
  | SCont i _ cs, OCont _ pres kids =>
      l <- gens cs kids ;;
      Ok (match l with [] => if pres then Some (i, d, XtDict []) else None | _ => Some (i, d, XtDict l) end)
  | SList i _ _ cs, OList _ es =>
      ls <- map_res (fun e => match snd e with OCont _ _ kids => l <- gens cs kids ;; Ok (XtDict l) | _ => Ok (XtDict []) end) es ;;
      Ok (match ls with [] => None | _ => Some (i, d, XtList ls) end)
  | _, _ => Ok None
  end.
Fixpoint xgen_kids (flt : bool) (cs : list schema) (kids : list obj) : res (list (einfo * list (str * str) * xtree)) :=
  match cs, kids with
  | s :: cs', x :: kids' => o <- xgen_kid flt s x ;; r <- xgen_kids flt cs' kids' ;;
                            Ok (match o with Some m => m :: r | None => r end)
  | _, _ => Ok []
  end.

(** lib/serialise.py:253-264 (XmlYangDataSerialiser) and 353-360: the text for a leaf. *)
Definition scalar_text (j : json) : str :=
  match j with
  | JNull => []
  | JBool b => if b then lit "true" else lit "false"
  | _ => py_str O (jval j)
  end.
Definition leaf_text (i : einfo) (lt : ltype) (yt : str) (v : pyval) : res str :=
  if str_eqb yt (lit "empty") then Ok []
  else j <- enc_leaf O im true i lt yt v ;; legal_text (scalar_text j).
(** lib/serialise.py:258-261 and 339-343: the text for a member of a leaf-list. *)
Definition member_text (ts : list pty) (v : pyval) : res str :=
  j <- enc_member O true ts v ;; legal_text (py_str O (jval j)).

(** lib/serialise.py:330-363 (generate_xml_tree) on what preprocess_element (75-93, 95-102) makes of the
    tree: the elements for one member.  The values are converted while the elements are made, in the
    code before; which of two exceptions is raised can differ. *)
Fixpoint elements (i : einfo) (d : list (str * str)) (t : xtree) {struct t} : res (list xml) :=
  match t with
  | XtLeaf li lt yt v => s <- leaf_text li lt yt v ;; Ok [XElem (e_ns i) (e_yang i) d s []]
  | XtLeafList ts l => map_res (fun v => s <- member_text ts v ;; Ok (XElem (e_ns i) (e_yang i) d s [])) l
  | XtDict l =>
      ks <- map_res (fun m => match m with (i', d', t') => elements i' d' t' end) l ;;
      Ok [XElem (e_ns i) (e_yang i) d [] (concat ks)]
  | XtList l => es <- map_res (elements i d) l ;; Ok (concat es)
  end.

(** lib/serialise.py:377-383, [encode(obj, filter=flt)] for the module object named [name] with namespace
    [ns]. *)
Definition encode (flt : bool) (ns name : str) (cs : list schema) (kids : list obj) : res xml :=
  l <- xgen_kids flt cs kids ;;
  ks <- map_res (fun m => match m with (i', d', t') => elements i' d' t' end) l ;;
  Ok (XElem ns name [] [] (concat ks)).
End Enc.

(* ------------------------------------------------------------------ decoding *)
(** A sign, if any, and digits. *)
Definition int_literal (s : str) : bool :=
  let digits l := match l with [] => false | _ => forallb is_digit l end in
  match s with
  | c :: s' => if N.eqb c 45 || N.eqb c 43 then digits s' else digits s
  | [] => false
  end.

(** The value lxml.objectify sees in a text ([pyval]): an integer, any other number, a boolean, a string,
    in this order.  [ft]: the texts taken for numbers other than a sign and digits - floats, and what
    else its recognisers let through. *)
Definition objectified (ft : str -> option pyval) (s : str) : pyval :=
  match s with
  | [] => VStr []
  | _ => match (if int_literal s then parse_int s else None) with
         | Some z => VInt z
         | None => match ft s with
                   | Some v => v
                   | None => if str_eqb s (lit "true") then VBool true
                             else if str_eqb s (lit "false") then VBool false else VStr s
                   end
         end
  end.

Section Load.
(** As for JSON ([Serialise.Load]), and [ft] as above. *)
Context (O : oracle) (ft : str -> option pyval) (uid : list (pyval * obj) -> str) (top : list schema).
Notation run_op := (run_op O top).

(** [child[ykv]]: the first child of that name in the element's own namespace. *)
Definition child_of (e : xml) (n : str) : res xml :=
  match find (fun c => str_eqb (x_ns c) (x_ns e) && str_eqb (x_name c) n) (x_kids e) with
  | Some c => Ok c
  | None => Raise AttributeError
  end.

(** lib/serialise.py:516-522: the keys of an entry.  The values handed to add() are elements; in the model
    they are the values seen in their texts: str(), int() and the tests of the restrictions give the same
    for both - except len(), which for an element counts the siblings of its name, so that keys with a
    length restriction are not modelled here.  Nor are elements with children (TypeError). *)
Definition xml_keys (cs : list schema) (keys : list str) (e : xml) : res (list (str * pyval)) :=
  map_res (fun k => y <- yang_key cs k ;; c <- child_of e y ;;
                    match x_kids c with [] => Ok (k, objectified ft (x_text c)) | _ => Raise TypeError end) keys.
(** lib/serialise.py:511-526: find or add the entry; the key under which it is then found.  Without keys
    NotImplementedError, which is a RuntimeError. *)
Definition xml_entry (q : list pstep) (keys : list str) (cs : list schema) (e : xml) (m : list obj)
  : list obj * res pyval :=
  match keys with
  | [] => (m, Raise RuntimeError)
  | _ => match xml_keys cs keys e with
         | Raise ex => (m, Raise ex)
         | Ok kd => let es := entries m q in
                    let k := VStr (key_text O kd) in
                    if mhas k es then (m, Ok k)
                    else match run_op m q (AList (uid es) (YAddKw kd)) with
                         | (m', Ok _) => (m', Ok k)
                         | (m', Raise ex) => (m', Raise ex)
                         end
         end
  end.

(** lib/serialise.py:533-546: one member of a leaf-list. *)
Definition xml_member (q : list pstep) (ts : list pty) (e : xml) (m : list obj) : step :=
  match x_kids e with
  | _ :: _ => (m, Raise AttributeError)
  | [] =>
      let v := objectified ft (x_text e) in
      match run_op m q (ALeafList (LAppend v)) with
      | (m', Raise ValueError) =>
          if existsb (fun t => match t with TStr => true | _ => false end) ts
          then run_op m' q (ALeafList (LAppend (VStr (py_str O v)))) else (m', Raise ValueError)
      | r => r
      end
  end.

(** lib/serialise.py:553-562: what is assigned to a leaf, if anything. *)
Definition xml_value (yt : str) (t : str) : res (option pyval) :=
  if str_eqb yt (lit "empty") then match t with [] => Ok (Some (VBool true)) | _ => Raise ValueError end
  else if str_eqb yt (lit "identityref") then
    match t with
    | [] => Raise TypeError
    | _ => Ok (Some (VStr (if has_char 58 t then after_first_colon t else t)))
    end
  else Ok (match t with [] => None | _ => Some (VStr t) end).
(** lib/serialise.py:548-568: a leaf. *)
Definition xml_set (q : list pstep) (s : schema) (e : xml) (m : list obj) : step :=
  if is_key s then (m, Ok tt)
  else match xml_value (s_ytype s) (x_text e) with
       | Raise ex => (m, Raise ex)
       | Ok None => (m, Ok tt)
       | Ok (Some v) => run_op m q (ASet (Priv false) (AVal v))
       end.

(** lib/serialise.py:469-570, [load_xml(d, obj=...)] for the container (or list entry, or module) at path
    [p] with children [cs].  The kind of a child is that of its class; types named "container" or "list"
    are not modelled. *)
Fixpoint load_xml (cs : list schema) (p : list pstep) (e : xml) (m : list obj) {struct e} : step :=
  match e with
  | XElem _ _ _ _ kids =>
      for_each (fun c m =>
        match find_kid (x_name c) cs with
        | None => (m, Raise AttributeError)
        | Some (n, s) =>
            let q := p ++ [Kid n] in
            match s with
            | SCont _ pr cs' =>
                andthen (if pr then run_op m q (APresent true) else (m, Ok tt)) (load_xml cs' q c)
            | SList _ keys _ cs' =>
                match xml_entry q keys cs' c m with
                | (m, Raise ex) => (m, Raise ex)
                | (m, Ok k) => load_xml cs' (q ++ [Ent k]) c m
                end
            | SLeafList _ ts _ => xml_member q ts c m
            | SLeaf _ _ _ _ _ => xml_set q s c m
            end
        end) kids m
  end.

(** decode(xml, bindings, module_name), 462-467: a new module object; load_xml into an existing one. *)
Definition load_doc (e : xml) (m : list obj) : step := load_xml top [] e m.
Definition decode (e : xml) : step := load_doc e (module_new O top).
End Load.
