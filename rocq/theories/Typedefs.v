(** Types in the plugin: build_typedefs and build_elemtype of plugin/pybind.py, and the part of get_element
    that determines the type and the default of a leaf.  No proofs in this file.

    What pyang knows about modules is the parameter [modules] of Identity.v; here [m_prefix] gives for a
    module or submodule the prefix of the main module (pybind.py:526-532).  Not in the model: the kind of
    class ([cls]), the number of bits of an integer, the values of an enumeration, and the texts of the code
    that is generated: a native type is the type that its text denotes ([pty] of Restricted.v). *)
From Verif Require Import PyStr PyVal PathHelper Identity Restricted IntTypes.

(** A type statement, with the arguments of its substatements. *)
Inductive ytype := YType {
  ty_arg : str; ty_patterns : list str; ty_length : option str; ty_range : option str;
  ty_enums : list (str * option str); ty_digits : option str; ty_path : option str; ty_require : option str;
  ty_bases : list str; ty_bits : list (str * option str); ty_subs : list ytype }.
(** A typedef statement: its key "prefix:name" (helpers/misc.py:34-40), its module, its type and its default. *)
Record tdef := { td_key : str; td_module : str; td_type : ytype; td_default : option str }.

(** Entries of class_map, of type native_type (a list for a typedef of a union), base_type, parent_type, default,
    quote_arg, whether there is a pytype (in the built-in entries), referenced_path and require_instance. *)
Inductive native := NOne (t : pty) | NMany (ts : list pty).
Inductive parents := POne (p : str) | PMany (ps : list str).
Record centry := { ce_native : native; ce_base : bool; ce_parent : option parents; ce_default : option str; ce_quote : bool; ce_pytype : bool; ce_ref : option (str * bool) }.
Definition class_map := list (str * centry).
(** build_elemtype gives an entry, or for a union a list of entries, each with its yang_type. *)
Inductive elemtype := EOne (e : centry) | EUnion (l : list (str * centry)).

Definition builtin (t : pty) (quote : bool) : centry :=
  {| ce_native := NOne t; ce_base := true; ce_parent := None; ce_default := None; ce_quote := quote; ce_pytype := true; ce_ref := None |}.
Definition derived_entry (t : pty) (parent : str) : centry :=
  {| ce_native := NOne t; ce_base := false; ce_parent := Some (POne parent); ce_default := None; ce_quote := false; ce_pytype := false; ce_ref := None |}.
(** pybind.py:92-180. *)
Definition int_entry (name : String.string) : list (str * centry) :=
  match class_map_int name with Some t => [(lit name, builtin t false)] | None => [] end.
Definition builtin_map : class_map :=
  [(lit "boolean", builtin TBool true); (lit "binary", builtin TBinary true)] ++ int_entry "uint8" ++ [(lit "bits", builtin (TBits []) true)] ++
  int_entry "uint16" ++ int_entry "uint32" ++ int_entry "uint64" ++ [(lit "string", builtin TStr true); (lit "decimal64", builtin TDecimal false); (lit "empty", builtin TBool true)] ++
  int_entry "int8" ++ int_entry "int16" ++ int_entry "int32" ++ int_entry "int64".
(** pybind.py:467-479: the entries of the identities. *)
Definition no_at (keys : list str) : list str := filter (fun k => negb (startswith (lit "@") k)) keys.
Definition identity_entries (D : list (str * values)) (cm : class_map) : class_map :=
  fold_left (fun cm kv => dict_set (fst kv) (derived_entry (TRestr TStr [RDict (no_at (map fst (snd kv)))]) (lit "string")) cm) D cm.

(** pybind.py:1237-1248: the parts of a length or a range. *)
Definition spec_parts (s : str) : list str := if ch_in 124 s then map (replace_str 32 []) (split_on 124 s) else [s].
(** pybind.py:1226-1248. *)
Definition restrictions (et : ytype) : list restr :=
  match ty_patterns et with p :: _ => [RPattern p] | [] => [] end ++
  match ty_length et with Some s => [RLength (spec_parts s)] | None => [] end ++
  match ty_range et with Some s => [RRange (spec_parts s)] | None => [] end.

(** pybind.py:1356-1363.  A bit without a position needs one more than the largest of the names: of an empty
    dictionary a ValueError, otherwise a TypeError. *)
Fixpoint bit_positions (allowed : list (str * str)) (bits : list (str * option str)) : res (list (str * str)) :=
  match bits with
  | [] => Ok allowed
  | (b, Some p) :: bits' => bit_positions (dict_set b p allowed) bits'
  | (_, None) :: _ => Raise (match allowed with [] => ValueError | _ => TypeError end)
  end.
(** pybind.py:49. *)
Definition class_bool_map (s : str) : res bool :=
  if str_in s [lit "false"; lit "False"] then Ok false else if str_in s [lit "true"; lit "True"] then Ok true else Raise KeyError.

(** pybind.py:1221-1400, [build_elemtype], called without a prefix.  sys.exit is a RuntimeError; so are a
    restriction on a type that is a union (the generated text is not a type), and fraction-digits
    that are no number. *)
Section Elemtype.
Context (xpath : bool) (cm : class_map).
Fixpoint build_elemtype (et : ytype) : res elemtype :=
  let arg := ty_arg et in
  match restrictions et with
  | (_ :: _) as rs =>
      match look arg cm with
      | None => Raise KeyError
      | Some e => match ce_native e with NOne t => Ok (EOne (derived_entry (TRestr t rs) arg)) | NMany _ => Raise RuntimeError end
      end
  | [] =>
      if str_eqb arg (lit "enumeration") then
        _ <- map_r (fun ev => match snd ev with Some v => py_int (VStr v) | None => Ok 0%Z end) (ty_enums et) ;;
        Ok (EOne (derived_entry (TRestr TStr [RDict (no_at (map fst (ty_enums et)))]) (lit "string")))
      else if str_eqb arg (lit "decimal64") then
        match ty_digits et with
        | Some d => match parse_int d with Some z => Ok (EOne (derived_entry (TDecPrec z) (lit "decimal64"))) | None => Raise RuntimeError end
        | None => match look arg cm with Some e => Ok (EOne e) | None => Raise KeyError end
        end
      else if str_eqb arg (lit "union") then
        l <- (fix each (ts : list ytype) : res (list (str * centry)) :=
                match ts with
                | [] => Ok []
                | t :: ts' =>
                    et' <- build_elemtype t ;;
                    match et' with
                    | EOne e => l <- each ts' ;; Ok ((ty_arg t, e) :: l)
                    | EUnion _ => Raise TypeError (* 1314: elemtype_s[1] is a list *)
                    end
                end) (ty_subs et) ;;
        Ok (EUnion l)
      else if str_eqb arg (lit "leafref") then
        match ty_path et with
        | None => Raise ValueError
        | Some path =>
            req <- match ty_require et with Some r => class_bool_map r | None => Ok true end ;;
            if xpath then
              Ok (EOne {| ce_native := NOne TRef; ce_base := false; ce_parent := Some (POne (lit "string")); ce_default := None; ce_quote := false; ce_pytype := false; ce_ref := Some (path, req) |})
            else Ok (EOne (derived_entry TStr (lit "string")))
        end
      else if str_eqb arg (lit "identityref") then
        match ty_bases et with
        | [] => Raise ValueError
        | b :: _ => match look b cm with Some e => Ok (EOne e) | None => Raise RuntimeError end
        end
      else if str_eqb arg (lit "bits") then
        allowed <- bit_positions [] (ty_bits et) ;;
        Ok (EOne {| ce_native := NOne (TBits allowed); ce_base := true; ce_parent := Some (POne (lit "bits")); ce_default := None; ce_quote := true; ce_pytype := false; ce_ref := None |})
      else match look arg cm with Some e => Ok (EOne e) | None => Raise RuntimeError end
  end.
End Elemtype.

(** pybind.py:570-576: the types known, and the three that have no entry. *)
Definition known_types (cm : class_map) : list str := map fst cm ++ [lit "enumeration"; lit "leafref"; lit "bits"].

(** pybind.py:580-643: the entry of a typedef.  The default of a union member counts if the typedef has none
    (or an empty one). *)
Fixpoint union_parents (known : list str) (l : list (str * centry)) : res (list str) :=
  match l with
  | [] => Ok []
  | (t, e) :: l' =>
      p <- (if str_in t known then Ok t
            else if str_eqb t (lit "identityref") then match ce_parent e with Some (POne p) => Ok p | _ => Raise KeyError end
            else Raise TypeError) ;;
      ps <- union_parents known l' ;; Ok (p :: ps)
  end.
Fixpoint first_default (l : list centry) : option str :=
  match l with [] => None | e :: l' => match ce_default e with Some d => Some d | None => first_default l' end end.
Definition natives (n : native) : list pty := match n with NOne t => [t] | NMany ts => ts end.
Definition typedef_entry (known : list str) (td : tdef) (et : elemtype) : res centry :=
  match et with
  | EOne e =>
      p <- match ce_parent e with
           | Some p => Ok p
           | None => if str_in (ty_arg (td_type td)) known then Ok (POne (ty_arg (td_type td))) else Raise TypeError
           end ;;
      Ok {| ce_native := ce_native e; ce_base := false; ce_parent := Some p; ce_default := td_default td; ce_quote := ce_quote e; ce_pytype := false; ce_ref := ce_ref e |}
  | EUnion l =>
      ps <- union_parents known l ;;
      let d := match td_default td with Some ((_ :: _) as d) => Some d | _ => first_default (map snd l) end in
      Ok {| ce_native := NMany (flat_map (fun te => natives (ce_native (snd te))) l); ce_base := false; ce_parent := Some (PMany ps); ce_default := d; ce_quote := false; ce_pytype := false; ce_ref := None |}
  end.
(** pybind.py:564-645: the entries are made one after the other, under the key and under the bare name. *)
Definition bare (key : str) : res str := match split_on 58 key with _ :: n :: _ => Ok n | _ => Raise IndexError end.
Definition process_typedef (xpath : bool) (cm : class_map) (td : tdef) : res class_map :=
  et <- build_elemtype xpath cm (td_type td) ;;
  if str_in (td_key td) (known_types cm) then Raise TypeError
  else e <- typedef_entry (known_types cm) td et ;; b <- bare (td_key td) ;; Ok (dict_set b e (dict_set (td_key td) e cm)).
Fixpoint process_typedefs (xpath : bool) (cm : class_map) (tds : list tdef) : res class_map :=
  match tds with [] => Ok cm | td :: tds' => cm' <- process_typedef xpath cm td ;; process_typedefs xpath cm' tds' end.

(** pybind.py:501-512: the texts that a typedef refers to. *)
Definition subtype (t : ytype) : res str :=
  if str_eqb (ty_arg t) (lit "identityref") then match ty_bases t with b :: _ => Ok b | [] => Raise AttributeError end else Ok (ty_arg t).
Definition subtypes (t : ytype) : res (list str) :=
  if str_eqb (ty_arg t) (lit "union") then map_r subtype (ty_subs t) else r <- subtype t ;; Ok [r].
(** pybind.py:519-541: the key under which such a text is looked for. *)
Definition resolve_text (c : modules) (base_types : list str) (td : tdef) (t : str) : res str :=
  if ch_in 58 t then
    match split_on 58 t with
    | p :: n :: _ => match m_resolve c (td_module td) p with Some m => Ok (m_prefix c m ++ lit ":" ++ n) | None => Raise AttributeError end
    | _ => Raise IndexError
    end
  else if str_in t base_types then Ok t else Ok (m_prefix c (td_module td) ++ lit ":" ++ t).
Definition references (c : modules) (base_types : list str) (td : tdef) : res (list str) :=
  ts <- subtypes (td_type td) ;; map_r (resolve_text c base_types td) ts.
(** pybind.py:499-558: the worklist; [limit] is 1000. *)
Record ordering := { og_done : list tdef; og_errors : list tdef }.
Fixpoint order_loop (c : modules) (base_types : list str) (limit : nat) (fuel : nat) (queue : list (tdef * nat)) (known : list str) (og : ordering) : res ordering :=
  match queue with
  | [] => Ok og
  | (td, n) :: queue' =>
      match fuel with
      | 0%nat => Raise OutOfFuel
      | S fuel' =>
          refs <- references c base_types td ;;
          if forallb (fun r => str_in r known) refs then
            order_loop c base_types limit fuel' queue' (known ++ [td_key td]) {| og_done := og_done og ++ [td]; og_errors := og_errors og |}
          else if Nat.ltb limit (S n) then
            order_loop c base_types limit fuel' queue' known {| og_done := og_done og; og_errors := og_errors og ++ [td] |}
          else order_loop c base_types limit fuel' (queue' ++ [(td, S n)]) known og
      end
  end.
Definition order_typedefs (c : modules) (limit fuel : nat) (cm : class_map) (defs : list tdef) : res (list tdef) :=
  og <- order_loop c (known_types cm) limit fuel (map (fun td => (td, 0%nat)) defs) (known_types cm) {| og_done := []; og_errors := [] |} ;;
  match og_errors og with [] => Ok (og_done og) | _ => Raise TypeError end.
(** pybind.py:482-645, [build_typedefs]. *)
Definition build_typedefs (c : modules) (xpath : bool) (limit fuel : nat) (cm : class_map) (defs : list tdef) : res class_map :=
  tds <- order_typedefs c limit fuel cm defs ;; process_typedefs xpath cm tds.

(** pybind.py:1591-1594: the entry for enumeration has a parent only (reading its base_type is a KeyError). *)
Definition tmp_entry (cm : class_map) (k : str) : option (option parents * option centry) :=
  if str_eqb k (lit "enumeration") then Some (Some (POne (lit "string")), None)
  else match look k cm with Some e => Some (ce_parent e, Some e) | None => None end.
Definition parent_list (p : option parents) : list str := match p with Some (POne s) => [s] | Some (PMany l) => l | None => [] end.
(** pybind.py:1611-1620 and 1648-1657: the breadth-first search. *)
Fixpoint ancestors (fuel : nat) (cm : class_map) (to_visit checked : list str) : res (list str) :=
  match to_visit with
  | [] => Ok checked
  | k :: to_visit' =>
      match fuel with
      | 0%nat => Raise OutOfFuel
      | S fuel' =>
          if str_in k checked then ancestors fuel' cm to_visit' checked
          else match tmp_entry cm k with
               | None => Raise KeyError
               | Some (p, _) => ancestors fuel' cm (to_visit' ++ parent_list p) (checked ++ [k])
               end
      end
  end.
(** pybind.py:1404-1419, [find_absolute_default_type]: the first member whose type accepts the default; without
    one the function calls itself for ever. *)
Fixpoint absolute_default (O : oracle) (cm : class_map) (l : list (str * centry)) (v : str) : res centry :=
  match l with
  | [] => Raise RuntimeError
  | (_, e) :: l' =>
      tt <- (if ce_base e then Ok e
             else match ce_parent e with
                  | Some (POne p) => match look p cm with Some t => Ok t | None => Raise KeyError end
                  | Some (PMany _) => Raise TypeError
                  | None => Raise KeyError
                  end) ;;
      if ce_pytype tt then
        match ce_native tt with
        | NOne t => match ty_call O t (VStr v) with
                    | Ok _ => Ok tt
                    | Raise TypeError | Raise ValueError => absolute_default O cm l' v
                    | Raise e => Raise e
                    end
        | NMany _ => Raise TypeError (* not reached: built-in entries *)
        end
      else Raise KeyError
  end.
Definition last_default (l : list (str * centry)) : option (str * centry) :=
  fold_left (fun acc te => match ce_default (snd te) with Some d => Some (d, snd te) | None => acc end) l None.
Definition option_default (cm : class_map) (k : str) : option (str * centry) :=
  match look k cm with Some e => match ce_default e with Some d => Some (d, e) | None => None end | None => None end.
Fixpoint search_default (cm : class_map) (ks : list str) : option (str * centry) :=
  match ks with
  | [] => None
  | k :: ks' => if str_eqb k (lit "enumeration") then search_default cm ks' else match option_default cm k with Some r => Some r | None => search_default cm ks' end
  end.
(** pybind.py:1570-1628: the default and the entry that it belongs to. *)
Inductive default_at := DEntry (e : centry) | DUnion (l : list (str * centry)).
Definition choose_default (fuel : nat) (cm : class_map) (et : elemtype) (own : option str) : res (option (str * default_at)) :=
  match et with
  | EUnion l =>
      match last_default l with
      | Some (d, e) => Ok (Some (d, DEntry e))
      | None => Ok (option_map (fun d => (d, DUnion l)) own)
      end
  | EOne e =>
      match ce_default e, own with
      | Some d, _ => Ok (Some (d, DEntry e))
      | None, Some d => Ok (Some (d, DEntry e))
      | None, None =>
          match ce_parent e with
          | None => Ok None
          | Some p => ks <- ancestors fuel cm (parent_list (Some p)) [] ;; Ok (option_map (fun de => (fst de, DEntry (snd de))) (search_default cm ks))
          end
      end
  end.
(** pybind.py:1630-1666: the type with which the text of the default is converted. *)
Definition default_base (O : oracle) (fuel : nat) (cm : class_map) (d : str) (at_ : default_at) : res centry :=
  e <- match at_ with DEntry e => Ok e | DUnion l => absolute_default O cm l d end ;;
  if ce_base e then Ok e
  else ks <- ancestors fuel cm (parent_list (ce_parent e)) [] ;;
       match rev ks with
       | [] => Raise IndexError
       | k :: _ => match tmp_entry cm k with
                   | None => Raise KeyError
                   | Some (_, None) => Raise KeyError
                   | Some (_, Some b) => if ce_base b then Ok b else Raise TypeError
                   end
       end.
Definition leaf_default (O : oracle) (fuel : nat) (cm : class_map) (et : elemtype) (own : option str) : res (option (str * centry)) :=
  r <- choose_default fuel cm et own ;;
  match r with None => Ok None | Some (d, a) => b <- default_base O fuel cm d a ;; Ok (Some (d, b)) end.
(** pybind.py:1558, 1675-1709: the type of the leaf, or of the members of the leaf-list. *)
Definition leaf_ltype (et : elemtype) : ltype :=
  match et with
  | EOne e => match ce_native e with NOne t => LOne t | NMany ts => LUnion ts end
  | EUnion l => LUnion (flat_map (fun te => natives (ce_native (snd te))) l)
  end.
