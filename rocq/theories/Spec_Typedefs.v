(** What the types of a YANG module refer to. *)
From Verif Require Import PyStr PyVal Identity Restricted Spec_Types Typedefs.
From Coq Require Import ZArith.

(** The names that a type mentions: its own, those of the members of a union, the base of an identityref. *)
Definition mentions1 (ty : ytype) (t : str) : Prop :=
  (ty_arg ty <> lit "identityref" /\ t = ty_arg ty) \/ (ty_arg ty = lit "identityref" /\ exists l, ty_bases ty = t :: l).
Definition mentions (ty : ytype) (t : str) : Prop :=
  (ty_arg ty <> lit "union" /\ mentions1 ty t) \/ (ty_arg ty = lit "union" /\ exists s, In s (ty_subs ty) /\ mentions1 s t).
Definition has_base (ty : ytype) : Prop := ty_arg ty = lit "identityref" -> ty_bases ty <> [].

Section Spec.
Context (c : modules) (known : list str).
(** A name with a prefix denotes what the module with this prefix defines, under the prefix that the module has
    chosen itself; a name that is known denotes itself; any other name is one of the own module. *)
Definition denotes (td : tdef) (t k : str) : Prop :=
  (exists p n m, t = p ++ lit ":" ++ n /\ ~ In 58%N p /\ ~ In 58%N n /\ m_resolve c (td_module td) p = Some m /\ k = m_prefix c m ++ lit ":" ++ n) \/
  (~ In 58%N t /\ In t known /\ k = t) \/
  (~ In 58%N t /\ ~ In t known /\ k = m_prefix c (td_module td) ++ lit ":" ++ t).
Definition uses (td : tdef) (k : str) : Prop := exists t, mentions (td_type td) t /\ denotes td t k.
Definition well_formed (td : tdef) : Prop :=
  has_base (td_type td) /\ (forall s, In s (ty_subs (td_type td)) -> has_base s) /\ forall t, mentions (td_type td) t -> exists k, denotes td t k.
(** Known, or a typedef that uses only such names, in at most [n] steps. *)
Inductive grounded_in (defs : list tdef) : nat -> str -> Prop :=
| grounded_known n k : In k known -> grounded_in defs n k
| grounded_typedef n td : In td defs -> (forall k, uses td k -> grounded_in defs n k) -> grounded_in defs (S n) (td_key td).
(** Each typedef comes after all that it uses. *)
Definition in_order (tds : list tdef) : Prop :=
  forall l1 td l2, tds = l1 ++ td :: l2 -> forall k, uses td k -> In k known \/ exists td', In td' l1 /\ td_key td' = k.
End Spec.

(** The texts under which a typedef can be named: its key and its bare name. *)
Definition key_ok (td : tdef) : Prop := exists p n, td_key td = p ++ lit ":" ++ n /\ ~ In 58%N p /\ ~ In 58%N n.
Definition named (tds : list tdef) (t : str) (td : tdef) : Prop := In td tds /\ (t = td_key td \/ exists p, td_key td = p ++ lit ":" ++ t /\ ~ In 58%N p /\ ~ In 58%N t).
(** No text names two typedefs, or a typedef and something else. *)
Definition separate (known : list str) (tds : list tdef) : Prop :=
  (forall td, In td tds -> key_ok td) /\ (forall t td td', named tds t td -> named tds t td' -> td = td') /\ (forall t td, named tds t td -> ~ In t known).

(** A type without restrictions of its own; a type that is none of a typedef. *)
Definition plain (ty : ytype) : Prop := ty_patterns ty = [] /\ ty_length ty = None /\ ty_range ty = None.
Definition yang_types : list str :=
  map lit ["binary"; "bits"; "boolean"; "decimal64"; "empty"; "int8"; "int16"; "int32"; "int64"; "string"; "uint8"; "uint16"; "uint32"; "uint64"; "enumeration"; "leafref"; "identityref"]%string.
(** Nothing has the name of a type of YANG. *)
Definition no_type_names (names : list str) : Prop := forall t, In t names -> ~ In t (lit "union" :: yang_types).
Definition typedef_names (tds : list tdef) : Prop := forall t td, named tds t td -> ~ In t (lit "union" :: yang_types).
(** The map before the typedefs: the built-in types and the identities. *)
Definition from_identities (cm : class_map) : Prop := exists D, cm = identity_entries D builtin_map /\ no_type_names (map fst D).
(** The typedefs that a type goes through. *)
Inductive chain (tds : list tdef) : ytype -> list tdef -> Prop :=
| chain_end ty : In (ty_arg ty) yang_types -> (forall b l, ty_bases ty = b :: l -> ~ In b yang_types /\ forall td, ~ named tds b td) -> chain tds ty []
| chain_typedef ty td l : named tds (ty_arg ty) td -> chain tds (td_type td) l -> chain tds ty (td :: l).
(** The type at the end of a chain, and the built-in type in whose terms its defaults are written. *)
Fixpoint end_of (ty : ytype) (l : list tdef) : ytype := match l with [] => ty | td :: l' => end_of (td_type td) l' end.
Definition base_key (ty : ytype) : str := if str_in (ty_arg ty) [lit "enumeration"; lit "leafref"; lit "identityref"] then lit "string" else ty_arg ty.
(** The nearest default: that of the leaf, or the first one along the chain. *)
Fixpoint nearest (ds : list (option str)) : option str := match ds with [] => None | Some d :: _ => Some d | None :: ds' => nearest ds' end.
(** A default is passed over if it is that of a typedef which another typedef refers to without any restriction. *)
Fixpoint none_passed_over (l : list tdef) : Prop :=
  match l with
  | td :: (td' :: _) as l' => (plain (td_type td) -> td_default td' = None) /\ none_passed_over l'
  | _ => True
  end.

(** The text of a range or length: one part, or several with bars between them and blanks around them. *)
Definition tight (p : part) : Prop := match p with Between _ _ a b => a = 0%nat /\ b = 0%nat | Exactly _ => True end.
Definition written (s : str) (ps : list part) : Prop :=
  (exists p, ps = [p] /\ s = show_part p) \/
  (2 <= length ps /\ Forall tight ps /\ exists ws, Forall2 (fun w p => exists a b, w = spaces a ++ show_part p ++ spaces b) ws ps /\ s = join (lit "|") ws)%nat.
(** The restrictions in a type statement of a string (one pattern at most), and of all the type statements along
    the typedefs, outermost first. *)
Definition restricts (ty : ytype) (l : list srestr) : Prop := ty_range ty = None /\
  exists lp ll, l = lp ++ ll /\ ((ty_patterns ty = [] /\ lp = []) \/ (exists p, ty_patterns ty = [p] /\ lp = [SPattern p])) /\
    ((ty_length ty = None /\ ll = []) \/ (exists s ps, ty_length ty = Some s /\ written s ps /\ ll = [SLength ps])).
Definition level {A} (l : list A) (ls : list (list A)) : list (list A) := match l with [] => ls | _ => l :: ls end.
Inductive string_type (tds : list tdef) : ytype -> list (list srestr) -> Prop :=
| string_end ty l : ty_arg ty = lit "string" -> restricts ty l -> string_type tds ty (level l [])
| string_typedef ty l td ls : named tds (ty_arg ty) td -> restricts ty l -> string_type tds (td_type td) ls -> string_type tds ty (level l ls).
(** The same for integers: the ranges, and the built-in type at the end. *)
Definition ranged (ty : ytype) (l : list part) : Prop := ty_patterns ty = [] /\ ty_length ty = None /\
  ((ty_range ty = None /\ l = []) \/ (exists s, ty_range ty = Some s /\ written s l)).
Inductive int_type (tds : list tdef) (k : int_kind) : ytype -> list (list part) -> Prop :=
| int_end ty l : ty_arg ty = lit (kind_name k) -> ranged ty l -> int_type tds k ty (level l [])
| int_typedef ty l td ls : named tds (ty_arg ty) td -> ranged ty l -> int_type tds k (td_type td) ls -> int_type tds k ty (level l ls).
(** The bounds of each range are values of the ranges below it, and of the built-in type. *)
Fixpoint ranges_wf (k : int_kind) (ls : list (list part)) : Prop :=
  match ls with
  | [] => True
  | l :: ls' => Forall small_single l /\ Forall (fun p => Forall (fun b => in_levels b ls' /\ kind_ok k b) (part_bounds p)) l /\ ranges_wf k ls'
  end.
(** A type without restrictions that leads through typedefs without restrictions to [ty0]. *)
Inductive plain_type (tds : list tdef) (ty0 : ytype) : ytype -> Prop :=
| plain_end : plain ty0 -> plain_type tds ty0 ty0
| plain_typedef ty td : plain ty -> named tds (ty_arg ty) td -> plain_type tds ty0 (td_type td) -> plain_type tds ty0 ty.
