(** What the members of a union are. *)
From Verif Require Import PyStr PyVal PathHelper Restricted Typedefs Spec_Typedefs.
Import ListNotations.

(** The types that a union consists of, in the order in which they are tried: the union itself or a typedef of it, and the
    unions among its members in their turn. *)
Inductive union_members (tds : list tdef) : ytype -> list ytype -> Prop :=
| um_union ty l : plain ty -> ty_arg ty = lit "union" -> each_member tds (ty_subs ty) l -> union_members tds ty l
| um_typedef ty td l : plain ty -> named tds (ty_arg ty) td -> union_members tds (td_type td) l -> union_members tds ty l
with each_member (tds : list tdef) : list ytype -> list ytype -> Prop :=
| em_nil : each_member tds [] []
| em_one s ss c l : chain tds s c -> each_member tds ss l -> each_member tds (s :: ss) (s :: l)
| em_union s ss l1 l2 : union_members tds s l1 -> each_member tds ss l2 -> each_member tds (s :: ss) (l1 ++ l2).

(** A type that is one of YANG, or leads to it through typedefs without restrictions. *)
Inductive leads (tds : list tdef) (ty0 : ytype) : ytype -> Prop :=
| leads_end : In (ty_arg ty0) yang_types -> (forall b l, ty_bases ty0 = b :: l -> ~ In b yang_types /\ forall td, ~ named tds b td) -> leads tds ty0 ty0
| leads_typedef ty td : plain ty -> named tds (ty_arg ty) td -> leads tds ty0 (td_type td) -> leads tds ty0 ty.
(** The type itself gives no default. *)
Definition without_default (tds : list tdef) (ty : ytype) : Prop := plain ty -> forall td, named tds (ty_arg ty) td -> td_default td = None.
(** A bits statement. *)
Definition bits_here (ty : ytype) : Prop := plain ty /\ ty_arg ty = lit "bits".
(** The class of the built-in type in whose terms the defaults of [ty] are written. *)
Definition base_class (ty : ytype) (t : pty) (q : bool) : Prop := look (base_key ty) builtin_map = Some (builtin t q).
