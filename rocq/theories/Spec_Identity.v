(** What identities are: names, derivation. *)
From Verif Require Import PyStr PyVal Identity.

Section Spec.
Context (c : modules).
(** The argument of a base statement in [d] names identity [n]: with a prefix, or in the own module. *)
Definition names (d : idef) (b : str) (n : ident) : Prop :=
  (exists p, b = p ++ lit ":" ++ snd n /\ ~ In 58%N p /\ ~ In 58%N (snd n) /\ m_resolve c (d_module d) p = Some (fst n)) \/
  (b = snd n /\ ~ In 58%N b /\ m_resolve c (d_module d) (m_prefix c (d_module d)) = Some (fst n)).
(** All base statements name something (which need not be defined); an identity is defined once. *)
Definition well_named (defs : list idef) : Prop := forall d b, In d defs -> In b (d_bases d) -> exists n, names d b n.
Definition defined_once (defs : list idef) : Prop := forall d d', In d defs -> In d' defs -> ident_of d = ident_of d' -> d = d'.
(** Derivation: one base statement, or several. *)
Inductive derived (defs : list idef) : ident -> ident -> Prop :=
| derived_base d b n : In d defs -> In b (d_bases d) -> names d b n -> derived defs n (ident_of d)
| derived_more n d b m : derived defs n m -> In d defs -> In b (d_bases d) -> names d b m -> derived defs n (ident_of d).
(** Defined, with bases that are defined, and so on, without going round in circles. *)
Inductive grounded (defs : list idef) : ident -> Prop :=
| grounded_by d : In d defs -> (forall b, In b (d_bases d) -> exists n, names d b n /\ grounded defs n) -> grounded defs (ident_of d).
(** The texts for an identity: the name alone, or with the name of the module, its prefix, or a prefix under
    which it is imported somewhere. *)
Definition prefix_of (m p : str) : Prop := p = m \/ p = m_prefix c m \/ In p (m_refs c m).
Definition text_of (n : ident) (t : str) : Prop := t = snd n \/ exists p, prefix_of (fst n) p /\ t = p ++ lit ":" ++ snd n.
End Spec.
