(** Where definitions are, and what they are called. *)
From Verif Require Import PyStr PyVal Identity Collect.

Section Spec.
Context {D : Type} (c : str -> option (ymod D)).

(** The statements contain such a definition, at any depth. *)
Inductive written (kw : str) : list (stm D) -> str -> D -> Prop :=
| written_here body n d : In (Defn kw n d) body -> written kw body n d
| written_inside body kw' b body' n d : In (Block kw' b body') body -> written kw body' n d -> written kw body n d.
(** The statements in which YANG 1.0 allows typedefs besides the module itself. *)
Definition scopes : list str := map lit ["container"; "list"; "grouping"; "rpc"; "input"; "output"; "notification"]%string.
(** The statements contain such a definition, at the top or in a scope with data nodes. *)
Inductive defines (kw : str) : list (stm D) -> str -> D -> Prop :=
| def_here body n d : In (Defn kw n d) body -> defines kw body n d
| def_inside body kw' body' n d : In (Block kw' true body') body -> In kw' scopes -> defines kw body' n d -> defines kw body n d.

(** [m] imports [m'] with the prefix [p], itself or in one of its submodules. *)
Definition includes (m sub : ymod D) : Prop := exists n, In n (mo_includes m) /\ c n = Some sub.
Definition imports (m : ymod D) (p : str) (m' : ymod D) : Prop :=
  exists n, c n = Some m' /\ (In (n, p) (mo_imports m) \/ exists sub, includes m sub /\ In (n, p) (mo_imports sub)).
(** The modules that the given ones need. *)
Inductive needed (ms : list (ymod D)) : ymod D -> Prop :=
| needed_given m : In m ms -> needed ms m
| needed_import m p m' : needed ms m -> imports m p m' -> needed ms m'.
Definition own_prefix (m : ymod D) (p : str) : Prop := mo_prefix m = Some p \/ (mo_prefix m = None /\ mo_belongs m = Some p).
(** What stands under a prefix: modules, their submodules, and imported modules. *)
Inductive under (ms : list (ymod D)) : str -> ymod D -> Prop :=
| under_own m p : needed ms m -> own_prefix m p -> under ms p m
| under_sub m p sub : needed ms m -> own_prefix m p -> includes m sub -> under ms p sub
| under_import m p m' : needed ms m -> imports m p m' -> under ms p m'.

(** A number for each module that is smaller for those it imports. *)
Definition ranked (rank : ymod D -> nat) (ms : list (ymod D)) : Prop :=
  forall m p m', needed ms m -> imports m p m' -> (rank m' < rank m)%nat.
(** An import that leads back. *)
Inductive leads (m : ymod D) : ymod D -> Prop :=
| leads_one p m' : imports m p m' -> leads m m'
| leads_more p m' m'' : leads m m' -> imports m' p m'' -> leads m m''.
Definition prefixed (ms : list (ymod D)) : Prop := forall m, needed ms m -> exists p, own_prefix m p.
(** Modules are what their names stand for. *)
Definition by_name (ms : list (ymod D)) : Prop := (forall m, In m ms -> c (mo_name m) = Some m) /\ forall n m, c n = Some m -> mo_name m = n.
(** Prefixes and names are identifiers, which have no colons. *)
Definition no_colons (ms : list (ymod D)) (kw : str) : Prop :=
  forall p m, under ms p m -> (~ In 58%N p) /\ forall n d, defines kw (mo_body m) n d -> ~ In 58%N n.
End Spec.
