(** What users expect of split classes: they can be imported. *)
From Verif Require Import PyStr PyVal SafeName Tree Compile Split.

(** The name [md] in [md.c] is, in file [f], the module that holds the class [c]: it is imported, no class
    written to the file has its name, and one class called [c] is written to the directory of that name. *)
Definition finds (fs : list pyfile) (f : pyfile) (md c : str) : Prop :=
  In md (f_imports f) /\ (forall f', In f' fs -> f_dir f' = f_dir f -> f_class f' <> md) /\
  exists g, In g fs /\ f_dir g = f_dir f ++ [md] /\ f_class g = c /\ forall g', In g' fs -> f_dir g' = f_dir g -> f_class g' = c -> g' = g.
(** Each class is found by the class above it, and none of the names of the head of the file is taken. *)
Definition importable (fs : list pyfile) : Prop :=
  (forall f md c, In f fs -> In (md, c) (f_uses f) -> finds fs f md c) /\
  (forall f n, In f fs -> In n header_names -> ~ In n (f_imports f) /\ f_class f <> n).

(** Children of a node; cases of choices do not count. *)
Inductive child_of : list ystmt -> ystmt -> Prop :=
| ch_here s ss : In s ss -> (forall n c cases, s <> YChoice n c cases) -> child_of ss s
| ch_case n c cases k ss ss' s : In (YChoice n c cases) ss -> In (k, ss') cases -> child_of ss' s -> child_of ss s.
Definition node_of (s : ystmt) (n : str) (cs : list ystmt) : Prop :=
  (exists h pr, s = YCont h pr cs /\ y_name h = n) \/ (exists h k od, s = YList h k od cs /\ y_name h = n).

(** Names have at least a letter. *)
Inductive named (po : bool) : list ystmt -> Prop :=
| nm cs : (forall a, In a (flat_map (class_names po) cs) -> a <> []) ->
    (forall s n sub, child_of cs s -> node_of s n sub -> named po sub) -> named po cs.

Definition reserved (n : str) : Prop := In (replace_ch 46 95 (replace_ch 45 95 n)) reserved_name.
(** The node [n] and all below: the names of its children with classes differ, also in Python; those that
    differ from [n] do so in Python; one called [n] is not a reserved word, and no other is [n] with "_"
    behind it; no name is one of the head of the file,
    also with that "_". *)
Inductive tidy (po : bool) : str -> list ystmt -> Prop :=
| td n cs : NoDup (map safe_name (flat_map (class_names po) cs)) ->
    (forall a, In a (flat_map (class_names po) cs) -> a <> [] /\ (a <> n -> safe_name a <> safe_name n) /\ ~ In (safe_name a) header_names) ->
    (In n (flat_map (class_names po) cs) -> ~ reserved n /\ ~ In (safe_name n ++ lit "_") header_names /\ forall a, In a (flat_map (class_names po) cs) -> safe_name a <> safe_name n ++ lit "_") ->
    (forall s n' sub, child_of cs s -> node_of s n' sub -> tidy po n' sub) -> tidy po n cs.
