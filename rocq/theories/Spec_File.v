(** Vocabulary for the property of generated files (C78). *)
From Verif Require Import PyStr PyVal SafeName Spec_Names Tree Compile Spec_Compile Split Spec_Split File.

(** Sibling data nodes have different Python names, everywhere. *)
Inductive attrs_apart : ystmt -> Prop :=
| AaLeaf h lt d y : attrs_apart (YLeaf h lt d y)
| AaLeafList h ts y : attrs_apart (YLeafList h ts y)
| AaCont h pr cs : NoDup (map safe_name (flat_map level_names cs)) -> (forall s, In s cs -> attrs_apart s) -> attrs_apart (YCont h pr cs)
| AaList h key od cs : NoDup (map safe_name (flat_map level_names cs)) -> (forall s, In s cs -> attrs_apart s) -> attrs_apart (YList h key od cs)
| AaChoice n c cases : (forall k ss s, In (k, ss) cases -> In s ss -> attrs_apart s) -> attrs_apart (YChoice n c cases).
Definition attrs_apart_all (ss : list ystmt) : Prop := NoDup (map safe_name (flat_map level_names ss)) /\ forall s, In s ss -> attrs_apart s.

(** All names of data nodes are of letters and digits. *)
Definition alnum (n : str) : Prop := n <> [] /\ Forall (fun c => is_alpha c || is_digit c = true) n.
Inductive alnum_names : ystmt -> Prop :=
| AnLeaf h lt d y : alnum_names (YLeaf h lt d y)
| AnLeafList h ts y : alnum_names (YLeafList h ts y)
| AnCont h pr cs : alnum (y_name h) -> (forall s, In s cs -> alnum_names s) -> alnum_names (YCont h pr cs)
| AnList h key od cs : alnum (y_name h) -> (forall s, In s cs -> alnum_names s) -> alnum_names (YList h key od cs)
| AnChoice n c cases : (forall k ss s, In (k, ss) cases -> In s ss -> alnum_names s) -> alnum_names (YChoice n c cases).

(** The statement at a path of names - choices and cases have no place in it - and whether it and the statements on the way
    are configuration. *)
Definition conf (y : ystmt) : bool :=
  match y with YLeaf h _ _ _ | YLeafList h _ _ | YCont h _ _ | YList h _ _ _ => own_config (y_config h) | YChoice _ c _ => own_config c end.
Inductive stmt_at (ctx : bool) : list ystmt -> list str -> ystmt -> bool -> Prop :=
| SaHere ss y n : child_of ss y -> level_names y = [n] -> stmt_at ctx ss [n] y (ctx && conf y)
| SaIn ss y n cs p z b : child_of ss y -> node_of y n cs -> stmt_at (ctx && conf y) cs p z b -> stmt_at ctx ss (n :: p) z b.
(** Containers and lists without children are left out, but for presence containers under --presence. *)
Definition kept (po : bool) (y : ystmt) : Prop :=
  match y with
  | YCont _ pr cs => cs <> [] \/ (po = true /\ pr = true)
  | YList _ _ _ cs => cs <> []
  | _ => True
  end.
(** What [obj.a.b.c] is, for an object with the attributes [cs]; for a list, what its entries have. *)
Fixpoint attr_at (cs : list schema) (p : list str) : option schema :=
  match p with
  | [] => None
  | a :: p' =>
      match find (fun s => str_eqb a (e_py (s_info s))) cs with
      | None => None
      | Some s => match p' with
                  | [] => Some s
                  | _ => match s with SCont _ _ cs' | SList _ _ _ cs' => attr_at cs' p' | _ => None end
                  end
      end
  end.
(** It is the node that the statement declares. *)
Definition of_head (i : einfo) (h : yhead) : Prop := e_yang i = y_name h /\ e_ns i = y_ns h /\ e_mod i = y_mod h.
Definition stands_for (po : bool) (s : schema) (y : ystmt) : Prop :=
  match s, y with
  | SLeaf i lt d yt _, YLeaf h lt' d' yt' => of_head i h /\ lt = lt' /\ d = d' /\ yt = yt'
  | SLeafList i ts yt, YLeafList h ts' yt' => of_head i h /\ ts = ts' /\ yt = yt'
  | SCont i pr _, YCont h pr' _ => of_head i h /\ pr = po && pr'
  | SList i keys od _, YList h key od' _ => of_head i h /\ od = od' /\ keys = match key with Some k => list_key_attrs k | None => [] end
  | _, _ => False
  end.
(** The object has what the statements declare, and no more. *)
Definition as_declared (po : bool) (ss : list ystmt) (cs : list schema) : Prop :=
  (forall p y b, stmt_at true ss p y b -> kept po y -> exists s, attr_at cs (map safe_name p) = Some s /\ stands_for po s y /\ e_rw (s_info s) = b) /\
  (forall q s, attr_at cs q = Some s -> exists p y, q = map safe_name p /\ stmt_at true ss p y (e_rw (s_info s)) /\ kept po y /\ stands_for po s y).

(** No two different classes of the same name, none named like something in the head of the file. *)
Definition one_class_each (f : list pyclass) : Prop := forall c d, In c f -> In d f -> k_name c = k_name d -> c = d.
Definition clear_of_head (f : list pyclass) : Prop := forall c, In c f -> ~ In (k_name c) header_names.
(** An object of the class has what the statements declare: provided calls may nest as deep as the statements do. *)
Definition makes (po : bool) (f : list pyclass) (cls : str) (ss : list ystmt) : Prop :=
  exists cs k, (forall fuel, (k <= fuel)%nat -> run_file fuel f cls = Ok cs) /\ as_declared po ss cs /\ cs = compile_module po ss.
