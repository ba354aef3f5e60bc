(** Vocabulary for the properties of attributes (C79, C80). *)
From Verif Require Import PyStr PyVal SafeName Tree Compile Spec_Compile Split Spec_Split Spec_File.

(** The two names that users cannot tell from methods of the library. *)
Definition taken : list str := map lit ["append"; "extend"]%string.
(** No node on the way has such a name, but perhaps one at the top of the module. *)
Definition clear (p : list str) : Prop := Forall (fun n => ~ In n taken) (tl p).
(** Lists have keys. *)
Definition keyed (y : ystmt) : Prop := match y with YList _ None _ _ => False | _ => True end.
Definition public (a : str) : Prop := hd_error a <> Some 95%N.
(** The Python path [q] leads to a statement with children in the generated code. *)
Definition child_at (po : bool) (ss : list ystmt) (q : list str) (m : str) (z : ystmt) (b : bool) : Prop :=
  exists p, map safe_name p = q /\ stmt_at true ss (p ++ [m]) z b /\ kept po z.

(** The names of the data nodes in the order of the statements, without those that are left out. *)
Fixpoint kept_names (po : bool) (y : ystmt) : list str :=
  match y with
  | YLeaf h _ _ _ | YLeafList h _ _ => [y_name h]
  | YCont h pr cs => match cs with [] => if po && pr then [y_name h] else [] | _ => [y_name h] end
  | YList h _ _ cs => match cs with [] => [] | _ => [y_name h] end
  | YChoice _ _ cases => flat_map (fun kc => match kc with (_, ss) => flat_map (kept_names po) ss end) cases
  end.
