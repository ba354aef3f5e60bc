(** Several modules and one path helper, and loading with a path helper.  No proofs in this file. *)
From Verif Require Import PyStr PyVal PathHelper RegTree.

(** What a program does: a new object of a module, [bindings.m(path_helper=ph)]; an operation on the one it has. *)
Inductive event := New (m : nat) | Do (m : nat) (p : list rstep) (o : rop).
Section Modules.
Context (uid : nat -> str) (mods : list (list rschema)).
(** plugin/pybind.py:1058-1061: the children register themselves one by one; the object that the program had of the
    module is given up. *)
Definition happen (e : event) (st : world * list (option (list robj))) : world * list (option (list robj)) :=
  let '(w, ts) := st in
  match e with
  | New m => match nth_error mods m with
             | Some cs => match mapA (build uid []) cs w with (w', Ok kids) => (w', set_nth m (Some kids) ts) | (w', Raise _) => (w', ts) end
             | None => st
             end
  | Do m p o => match nth_error mods m, nth_error ts m with
                | Some cs, Some (Some kids) => let '(w', kids', _) := exec uid [] cs kids p o w in (w', set_nth m (Some kids') ts)
                | _, _ => st
                end
  end.
Definition happen_all (es : list event) : world * list (option (list robj)) :=
  fold_left (fun st e => happen e st) es (world_new, map (fun _ => None) mods).
(** lib/serialise.py:470-489, 576-595 and 720-739, the decoders without [obj]: a look for the object of the module under
    its path, which is that of the document (plugin/pybind.py:1091-1096; lxml has no object for it, so nothing is found);
    so there is a new object, and then the document is loaded into it.  Loading is the series of operations [os] (C70). *)
Definition load_events (m : nat) (os : list (list rstep * rop)) : list event := New m :: map (fun po => Do m (fst po) (snd po)) os.
End Modules.
