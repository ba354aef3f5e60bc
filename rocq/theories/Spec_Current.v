(** What current() in the path of a leafref means. *)
From Coq Require Import Arith.
From Verif Require Import PyStr PyVal PathHelper Spec_Path RegTree Spec_RegTree Spec_RegRef.

(** "current()/../../a/b": from the node that asks, [j] times "..", then names. *)
Definition asks (raw : str) (j : nat) (ns : list str) : Prop :=
  exists parts, parts <> [] /\ Forall2 part_name parts ns /\ raw = lit "current()/" ++ join (lit "/") (repeat (lit "..") j ++ parts).
Definition silent (v : str) : Prop := forall a b, v <> a ++ lit "current()" ++ b.
(** The parts of a path: names and keys as YANG has them; values are texts, or ask (for nothing above
    the top, for a node in the given depth). *)
Definition raw_ok (depth : nat) (n : node_name) : Prop :=
  xml_name (fst n) /\ NoDup (map fst (snd n)) /\
  Forall (fun kv => xml_name (fst kv) /\ fst kv <> lit "obj_ptr" /\ ((xml_text (snd kv) /\ silent (snd kv)) \/ exists j ns, j <= depth /\ asks (snd kv) j ns)) (snd n).
(** The nodes with these names, below the node that is [j] levels above [c]. *)
Definition beside (c : place) (j : nat) (ns : list str) (q : place) : Prop := exists r, q = firstn (length c - j) c ++ r /\ map fst r = ns.
(** A text that can stand between apostrophes in XPath. *)
Definition quotable (v : str) : Prop := xml_text v /\ ~ In 39%N v /\ silent v.

Section Values.
Context {A : Type} (text : option A -> str) (M : objects (A := A)) (c : place).
(** [q] is the one place there where there is an object; to go up from the parent of [c] there must be one
    there. *)
Definition only (j : nat) (ns : list str) (q : place) : Prop :=
  (j <= 1 \/ M (removelast c) <> None) /\ beside c j ns q /\ M q <> None /\ forall q', beside c j ns q' -> M q' <> None -> q' = q.
(** What a value stands for: itself, or the text of the one object there. *)
Inductive stands : str -> str -> Prop :=
| stands_itself v : silent v -> stands v v
| stands_current raw j ns q : j <= length c -> asks raw j ns -> only j ns q -> stands raw (text (M q)).
Definition means (raw pattern : place) : Prop :=
  Forall2 (fun n m => fst n = fst m /\ Forall2 (fun kv kv' => fst kv = fst kv' /\ stands (snd kv) (snd kv')) (snd n) (snd m)) raw pattern.
(** Something that is asked for is not there, or not unique. *)
Definition unanswered (raw : place) : Prop :=
  exists n kv j ns, In n raw /\ In kv (snd n) /\ j <= length c /\ asks (snd kv) j ns /\ forall q, ~ only j ns q.
(** The texts of what is asked for can stand in an expression. *)
Definition answers_ok (raw : place) : Prop :=
  forall n kv j ns q, In n raw -> In kv (snd n) -> j <= length c -> asks (snd kv) j ns -> beside c j ns q -> M q <> None -> quotable (text (M q)).
End Values.

(* ------------------------------------------------------------------ in a data tree *)
Section Tree.
Context (text : pyval -> str) (cs : list rschema) (kids : list robj) (c : place).
(** The leaf [x] is at [q], the one such place. *)
Definition sibling (j : nat) (ns : list str) (q : place) (x : pyval) : Prop :=
  beside c j ns q /\ in_tree cs kids q (PLeaf x) /\ forall q' o, beside c j ns q' -> in_tree cs kids q' o -> q' = q.
Definition read_as (raw v : str) : Prop := (silent raw /\ v = raw) \/ exists j ns q x, asks raw j ns /\ sibling j ns q x /\ v = text x.
Definition reads_as (raw pattern : place) : Prop :=
  Forall2 (fun n m => fst n = fst m /\ Forall2 (fun kv kv' => fst kv = fst kv' /\ read_as (snd kv) (snd kv')) (snd n) (snd m)) raw pattern.
(** What the path leads to, from the top or from [up] levels above [c]. *)
Definition wanted (up : nat) (pattern q : place) : Prop :=
  match up with 0%nat => matching pattern q | _ => exists r, q = firstn (length c - up) c ++ r /\ matching pattern r end.
(** Everything that is asked for is a leaf with such a text. *)
Definition answered (raw : place) : Prop :=
  forall n kv j ns, In n raw -> In kv (snd n) -> j <= length c -> asks (snd kv) j ns ->
    exists q x, sibling j ns q x /\ quotable (text x) /\ forall y, py_eq y x = true -> text y = text x.
End Tree.
