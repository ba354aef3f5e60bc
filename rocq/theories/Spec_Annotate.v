(** Vocabulary for the annotations of a document: what it says about which node, and what a node has in the end. *)
From Verif Require Import PyStr PyVal Restricted YList SafeName Tree Spec_Tree Serialise Spec_Serialise Spec_Loading Annotate.
Import ListNotations.

(** [e] is the element of an array for the entry with key [k]. *)
Definition entry_key (O : oracle) (cs : list schema) (keys : list str) (e : json) (k : pyval) : Prop :=
  keys <> [] /\ exists kd, i_key_values cs keys e kd /\ key_of O kd k.
(** What a member "key" of [ms] is: the value of the child [n]. *)
Definition valued (cs : list schema) (ms : list (str * json)) (key : str) (n : nat) (s : schema) (j : json) : Prop :=
  In (key, j) ms /\ ~ In 64%N key /\ spelt cs (after_colon key) n s.
(** The annotations that stand beside it, in the member "@key". *)
Definition beside (ms : list (str * json)) (key : str) (k : str) (v : json) : Prop :=
  exists a, In (lit "@" ++ key, JObj a) ms /\ In (k, v) a.

(** A document (for an object with children [cs]) says that [k] is [v] for the node at [p]:
    - the member "@" of an object is about the object;
    - the member "@name" is about the child "name", if that has a value other than the empty array - for a list it is
      about each of the entries. *)
Inductive says (O : oracle) : list schema -> json -> list pstep -> str -> json -> Prop :=
| SayOwn cs ms a k v : In (lit "@", JObj a) ms -> In (k, v) a -> says O cs (JObj ms) [] k v
| SayChild cs ms key n s j k v : valued cs ms key n s j ->
    (forall es, j = JArr es -> es <> [] /\ (forall i keys od cs', s <> SList i keys od cs')) ->
    beside ms key k v -> says O cs (JObj ms) [Kid n] k v
| SayIn cs ms key n s ms' p k v : valued cs ms key n s (JObj ms') ->
    says O (match s with SCont _ _ cs' => cs' | _ => [] end) (JObj ms') p k v -> says O cs (JObj ms) (Kid n :: p) k v
| SayEach cs ms key n i keys od cs' es e key' k v : valued cs ms key n (SList i keys od cs') (JArr es) -> In e es ->
    entry_key O cs' keys e key' -> beside ms key k v -> says O cs (JObj ms) [Kid n; Ent key'] k v
| SayEntry cs ms key n i keys od cs' es e key' p k v : valued cs ms key n (SList i keys od cs') (JArr es) -> In e es ->
    entry_key O cs' keys e key' -> says O cs' e p k v -> says O cs (JObj ms) (Kid n :: Ent key' :: p) k v.
(** It does not contradict itself. *)
Definition consistent (O : oracle) (cs : list schema) (d : json) : Prop :=
  forall p k v v', says O cs d p k v -> says O cs d p k v' -> v = v'.

(** One value for each name and child; lists have keys, each element has one, and they are different. *)
Inductive tidy (O : oracle) : list schema -> json -> Prop :=
| Tidy cs ms : NoDup (map fst ms) ->
    (forall key key' n s s' j j', valued cs ms key n s j -> valued cs ms key' n s' j' -> key = key') ->
    (forall key n s ms', valued cs ms key n s (JObj ms') -> tidy O (match s with SCont _ _ cs' => cs' | _ => [] end) (JObj ms')) ->
    (forall key n i keys od cs' es, valued cs ms key n (SList i keys od cs') (JArr es) ->
       keys <> [] /\
       (forall e k k', In e es -> entry_key O cs' keys e k -> entry_key O cs' keys e k' -> k = k') /\
       (forall e, In e es -> tidy O cs' e) /\
       ForallOrdPairs (fun e e' => forall k k', entry_key O cs' keys e k -> entry_key O cs' keys e' k' ->
                                     py_eq k k' = false /\ py_eq k' k = false) es) ->
    tidy O cs (JObj ms).

(** Every annotation is an object, as everything but an annotation of a leaf-list has to be; there is none for the
    module itself ([whole]: the document is for the module). *)
Definition is_object (j : json) : bool := match j with JObj _ => true | _ => false end.
Fixpoint noted_well (whole : bool) (d : json) : bool :=
  match d with
  | JObj ms =>
      forallb (fun kj => match fst kj with
                         | [64%N] => is_object (snd kj) && negb (whole && negb (match snd kj with JObj [] => true | _ => false end))
                         | 64%N :: _ => is_object (snd kj)
                         | _ => metadata (fst kj) || noted_well false (snd kj)
                         end) ms
  | JArr es => forallb (noted_well false) es
  | _ => true
  end.

(** What an object has in the end.  [quiet cs p e]: after [e] the object at [p] is the one it was: it is not renewed,
    neither with one above it nor because of a choice. *)
Definition no_rival (cs : list schema) (q p : list pstep) : Prop := forall r, prefix r p -> ~ rival cs q r.
Definition quiet (cs : list schema) (p : list pstep) (e : mark) : Prop :=
  match e with
  | Noted _ _ _ => True
  | Renewed q => (apart q p \/ below p q) /\ no_rival cs q p
  | Told q => no_rival cs q p
  end.
(** The value of [k] among the annotations of the object at [p] is [v]: it was added, and since then neither the object
    nor the value was replaced. *)
Definition annotated (cs : list schema) (l : list mark) (p : list pstep) (k : str) (v : json) : Prop :=
  exists l1 l2, l = l1 ++ Noted p k v :: l2 /\
    Forall (fun e => quiet cs p e /\
                     match e with
                     | Noted p' k' v' => k' = k -> apart p' p \/ below p p' \/ below p' p \/ v' = v
                     | _ => True
                     end) l2.
