(** Vocabulary for what loading a document does to a tree: what a document has for which node, what it
    leaves alone, and loading as a series of operations. *)
From Verif Require Import PyStr PyVal Spec_Lists YList SafeName Tree Spec_Tree Serialise Xml.

(** The name [key] is that of the child [n]. *)
Definition spelt (cs : list schema) (key : str) (n : nat) (s : schema) : Prop :=
  nth_error cs n = Some s /\ e_py (s_info s) = safe_name key.

(* ------------------------------------------------------------------ documents *)
(** Three relations say what a document is: [part cs d n s d']: in a document [d] for an object with
    children [cs], [d'] is for the child [n], which is an [s]; [elem s d k e]: in a document [d] for the
    list [s], [e] is for the entry with key [k]; [whole s d]: [d] is to be the new value of a container
    or list [s] as a whole. *)
Section Doc.
Context {D : Type}.
Context (part : list schema -> D -> nat -> schema -> D -> Prop) (elem : schema -> D -> pyval -> D -> Prop) (whole : schema -> D -> Prop).

(** The nodes a document has something for. *)
Inductive named : list schema -> D -> list pstep -> Prop :=
| NPart cs d n s d' : part cs d n s d' -> named cs d [Kid n]
| NIn cs d n i pr cs' d' p : part cs d n (SCont i pr cs') d' -> named cs' d' p -> named cs d (Kid n :: p)
| NEntry cs d n i keys od cs' d' k e p : part cs d n (SList i keys od cs') d' -> elem (SList i keys od cs') d' k e ->
    named cs' e p -> named cs d (Kid n :: Ent k :: p).

(** The nodes it has nothing for, neither for themselves nor for what is in them.  [there]: they may
    be in entries it has something else for. *)
Inductive spared (there : bool) : list schema -> D -> list pstep -> Prop :=
| SpHere cs d n r : (forall s d', ~ part cs d n s d') -> spared there cs d (Kid n :: r)
| SpIn cs d n i pr cs' r : nth_error cs n = Some (SCont i pr cs') ->
    (forall d', part cs d n (SCont i pr cs') d' -> ~ whole (SCont i pr cs') d' /\ spared there cs' d' r) ->
    spared there cs d (Kid n :: r)
| SpEntry cs d n i keys od cs' k r : nth_error cs n = Some (SList i keys od cs') -> there = true \/ keys <> [] ->
    (forall d', part cs d n (SList i keys od cs') d' -> ~ whole (SList i keys od cs') d' /\
       forall k' e, elem (SList i keys od cs') d' k' e -> py_eq k k' = true -> there = true /\ spared there cs' e r) ->
    spared there cs d (Kid n :: Ent k :: r).
End Doc.

(** JSON. *)
Definition j_part (cs : list schema) (d : json) (n : nat) (s : schema) (d' : json) : Prop :=
  exists ms key, d = JObj ms /\ In (key, d') ms /\ spelt cs key n s.
Definition j_elem (s : schema) (d : json) (k : pyval) (e : json) : Prop :=
  exists es t, d = JObj es /\ In (t, e) es /\ k = VStr t.
Definition no_object (d : json) : Prop := forall ms, d <> JObj ms.
Definition j_whole (s : schema) (d : json) : Prop :=
  match s with
  | SList _ _ _ _ => d = JObj [] \/ exists k e, j_elem s d k e /\ no_object e
  | _ => no_object d
  end.

(** IETF JSON: "module:name" or "name"; members with "@" are metadata. *)
Definition i_part (cs : list schema) (d : json) (n : nat) (s : schema) (d' : json) : Prop :=
  exists ms key, d = JObj ms /\ In (key, d') ms /\ ~ In 64%N key /\ spelt cs (after_colon key) n s.
(** The values of the keys of an element of an array, and the key of the entry. *)
Definition i_key_values (cs : list schema) (keys : list str) (e : json) (kd : list (str * pyval)) : Prop :=
  exists ms, e = JObj ms /\
  Forall2 (fun k kv => fst kv = k /\ exists n s j, nth_error cs n = Some s /\ e_py (s_info s) = k /\
                         In (e_yang (s_info s), j) ms /\ snd kv = jval j) keys kd.
Definition key_of (O : oracle) (kd : list (str * pyval)) (k : pyval) : Prop :=
  match kd with
  | [(_, v)] => k = v
  | _ => k = VStr (key_text O kd) \/ k = VStr (rstrip_sp (key_text O kd))
  end.
Definition i_elem (O : oracle) (s : schema) (d : json) (k : pyval) (e : json) : Prop :=
  exists es, d = JArr es /\ In e es /\
    match s with
    | SList _ [] _ _ => True                     (* the key is made up *)
    | SList _ keys _ cs => exists kd, i_key_values cs keys e kd /\ key_of O kd k
    | _ => False
    end.
(** The entries that were there before: those without keys are never looked for. *)
Definition i_old (O : oracle) (s : schema) (d : json) (k : pyval) (e : json) : Prop :=
  i_elem O s d k e /\ match s with SList _ [] _ _ => False | _ => True end.
Definition i_whole (s : schema) (d : json) : Prop :=
  match s with
  | SList _ _ _ _ => match d with JObj _ => False | JArr es => exists e, In e es /\ no_object e | _ => True end
  | _ => no_object d
  end.

(** XML: an element for each child, and for each entry. *)
Definition x_part (cs : list schema) (d : xml) (n : nat) (s : schema) (d' : xml) : Prop :=
  In d' (x_kids d) /\ spelt cs (x_name d') n s.
Definition x_key_values (ft : str -> option pyval) (cs : list schema) (keys : list str) (e : xml) (kd : list (str * pyval)) : Prop :=
  Forall2 (fun k kv => fst kv = k /\ exists n s c, nth_error cs n = Some s /\ e_py (s_info s) = k /\
             In c (x_kids e) /\ x_name c = e_yang (s_info s) /\ snd kv = objectified ft (x_text c)) keys kd.
Definition x_elem (O : oracle) (ft : str -> option pyval) (s : schema) (d : xml) (k : pyval) (e : xml) : Prop :=
  e = d /\ match s with
           | SList _ keys _ cs => exists kd, x_key_values ft cs keys e kd /\ k = VStr (key_text O kd)
           | _ => False
           end.
Definition x_whole (s : schema) (d : xml) : Prop := False.

(* ------------------------------------------------------------------ series of operations *)
(** Operations that put data into a tree or, for leaf-lists, replace members. *)
Definition putting (o : op) : Prop :=
  match o with
  | ASet _ (AVal _) | APresent true | ALeafList _ => True
  | AList _ yo => adds yo
  | _ => False
  end.
(** Operations that only overwrite=True asks for. *)
Definition clearing (o : op) : Prop :=
  match o with AUnset | AList _ (YDelete _) => True | _ => False end.

(** What the operations are for: to put data where the document has something - or, with overwrite, to clear that or
    a child of it. *)
Definition asked_for {D} (part : list schema -> D -> nat -> schema -> D -> Prop) (elem : schema -> D -> pyval -> D -> Prop)
  (overwrite : bool) (cs : list schema) (d : D) (po : list pstep * op) : Prop :=
  (putting (snd po) /\ named part elem cs d (fst po)) \/
  (overwrite = true /\ clearing (snd po) /\
   exists p, named part elem cs d p /\ (fst po = p \/ exists k, fst po = p ++ [Kid k])).

(** [r] is the outcome of the operations [os]: each succeeds except the last if [r] is an exception. *)
Definition outcome (O : oracle) (cs : list schema) (m : list obj) (os : list (list pstep * op)) (r : res unit) : Prop :=
  forall os1 p o os2, os = os1 ++ (p, o) :: os2 -> r = Ok tt \/ os2 <> [] ->
    snd (module_exec O cs (module_run O cs m os1) p o) = Ok tt.
(** The same, but a value that a leaf-list of texts refused is tried again as a text. *)
Definition outcome_again (O : oracle) (cs : list schema) (m : list obj) (os : list (list pstep * op)) (r : res unit) : Prop :=
  forall os1 p o os2, os = os1 ++ (p, o) :: os2 -> r = Ok tt \/ os2 <> [] ->
    snd (module_exec O cs (module_run O cs m os1) p o) = Ok tt \/
    exists v os3, o = ALeafList (LAppend v) /\ os2 = (p, ALeafList (LAppend (VStr (py_str O v)))) :: os3.

(** The uuids drawn for entries of lists without keys are new. *)
Definition new_names (uid : list (pyval * obj) -> str) : Prop := forall es, mget (VStr (uid es)) es = None.

(** What a program does with a module object: single operations, and loading documents - whether or not
    there is an exception. *)
Inductive deed :=
| Do (p : list pstep) (o : op)
| LoadJson (overwrite skip : bool) (d : json)
| LoadIetf (overwrite skip : bool) (d : json)
| LoadXml (d : xml).
Definition perform (O : oracle) (ft : str -> option pyval) (uid : list (pyval * obj) -> str) (cs : list schema)
  (m : list obj) (a : deed) : list obj :=
  fst match a with
      | Do p o => module_exec O cs m p o
      | LoadJson ov skip d => load_json O uid cs ov skip d m
      | LoadIetf ov skip d => load_ietf_json O uid cs ov skip d m
      | LoadXml d => load_doc O ft uid cs d m
      end.
Definition after (O : oracle) (ft : str -> option pyval) (uid : list (pyval * obj) -> str) (cs : list schema) (l : list deed) : list obj :=
  fold_left (perform O ft uid cs) l (module_new O cs).
(** Single operations do not assign whole objects, and name new entries of lists without keys like loading does. *)
Definition plain_deed (uid : list (pyval * obj) -> str) (m : list obj) (a : deed) : Prop :=
  match a with
  | Do p o => plain_op o /\ forall u yo ch es, o = AList u yo -> adds yo -> at_path m p = Some (OList ch es) -> u = uid es
  | _ => True
  end.
Inductive plain_deeds (O : oracle) (ft : str -> option pyval) (uid : list (pyval * obj) -> str) (cs : list schema) : list deed -> Prop :=
| PdNil : plain_deeds O ft uid cs []
| PdSnoc l a : plain_deeds O ft uid cs l -> plain_deed uid (after O ft uid cs l) a -> plain_deeds O ft uid cs (l ++ [a]).
