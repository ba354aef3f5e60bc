(** What the path helper is for: texts of paths, and registered objects. *)
From Coq Require Import Permutation.
From Verif Require Import PyStr PyVal PathHelper.

(* ------------------------------------------------------------------ parts of a path *)
(** A part of a path: characters, quoted strings and brackets; in brackets there may be quoted strings. *)
Inductive chunk := CPlain (c : N) | CQuoted (s : str) | CBracket (s : str).
Definition chunk_text (c : chunk) : str :=
  match c with
  | CPlain c => [c]
  | CQuoted s => lit """" ++ s ++ lit """"
  | CBracket s => lit "[" ++ s ++ lit "]"
  end.
Definition count_quotes (s : str) : nat := length (filter (N.eqb 34) s).
Definition chunk_ok (c : chunk) : Prop :=
  match c with
  | CPlain c => ~ In c [47; 34; 91; 93]%N
  | CQuoted s => ~ In 34%N s /\ ~ In 91%N s /\ ~ In 93%N s
  | CBracket s => Nat.even (count_quotes s) = true /\ ~ In 91%N s /\ ~ In 93%N s
  end.
(** The same with brackets anywhere in quotes. *)
Definition chunk_fine (c : chunk) : Prop :=
  match c with
  | CPlain c => ~ In c [47; 34; 91; 93]%N
  | CQuoted s => ~ In 34%N s
  | CBracket s => exists a b c, s = a ++ lit """" ++ b ++ lit """" ++ c /\
                    (forall x, In x [34; 91; 93]%N -> ~ In x a /\ ~ In x c) /\ ~ In 34%N b
  end.
Definition part_of (chunks : list chunk) : str := concat (map chunk_text chunks).

(** The text up to some point leaves no quote and no bracket open: an even number of quotes, and the last
    bracket, if any, is "]". *)
Fixpoint last_bracket (s : str) : option N :=
  match s with
  | [] => None
  | c :: s' => match last_bracket s' with Some d => Some d | None => if N.eqb c 91 || N.eqb c 93 then Some c else None end
  end.
Definition outside (s : str) : Prop := Nat.even (count_quotes s) = true /\ last_bracket s <> Some 91%N.

(* ------------------------------------------------------------------ predicates *)
(** key=value, with or without "@" and quotes. *)
Record pred := { p_key : str; p_val : str; p_sign : bool; p_quote : str }.
Definition pred_text (p : pred) : str :=
  (if p_sign p then lit "@" else []) ++ p_key p ++ lit "=" ++ p_quote p ++ p_val p ++ p_quote p.
(** The first one, and the others after " " or " and ". *)
Definition pgroup := (pred * list (bool * pred))%type.
Definition more_text (bp : bool * pred) : str := (if fst bp then lit " and " else lit " ") ++ pred_text (snd bp).
Definition group_text (g : pgroup) : str := lit "[" ++ pred_text (fst g) ++ concat (map more_text (snd g)) ++ lit "]".
Definition element_text (tag : str) (gs : list pgroup) : str := tag ++ concat (map group_text gs).
Definition group_preds (g : pgroup) : list pred := fst g :: map snd (snd g).
Definition pairs (gs : list pgroup) : list (str * str) := map (fun p => (p_key p, p_val p)) (flat_map group_preds gs).

Definition key_char (c : N) : Prop :=
  (97 <= c <= 122)%N \/ (65 <= c <= 90)%N \/ (48 <= c <= 57)%N \/ c = 45%N \/ c = 95%N.
(** No "||" in it, and no "|" at the end. *)
Definition no_bars (s : str) : Prop := (forall a b, s <> a ++ lit "||" ++ b) /\ (forall a, s <> a ++ lit "|").
Definition pred_ok (p : pred) : Prop :=
  p_key p <> [] /\ Forall key_char (p_key p) /\
  p_val p <> [] /\ (forall c, In c (p_val p) -> ~ In c (lit " ^'""]")) /\ no_bars (p_val p) /\
  In (p_quote p) [[]; lit "'"; lit """"] /\ (p_quote p = [] -> ~ In 91%N (p_val p)).
Definition tag_ok (t : str) : Prop := t <> [] /\ ~ In 91%N t /\ no_bars t.

(* ------------------------------------------------------------------ names of registered objects *)
(** A node: tag and key values.  A place: the nodes from the top. *)
Definition node_name := (str * list (str * str))%type.
Definition place := list node_name.
Definition letter (c : N) : Prop := (97 <= c <= 122)%N \/ (65 <= c <= 90)%N \/ c = 95%N.
Definition xml_name (s : str) : Prop :=
  exists c r, s = c :: r /\ letter c /\ Forall (fun c => letter c \/ (48 <= c <= 57)%N \/ c = 45%N \/ c = 46%N) r.
Definition xml_text (s : str) : Prop :=
  Forall (fun c => c = 9%N \/ c = 10%N \/ c = 13%N \/ (32 <= c < 55296)%N \/ (57344 <= c < 65534)%N \/ (65536 <= c)%N) s.
(** Names as YANG has them; values that XML can hold, without "current()". *)
Definition name_ok (n : node_name) : Prop :=
  xml_name (fst n) /\ NoDup (map fst (snd n)) /\
  Forall (fun kv => xml_name (fst kv) /\ fst kv <> lit "obj_ptr" /\ xml_text (snd kv) /\ forall a b, snd kv <> a ++ lit "current()" ++ b) (snd n).
(** The part of a path that names the node. *)
Definition spells (part : str) (n : node_name) : Prop :=
  (snd n = [] /\ part = fst n) \/
  (exists gs, gs <> [] /\ part = element_text (fst n) gs /\ pairs gs = snd n /\ Forall (fun g => Forall pred_ok (group_preds g)) gs).
(** The key names of a list are those of the schema ([keys]: by the tags from the top). *)
Fixpoint keyed (keys : list str -> list str) (tags : list str) (q : place) : Prop :=
  match q with [] => True | n :: q' => map fst (snd n) = keys (tags ++ [fst n]) /\ keyed keys (tags ++ [fst n]) q' end.
Definition place_ok (keys : list str -> list str) (q : place) : Prop := q <> [] /\ Forall name_ok q /\ keyed keys [] q.
(** The same place with its predicates in another order. *)
Definition same_place (q q' : place) : Prop := Forall2 (fun n n' => fst n = fst n' /\ Permutation (snd n) (snd n')) q q'.

(** A path that is searched for: every part names a node, with or without a prefix, and may give only some
    of the keys, or none; it stands for all nodes that have the name and these keys. *)
Definition names (part : str) (n : node_name) : Prop :=
  exists text, spells text n /\ (part = text \/ exists prefix, xml_name prefix /\ part = prefix ++ lit ":" ++ text).
Definition matching (pattern q : place) : Prop := Forall2 (fun n m => fst n = fst m /\ incl (snd n) (snd m)) pattern q.

(* ------------------------------------------------------------------ what the helper should be *)
(** A map from places to objects: an object can be put below an object that is there; if an equal one
    is there already it stays; what is taken away goes with everything below it. *)
Definition place_dec (p q : place) : {p = q} + {p <> q}.
Proof. repeat decide equality. Defined.
Fixpoint below (q q' : place) : bool :=
  match q, q' with
  | [], _ => true
  | n :: r, n' :: r' => if place_dec [n] [n'] then below r r' else false
  | _ :: _, [] => false
  end.
Section Map.
Context {A : Type} (oeq : A -> A -> bool).
Definition objects := place -> option A.
Definition put (q : place) (o : A) (M : objects) : objects := fun q' => if place_dec q' q then Some o else M q'.
Definition map_register (q : place) (o : A) (M : objects) : objects * bool :=
  match M q with
  | Some o' => (if oeq o' o then M else put q o M, true)
  | None => match removelast q with
            | [] => (put q o M, true)
            | parent => match M parent with Some _ => (put q o M, true) | None => (M, false) end
            end
  end.
Definition map_unregister (q : place) (M : objects) : objects * bool :=
  match M q with Some _ => (fun q' => if below q q' then None else M q', true) | None => (M, false) end.

(** What a search returns: the objects at the places that are wanted, each of them once. *)
Definition found (M : objects) (wanted : place -> Prop) (r : res (list (option A))) : Prop :=
  exists qs, NoDup qs /\ (forall q, In q qs <-> M q <> None /\ wanted q) /\ r = Ok (map M qs).

(** Calls: of register and unregister, with the place that the path spells. *)
Inductive call := Register (path : list str) (q : place) (o : A) | Unregister (path : list str) (q : place).
Definition call_ok (keys : list str -> list str) (c : call) : Prop :=
  match c with Register path q _ | Unregister path q => Forall2 spells path q /\ place_ok keys q end.
Fixpoint map_run (cs : list call) (M : objects) : objects * list bool :=
  match cs with
  | [] => (M, [])
  | c :: cs' => let (M1, b) := match c with Register _ q o => map_register q o M | Unregister _ q => map_unregister q M end in
                let (M2, bs) := map_run cs' M1 in (M2, b :: bs)
  end.
Fixpoint helper_run (uid : nat -> str) (cs : list call) (st : helper A) : helper A * list bool :=
  match cs with
  | [] => (st, [])
  | c :: cs' => let (st1, r) := match c with Register path _ o => register oeq uid path o st | Unregister path _ => unregister path st end in
                let (st2, bs) := helper_run uid cs' st1 in (st2, match r with Ok _ => true | Raise _ => false end :: bs)
  end.
End Map.
(** uuids: never the same twice. *)
Definition fresh (uid : nat -> str) : Prop := (forall i j, uid i = uid j -> i = j) /\ (forall i, uid i <> lit "root").

(* ------------------------------------------------------------------ any paths at all *)
(** The pointers of all nodes of a tree. *)
Fixpoint pointers (e : xelem) : list (option str) :=
  match e with El _ ats ks => look (lit "obj_ptr") ats :: flat_map pointers ks end.
(** States that calls lead to: nothing is registered with a key called obj_ptr, and the top (the FakeRoot)
    is neither replaced nor taken away. *)
Inductive reachable {A} (oeq : A -> A -> bool) (uid : nat -> str) : helper A -> Prop :=
| reach_new : reachable oeq uid helper_new
| reach_register st path o : reachable oeq uid st -> get [] path st <> Ok [None] ->
    (forall t d, tag_attrs (last path []) = Ok (t, Some d) -> ~ In (lit "obj_ptr") (map fst d)) ->
    reachable oeq uid (fst (register oeq uid path o st))
| reach_unregister st path : reachable oeq uid st -> get [] path st <> Ok [None] -> reachable oeq uid (fst (unregister path st)).
(** Every node points at an object that is stored. *)
Definition all_stored {A} (st : helper A) : Prop := forall p, In p (pointers (h_root st)) -> exists id o, p = Some id /\ look id (h_lib st) = Some o.
(** Every stored object is that of a node. *)
Definition none_lost {A} (st : helper A) : Prop := forall id o, look id (h_lib st) = Some o -> In (Some id) (pointers (h_root st)).

(* ------------------------------------------------------------------ leafrefs *)
(** An instance with this text is among what the path of the leafref leads to: a leaf, a list entry, or a
    member of the one leaf-list. *)
Definition instance (ts : list target) (v : str) : Prop :=
  match ts with
  | [t] => match t_members t with Some ms => In v ms | None => t_text t = v end
  | _ => exists t, In t ts /\ t_text t = v
  end.
(** What a reference refers to. *)
Definition refers (ts : list target) (r : reference) (v : str) : Prop :=
  match r with
  | RefTo n => exists t, nth_error ts n = Some t /\ t_text t = v
  | RefMember n => exists t ms, ts = [t] /\ t_members t = Some ms /\ nth_error ms n = Some v
  | _ => False
  end.
(** The path leads to one leaf that is no key: not a leafref but a pointer, for pyangbind. *)
Definition pointer_like (ts : list target) : Prop := exists t, ts = [t] /\ t_keyval t = false /\ t_list t = false.
