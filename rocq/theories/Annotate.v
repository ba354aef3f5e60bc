(** Annotations (RFC 7952) in IETF JSON documents: lib/serialise.py:711-876 again, this time with what the loader does
    about members whose name has an "@".  Every object made by YANGDynClass has a dict [_metadata], empty at first
    (lib/yangtypes.py:1049), to which [_add_metadata] adds (1135-1136). *)
From Verif Require Import PyStr PyVal Restricted YList SafeName Tree Spec_Tree Serialise.
Import ListNotations.

(** What happens to the annotations of objects, by their path: [Noted q k v]: [_add_metadata(k, v)] on the object at
    [q]; [Renewed q]: the object at [q] is another one from now on, without annotations - the setters of a class make a
    new object (plugin/pybind.py:1119-1190), a deleted entry is gone; [Told q]: the object at [q] was kept and has told
    its parents of a change, which may have renewed other nodes. *)
Inductive mark := Noted (q : list pstep) (k : str) (v : json) | Renewed (q : list pstep) | Told (q : list pstep).
Definition astep := (list obj * list mark * res unit)%type.

Section Annotate.
Context (O : oracle) (uid : list (pyval * obj) -> str) (top : list schema).

Definition athen (r : astep) (k : list obj -> astep) : astep :=
  match r with
  | (m, l, Ok _) => match k m with (m', l', r') => (m', l ++ l', r') end
  | (m, l, Raise e) => (m, l, Raise e)
  end.
Definition aeach {A} (f : A -> list obj -> astep) : list A -> list obj -> astep :=
  fix go l m := match l with [] => (m, [], Ok tt) | a :: l' => athen (f a m) (go l') end.
(** An operation; [l]: the marks it makes when it succeeds. *)
Definition marked (l : list mark) (s : step) : astep :=
  match s with (m, Ok _) => (m, l, Ok tt) | (m, Raise e) => (m, [], Raise e) end.

(** lib/serialise.py:711-716, [check_metadata_add] for the object at [q]: [.items()] is asked of whatever the member
    "@key" is. *)
Definition check_metadata_add (key : str) (ms : list (str * json)) (q : list pstep) (m : list obj) : astep :=
  match assoc (lit "@" ++ key) ms with
  | None => (m, [], Ok tt)
  | Some (JObj a) => (m, map (fun kv => Noted q (fst kv) (snd kv)) a, Ok tt)
  | Some _ => (m, [], Raise AttributeError)
  end.
(** lib/serialise.py:755-759: the member "@" is for the object itself.  The module object is not made by YANGDynClass: it
    has no [_add_metadata]. *)
Definition own_metadata (p : list pstep) (j : json) (m : list obj) : astep :=
  match j with
  | JObj [] => (m, [], Ok tt)
  | JObj a => match p with
              | [] => (m, [], Raise AttributeError)
              | _ => (m, map (fun kv => Noted p (fst kv) (snd kv)) a, Ok tt)
              end
  | _ => (m, [], Raise AttributeError)
  end.

(** lib/serialise.py:846-875: the value is set - which makes a new object - unless it is a key or null; then the
    annotations are added. *)
Definition note_set (key : str) (ms : list (str * json)) (q : list pstep) (s : schema) (j : json) (m : list obj) : astep :=
  athen (if is_key s then (m, [], Ok tt)
         else match ietf_value s j with
              | Raise e => (m, [], Raise e)
              | Ok JNull => (m, [], Ok tt)
              | Ok j' => marked [Renewed q] (run_op O top m q (ASet (Priv false) (AVal (jval j'))))
              end)
    (check_metadata_add key ms q).

(** lib/serialise.py:791-796. *)
Definition note_wipe (q : list pstep) (m : list obj) : astep :=
  marked (map (fun e => Renewed (q ++ [Ent (fst e)])) (firstn 1 (entries m q))) (wipe O top q m).

(** lib/serialise.py:718-876, [load_ietf_json].  The annotations of a container are added before its members are loaded
    (781), those of an entry after (836). *)
Fixpoint note_ietf (overwrite skip : bool) (cs : list schema) (self : option (list pstep)) (p : list pstep)
  (d : json) (m : list obj) {struct d} : astep :=
  match d with
  | JObj ms =>
      aeach (fun kj m =>
        let found := find_kid (after_colon (fst kj)) cs in
        if str_eqb (fst kj) (lit "@") then own_metadata p (snd kj) m
        else if has_char 64 (fst kj) then (m, [], Ok tt)
        else match snd kj with
             | JObj _ =>
                 match found with
                 | None => if skip then (m, [], Ok tt) else (m, [], Raise AttributeError)
                 | Some (n, s) =>
                     let q := p ++ [Kid n] in
                     athen (match s with
                            | SCont _ true _ => marked [Told q] (run_op O top m q (APresent true))
                            | _ => (m, [], Ok tt)
                            end) (fun m =>
                     athen (check_metadata_add (fst kj) ms q m)
                       (note_ietf overwrite skip (match s with SCont _ _ cs' => cs' | _ => [] end) (Some q) q (snd kj)))
                 end
             | JArr [] => (m, [], Ok tt)
             | JArr elems =>
                 match found with
                 | None => (m, [], Raise AttributeError)
                 | Some (n, s) =>
                     let q := p ++ [Kid n] in
                     match s with
                     | SList _ keys _ cs' =>
                         aeach (fun f m => f m)
                           (map (fun elem m =>
                              athen (if overwrite then note_wipe q m else (m, [], Ok tt)) (fun m =>
                              match ietf_entry O uid top q keys cs' elem m with
                              | (m', Raise e) => (m', [], Raise e)
                              | (m', Ok k) =>
                                  athen (m', if Nat.eqb (length (entries m q)) (length (entries m' q)) then [] else [Told q], Ok tt) (fun m =>
                                  athen (note_ietf overwrite skip cs' (Some q) (q ++ [Ent k]) elem m)
                                    (check_metadata_add (fst kj) ms (q ++ [Ent k])))
                              end)) elems) m
                     | _ => note_set (fst kj) ms q s (snd kj) m
                     end
                 end
             | _ =>
                 match found with
                 | None => if skip then (m, [], Ok tt) else (m, [], Raise AttributeError)
                 | Some (n, s) => note_set (fst kj) ms (p ++ [Kid n]) s (snd kj) m
                 end
             end) ms m
  | _ => match self with
         | Some q => marked [Renewed q] (run_op O top m q (ASet (Priv false) (AVal (jval d))))
         | None => (m, [], Raise AttributeError)
         end
  end.
(** load_ietf_json into an existing module object, and loads_ietf. *)
Definition note_ietf_json (overwrite skip : bool) (d : json) (m : list obj) : astep :=
  note_ietf overwrite skip top None [] d m.
Definition notes_ietf (d : json) : astep := note_ietf_json false false d (module_new O top).
End Annotate.
