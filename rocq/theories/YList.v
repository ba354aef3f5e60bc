(** Lists: YANGListType and the wrapper methods of YANGDynClass around it.
    No proofs in this file. *)
From Verif Require Import PyStr PyVal Restricted Spec_Lists.

(** Keys are looked up in an OrderedDict: lists, dicts and sets are not hashable. *)
Definition hashable (v : pyval) : bool :=
  match v with VList _ | VDict _ | VBits _ => false | _ => true end.

Section YL.
(** [A]: entries; [E]: notifications that reach the container holding the list. [keys]: the
    names in the key statement (none: [_keyval] is False).  [mk kd] is an entry built afresh
    with the setter of each key leaf of [kd] called in turn, [mkv a kd] the same starting from a
    copy of [a], [mk0] an entry without any of that; [ext] is [_extract_key].  *)
Context {A E : Type} (O : oracle) (keys : list str).
Context (mk : list (str * pyval) -> list E * res A) (mkv : A -> list (str * pyval) -> list E * res A).
Context (mk0 : A) (ext : A -> res pyval).

(** [self._members[k]] and [k in self._members]. *)
Fixpoint mget (k : pyval) (ms : list (pyval * A)) : option A :=
  match ms with
  | [] => None
  | (k', a) :: ms' => if py_eq k k' then Some a else mget k ms'
  end.
Definition mhas (k : pyval) (ms : list (pyval * A)) : bool :=
  match mget k ms with Some _ => true | None => false end.

(** [self._members[k] = a]: in place, keeping the old key object, or at the end. *)
Fixpoint mput (k : pyval) (a : A) (ms : list (pyval * A)) : list (pyval * A) :=
  match ms with
  | [] => [(k, a)]
  | (k', a') :: ms' => if py_eq k k' then (k', a) :: ms' else (k', a') :: mput k a ms'
  end.

(** [del self._members[k]]. *)
Fixpoint mdel (k : pyval) (ms : list (pyval * A)) : list (pyval * A) :=
  match ms with
  | [] => []
  | (k', a') :: ms' => if py_eq k k' then ms' else (k', a') :: mdel k ms'
  end.

(** yangtypes.py:751-769, [_generate_key] for keyword arguments: the key text and the keyword
    values of the keys, in the order of the key statement; other keywords are dropped. *)
Fixpoint kw_get (n : str) (kw : list (str * pyval)) : option pyval :=
  match kw with
  | [] => None
  | (m, v) :: kw' => if str_eqb n m then Some v else kw_get n kw'
  end.
Fixpoint kw_keys (ks : list str) (kw : list (str * pyval)) : res (list (str * pyval)) :=
  match ks with
  | [] => Ok []
  | n :: ks' => match kw_get n kw with
                | None => Raise AttributeError
                | Some v => r <- kw_keys ks' kw ;; Ok ((n, v) :: r)
                end
  end.
Definition key_text (kd : list (str * pyval)) : str := join [32%N] (map (fun p => py_str O (snd p)) kd).

(** yangtypes.py:653-674: the key leaves' values for a positional key.  [zip] before the check
    of the number of parts makes no difference. *)
Definition key_dict (k : pyval) : res (list (str * pyval)) :=
  match keys with
  | [n] => match k with VStr [] => Raise KeyError | _ => Ok [(n, k)] end
  | _ => match k with
         | VStr s => let parts := split_on 32 s in
                     if Nat.eqb (length parts) (length keys) then Ok (combine keys (map VStr parts))
                     else Raise KeyError
         | VBytes _ => Raise TypeError
         | _ => Raise AttributeError
         end
  end.

(** yangtypes.py:722-723: a ValueError while the entry is built becomes a KeyError. *)
Definition key_exn (e : exn) : exn := match e with ValueError => KeyError | e => e end.

(** yangtypes.py:641-723, [__set] for a list with keys, from the key dictionary on. *)
Definition store (k : pyval) (ms : list (pyval * A)) (r : list E * res A) : list (pyval * A) * list E * res unit :=
  match r with
  | (ev, Ok a) => (mput k a ms, ev, Ok tt)
  | (ev, Raise e) => (ms, ev, Raise (key_exn e))
  end.

(** yangtypes.py:793-817, [add]; [uid] is the uuid drawn for a list without keys (724-734). *)
Definition yl_add (uid : str) (ms : list (pyval * A)) (k : pyval) : list (pyval * A) * list E * res unit :=
  if negb (hashable k) then (ms, [], Raise TypeError)
  else if mhas k ms then (ms, [], Raise KeyError)
  else match keys with
       | [] => (mput (VStr uid) mk0 ms, [], Ok tt)
       | _ => match k with
              | VNone => (ms, [], Raise KeyError)
              | _ => match key_dict k with
                     | Raise e => (ms, [], Raise e)
                     | Ok kd => store k ms (mk kd)
                     end
              end
       end.

Definition yl_add_kw (ms : list (pyval * A)) (kw : list (str * pyval)) : list (pyval * A) * list E * res unit :=
  match keys with
  | [] => (ms, [], Raise AttributeError)
  | _ => match kw_keys keys kw with
         | Raise e => (ms, [], Raise e)
         | Ok kd => let k := VStr (key_text kd) in
                    if mhas k ms then (ms, [], Raise KeyError) else store k ms (mk kd)
         end
  end.

(** yangtypes.py:621-734, [__set(_k=k, _v=v)].  Without keys the value is ignored; a key None
    means "take the first positional argument", of which there are none. *)
Definition yl_set (uid : str) (ms : list (pyval * A)) (k : pyval) (a : A) : list (pyval * A) * list E * res unit :=
  match keys, k with
  | [], VNone => (mput (VStr uid) mk0 ms, [], Ok tt)
  | [], _ => if hashable k then (mput k mk0 ms, [], Ok tt) else (ms, [], Raise TypeError)
  | _, VNone => (ms, [], Raise IndexError)
  | _, _ => if negb (hashable k) then (ms, [], Raise TypeError)
            else match key_dict k with
                 | Raise e => (ms, [], Raise e)
                 | Ok kd => store k ms (mkv a kd)
                 end
  end.

(** yangtypes.py:819-844, [delete] (no path helper), and 736-737. *)
Definition yl_delete (ms : list (pyval * A)) (k : pyval) : list (pyval * A) * list E * res unit :=
  if negb (hashable k) then (ms, [], Raise TypeError)
  else if mhas k ms then (mdel k ms, [], Ok tt) else (ms, [], Raise KeyError).

Definition yl_op (uid : str) (ms : list (pyval * A)) (o : yop A) : list (pyval * A) * list E * res unit :=
  match o with
  | YAdd k => yl_add uid ms k
  | YAddNone | YAddKw [] => yl_add uid ms VNone
  | YAddKw kw => yl_add_kw ms kw
  | YSet k a => yl_set uid ms k a
  | YAppend a => match keys with   (* 787-788; [_extract_key] uses [_keyval.split] *)
                 | [] => (ms, [], Raise AttributeError)
                 | _ => match ext a with
                        | Raise e => (ms, [], Raise e)
                        | Ok k => yl_set uid ms k a
                        end
                 end
  | YDelete k => yl_delete ms k
  | YDeleteKw [] => yl_delete ms VNone
  | YDeleteKw kw => match keys with
                    | [] => (ms, [], Raise AttributeError)
                    | _ => match kw_keys keys kw with
                           | Raise e => (ms, [], Raise e)
                           | Ok kd => yl_delete ms (VStr (key_text kd))
                           end
                    end
  end.

(** yangtypes.py:846-859, [_item]: always looks up the text. *)
Definition yl_item (ms : list (pyval * A)) (kw : list (str * pyval)) : res A :=
  match kw_keys keys kw with
  | Raise _ => Raise KeyError
  | Ok kd => match mget (VStr (key_text kd)) ms with Some a => Ok a | None => Raise KeyError end
  end.

(** A run; every operation is handed the uuid it would draw. *)
Fixpoint yl_run (ms : list (pyval * A)) (os : list (str * yop A)) : list (pyval * A) :=
  match os with
  | [] => ms
  | (u, o) :: os' => yl_run (fst (fst (yl_op u ms o))) os'
  end.
End YL.

(** Does the wrapper (yangtypes.py:1145-1153) call [_set()] on the list before the operation? *)
Definition yl_notifies {A} (o : yop A) : bool :=
  match o with YSet _ _ | YAppend _ => true | _ => false end.

(* ------------------------------------------------------------------ entries seen through their keys *)
(** The key leaves of an entry, in order, with their types; the entry's other content is [B].
    [_set_<key>(v, load=True)] for each key in turn (yangtypes.py:712-715, plugin/pybind.py:
    1119-1172): the leaf setter without the "cannot set keys" test. *)
Section Entry.
Context {B : Type} (O : oracle).
Fixpoint set_keys (kts : list ltype) (kd : list (str * pyval)) : list bool * res (list pyval) :=
  match kts, kd with
  | lt :: kts', (_, v) :: kd' =>
      let d := leaf_assign O lt v in
      match d_out d with
      | Raise e => ([d_notified d], Raise e)
      | Ok w => let '(ev, r) := set_keys kts' kd' in
                (d_notified d :: ev, ws <- r ;; Ok (w :: ws))
      end
  | _, _ => ([], Ok [])
  end.
Definition entry_mk (kts : list ltype) (rest : B) (kd : list (str * pyval)) : list bool * res (list pyval * B) :=
  let '(ev, r) := set_keys kts kd in (ev, ws <- r ;; Ok (ws, rest)).
(** [s.rstrip(" ")]. *)
Definition rstrip_sp (s : str) : str := rev (skip_sp (rev s)).
(** yangtypes.py:771-785, [_extract_key]. *)
Definition entry_ext (a : list pyval * B) : res pyval :=
  match fst a with
  | [v] => Ok v
  | vs => Ok (VStr (rstrip_sp (join [32%N] (map (py_str O) vs))))
  end.
Definition entry_run (keys : list str) (kts : list ltype) (rest0 : B) :=
  yl_run (E := bool) O keys (entry_mk kts rest0) (fun a => entry_mk kts (snd a)) (map (fun _ => VNone) kts, rest0) entry_ext.
End Entry.
