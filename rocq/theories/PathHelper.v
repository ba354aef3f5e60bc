(** lib/xpathhelper.py: YANGPathHelper, and the type of leafrefs (yangtypes.py:1220-1349) that uses it.
    No proofs in this file.

    Not modelled here: predicates with current() (xpathhelper.py:175-189; see Current.v), get_list and the
    attributes that register sets on the FakeRoot object (236-239; see RegTree.v, RegRoot.v), names that are
    not ASCII.  The text of the XPath
    expression is not built: what lxml makes of it is described instead, for paths of names, "." and
    ".." with conjunctions of attribute tests.  Everything else lxml would refuse or understand
    differently is [RuntimeError] here. *)
From Verif Require Import PyStr PyVal.

(* ------------------------------------------------------------------ texts *)
(** xpathhelper.py:124-149, [_path_parts]: [q] is in_qstr, [b] is in_attr. *)
Fixpoint parts_loop (q b : bool) (buf path : str) : list str :=
  match path with
  | [] => [buf]
  | c :: path' =>
      if N.eqb c 47 && negb q && negb b then buf :: parts_loop q b [] path'
      else if N.eqb c 34 && q then parts_loop false b (buf ++ [c]) path'
      else if N.eqb c 34 then parts_loop true b (buf ++ [c]) path'
      else if N.eqb c 91 then parts_loop q true (buf ++ [c]) path'
      else if N.eqb c 93 then parts_loop q false (buf ++ [c]) path'
      else parts_loop q b (buf ++ [c]) path'
  end.
Definition path_parts (path : str) : list str := parts_loop false false [] path.

(** [s.split("||")]. *)
Fixpoint split_bars (buf s : str) : list str :=
  match s with
  | [] => [buf]
  | c :: s1 => match s1 with
               | d :: s2 => if N.eqb c 124 && N.eqb d 124 then buf :: split_bars [] s2 else split_bars (buf ++ [c]) s1
               | [] => [buf ++ [c]]
               end
  end.
(** The longest prefix of characters with [f], and the rest. *)
Fixpoint span (f : N -> bool) (s : str) : str * str :=
  match s with
  | [] => ([], [])
  | c :: s' => if f c then let (a, r) := span f s' in (c :: a, r) else ([], s)
  end.

(** xpathhelper.py:108, [_attr_re], "^(?P<tagname>[^\[]+)(?P<args>(\[[^\]]+\])+)$": the part after the
    tag name.  "$" also matches before a newline at the end. *)
Fixpoint in_group (some : bool) (s : str) {struct s} : bool :=
  match s with
  | [] => false
  | c :: s' => if N.eqb c 93 then some && match s' with
                                          | [] => true
                                          | d :: s2 => if N.eqb d 91 then in_group false s2
                                                       else N.eqb d 10 && match s2 with [] => true | _ => false end
                                          end
               else in_group true s'
  end.
(** The tag name and the rest, if the expression matches. *)
Definition attr_match (tag : str) : option (str * str) :=
  let (name, rest) := span (fun c => negb (N.eqb c 91)) tag in
  match name, rest with
  | _ :: _, _ :: args => if in_group false args then Some (name, rest) else None
  | _, _ => None
  end.

(** xpathhelper.py:109-113, [_arg_re], after the optional "and " or "or ".  The longest match of each
    part is the only one that can succeed: what follows it starts with another kind of character, or
    matches anything. *)
Definition is_cmd (c : N) : bool :=
  (N.leb 97 c && N.leb c 122) || (N.leb 65 c && N.leb c 90) || (N.leb 48 c && N.leb c 57) || N.eqb c 45 || N.eqb c 95 || N.eqb c 58.
Definition is_arg (c : N) : bool := negb (N.eqb c 32 || N.eqb c 94 || N.eqb c 39 || N.eqb c 34).
Definition drop_at_sign (s : str) : str := match s with 64%N :: s' => s' | _ => s end.
Definition drop_quote (s : str) : str := match s with c :: s' => if N.eqb c 39 || N.eqb c 34 then s' else s | [] => [] end.
Definition drop_spaces (s : str) : str := snd (span (N.eqb 32) s).
Definition arg_tail (s : str) : option (str * str * str) :=
  let (cmd, s1) := span is_cmd (drop_at_sign s) in
  match cmd, drop_spaces s1 with
  | _ :: _, 61%N :: s2 =>
      let (arg, s3) := span is_arg (drop_quote (drop_spaces s2)) in
      match arg with [] => None | _ => Some (cmd, arg, drop_spaces (drop_quote s3)) end
  | _, _ => None
  end.
Definition arg_match (s : str) : option (str * str * str) :=
  let skip := if startswith (lit "and ") s then arg_tail (skipn 4 s)
              else if startswith (lit "or ") s then arg_tail (skipn 3 s) else None in
  match skip with Some r => Some r | None => arg_tail s end.

(** [d[k] = v] on a dictionary (in insertion order), and d.get. *)
Fixpoint look {A} (k : str) (d : list (str * A)) : option A :=
  match d with [] => None | (m, a) :: d' => if str_eqb k m then Some a else look k d' end.
Fixpoint dict_set {A} (k : str) (v : A) (d : list (str * A)) : list (str * A) :=
  match d with [] => [(k, v)] | (m, a) :: d' => if str_eqb k m then (k, v) :: d' else (m, a) :: dict_set k v d' end.
Definition dict_del {A} (k : str) (d : list (str * A)) : list (str * A) := filter (fun ma => negb (str_eqb k (fst ma))) d.

(** [x.split(":")[1] if ":" in x]. *)
Definition local_name (s : str) : str :=
  if ch_in 58 s then match split_on 58 s with _ :: t :: _ => t | _ => s end else s.
(** xpathhelper.py:209-223: the predicates of one bracket.  Each round shortens the text, so that the
    length of the text is enough fuel. *)
Fixpoint arg_loop (fuel : nat) (s : str) (d : list (str * str)) : res (list (str * str)) :=
  match s with
  | [] => Ok d
  | _ => match fuel with
         | 0%nat => Raise OutOfFuel
         | S fuel' =>
             match arg_match s with
             | None => Raise XPathError
             | Some (c, a, r) =>
                 match split_bars [] (c ++ lit "||" ++ a ++ lit "||" ++ r) with
                 | [c; a; r] => arg_loop fuel' r (dict_set (local_name c) a d)
                 | _ => Raise ValueError
                 end
             end
         end
  end.
Fixpoint args_loop (parts : list str) (d : list (str * str)) : res (list (str * str)) :=
  match parts with [] => Ok d | p :: parts' => d' <- arg_loop (length p) p d ;; args_loop parts' d' end.
(** [x.strip("[")]. *)
Definition strip_open (s : str) : str :=
  let l := snd (span (N.eqb 91) s) in rev (snd (span (N.eqb 91) (rev l))).
(** xpathhelper.py:202-224, [_tagname_attributes]. *)
Definition tag_attrs (tag : str) : res (str * option (list (str * str))) :=
  match attr_match tag with
  | None => Ok (tag, None)
  | Some (name, rest) =>
      match split_bars [] (name ++ lit "||" ++ rest) with
      | [name; args] => d <- args_loop (map strip_open (split_on 93 args)) [] ;; Ok (name, Some d)
      | _ => Raise ValueError
      end
  end.

(* ------------------------------------------------------------------ the element tree *)
(** lxml elements: tag, attributes, children. *)
Inductive xelem := El (tag : str) (attrs : list (str * str)) (kids : list xelem).
Definition x_tag (e : xelem) : str := match e with El t _ _ => t end.
Definition x_attrs (e : xelem) : list (str * str) := match e with El _ a _ => a end.
Definition x_kids (e : xelem) : list xelem := match e with El _ _ k => k end.
Inductive xstep := Up | Here | Node (tag : str) (attrs : list (str * str)).

(** Names that XPath and lxml accept (ASCII only), characters that may stand in XML. *)
Definition name_start (c : N) : bool := (N.leb 97 c && N.leb c 122) || (N.leb 65 c && N.leb c 90) || N.eqb c 95.
Definition name_char (c : N) : bool := name_start c || (N.leb 48 c && N.leb c 57) || N.eqb c 45 || N.eqb c 46.
Definition ncname (s : str) : bool := match s with c :: s' => name_start c && forallb name_char s' | [] => false end.
Definition xml_char (c : N) : bool :=
  N.eqb c 9 || N.eqb c 10 || N.eqb c 13 || (N.leb 32 c && N.ltb c 55296) || (N.leb 57344 c && N.ltb c 65534) || N.leb 65536 c.
Fixpoint has_sub (p s : str) : bool :=
  startswith p s || match s with [] => false | _ :: s' => has_sub p s' end.

(** xpathhelper.py:167-198: one part of a path as a step. *)
Definition part_step (part : str) : res xstep :=
  ta <- tag_attrs part ;;
  let t := local_name (fst ta) in
  match snd ta with
  | None => if str_eqb t (lit "..") then Ok Up else if str_eqb t (lit ".") then Ok Here
            else if ncname t then Ok (Node t []) else Raise RuntimeError
  | Some [] => Raise RuntimeError
  | Some d => if ncname t && forallb (fun kv => ncname (fst kv) && forallb xml_char (snd kv) && negb (has_sub (lit "current()") (snd kv))) d
              then Ok (Node t d) else Raise RuntimeError
  end.
Fixpoint map_r {A B} (f : A -> res B) (l : list A) : res (list B) :=
  match l with [] => Ok [] | a :: l' => b <- f a ;; r <- map_r f l' ;; Ok (b :: r) end.
(** "/" at the end of the expression is stripped (193). *)
Fixpoint no_empty_end (l : list str) : list str :=
  match l with
  | [] => []
  | p :: l' => match p, no_empty_end l' with [], [] => [] | _, r => p :: r end
  end.
(** xpathhelper.py:151-200, [_encode_path] with mode="search".  The empty path (the document) is not
    modelled. *)
Definition encode_path (path : list str) : res (list xstep) :=
  match path with
  | [] => Raise RuntimeError
  | p :: path' => map_r part_step (no_empty_end (match p with [] => path' | _ => path end))
  end.

(** Nodes are addressed by their position from the root. *)
Fixpoint node_at (a : list nat) (e : xelem) : option xelem :=
  match a with [] => Some e | i :: a' => match nth_error (x_kids e) i with Some c => node_at a' c | None => None end end.
Definition matches (t : str) (ats : list (str * str)) (e : xelem) : bool :=
  str_eqb t (x_tag e) && forallb (fun kv => match look (fst kv) (x_attrs e) with Some v => str_eqb (snd kv) v | None => false end) ats.
Fixpoint child_hits (i : nat) (t : str) (ats : list (str * str)) (kids : list xelem) : list nat :=
  match kids with
  | [] => []
  | c :: kids' => if matches t ats c then i :: child_hits (S i) t ats kids' else child_hits (S i) t ats kids'
  end.
Fixpoint addr_eqb (a b : list nat) : bool :=
  match a, b with [], [] => true | i :: a', j :: b' => Nat.eqb i j && addr_eqb a' b' | _, _ => false end.
Fixpoint dedup (l : list (list nat)) : list (list nat) :=
  match l with [] => [] | a :: l' => a :: filter (fun b => negb (addr_eqb a b)) (dedup l') end.
(** One step from a set of nodes (in document order).  Above the root there is nothing here (for XPath
    there is the document). *)
Definition step_from (root : xelem) (s : xstep) (as_ : list (list nat)) : list (list nat) :=
  match s with
  | Here => as_
  | Up => dedup (flat_map (fun a => match a with [] => [] | _ => [removelast a] end) as_)
  | Node t ats => flat_map (fun a => match node_at a root with
                                     | Some e => map (fun i => a ++ [i]) (child_hits 0 t ats (x_kids e))
                                     | None => []
                                     end) as_
  end.
Definition eval_steps (root : xelem) (ss : list xstep) : list (list nat) := fold_left (fun as_ s => step_from root s as_) ss [[]].

(** xpathhelper.py:295-305, [_get_etree].  A relative path without a caller is not modelled. *)
Definition relative (path : list str) : bool := match path with p :: _ => startswith (lit ".") p | [] => false end.
Definition get_etree (caller path : list str) (root : xelem) : res (list (list nat)) :=
  if relative path then
    match caller with
    | [] => Raise RuntimeError
    | _ => s1 <- encode_path caller ;; s2 <- encode_path path ;; Ok (eval_steps root (s1 ++ s2))
    end
  else ss <- encode_path path ;; Ok (eval_steps root ss).

(* ------------------------------------------------------------------ the helper *)
Section Helper.
(** [oeq]: == on the objects; [uid n]: the n-th uuid. *)
Context {A : Type} (oeq : A -> A -> bool) (uid : nat -> str).

(** The tree, the library (None stands for the FakeRoot), the number of uuids drawn. *)
Record helper := { h_root : xelem; h_lib : list (str * option A); h_next : nat }.
(** xpathhelper.py:116-122. *)
Definition helper_new : helper :=
  {| h_root := El (lit "root") [(lit "obj_ptr", lit "root")] []; h_lib := [(lit "root", None)]; h_next := 0 |}.

Definition pointer (e : xelem) : option str := look (lit "obj_ptr") (x_attrs e).
Definition set_attr (k v : str) (e : xelem) : xelem := match e with El t a ks => El t (dict_set k v a) ks end.
Definition add_kid (c : xelem) (e : xelem) : xelem := match e with El t a ks => El t a (ks ++ [c]) end.
Fixpoint upd_nth {B} (i : nat) (f : B -> B) (l : list B) : list B :=
  match l, i with [], _ => [] | b :: l', 0%nat => f b :: l' | b :: l', S i' => b :: upd_nth i' f l' end.
Fixpoint del_nth {B} (i : nat) (l : list B) : list B :=
  match l, i with [], _ => [] | _ :: l', 0%nat => l' | b :: l', S i' => b :: del_nth i' l' end.
Fixpoint upd_at (a : list nat) (f : xelem -> xelem) (e : xelem) : xelem :=
  match a with
  | [] => f e
  | i :: a' => match e with El t ats ks => El t ats (upd_nth i (upd_at a' f) ks) end
  end.
(** getparent().remove() *)
Fixpoint drop_at (a : list nat) (e : xelem) : xelem :=
  match a with
  | [] => e
  | [i] => match e with El t ats ks => El t ats (del_nth i ks) end
  | i :: a' => match e with El t ats ks => El t ats (upd_nth i (drop_at a') ks) end
  end.

(** The object a node points at. *)
Definition object_at (st : helper) (a : list nat) : res (option A) :=
  match node_at a (h_root st) with
  | None => Raise RuntimeError (* not reached *)
  | Some e => match pointer e with
              | None => Raise KeyError
              | Some p => match look p (h_lib st) with Some o => Ok o | None => Raise KeyError end
              end
  end.
(** xpathhelper.py:307-311, [get] for a path given as a list of parts or, with [path_parts], as text. *)
Definition get (caller path : list str) (st : helper) : res (list (option A)) :=
  as_ <- get_etree caller path (h_root st) ;; map_r (object_at st) as_.

(** xpathhelper.py:247-248: the object is not replaced if the one that is there is equal. *)
Definition same_object (old : option A) (o : A) : bool := match old with Some x => oeq x o | None => false end.
(** xpathhelper.py:226-278, [register].  Of the attributes set on the FakeRoot (236-239) only that it must
    be there. *)
Definition register (path : list str) (o : A) (st : helper) : helper * res unit :=
  match path with
  | [] => (st, Raise IndexError)
  | p :: _ =>
      if startswith (lit "..") p then (st, Raise XPathError)
      else if match path, look (lit "root") (h_lib st) with [_], None => true | _, _ => false end then (st, Raise KeyError)
      else match get_etree [] path (h_root st) with
      | Raise e => (st, Raise e)
      | Ok (_ :: _ :: _) => (st, Raise XPathError)
      | Ok [a] =>
          match object_at st a with
          | Raise e => (st, Raise e)
          | Ok old =>
              if same_object old o then (st, Ok tt)
              else let id := uid (h_next st) in
                   let ptr := match node_at a (h_root st) with Some e => match pointer e with Some q => q | None => [] end | None => [] end in
                   ({| h_root := upd_at a (set_attr (lit "obj_ptr") id) (h_root st);
                       h_lib := dict_set id (Some o) (dict_del ptr (h_lib st)); h_next := S (h_next st) |}, Ok tt)
          end
      | Ok [] =>
          let id := uid (h_next st) in
          let st' := {| h_root := h_root st; h_lib := dict_set id (Some o) (h_lib st); h_next := S (h_next st) |} in
          match tag_attrs (last path []) with
          | Raise e => (st', Raise e)
          | Ok (t, ats) =>
              let add a :=
                if ncname t then
                  let c := fold_left (fun c kv => set_attr (fst kv) (snd kv) c) (match ats with Some d => d | None => [] end)
                             (El t [(lit "obj_ptr", id)] []) in
                  ({| h_root := upd_at a (add_kid c) (h_root st); h_lib := h_lib st'; h_next := h_next st' |}, Ok tt)
                else (st', Raise ValueError) in
              match removelast path with
              | [] => add []
              | parent => match get_etree [] parent (h_root st) with
                          | Raise e => (st', Raise e)
                          | Ok (_ :: _ :: _) => (st', Raise TypeError) (* the message itself fails *)
                          | Ok [] => (st', Raise XPathError)
                          | Ok [a] => add a
                          end
              end
          end
      end
  end.

(** xpathhelper.py:290-293: the nodes of the addresses, in order, until one of them points nowhere. *)
Fixpoint unregister_all (st : helper) (as_ : list (list nat)) (lib : list (str * option A)) (done : list (list nat))
  : list (str * option A) * list (list nat) * res unit :=
  match as_ with
  | [] => (lib, done, Ok tt)
  | a :: as' =>
      match match node_at a (h_root st) with Some e => pointer e | None => None end with
      | None => (lib, done, Raise KeyError)
      | Some p => match look p lib with
                  | None => (lib, done, Raise KeyError)
                  | Some _ => match a with
                              | [] => (dict_del p lib, done, Raise AttributeError)
                              | _ => unregister_all st as' (dict_del p lib) (a :: done)
                              end
                  end
      end
  end.
(** xpathhelper.py:280-293, [unregister].  The addresses are those before anything is removed: they are
    removed from the last to the first. *)
Definition unregister (path : list str) (st : helper) : helper * res unit :=
  match path with
  | [] => (st, Raise IndexError)
  | p :: _ =>
      if startswith (lit ".") p || startswith (lit "/") p then (st, Raise XPathError)
      else match get_etree [] path (h_root st) with
      | Raise e => (st, Raise e)
      | Ok [] => (st, Raise XPathError)
      | Ok as_ =>
          match unregister_all st as_ (h_lib st) [] with
          | (lib, done, r) =>
              ({| h_root := fold_left (fun e a => drop_at a e) done (h_root st); h_lib := lib; h_next := h_next st |}, r)
          end
      end
  end.
End Helper.
Arguments helper : clear implicits.

(* ------------------------------------------------------------------ leafrefs *)
(** What a leafref sees of the objects its path leads to: str(), the texts of the members if it is a
    leaf-list, whether it is a key leaf, whether it is a list or a leaf-list. *)
Record target := { t_text : str; t_members : option (list str); t_keyval : bool; t_list : bool }.
(** What becomes of the value: nothing to refer to, a reference to the target with that number (and,
    in a leaf-list, the member with that number), the value itself, or a pointer: the value has been
    assigned to the target. *)
Inductive reference := RefNone | RefTo (n : nat) | RefMember (n : nat) | RefValue | RefPointer.
Fixpoint position (t : str) (l : list str) : option nat :=
  match l with [] => None | x :: l' => if str_eqb x t then Some 0%nat else option_map S (position t l') end.
(** The last one (the loop goes on). *)
Fixpoint position_last (t : str) (l : list str) : option nat :=
  match l with
  | [] => None
  | x :: l' => match position_last t l' with Some n => Some (S n) | None => if str_eqb x t then Some 0%nat else None end
  end.
(** yangtypes.py:1247-1325, the constructor.  [helper]: the objects that the path leads to, None without
    a path helper; [value]: str() of the value, None for None; [assign]: what assigning the value to the
    target does. *)
Definition reference_new (require : bool) (helper : option (list target)) (assign : res unit) (value : option str) : res reference :=
  match value, helper with
  | None, _ => Ok RefNone
  | Some _, None => Ok RefValue
  | Some v, Some ts =>
      match ts with
      | [t] => if negb (t_keyval t) && negb (t_list t) then (_ <- assign ;; Ok RefPointer)
               else if require then
                 match t_members t with
                 | Some ms => match position v ms with Some n => Ok (RefMember n) | None => Raise ValueError end
                 | None => match position_last v [t_text t] with Some n => Ok (RefTo n) | None => Raise ValueError end
                 end
               else Ok RefValue
      | _ => if require then match position_last v (map t_text ts) with Some n => Ok (RefTo n) | None => Raise ValueError end
             else Ok RefValue
      end
  end.
