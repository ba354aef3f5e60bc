(** Searches with the path helper whose predicates use current(), and leafrefs with such paths.
    No proofs in this file. *)
From Verif Require Import PyStr PyVal PathHelper RegTree RegRef.

(** xpathhelper.py:179, regex.sub: "current()" is taken out, the first time it is there (on one line). *)
Fixpoint cut_current (s : str) : str :=
  if startswith (lit "current()") s then skipn (length (lit "current()")) s
  else match s with [] => [] | c :: s' => c :: cut_current s' end.
(** xpathhelper.py:179-185: the path that the expression stands for.  [caller] is the path of the object that
    asks; [] is for none (False).  An expression over several lines is not modelled. *)
Definition current_path (caller : list str) (v : str) : res (list str) :=
  if ch_in 10 v then Raise RuntimeError
  else match split_on 47 (cut_current v) with
       | _ :: p :: more =>
           match caller with
           | [] => Raise TypeError
           | _ => if str_eqb p (lit "..") then Ok (removelast caller ++ more) else Ok (caller ++ p :: more)
           end
       | _ => Raise IndexError
       end.

Section Current.
(** [text]: str() of an object. *)
Context {A : Type} (text : option A -> str).
(** xpathhelper.py:186-191: the text of the one object there. *)
Definition current_value (caller : list str) (st : helper A) (v : str) : res str :=
  lookup <- current_path caller v ;;
  objs <- get [] lookup st ;;
  match objs with
  | [o] => Ok (text o)
  | _ => Raise XPathError
  end.
(** xpathhelper.py:176-192: the value of a predicate; it is put between apostrophes, with one in it lxml
    refuses the expression or understands another. *)
Definition pred_value (caller : list str) (st : helper A) (kv : str * str) : res (str * str) :=
  if has_sub (lit "current()") (snd kv) then
    (v <- current_value caller st (snd kv) ;; if ch_in 39 v then Raise RuntimeError else Ok (fst kv, v))
  else Ok kv.
(** xpathhelper.py:167-198: one part of a path as a step, like [part_step].  If two parts are refused for
    different reasons the exception is that of the first here. *)
Definition part_step_in (caller : list str) (st : helper A) (part : str) : res xstep :=
  ta <- tag_attrs part ;;
  let t := local_name (fst ta) in
  match snd ta with
  | None => if str_eqb t (lit "..") then Ok Up else if str_eqb t (lit ".") then Ok Here
            else if ncname t then Ok (Node t []) else Raise RuntimeError
  | Some [] => Raise RuntimeError
  | Some d => d' <- map_r (pred_value caller st) d ;;
              if ncname t && forallb (fun kv => ncname (fst kv) && forallb xml_char (snd kv)) d' then Ok (Node t d') else Raise RuntimeError
  end.
(** xpathhelper.py:151-200, [_encode_path] with a caller. *)
Definition encode_path_in (caller : list str) (st : helper A) (path : list str) : res (list xstep) :=
  match path with
  | [] => Raise RuntimeError
  | p :: path' => map_r (part_step_in caller st) (no_empty_end (match p with [] => path' | _ => path end))
  end.
(** xpathhelper.py:295-311, [_get_etree] and [get]: the caller is for current() and for relative paths; its
    own path is encoded without a caller (302). *)
Definition get_in (caller path : list str) (st : helper A) : res (list (option A)) :=
  as_ <- (if relative path then
            match caller with
            | [] => Raise RuntimeError
            | _ => s2 <- encode_path_in caller st path ;; s1 <- encode_path_in [] st caller ;; Ok (eval_steps (h_root st) (s1 ++ s2))
            end
          else ss <- encode_path_in caller st path ;; Ok (eval_steps (h_root st) ss)) ;;
  map_r (object_at st) as_.
End Current.

(** yangtypes.py:1247-1325: a leafref, as [leafref_new], with a path that may use current(). *)
Definition leafref_in (text : pyval -> str) (other : option pobj -> str) (require key : bool) (caller : list str) (ref : str) (w : world)
  (assign : res unit) (v : str) : res reference :=
  objs <- get_in (fun o => t_text (target_of text other false w o)) caller (path_parts ref) (w_help w) ;;
  reference_new require (Some (map (target_of text other key w) objs)) assign (Some v).
