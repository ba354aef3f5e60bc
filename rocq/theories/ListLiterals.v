(** The literals in the generated code of lists and references.  No proofs in this file. *)
From Coq Require Import String.
From Verif Require Import PyStr PyVal Restricted Defaults Docs SafeName.

(** The Python reference, 2.4.1: what Python makes of the text after the quote [q]; the result as for docstrings ([Docs]).
    Escape sequences are not followed. *)
Fixpoint one_string (q : N) (fuel : nat) (s acc : str) : reading :=
  match fuel, s with
  | _, [] => DBad
  | O, _ => DUnknown
  | S f, c :: s' =>
      if N.eqb c q then Doc (rev acc) s'
      else if (N.eqb c 10 || N.eqb c 13 || N.eqb c 0)%bool then DBad
      else if N.eqb c 92 then DUnknown
      else one_string q f s' (c :: acc)
  end.
(** A string after the code [head].  Long strings and literals one after the other (2.4.2) are not followed. *)
Definition segment (head : str) (q : N) (s : str) : reading :=
  if startswith (head ++ [q]) s then
    let s' := skipn (S (length head)) s in
    if startswith [q; q] s' then DUnknown
    else match one_string q (S (length s')) s' [] with
         | Doc v (c :: t) => if (N.eqb c 34 || N.eqb c 39)%bool then DUnknown else Doc v (c :: t)
         | r => r
         end
  else DBad.
(** Several, with the code between them; what they are and what follows. *)
Fixpoint segments (l : list (str * N)) (s : str) : option (list str * str) :=
  match l with
  | [] => Some ([], s)
  | (h, q) :: l' => match segment h q s with
                    | Doc v s' => match segments l' s' with Some (vs, t) => Some (v :: vs, t) | None => None end
                    | _ => None
                    end
  end.

Definition py_bool (b : bool) : str := if b then lit "True" else lit "False".
(** plugin/pybind.py:907-914, a list: its key argument (1541-1546) as the Python key and as yang_keys; [ty] is the name of the
    class of its entries, [more] what is written from the extensions on. *)
Definition list_text (key : option str) (ty name : str) (user : bool) (more : str) : str :=
  lit "base=YANGListType(" ++ (match key with Some k => [34%N] ++ safe_name k ++ [34%N] | None => lit "False" end) ++ lit "," ++ ty ++
  lit ", yang_name=" ++ [34%N] ++ name ++ [34%N] ++ lit ", parent=self" ++
  lit ", is_container='list', user_ordered=" ++ py_bool user ++ lit ", path_helper=self._path_helper" ++
  lit ", yang_keys=" ++ [39%N] ++ (match key with Some k => k | None => lit "False" end) ++ [39%N] ++ lit ", extensions=" ++ more.
(** plugin/pybind.py:940-944, a leaf that is a reference. *)
Definition ref_text (ty path name : str) (req : bool) : str :=
  lit "base=" ++ ty ++ lit "(referenced_path=" ++ [39%N] ++ path ++ [39%N] ++ lit ", caller=self._path() + [" ++ [39%N] ++ name ++ [39%N] ++ lit "], " ++
  lit "path_helper=self._path_helper, " ++ lit "require_instance=" ++ py_bool req ++ lit ")".
(** plugin/pybind.py:951-958, a leaf-list of references; [lty] and [ty] are the names of the two classes. *)
Definition refs_text (lty ty path name : str) (req : bool) : str :=
  lit "base=" ++ lty ++ lit "(allowed_type=" ++ ty ++ lit "(referenced_path=" ++ [39%N] ++ path ++ [39%N] ++ lit "," ++ lit "caller=self._path() + [" ++ [39%N] ++ name ++ [39%N] ++ lit "], " ++
  lit "path_helper=self._path_helper, " ++ lit "require_instance=" ++ py_bool req ++ lit "))".
