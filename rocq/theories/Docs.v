(** The docstrings of the generated code: descriptions are written into them as they are.  No proofs in this file. *)
From Verif Require Import PyStr PyVal Restricted Defaults.
Local Open Scope Z_scope.

Definition q3 : str := [34; 34; 34]%N.
(** What Python makes of the text after three double quotes: a string and the code after it, a SyntaxError, or (for the
    names of characters, \N) not said here. *)
Inductive reading := Doc (text code : str) | DBad | DUnknown.
Definition skip_lf (s : str) : str := match s with c :: s' => if N.eqb c 10 then s' else s | [] => s end.
(** The Python reference, 2.4.1; ends of lines count as one line feed each (2.1.2), also after a backslash, where they
    are left out. *)
Fixpoint long_string (fuel : nat) (s : str) (acc : str) : reading :=
  match fuel, s with
  | _, [] => DBad
  | O, _ => DUnknown
  | S f, c :: s' =>
      if startswith q3 s then Doc (rev acc) (skipn 3 s)
      else if N.eqb c 0 then DBad
      else if N.eqb c 13 then long_string f (skip_lf s') (10%N :: acc)
      else if negb (N.eqb c 92) then long_string f s' (c :: acc)
      else match s' with
           | [] => DBad
           | e :: s'' =>
               match escape e with
               | Some r => long_string f s'' (r ++ acc)
               | None =>
                   if N.eqb e 0 then DBad
                   else if N.eqb e 13 then long_string f (skip_lf s'') acc
                   else if N.eqb e 78 then DUnknown
                   else match digit_in 8 e with
                        | Some _ => let '(v, _, rest) := some_digits 8 3 s' 0 0 in long_string f rest (Z.to_N v :: acc)
                        | None =>
                            let n := if N.eqb e 120 then 2%nat else if N.eqb e 117 then 4%nat else if N.eqb e 85 then 8%nat else 0%nat in
                            match n with
                            | O => long_string f s'' (e :: 92%N :: acc)
                            | _ => let '(v, k, rest) := some_digits 16 n s'' 0 0 in
                                   if (Nat.eqb k n && (v <=? 1114111))%bool then long_string f rest (Z.to_N v :: acc) else DBad
                            end
                        end
               end
           end
  end.
(** The part of a text up to the first three double quotes, and the literal that begins there. *)
Fixpoint docstring (s : str) (head : str) : str * reading :=
  match s with
  | [] => (rev head, DBad)
  | c :: s' => if startswith q3 s then (rev head, long_string (S (length s)) (skipn 3 s) []) else docstring s' (c :: head)
  end.

Definition nl : str := [10%N].
(** plugin/pybind.py:1447-1451, 1103-1105; [d] is the argument of the description statement, if there is one.  An empty
    one is left out. *)
Definition descr_text (indent : str) (d : option str) : str :=
  match d with
  | Some (c :: s) => nl ++ nl ++ indent ++ lit "YANG Description: " ++ c :: s
  | _ => []
  end.
(** plugin/pybind.py:1106-1115: the getter of the element [name], with [path] and the name of its type. *)
Definition getter_text (name path ty : str) (d : option str) : str :=
  nl ++ lit "  def _get_" ++ name ++ lit "(self):" ++ nl ++ lit "    " ++ q3 ++ nl ++
  lit "    Getter method for " ++ name ++ lit ", mapped from YANG variable " ++ path ++ lit " (" ++ ty ++ lit ")" ++ descr_text (lit "    ") d ++ nl ++
  lit "    " ++ q3 ++ nl ++ lit "    return self.__" ++ name ++ nl ++ lit "      ".
(** plugin/pybind.py:1117-1128: the head of the setter. *)
Definition setter_text (name path ty : str) (d : option str) : str :=
  nl ++ lit "  def _set_" ++ name ++ lit "(self, v, load=False):" ++ nl ++ lit "    " ++ q3 ++ nl ++
  lit "    Setter method for " ++ name ++ lit ", mapped from YANG variable " ++ path ++ lit " (" ++ ty ++ lit ")" ++ nl ++
  lit "    If this variable is read-only (config: false) in the" ++ nl ++
  lit "    source YANG file, then _set_" ++ name ++ lit " is considered as a private" ++ nl ++
  lit "    method. Backends looking to populate this variable should" ++ nl ++
  lit "    do so via calling thisObj._set_" ++ name ++ lit "() directly." ++ descr_text (lit "    ") d ++ nl ++
  lit "    " ++ q3.
(** plugin/pybind.py:819-835: the docstring of a class; here an empty description is not left out. *)
Definition class_text (module path : str) (d : option str) : str :=
  lit "  " ++ q3 ++ nl ++
  lit "  This class was auto-generated by the PythonClass plugin for PYANG" ++ nl ++
  lit "  from YANG module " ++ module ++ lit " - based on the path " ++ path ++ lit ". Each member element of" ++ nl ++
  lit "  the container is represented as a class variable - with a specific" ++ nl ++
  lit "  YANG type." ++ match d with Some s => nl ++ nl ++ lit "  YANG Description: " ++ s | None => [] end ++ nl ++
  lit "  " ++ q3 ++ nl.
