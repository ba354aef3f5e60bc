(** The names, namespaces and type names that the generated code has as literals in single quotes.  No proofs in this file. *)
From Verif Require Import PyStr PyVal Restricted Defaults Docs.
Local Open Scope Z_scope.

Definition q1 : N := 39%N.
(** The Python reference, 2.4.1: what Python makes of the text after a single quote; the result as for docstrings ([Docs]). *)
Fixpoint short_string (fuel : nat) (s : str) (acc : str) : reading :=
  match fuel, s with
  | _, [] => DBad
  | O, _ => DUnknown
  | S f, c :: s' =>
      if N.eqb c q1 then Doc (rev acc) s'
      else if (N.eqb c 10 || N.eqb c 13 || N.eqb c 0)%bool then DBad
      else if N.eqb c 92 then DUnknown
      else short_string f s' (c :: acc)
  end.
(** The Python reference, 2.4.2: literals that follow one another are one string.  [s] begins after a single quote; three
    in a row would be a long string. *)
Fixpoint literals (fuel : nat) (s : str) (acc : str) : reading :=
  match fuel with
  | O => DUnknown
  | S f =>
      if startswith [q1; q1] s then DUnknown
      else match short_string (S (length s)) s [] with
           | Doc v (c :: s') => if N.eqb c q1 then literals f s' (acc ++ v) else Doc (acc ++ v) (c :: s')
           | Doc v [] => Doc (acc ++ v) []
           | r => r
           end
  end.
(** A keyword argument of a call, or the value of a class variable: its head, then a string. *)
Definition argument (head s : str) : reading :=
  if startswith (head ++ [q1]) s then let s' := skipn (S (length head)) s in literals (S (length s')) s' [] else DBad.

(** plugin/pybind.py:1000-1003: the last arguments for an element: namespace, defining module, type and config.  A node
    has a namespace here (1438-1440 writes None otherwise). *)
Definition arguments_text (ns module ty : str) (config : bool) : str :=
  lit ", namespace='" ++ ns ++ lit "'" ++
  lit ", defining_module='" ++ module ++ lit "'" ++
  lit ", yang_type='" ++ ty ++ lit "'" ++
  lit ", is_config=" ++ (if config then lit "True" else lit "False").
(** plugin/pybind.py:862, 869: the names stored in a class. *)
Definition class_vars_text (name ns : str) : str :=
  lit "  _yang_name = '" ++ name ++ lit "'" ++ nl ++ lit "  _yang_namespace = '" ++ ns ++ lit "'" ++ nl.

(** What Python reads there, one literal after the other. *)
Fixpoint strings_read (heads : list str) (s : str) : option (list str * str) :=
  match heads with
  | [] => Some ([], s)
  | h :: hs => match argument h s with
               | Doc v s' => match strings_read hs s' with Some (vs, t) => Some (v :: vs, t) | None => None end
               | _ => None
               end
  end.
Definition arguments_read (ns module ty : str) (config : bool) : option (list str * str) :=
  strings_read [lit ", namespace="; lit ", defining_module="; lit ", yang_type="] (arguments_text ns module ty config).
Definition class_vars_read (name ns : str) : option (list str * str) :=
  strings_read [lit "  _yang_name = "; nl ++ lit "  _yang_namespace = "] (class_vars_text name ns).
