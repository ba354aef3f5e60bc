(** What is asked of docstrings (C95). *)
From Verif Require Import PyStr.

Definition three_quotes : str := [34; 34; 34]%N.
Definition has_three (s : str) : Prop := exists a b, s = a ++ three_quotes ++ b.
(** Without backslashes and NUL. *)
Definition no_escapes (s : str) : Prop := Forall (fun c => c <> 92%N /\ c <> 0%N) s.
(** Names: neither these nor quotes. *)
Definition word (s : str) : Prop := Forall (fun c => c <> 92%N /\ c <> 0%N /\ c <> 34%N) s.
(** Each end of a line - CR LF, CR or LF - as one LF. *)
Fixpoint line_ends (s : str) : str :=
  match s with
  | [] => []
  | c :: s' =>
      if N.eqb c 13 then 10%N :: match s' with
                                 | d :: s'' => if N.eqb d 10 then line_ends s'' else line_ends s'
                                 | [] => []
                                 end
      else c :: line_ends s'
  end.

(** The docstrings, with the description [d]. *)
Definition eol : str := [10%N].
Definition getter_doc (name path ty d : str) : str :=
  eol ++ lit "    Getter method for " ++ name ++ lit ", mapped from YANG variable " ++ path ++ lit " (" ++ ty ++ lit ")" ++ eol ++ eol ++ lit "    YANG Description: " ++ d.
Definition setter_doc (name path ty d : str) : str :=
  eol ++ lit "    Setter method for " ++ name ++ lit ", mapped from YANG variable " ++ path ++ lit " (" ++ ty ++ lit ")" ++ eol ++
  lit "    If this variable is read-only (config: false) in the" ++ eol ++ lit "    source YANG file, then _set_" ++ name ++ lit " is considered as a private" ++ eol ++
  lit "    method. Backends looking to populate this variable should" ++ eol ++ lit "    do so via calling thisObj._set_" ++ name ++ lit "() directly." ++ eol ++ eol ++ lit "    YANG Description: " ++ d.
Definition class_doc (module path d : str) : str :=
  eol ++ lit "  This class was auto-generated by the PythonClass plugin for PYANG" ++ eol ++ lit "  from YANG module " ++ module ++ lit " - based on the path " ++ path ++ lit ". Each member element of" ++ eol ++
  lit "  the container is represented as a class variable - with a specific" ++ eol ++ lit "  YANG type." ++ eol ++ eol ++ lit "  YANG Description: " ++ d.
(** The code around them. *)
Definition getter_head (name : str) : str := eol ++ lit "  def _get_" ++ name ++ lit "(self):" ++ eol ++ lit "    ".
Definition getter_body (name : str) : str := eol ++ lit "    return self.__" ++ name ++ eol ++ lit "      ".
Definition setter_head (name : str) : str := eol ++ lit "  def _set_" ++ name ++ lit "(self, v, load=False):" ++ eol ++ lit "    ".
Definition hex_digits : str := lit "0123456789abcdefABCDEF".
