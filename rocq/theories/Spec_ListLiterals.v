(** What is asked of the literals of lists and references (C100). *)
From Coq Require Import String.
From Verif Require Import PyStr Spec_Names Spec_Keysep.
Import ListNotations.

(** Paths of leafrefs (RFC 6020, 12): names with prefixes, ., .., /, predicates with current(), and blanks and tabs in these. *)
Definition path_char (c : N) : bool := (yang_char c || existsb (N.eqb c) (lit ":/[]=() " ++ [9%N]))%bool.
Definition path_text (p : str) : Prop := p <> [] /\ Forall (fun c => path_char c = true) p.
Definition line_end (c : N) : Prop := c = 10%N \/ c = 13%N.
(** The same over several lines; the grammar of RFC 6020 has no ends of lines in paths (it has them between keys). *)
Definition path_lines (p : str) : Prop := Forall (fun c => path_char c = true \/ line_end c) p /\ exists c, In c p /\ line_end c.
(** Separators on one line, and some separator with the end of a line. *)
Definition on_a_line (more : list (str * str)) : Prop := Forall (fun p => Forall (fun c => ~ line_end c) (fst p)) more.
Definition over_lines (more : list (str * str)) : Prop := Exists (fun p => Exists line_end (fst p)) more.
(** The code before the literals of a list: its key, its name, and its keys in YANG. *)
Definition truth (b : bool) : str := match b with true => lit "True" | false => lit "False" end.
Definition key_code : str := lit "base=YANGListType(".
Definition list_code (ty : str) (user : bool) : list (str * N) :=
  [(key_code, 34%N); (lit "," ++ ty ++ lit ", yang_name=", 34%N);
   (lit ", parent=self, is_container='list', user_ordered=" ++ truth user ++ lit ", path_helper=self._path_helper, yang_keys=", 39%N)].
