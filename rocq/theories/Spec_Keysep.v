(** Spec of key arguments with any separators (RFC 7950 section 14: key-arg, sep).  Nothing here comes from the modelled code. *)
From Verif Require Import PyStr.

(** Blanks, tabs and ends of lines. *)
Definition yang_space (c : N) : Prop := In c [32; 9; 10; 13]%N.
Definition separator (s : str) : Prop := s <> [] /\ Forall yang_space s.
(** A key argument: a first name, and further names with what is written before each. *)
Fixpoint key_arg (k : str) (more : list (str * str)) : str :=
  match more with
  | [] => k
  | (sep, k') :: more' => k ++ sep ++ key_arg k' more'
  end.
Definition one_blank : str := [32%N].
