(** What is asked of the literals in the generated code (C98). *)
From Verif Require Import PyStr Spec_Names.

(** RFC 3986, 2.2 and 2.3: the characters of a URI. *)
Definition uri_char (c : N) : bool :=
  (is_alpha c || is_digit c || existsb (N.eqb c) (lit "-._~:/?#[]@!$&'()*+,;=%"))%bool.
(** A URI begins with a letter. *)
Definition uri (s : str) : Prop := exists c s', s = c :: s' /\ is_alpha c = true /\ Forall (fun x => uri_char x = true) s'.
Definition apostrophe : N := 39%N.
(** Names of types may have a prefix. *)
Definition type_ref (s : str) : Prop := s <> [] /\ Forall (fun c => yang_char c = true \/ c = 58%N) s.
(** A URI whose apostrophes come in pairs, given as what stands between the pairs. *)
Fixpoint with_pairs (ps : list str) : str :=
  match ps with
  | [] => []
  | p :: ps' => match ps' with [] => p | _ => p ++ [apostrophe; apostrophe] ++ with_pairs ps' end
  end.
