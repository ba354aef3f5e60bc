(** Python strings as lists of code points, and the handful of [str] methods the
    modelled code uses.  No proofs in this file. *)
From Coq Require Export List NArith ZArith Bool.
From Coq Require Import Ascii.
From Coq Require String.
Export (notations) String.
Export ListNotations.

(** A Python [str]: the list of its code points. *)
Definition str := list N.

(** String literals of the Python source (ASCII only). *)
Definition lit (s : String.string) : str := map N_of_ascii (String.list_ascii_of_string s).
Arguments lit _%string_scope.

Fixpoint str_eqb (a b : str) : bool :=
  match a, b with
  | [], [] => true
  | x :: a', y :: b' => N.eqb x y && str_eqb a' b'
  | _, _ => false
  end.

(** [x in l] for a list of strings. *)
Definition str_in (x : str) (l : list str) : bool := existsb (str_eqb x) l.

(** [c in s] for a single character. *)
Definition ch_in (c : N) (s : str) : bool := existsb (N.eqb c) s.

(** [s.replace(c, d)] for single characters. *)
Definition replace_ch (c d : N) (s : str) : str :=
  map (fun x => if N.eqb x c then d else x) s.

(** [s.replace(c, r)] for a single character [c] and a string [r]. *)
Definition replace_str (c : N) (r : str) (s : str) : str :=
  flat_map (fun x => if N.eqb x c then r else [x]) s.

(** [s.split(c)] for a single-character separator: never the empty list. *)
Fixpoint split_on (c : N) (s : str) : list str :=
  match s with
  | [] => [[]]
  | x :: s' =>
      if N.eqb x c then [] :: split_on c s'
      else match split_on c s' with
           | [] => [[x]]
           | w :: ws => (x :: w) :: ws
           end
  end.

(** [sep.join(l)]. *)
Fixpoint join (sep : str) (l : list str) : str :=
  match l with
  | [] => []
  | [w] => w
  | w :: ws => w ++ sep ++ join sep ws
  end.

(** [s.startswith(p)]. *)
Fixpoint startswith (p s : str) : bool :=
  match p, s with
  | [], _ => true
  | x :: p', y :: s' => N.eqb x y && startswith p' s'
  | _, _ => false
  end.

(** ASCII white space, as stripped by [int()] and [str.split()] without arguments
    (the non-ASCII white space of [str.isspace] is not modelled). *)
Definition is_space (c : N) : bool :=
  N.eqb c 32 || (N.leb 9 c && N.leb c 13) || (N.leb 28 c && N.leb c 31).

Fixpoint lstrip (s : str) : str :=
  match s with
  | [] => []
  | x :: s' => if is_space x then lstrip s' else s
  end.
Definition rstrip (s : str) : str := rev (lstrip (rev s)).
Definition strip (s : str) : str := rstrip (lstrip s).

(** [s.split()]: maximal runs of non-white-space characters. *)
Fixpoint split_ws_aux (cur : str) (s : str) : list str :=
  match s with
  | [] => match cur with [] => [] | _ => [rev cur] end
  | x :: s' =>
      if is_space x
      then match cur with [] => split_ws_aux [] s' | _ => rev cur :: split_ws_aux [] s' end
      else split_ws_aux (x :: cur) s'
  end.
Definition split_ws (s : str) : list str := split_ws_aux [] s.

(** Decimal digits. *)
Definition is_digit (c : N) : bool := N.leb 48 c && N.leb c 57.
Definition digit_val (c : N) : Z := Z.of_N c - 48.

(** Decimal printing of a non-negative number; [fuel] bounds the number of digits and
    [print_nat] supplies enough of it. *)
Fixpoint print_digits (fuel : nat) (n : N) (acc : str) : str :=
  match fuel with
  | O => acc
  | S f =>
      let d := N.modulo n 10 in
      let q := N.div n 10 in
      let acc' := (48 + d)%N :: acc in
      if N.eqb q 0 then acc' else print_digits f q acc'
  end.
Definition print_N (n : N) : str := print_digits (S (N.to_nat (N.log2 n))) n [].

(** [str(z)] for an integer. *)
Definition print_Z (z : Z) : str :=
  match z with
  | Z0 => [48%N]
  | Zpos p => print_N (Npos p)
  | Zneg p => 45%N :: print_N (Npos p)
  end.

(** Digits with single underscores between them, as accepted by [int()]:
    [prev] tells whether the previous character was a digit. *)
Fixpoint parse_digits (s : str) (prev : bool) (acc : Z) : option Z :=
  match s with
  | [] => if prev then Some acc else None
  | x :: s' =>
      if is_digit x then parse_digits s' true (acc * 10 + digit_val x)%Z
      else if N.eqb x 95 then (if prev then parse_digits s' false acc else None)
      else None
  end.

(** [int(s)] for a string, base 10: surrounding white space, an optional sign, digits with
    underscores.  Non-ASCII decimal digits are not modelled. *)
Definition parse_int (s0 : str) : option Z :=
  match strip s0 with
  | [] => None
  | x :: s =>
      if N.eqb x 45 then option_map Z.opp (parse_digits s false 0)
      else if N.eqb x 43 then parse_digits s false 0
      else parse_digits (x :: s) false 0
  end.
