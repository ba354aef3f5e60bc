(** base64.b64encode / base64.b64decode as used by YANGBinary and by the serialisers. *)
From Verif Require Import PyStr PyVal.
Local Open Scope N_scope.

(** The standard alphabet. *)
Definition b64_alphabet : str :=
  lit "ABCDEFGHIJKLMNOPQRSTUVWXYZabcdefghijklmnopqrstuvwxyz0123456789+/".

Definition b64_char (n : N) : N := nth (N.to_nat n) b64_alphabet 0.

Fixpoint index_of (c : N) (l : str) (i : N) : option N :=
  match l with
  | [] => None
  | x :: l' => if N.eqb x c then Some i else index_of c l' (i + 1)
  end.
Definition b64_val (c : N) : option N := index_of c b64_alphabet 0.

(** Python base64.b64encode on a byte string (used in
    pyangbind/lib/serialise.py:110-111 and 186). *)
Fixpoint b64encode (l : list N) : str :=
  match l with
  | [] => []
  | [a] => [b64_char (a / 4); b64_char ((a mod 4) * 16); 61; 61]
  | [a; b] => [b64_char (a / 4); b64_char ((a mod 4) * 16 + b / 16); b64_char ((b mod 16) * 4); 61]
  | a :: b :: c :: l' =>
      b64_char (a / 4) :: b64_char ((a mod 4) * 16 + b / 16)
        :: b64_char ((b mod 16) * 4 + c / 64) :: b64_char (c mod 64) :: b64encode l'
  end.

(** CPython binascii.a2b_base64 (non-strict), the loop behind base64.b64decode, with its state
    [q] (quad_pos), [left] (leftchar), [pads]; the decoded bytes are produced in order. *)
Fixpoint b64_loop (s : str) (q left pads : N) : res (list N) :=
  match s with
  | [] => if N.eqb q 0 then Ok [] else Raise ValueError
  | c :: s' =>
      if N.eqb c 61 then
        if N.leb 2 q then
          if N.leb 4 (q + (pads + 1)) then Ok [] else b64_loop s' q left (pads + 1)
        else b64_loop s' q left pads
      else
        match b64_val c with
        | None => b64_loop s' q left pads
        | Some v =>
            if N.eqb q 0 then b64_loop s' 1 v 0
            else if N.eqb q 1 then
              r <- b64_loop s' 2 (v mod 16) 0 ;; Ok ((left * 4 + v / 16) :: r)
            else if N.eqb q 2 then
              r <- b64_loop s' 3 (v mod 4) 0 ;; Ok ((left * 16 + v / 4) :: r)
            else
              r <- b64_loop s' 0 0 0 ;; Ok ((left * 64 + v) :: r)
        end
  end.

(** base64.b64decode of a [str]: non-ASCII text is a ValueError. *)
Definition b64decode (s : str) : res (list N) :=
  if forallb (fun c => N.ltb c 128) s then b64_loop s 0 0 0 else Raise ValueError.
