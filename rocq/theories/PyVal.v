(** Python values, exceptions, and the built-in conversions and comparisons that the modelled
    code relies on.  No proofs in this file. *)
From Verif Require Import PyStr.
From Coq Require Import QArith.
Local Open Scope Z_scope.

(** Exceptions as values. *)
Inductive exn :=
  TypeError | ValueError | KeyError | AttributeError | IndexError | NameError | RuntimeError
| InvalidOperation (* decimal.InvalidOperation, an ArithmeticError, not a ValueError *)
| OverflowError | XPathError | OutOfFuel.

Inductive res (A : Type) := Ok (a : A) | Raise (e : exn).
Arguments Ok {A} a.
Arguments Raise {A} e.

Definition bind {A B} (r : res A) (f : A -> res B) : res B :=
  match r with Ok a => f a | Raise e => Raise e end.
Notation "x <- r ;; k" := (bind r (fun x => k)) (at level 61, r at next level, right associativity).

(** Python values.
    - [VFloat m e] is the finite float m*2^e (infinities and NaN are not modelled);
    - [VDec c e] is the finite Decimal c*10^e (signed zero, infinities, NaN not modelled);
    - [VBits l] is the content of a YANGBits object (a set of names, as a duplicate-free list);
    - [VDict] is an insertion-ordered dict as an association list. *)
Inductive pyval :=
| VNone
| VBool (b : bool)
| VInt (z : Z)
| VFloat (m e : Z)
| VStr (s : str)
| VBytes (l : list N)
| VDec (c e : Z)
| VBits (l : list str)
| VList (l : list pyval)
| VDict (l : list (pyval * pyval)).

(** Numbers with their exact value. *)
Definition scaled (b m e : Z) : Q :=
  if 0 <=? e then (m * b ^ e) # 1 else m # (Z.to_pos (b ^ (- e))).

Definition num_of (v : pyval) : option Q :=
  match v with
  | VBool b => Some (if b then 1 else 0)%Q
  | VInt z => Some (z # 1)
  | VFloat m e => Some (scaled 2 m e)
  | VDec c e => Some (scaled 10 c e)
  | _ => None
  end.

(** [v1 < v2]; only numbers are ever ordered by the modelled code (strings are compared only
    for equality), mixing in anything else is a TypeError. *)
Definition py_lt (a b : pyval) : res bool :=
  match num_of a, num_of b with
  | Some x, Some y => Ok (negb (Qle_bool y x))
  | _, _ => Raise TypeError
  end.

Fixpoint bytes_eqb (a b : list N) : bool :=
  match a, b with
  | [], [] => true
  | x :: a', y :: b' => N.eqb x y && bytes_eqb a' b'
  | _, _ => false
  end.

(** [a == b].  Numbers compare by value across int/bool/float/Decimal; str and bytes never
    compare equal.  Dict equality is order-sensitive here (Python's is not); no modelled code
    compares dicts. *)
Fixpoint py_eq (a b : pyval) {struct a} : bool :=
  match a, b with
  | VNone, VNone => true
  | VStr s, VStr t => str_eqb s t
  | VBytes s, VBytes t => bytes_eqb s t
  | VBits s, VBits t => forallb (fun x => str_in x t) s && forallb (fun x => str_in x s) t
  | VList l, VList m =>
      (fix go (l m : list pyval) {struct l} : bool :=
         match l, m with
         | [], [] => true
         | x :: l', y :: m' => py_eq x y && go l' m'
         | _, _ => false
         end) l m
  | VDict l, VDict m =>
      (fix go (l m : list (pyval * pyval)) {struct l} : bool :=
         match l, m with
         | [], [] => true
         | (k, x) :: l', (k', y) :: m' => py_eq k k' && py_eq x y && go l' m'
         | _, _ => false
         end) l m
  | _, _ =>
      match num_of a, num_of b with
      | Some x, Some y => Qeq_bool x y
      | _, _ => false
      end
  end.

(** [x in l] for a list [l]. *)
Definition py_in (x : pyval) (l : list pyval) : bool := existsb (fun y => py_eq x y) l.

(** [bool(v)]. *)
Definition truthy (v : pyval) : bool :=
  match v with
  | VNone => false
  | VBool b => b
  | VInt z => negb (z =? 0)
  | VFloat m _ => negb (m =? 0)
  | VStr s => match s with [] => false | _ => true end
  | VBytes l => match l with [] => false | _ => true end
  | VDec c _ => negb (c =? 0)
  | VBits l => match l with [] => false | _ => true end
  | VList l => match l with [] => false | _ => true end
  | VDict l => match l with [] => false | _ => true end
  end.

(** [v is False]. *)
Definition is_False (v : pyval) : bool := match v with VBool false => true | _ => false end.

(** [len(v)]. *)
Definition py_len (v : pyval) : res Z :=
  match v with
  | VStr s => Ok (Z.of_nat (length s))
  | VBytes l => Ok (Z.of_nat (length l))
  | VBits l => Ok (Z.of_nat (length l))
  | VList l => Ok (Z.of_nat (length l))
  | VDict l => Ok (Z.of_nat (length l))
  | _ => Raise TypeError
  end.

(** Truncation of c*b^e towards zero. *)
Definition trunc (b c e : Z) : Z := if 0 <=? e then c * b ^ e else Z.quot c (b ^ (- e)).

(** [int(v)].  Bytes are parsed like strings. *)
Definition py_int (v : pyval) : res Z :=
  match v with
  | VBool b => Ok (if b then 1 else 0)
  | VInt z => Ok z
  | VFloat m e => Ok (trunc 2 m e)
  | VDec c e => Ok (trunc 10 c e)
  | VStr s => match parse_int s with Some z => Ok z | None => Raise ValueError end
  | VBytes l => match parse_int l with Some z => Ok z | None => Raise ValueError end
  | VNone | VBits _ | VList _ | VDict _ => Raise TypeError
  end.

(* -------------------------------------------------------------- Decimal *)
(** Number of decimal digits of |c| (1 for 0), as used by the decimal context. *)
Definition ndigits (c : Z) : nat := length (print_N (Z.to_N (Z.abs c))).

Fixpoint zeros (n : nat) : str := match n with O => [] | S k => 48%N :: zeros k end.

(** [str(Decimal)]: Lib/_pydecimal.py, Decimal.__str__ (to-scientific-string). *)
Definition print_dec (c e : Z) : str :=
  let digits := print_N (Z.to_N (Z.abs c)) in
  let len := Z.of_nat (length digits) in
  let leftdigits := e + len in
  let dotplace := if ((e <=? 0) && (-6 <? leftdigits))%bool then leftdigits else 1 in
  let intfrac :=
    if dotplace <=? 0 then lit "0." ++ zeros (Z.to_nat (- dotplace)) ++ digits
    else if len <=? dotplace then digits ++ zeros (Z.to_nat (dotplace - len))
    else firstn (Z.to_nat dotplace) digits ++ lit "." ++ skipn (Z.to_nat dotplace) digits in
  let ex := leftdigits - dotplace in
  let exs := if ex =? 0 then []
             else lit "E" ++ (if 0 <? ex then lit "+" else []) ++ print_Z ex in
  (if c <? 0 then lit "-" else []) ++ intfrac ++ exs.

(** Digits read greedily: (value, number of digits, rest). *)
Fixpoint take_digits (s : str) (acc : Z) (n : nat) : Z * nat * str :=
  match s with
  | x :: s' => if is_digit x then take_digits s' (acc * 10 + digit_val x) (S n) else (acc, n, s)
  | [] => (acc, n, [])
  end.

(** Optional exponent part followed by the end of the string. *)
Definition parse_exp (s : str) : option Z :=
  match s with
  | [] => Some 0
  | x :: s1 =>
      if (N.eqb x 69 || N.eqb x 101)%bool then
        let '(sgn, s2) := match s1 with
                          | y :: s1' => if N.eqb y 45 then (-1, s1')
                                        else if N.eqb y 43 then (1, s1') else (1, s1)
                          | [] => (1, s1) end in
        match take_digits s2 0 0 with
        | (v, S _, []) => Some (sgn * v)
        | _ => None
        end
      else None
  end.

(** [Decimal(s)] for a string: white space stripped, underscores ignored.  "Infinity" and "NaN" are
    not modelled (treated as syntax errors). *)
Definition parse_dec (s0 : str) : option (Z * Z) :=
  let s := filter (fun c => negb (N.eqb c 95)) (strip s0) in
  let '(sgn, s1) := match s with
                    | x :: s' => if N.eqb x 45 then (-1, s') else if N.eqb x 43 then (1, s') else (1, s)
                    | [] => (1, s) end in
  let '(iv, ni, s2) := take_digits s1 0 0 in
  let '(cv, nf, s3) := match s2 with
                       | x :: s2' => if N.eqb x 46 then take_digits s2' iv 0 else (iv, O, s2)
                       | [] => (iv, O, s2) end in
  match ni, nf with
  | O, O => None
  | _, _ => match parse_exp s3 with
            | Some e => Some (sgn * cv, e - Z.of_nat nf)
            | None => None
            end
  end.

(** [Decimal(v)].  A list other than a (sign, digits, exponent) triple is a ValueError; such
    triples are not modelled. *)
Definition py_decimal (v : pyval) : res (Z * Z) :=
  match v with
  | VBool b => Ok ((if b then 1 else 0), 0)
  | VInt z => Ok (z, 0)
  | VFloat m e => Ok (if 0 <=? e then (m * 2 ^ e, 0) else (m * 5 ^ (- e), e))
  | VDec c e => Ok (c, e)
  | VStr s => match parse_dec s with Some d => Ok d | None => Raise InvalidOperation end
  | VList _ => Raise ValueError
  | VNone | VBytes _ | VBits _ | VDict _ => Raise TypeError
  end.

(** Integer division rounding half to even; [d] positive. *)
Definition div_half_even (n d : Z) : Z :=
  let q := n / d in
  let r := n mod d in
  if 2 * r <? d then q
  else if d <? 2 * r then q + 1
  else if Z.even q then q else q + 1.

(** [Decimal(c, e).quantize(Decimal("1e-n"))] with the default context (28 digits,
    ROUND_HALF_EVEN, InvalidOperation trapped). *)
Definition quantize (c e : Z) (n : Z) : res (Z * Z) :=
  let c' := if - n <=? e then c * 10 ^ (e + n) else div_half_even c (10 ^ (- n - e)) in
  if (28 <? Z.of_nat (ndigits c'))%Z then Raise InvalidOperation else Ok (c', - n).

(* -------------------------------------------------------------- float *)
(** Round the positive rational n/d to 53 significant bits, ties to even: mantissa and
    exponent (subnormals and overflow are not modelled). *)
Definition round53_pos (n d : Z) : Z * Z :=
  let k := Z.log2 n - Z.log2 d - 52 in
  (* n/d < 2^(k+54), n/d > 2^(k+51): one of k, k-1 gives a 53-bit quotient *)
  let k' := if (if 0 <=? k then 2 ^ 52 * (d * 2 ^ k) <=? n else 2 ^ 52 * d <=? n * 2 ^ (- k)) then k else k - 1 in
  let m := if 0 <=? k' then div_half_even n (d * 2 ^ k') else div_half_even (n * 2 ^ (- k')) d in
  (m, k').

(** [float(n/d)]. *)
Definition round53 (n d : Z) : Z * Z :=
  if n =? 0 then (0, 0)
  else if 0 <? n then round53_pos n d
  else let '(m, e) := round53_pos (- n) d in (- m, e).

(** [float(v)] for the numeric values it is applied to. *)
Definition py_float (v : pyval) : res (Z * Z) :=
  match v with
  | VBool b => Ok ((if b then 1 else 0), 0)
  | VInt z => Ok (round53 z 1)
  | VFloat m e => Ok (m, e)
  | VDec c e => Ok (if 0 <=? e then round53 (c * 10 ^ e) 1 else round53 c (10 ^ (- e)))
  | _ => Raise TypeError
  end.

(** What the model leaves open: the regular expression engine ([regex.match(p, s)] is not
    None) and [str()] of floats, bytes, bit sets, lists and dicts. *)
Record oracle := { o_match : str -> str -> bool; o_str : pyval -> str }.

(** [str(v)]. *)
Definition py_str (O : oracle) (v : pyval) : str :=
  match v with
  | VNone => lit "None"
  | VBool b => if b then lit "True" else lit "False"
  | VInt z => print_Z z
  | VStr s => s
  | VDec c e => print_dec c e
  | VFloat _ _ | VBytes _ | VBits _ | VList _ | VDict _ => o_str O v
  end.
