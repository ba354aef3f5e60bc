(** The values of defaults: the plugin writes the text of a default into the generated code, as the argument of a type
    (plugin/pybind.py:884, 901, 934, 971), where Python reads it.  No proofs in this file. *)
From Verif Require Import PyStr PyVal PathHelper Identity Restricted IntTypes Typedefs.
Local Open Scope Z_scope.

(** What Python makes of a piece of text: one value, a SyntaxError (then the file cannot be imported), or anything else -
    the text is then executed as code. *)
Inductive source := SVal (v : pyval) | SBad | SCode.

(** The Python reference, 2.4.1: escape sequences of one character, and numbers of digits with what they stand for. *)
Definition escape (c : N) : option (list N) :=
  match find (fun p => N.eqb c (fst p)) [(92, [92]); (39, [39]); (34, [34]); (97, [7]); (98, [8]); (102, [12]); (110, [10]); (114, [13]); (116, [9]); (118, [11]); (10, [])]%N with
  | Some (_, r) => Some r
  | None => None
  end.
Definition digit_in (base : Z) (c : N) : option Z :=
  let d := if is_digit c then Z.of_N c - 48 else if (N.leb 97 c && N.leb c 122)%bool then Z.of_N c - 87 else if (N.leb 65 c && N.leb c 90)%bool then Z.of_N c - 55 else 99 in
  if d <? base then Some d else None.
(** At most [n] digits: their value, how many there are, and what follows. *)
Fixpoint some_digits (base : Z) (n : nat) (s : str) (acc : Z) (k : nat) : Z * nat * str :=
  match n, s with
  | S n', c :: s' => match digit_in base c with Some d => some_digits base n' s' (acc * base + d) (S k) | None => (acc, k, s) end
  | _, _ => (acc, k, s)
  end.
(** The text between double quotes.  A double quote ends the literal, and the rest is code; so is everything up to the
    next double quote of the line after a backslash at the end.  Character names (\N) are taken for code as well. *)
Fixpoint quoted (fuel : nat) (s : str) (acc : str) : source :=
  match fuel, s with
  | _, [] => SVal (VStr (rev acc))
  | O, _ => SCode
  | S f, c :: s' =>
      if N.eqb c 34 then SCode
      else if (N.eqb c 10 || N.eqb c 13 || N.eqb c 0)%bool then SBad
      else if negb (N.eqb c 92) then quoted f s' (c :: acc)
      else match s' with
           | [] => SCode
           | e :: s'' =>
               match escape e with
               | Some r => quoted f s'' (r ++ acc)
               | None =>
                   if (N.eqb e 13 || N.eqb e 0 || N.eqb e 78)%bool then SCode
                   else match digit_in 8 e with
                        | Some _ => let '(v, _, rest) := some_digits 8 3 s' 0 0 in quoted f rest (Z.to_N v :: acc)
                        | None =>
                            let n := if N.eqb e 120 then 2%nat else if N.eqb e 117 then 4%nat else if N.eqb e 85 then 8%nat else 0%nat in
                            match n with
                            | O => quoted f s'' (e :: 92%N :: acc)
                            | _ => let '(v, k, rest) := some_digits 16 n s'' 0 0 in
                                   if (Nat.eqb k n && (v <=? 1114111))%bool then quoted f rest (Z.to_N v :: acc) else SBad
                            end
                        end
               end
           end
  end.
(** The Python reference, 2.4.4-2.4.6: digits with single underscores, after 0x, 0o or 0b. *)
Fixpoint based (base : Z) (s : str) (prev : bool) (acc : Z) : option Z :=
  match s with
  | [] => if prev then Some acc else None
  | c :: s' =>
      match digit_in base c with
      | Some d => based base s' true (acc * base + d)
      | None => if (N.eqb c 95 && prev)%bool then based base s' false acc else None
      end
  end.
Definition base_of_letter (c : N) : option Z :=
  if (N.eqb c 120 || N.eqb c 88)%bool then Some 16 else if (N.eqb c 111 || N.eqb c 79)%bool then Some 8 else if (N.eqb c 98 || N.eqb c 66)%bool then Some 2 else None.
(** Floats: digits, perhaps a point and digits, perhaps an exponent.  Underscores in them are not modelled. *)
Definition float_parts (s : str) : option (Z * Z) :=
  let '(iv, ni, s2) := take_digits s 0 0 in
  let '(cv, nf, s3) := match s2 with x :: s2' => if N.eqb x 46 then take_digits s2' iv 0 else (iv, O, s2) | [] => (iv, O, s2) end in
  match ni, nf with O, O => None | _, _ => option_map (fun e => (cv, e - Z.of_nat nf)) (parse_exp s3) end.
Definition float_value (c e : Z) : Z * Z := if 0 <=? e then round53 (c * 10 ^ e) 1 else round53 c (10 ^ (- e)).
Definition unsigned (s : str) : source :=
  match parse_digits s false 0 with
  | Some z => match s with
              | c :: _ => if (N.eqb c 48 && negb (z =? 0))%bool then SBad else SVal (VInt z)
              | [] => SCode
              end
  | None =>
      match match s with
            | c :: x :: s' =>
                match base_of_letter x with
                | Some b => if N.eqb c 48 then based b (match s' with u :: s'' => if N.eqb u 95 then s'' else s' | [] => s' end) false 0 else None
                | None => None
                end
            | _ => None
            end with
      | Some z => SVal (VInt z)
      | None => match float_parts s with
                | Some (c, e) => let '(m, x) := float_value c e in SVal (VFloat m x)
                | None => SCode
                end
      end
  end.
(** With the operators + and -. *)
Definition number (s : str) : source :=
  match s with
  | c :: s' =>
      if N.eqb c 45 then match unsigned s' with SVal (VInt z) => SVal (VInt (- z)) | SVal (VFloat m e) => SVal (VFloat (- m) e) | SBad => SBad | _ => SCode end
      else if N.eqb c 43 then match unsigned s' with SVal v => SVal v | SBad => SBad | SCode => SCode end
      else unsigned s
  | [] => SCode
  end.
(** pybind.py:884. *)
Definition default_source (b : centry) (d : str) : source := if ce_quote b then quoted (S (length d)) d [] else number d.

(** The default of a leaf, as the objects have it: there may be none; making the code or the objects may fail; the code may
    be unreadable; or the text is code. *)
Inductive outcome := Made (v : option pyval) | Failed (e : exn) | Unreadable | Code.
(** pybind.py:936-946: references have no default. *)
Definition is_reference (et : elemtype) : bool := match et with EOne e => match ce_ref e with Some _ => true | None => false end | EUnion _ => false end.
Definition leaf_value (O : oracle) (fuel : nat) (cm : class_map) (et : elemtype) (own : option str) : outcome :=
  match leaf_default O fuel cm et own with
  | Raise e => Failed e
  | Ok None => Made None
  | Ok (Some (d, b)) =>
      if is_reference et then Made None
      else match default_source b d with
           | SVal v => match ce_native b with
                       | NOne t => match ty_call O t v with Ok w => Made (Some w) | Raise e => Failed e end
                       | NMany _ => Failed TypeError (* not reached: the entry of a built-in type *)
                       end
           | SBad => Unreadable
           | SCode => Code
           end
  end.
(** yangtypes.py:1031, 1065-1066, 1141-1142: what default() of a leaf answers. *)
Definition default_method (v : option pyval) : pyval := match v with Some w => if truthy w then w else VBool false | None => VBool false end.
