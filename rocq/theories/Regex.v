(** The regular expressions handed to regex.match (pyangbind/lib/yangtypes.py:32, 299): how the library
    reads the text and what it accepts.  The library is not part of the project; this is its documented
    behaviour (VERSION0, no flags) on patterns made of characters, escapes, classes, groups, alternatives,
    greedy repetitions and the two anchors.  Everything else - lazy or possessive repetitions, (?...),
    back references, set operations, named characters - is [None] here.  No proofs in this file. *)
From Verif Require Import PyStr PyVal Restricted.

(** What is taken from Unicode: the general categories, and the white space and word characters as the
    library has them. *)
Record unicode := { u_cat : str -> N -> bool; u_space : N -> bool; u_word : N -> bool }.

(** A set of characters: a range, one of \d \D \s \S \w \W (by its letter), \p{name} or \P{name}. *)
Inductive citem := CRange (a b : N) | CMulti (k : N) | CCat (neg : bool) (name : str).
Inductive cset := CDot | COne (i : citem) | CClass (neg : bool) (l : list citem).

Inductive tok :=
| KSet (s : cset) | KBol | KEol | KOpen | KClose | KBar
| KRep (lo : nat) (hi : option nat).

(* ------------------------------------------------------------------ reading *)
Definition is_alpha (c : N) : bool := (N.leb 65 c && N.leb c 90) || (N.leb 97 c && N.leb c 122).
Definition is_multi (c : N) : bool := ch_in c (lit "dDsSwW").
Fixpoint until (c : N) (s : str) : option (str * str) :=
  match s with
  | [] => None
  | x :: s' => if N.eqb x c then Some ([], s') else match until c s' with Some (a, b) => Some (x :: a, b) | None => None end
  end.

(** What follows a backslash: a character or a set. *)
Definition escape (s : str) : option ((N + citem) * str) :=
  match s with
  | [] => None
  | c :: s' =>
      if N.eqb c 110 then Some (inl 10%N, s')
      else if N.eqb c 114 then Some (inl 13%N, s')
      else if N.eqb c 116 then Some (inl 9%N, s')
      else if is_multi c then Some (inr (CMulti c), s')
      else if N.eqb c 112 || N.eqb c 80 then
        match s' with
        | b :: s2 => if N.eqb b 123 then
                       match until 125 s2 with
                       | Some (name, r) => if forallb is_alpha name && Nat.leb (length name) 2
                                           then Some (inr (CCat (N.eqb c 80) name), r) else None
                       | None => None
                       end
                     else None
        | [] => None
        end
      else if is_alpha c || is_digit c || N.leb 128 c then None
      else Some (inl c, s')
  end.
(** A character or an escape; an opening bracket within a class may start a POSIX class. *)
Definition single (s : str) : option ((N + citem) * str) :=
  match s with
  | [] => None
  | c :: s' => if N.eqb c 92 then escape s' else if N.eqb c 91 then None else Some (inl c, s')
  end.
(** "-" is itself at the end of a class. *)
Definition dash (s : str) : option str :=
  match s with
  | c :: ((d :: _) as r) => if N.eqb c 45 && negb (N.eqb d 93) then Some r else None
  | _ => None
  end.
(** One item of a class. *)
Definition next_item (s : str) : option (citem * str) :=
  match single s with
  | None => None
  | Some (inr i, r) => match dash r with Some _ => None | None => Some (i, r) end
  | Some (inl a, r) =>
      match dash r with
      | None => Some (CRange a a, r)
      | Some r2 => match single r2 with
                   | Some (inl b, r3) => if N.leb a b then Some (CRange a b, r3) else None
                   | _ => None
                   end
      end
  end.
(** The items up to the closing bracket; the first [k] characters have been read. *)
Fixpoint items (k : nat) (s : str) : option (list citem * str) :=
  match s with
  | [] => None
  | c :: s' =>
      match k with
      | S k' => items k' s'
      | O => if N.eqb c 93 then Some ([], s')
             else match next_item s with
                  | None => None
                  | Some (i, r) => match items (length s' - length r) s' with
                                   | Some (l, r') => Some (i :: l, r')
                                   | None => None
                                   end
                  end
      end
  end.
(** After the opening bracket.  A class is not empty (a closing bracket in first place is a member). *)
Definition class (s : str) : option (cset * str) :=
  let '(neg, s1) := match s with c :: s' => if N.eqb c 94 then (true, s') else (false, s) | [] => (false, s) end in
  match items 0 s1 with
  | Some ([], _) => None
  | Some (l, r) => Some (CClass neg l, r)
  | None => None
  end.

Fixpoint digits (s : str) : str * str :=
  match s with
  | c :: s' => if is_digit c then let '(a, b) := digits s' in (c :: a, b) else ([], s)
  | [] => ([], [])
  end.
Definition number (s : str) : option (nat * str) :=
  match digits s with
  | ([], _) => None
  | (d, r) => match parse_int d with Some z => Some (Z.to_nat z, r) | None => None end
  end.
(** After the opening brace: {n}, {n,} or {n,m}. *)
Definition counts (s : str) : option (tok * str) :=
  match number s with
  | None => None
  | Some (n, r) =>
      match r with
      | [] => None
      | c :: r1 =>
          if N.eqb c 125 then Some (KRep n (Some n), r1)
          else if N.eqb c 44 then
            match r1 with
            | [] => None
            | d :: r2 => if N.eqb d 125 then Some (KRep n None, r2)
                         else match number r1 with
                              | Some (m, e :: r3) => if N.eqb e 125 && Nat.leb n m then Some (KRep n (Some m), r3) else None
                              | _ => None
                              end
            end
          else None
      end
  end.

Definition next_tok (s : str) : option (tok * str) :=
  match s with
  | [] => None
  | c :: s' =>
      if N.eqb c 40 then Some (KOpen, s')
      else if N.eqb c 41 then Some (KClose, s')
      else if N.eqb c 124 then Some (KBar, s')
      else if N.eqb c 42 then Some (KRep 0 None, s')
      else if N.eqb c 43 then Some (KRep 1 None, s')
      else if N.eqb c 63 then Some (KRep 0 (Some 1%nat), s')
      else if N.eqb c 123 then counts s'
      else if N.eqb c 46 then Some (KSet CDot, s')
      else if N.eqb c 94 then Some (KBol, s')
      else if N.eqb c 36 then Some (KEol, s')
      else if N.eqb c 91 then match class s' with Some (x, r) => Some (KSet x, r) | None => None end
      else if N.eqb c 92 then
        match escape s' with
        | Some (inl a, r) => Some (KSet (COne (CRange a a)), r)
        | Some (inr i, r) => Some (KSet (COne i), r)
        | None => None
        end
      else Some (KSet (COne (CRange c c)), s')
  end.
(** The tokens of a text of which the first [k] characters have been read. *)
Fixpoint lex (k : nat) (s : str) : option (list tok) :=
  match s with
  | [] => Some []
  | _ :: s' =>
      match k with
      | S k' => lex k' s'
      | O => match next_tok s with
             | None => None
             | Some (t, r) => match lex (length s' - length r) s' with Some l => Some (t :: l) | None => None end
             end
      end
  end.

Inductive pre :=
| PEps | PSet (s : cset) | PBol | PEol
| PCat (a b : pre) | PAlt (a b : pre)
| PRep (a : pre) (lo : nat) (hi : option nat).

Definition cat_of (l : list (pre * bool)) : pre := fold_right (fun p r => PCat (fst p) r) PEps l.
Fixpoint alt_of (l : list pre) : pre :=
  match l with
  | [] => PEps
  | [p] => p
  | p :: l' => PAlt p (alt_of l')
  end.
(** The alternatives read before, last first, and the items of the current one, last first; an item can be
    repeated if it is marked so (an anchor or a repetition cannot: the library refuses, or reads the
    second sign as lazy or possessive). *)
Definition finish (alts : list pre) (cur : list (pre * bool)) : pre := alt_of (rev (cat_of (rev cur) :: alts)).
(** [st]: the same for the groups around. *)
Fixpoint parse (ts : list tok) (alts : list pre) (cur : list (pre * bool)) (st : list (list pre * list (pre * bool)))
  : option pre :=
  match ts with
  | [] => match st with [] => Some (finish alts cur) | _ => None end
  | t :: ts' =>
      match t with
      | KSet s => parse ts' alts ((PSet s, true) :: cur) st
      | KBol => parse ts' alts ((PBol, false) :: cur) st
      | KEol => parse ts' alts ((PEol, false) :: cur) st
      | KOpen => parse ts' [] [] ((alts, cur) :: st)
      | KClose => match st with
                  | [] => None
                  | (a, c) :: st' => parse ts' a ((finish alts cur, true) :: c) st'
                  end
      | KBar => parse ts' (cat_of (rev cur) :: alts) [] st
      | KRep lo hi => match cur with
                      | (p, true) :: c => parse ts' alts ((PRep p lo hi, false) :: c) st
                      | _ => None
                      end
      end
  end.

(* ------------------------------------------------------------------ matching *)
(** Where a match can be: at the start or not, and what is left of the string. *)
Definition at_ := (bool * str)%type.

Fixpoint times (f : at_ -> list at_) (n : nat) (x : at_) : list at_ :=
  match n with O => [x] | S n' => flat_map (times f n') (f x) end.
Fixpoint upto (f : at_ -> list at_) (n : nat) (x : at_) : list at_ :=
  match n with O => [x] | S n' => x :: flat_map (upto f n') (f x) end.
(** Any number of times; a round that reads nothing leads nowhere new. *)
Fixpoint star (f : at_ -> list at_) (n : nat) (x : at_) : list at_ :=
  match n with
  | O => [x]
  | S n' => x :: flat_map (star f n') (filter (fun y => Nat.ltb (length (snd y)) (length (snd x))) (f x))
  end.

Section Match.
Context (U : unicode).

Definition multi_has (k c : N) : bool :=
  if N.eqb k 100 then u_cat U (lit "Nd") c
  else if N.eqb k 68 then negb (u_cat U (lit "Nd") c)
  else if N.eqb k 115 then u_space U c
  else if N.eqb k 83 then negb (u_space U c)
  else if N.eqb k 119 then u_word U c
  else if N.eqb k 87 then negb (u_word U c)
  else false.
Definition item_has (i : citem) (c : N) : bool :=
  match i with
  | CRange a b => N.leb a c && N.leb c b
  | CMulti k => multi_has k c
  | CCat neg name => xorb neg (u_cat U name c)
  end.
Definition set_has (s : cset) (c : N) : bool :=
  match s with
  | CDot => negb (N.eqb c 10)
  | COne i => item_has i c
  | CClass neg l => xorb neg (existsb (fun i => item_has i c) l)
  end.

(** Where the matches of [p] that begin at [x] can end: "$" holds at the end and before a newline that is
    the last character. *)
Fixpoint ends (p : pre) (x : at_) : list at_ :=
  match p with
  | PEps => [x]
  | PSet s => match snd x with c :: t => if set_has s c then [(false, t)] else [] | [] => [] end
  | PBol => if fst x then [x] else []
  | PEol => match snd x with [] => [x] | [c] => if N.eqb c 10 then [x] else [] | _ => [] end
  | PCat a b => flat_map (ends b) (ends a x)
  | PAlt a b => ends a x ++ ends b x
  | PRep a lo hi =>
      flat_map (match hi with
                | Some h => upto (ends a) (h - lo)
                | None => fun y => star (ends a) (length (snd y)) y
                end) (times (ends a) lo x)
  end.

(** regex.match(q, s) is not None. *)
Definition re_match (q s : str) : option bool :=
  match lex 0 q with
  | None => None
  | Some ts => match parse ts [] [] [] with
               | None => None
               | Some p => Some (match ends p (true, s) with [] => false | _ => true end)
               end
  end.
End Match.

(** The library as above where it is modelled, and [O] elsewhere. *)
Definition with_regex (U : unicode) (O : oracle) : oracle :=
  {| o_match := fun q s => match re_match U q s with Some b => b | None => o_match O q s end;
     o_str := o_str O |}.
