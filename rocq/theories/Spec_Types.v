(** Independent vocabulary for the scalar-type properties.  Nothing here uses the modelled
    parsing or testing code; only the textual form of a restriction is fixed. *)
From Verif Require Import PyStr PyVal.
From Coq Require Import Lia QArith.
Local Open Scope Z_scope.

(** A part of a range or length statement (RFC 6020, 9.2.4): an interval with optional ends
    (min / max), or a single number. *)
Inductive part := Between (lo hi : option Z) (sp1 sp2 : nat) | Exactly (z : Z).

Definition in_part (z : Z) (p : part) : Prop :=
  match p with
  | Between lo hi _ _ =>
      (match lo with Some l => l <= z | None => True end) /\
      (match hi with Some h => z <= h | None => True end)
  | Exactly n => z = n
  end.

(** A value satisfies a restriction iff one of its parts contains it. *)
Definition in_parts (z : Z) (ps : list part) : Prop := Exists (in_part z) ps.

(** The text of a part; [sp1], [sp2] spaces around the dots. *)
Definition spaces (n : nat) : str := repeat 32%N n.
Definition show_low (o : option Z) : str := match o with Some z => print_Z z | None => lit "min" end.
Definition show_high (o : option Z) : str := match o with Some z => print_Z z | None => lit "max" end.
Definition show_part (p : part) : str :=
  match p with
  | Between lo hi a b => show_low lo ++ spaces a ++ lit ".." ++ spaces b ++ show_high hi
  | Exactly z => print_Z z
  end.

(** The numbers mentioned by a part. *)
Definition part_bounds (p : part) : list Z :=
  match p with
  | Between lo hi _ _ => (match lo with Some l => [l] | None => [] end) ++
                         (match hi with Some h => [h] | None => [] end)
  | Exactly n => [n]
  end.

(** Single numbers must fit a double exactly (see C07). *)
Definition small_single (p : part) : Prop :=
  match p with Exactly n => Z.abs n <= 2 ^ 53 | _ => True end.

(** A chain of range restrictions on an integer type, outermost (the leaf's own) first. *)
Definition in_levels (z : Z) (levels : list (list part)) : Prop := Forall (in_parts z) levels.

(** RFC 6020 9.2.4 requires a restriction to be within the restricted type: the bounds of each
    level are values of the levels below it. *)
Fixpoint levels_wf (levels : list (list part)) : Prop :=
  match levels with
  | [] => True
  | l :: ls => Forall small_single l /\
               Forall (fun p => Forall (fun b => in_levels b ls) (part_bounds p)) l /\
               levels_wf ls
  end.

Definition in_partb (z : Z) (p : part) : bool :=
  match p with
  | Between lo hi _ _ =>
      (match lo with Some l => l <=? z | None => true end) && (match hi with Some h => z <=? h | None => true end)
  | Exactly n => z =? n
  end.
Definition in_partsb (z : Z) (ps : list part) : bool := existsb (in_partb z) ps.
Definition in_levelsb (z : Z) (ls : list (list part)) : bool := forallb (in_partsb z) ls.

(** Restrictions of a string type. *)
Inductive srestr := SPattern (p : str) | SLength (ps : list part).

(** [M p s]: the anchored pattern text accepts the string (see C09 for anchoring). *)
Definition sat (M : str -> str -> bool) (anchor : str -> str) (r : srestr) (s : str) : Prop :=
  match r with
  | SPattern p => M (anchor p) s = true
  | SLength ps => in_parts (Z.of_nat (length s)) ps
  end.

(** The anchored form of a pattern without "$" or "^": ^p$. *)
Definition wrap_anchors (p : str) : str := 94%N :: p ++ [36%N].

(** Well-formed string restrictions: non-empty patterns without "$" and "^", single lengths
    that fit a double. *)
Definition srestr_wf (r : srestr) : Prop :=
  match r with
  | SPattern p => p <> [] /\ ~ In 36%N p /\ ~ In 94%N p
  | SLength ps => Forall small_single ps
  end.

(** RFC 6020, 9.2: the value spaces of the built-in integer types. *)
Inductive int_kind := I8 | I16 | I32 | I64 | U8 | U16 | U32 | U64.
Definition kind_name (k : int_kind) : String.string :=
  match k with I8 => "int8" | I16 => "int16" | I32 => "int32" | I64 => "int64"
             | U8 => "uint8" | U16 => "uint16" | U32 => "uint32" | U64 => "uint64" end.
Definition kind_ok (k : int_kind) (z : Z) : Prop :=
  match k with
  | I8 => - 2 ^ 7 <= z <= 2 ^ 7 - 1 | I16 => - 2 ^ 15 <= z <= 2 ^ 15 - 1
  | I32 => - 2 ^ 31 <= z <= 2 ^ 31 - 1 | I64 => - 2 ^ 63 <= z <= 2 ^ 63 - 1
  | U8 => 0 <= z <= 2 ^ 8 - 1 | U16 => 0 <= z <= 2 ^ 16 - 1
  | U32 => 0 <= z <= 2 ^ 32 - 1 | U64 => 0 <= z <= 2 ^ 64 - 1
  end.

(** A chain of string restriction levels, outermost first; no level is empty. *)
Definition slevels_wf (levels : list (list srestr)) : Prop :=
  Forall (fun l => l <> [] /\ Forall srestr_wf l) levels.

(** Shorthand for an interval. *)
Definition rng (lo hi : Z) : part := Between (Some lo) (Some hi) 0 0.

(** Enumeration names do not start with '@' (the code uses such names for metadata). *)
Definition no_at (l : list (str * option Z)) : Prop := Forall (fun p => startswith (lit "@") (fst p) = false) l.

(** RFC 6020 9.6.4.2: a name without a value gets one more than the highest value so far. *)
Fixpoint rfc_numbers (next : Z) (l : list (str * option Z)) : list (str * Z) :=
  match l with
  | [] => []
  | (n, ov) :: l' => let v := match ov with Some v => v | None => next end in
                     (n, v) :: rfc_numbers (Z.max next (v + 1)) l'
  end.

(** Bits: a set of declared bits, and the declared position of a bit. *)
Definition legal (allowed : list (str * str)) (l : list str) : Prop :=
  NoDup l /\ forall b, In b l -> In b (map fst allowed).
Fixpoint declared_pos (d : list (str * N)) (b : str) : N :=
  match d with
  | [] => 0%N
  | (n, p) :: d' => if str_eqb n b then p else declared_pos d' b
  end.
(** The argument of YANGBitsType for declared bits. *)
Definition decl (d : list (str * N)) : list (str * str) := map (fun p => (fst p, print_N (snd p))) d.
(** Names as YANG identifiers are: non-empty, without white space. *)
Definition words (names : list str) : Prop := Forall (fun w => w <> [] /\ Forall (fun c => is_space c = false) w) names.

(** The spellings of a boolean. *)
Definition bool_spells (v : pyval) (b : bool) : Prop :=
  match v with
  | VStr s => In s (if b then [lit "true"; lit "True"; lit "1"] else [lit "false"; lit "False"; lit "0"])
  | _ => exists q, num_of v = Some q /\ (q == (if b then 1 else 0))%Q
  end.
