(** YANG patterns (RFC 6020, 9.4.6: regular expressions as in XSD-TYPES, appendix F): their grammar, text
    and language.  Not covered: class subtraction, \i and \c, block names, and "^" as itself within a
    class (it can be escaped). *)
From Verif Require Import PyStr.

(** A character that stands for itself, or behind a backslash. *)
Inductive single_char := Plain (c : N) | Esc (c : N).
(** \d \D \s \S \w \W by their letter; \p{name} and \P{name}. *)
Inductive item := One (x : single_char) | Range (x y : single_char) | Multi (k : N) | Category (neg : bool) (name : str).
Inductive quant := Once | Opt | Star | Plus | Exactly_ (n : nat) | AtLeast (n : nat) | FromTo (n m : nat).

Inductive atom :=
| AChar (x : single_char) | ADot | AMulti (k : N) | ACategory (neg : bool) (name : str)
| AClass (neg dash1 : bool) (l : list item) (dash2 : bool)   (** with "-" first or last *)
| AGroup (r : pattern)
with branch := BEnd | BPiece (a : atom) (q : quant) (b : branch)
with pattern := PBranch (b : branch) | POr (b : branch) (r : pattern).

(* ------------------------------------------------------------------ text *)
Definition show_single (x : single_char) : str := match x with Plain c => [c] | Esc c => [92%N; c] end.
Definition show_category (neg : bool) (name : str) : str := (if neg then lit "\P{" else lit "\p{") ++ name ++ lit "}".
Definition show_item (i : item) : str :=
  match i with
  | One x => show_single x
  | Range x y => show_single x ++ lit "-" ++ show_single y
  | Multi k => [92%N; k]
  | Category neg name => show_category neg name
  end.
Definition show_nat (n : nat) : str := print_Z (Z.of_nat n).
Definition show_quant (q : quant) : str :=
  match q with
  | Once => [] | Opt => lit "?" | Star => lit "*" | Plus => lit "+"
  | Exactly_ n => lit "{" ++ show_nat n ++ lit "}"
  | AtLeast n => lit "{" ++ show_nat n ++ lit ",}"
  | FromTo n m => lit "{" ++ show_nat n ++ lit "," ++ show_nat m ++ lit "}"
  end.
Definition show_class (neg d1 : bool) (l : list item) (d2 : bool) : str :=
  lit "[" ++ (if neg then lit "^" else []) ++ (if d1 then lit "-" else []) ++ concat (map show_item l) ++ (if d2 then lit "-" else []) ++ lit "]".
Fixpoint show_atom (a : atom) : str :=
  match a with
  | AChar x => show_single x
  | ADot => lit "."
  | AMulti k => [92%N; k]
  | ACategory neg name => show_category neg name
  | AClass neg d1 l d2 => show_class neg d1 l d2
  | AGroup r => lit "(" ++ show r ++ lit ")"
  end
with show_branch (b : branch) : str :=
  match b with BEnd => [] | BPiece a q b' => show_atom a ++ show_quant q ++ show_branch b' end
with show (r : pattern) : str :=
  match r with PBranch b => show_branch b | POr b r' => show_branch b ++ lit "|" ++ show r' end.

(* ------------------------------------------------------------------ grammar *)
Definition multi_letter (k : N) : Prop := In k (lit "dDsSwW").
Definition category_name (n : str) : Prop := Forall (fun c => 65 <= c <= 90 \/ 97 <= c <= 122)%N n /\ (length n <= 2)%nat.
(** XSD-TYPES, F.1.1: the single character escapes. *)
Definition esc_ok (c : N) : Prop := In c (lit "nrt\|.?*+(){}-[]^").
Definition char_ok (x : single_char) : Prop :=
  match x with Plain c => ~ In c (lit ".\?*+()|[]{}") | Esc c => esc_ok c end.
Definition class_char_ok (x : single_char) : Prop :=
  match x with Plain c => ~ In c (lit "\[]-^") | Esc c => esc_ok c end.
Definition denoted (x : single_char) : N :=
  match x with
  | Plain c => c
  | Esc c => if N.eqb c 110 then 10 else if N.eqb c 114 then 13 else if N.eqb c 116 then 9 else c
  end.
Definition item_ok (i : item) : Prop :=
  match i with
  | One x => class_char_ok x
  | Range x y => class_char_ok x /\ class_char_ok y /\ (denoted x <= denoted y)%N
  | Multi k => multi_letter k
  | Category _ name => category_name name
  end.
Definition quant_ok (q : quant) : Prop := match q with FromTo n m => (n <= m)%nat | _ => True end.
Fixpoint atom_ok (a : atom) : Prop :=
  match a with
  | AChar x => char_ok x
  | ADot => True
  | AMulti k => multi_letter k
  | ACategory _ name => category_name name
  | AClass _ _ l _ => l <> [] /\ Forall item_ok l
  | AGroup r => pattern_ok r
  end
with branch_ok (b : branch) : Prop :=
  match b with BEnd => True | BPiece a q b' => atom_ok a /\ quant_ok q /\ branch_ok b' end
with pattern_ok (r : pattern) : Prop :=
  match r with PBranch b => branch_ok b | POr b r' => branch_ok b /\ pattern_ok r' end.

(** "^" as itself, outside classes. *)
Fixpoint caret_free_atom (a : atom) : Prop :=
  match a with AChar x => x <> Plain 94%N | AGroup r => caret_free r | _ => True end
with caret_free_branch (b : branch) : Prop :=
  match b with BEnd => True | BPiece a _ b' => caret_free_atom a /\ caret_free_branch b' end
with caret_free (r : pattern) : Prop :=
  match r with PBranch b => caret_free_branch b | POr b r' => caret_free_branch b /\ caret_free r' end.

(* ------------------------------------------------------------------ language *)
Section Lang.
(** The Unicode general categories. *)
Context (cat : str -> N -> bool).
Definition xsd_space (c : N) : bool := N.eqb c 32 || N.eqb c 9 || N.eqb c 10 || N.eqb c 13.
Definition xsd_word (c : N) : bool := negb (cat (lit "P") c || cat (lit "Z") c || cat (lit "C") c).
Definition xsd_multi (k c : N) : bool :=
  if N.eqb k 100 then cat (lit "Nd") c
  else if N.eqb k 68 then negb (cat (lit "Nd") c)
  else if N.eqb k 115 then xsd_space c
  else if N.eqb k 83 then negb (xsd_space c)
  else if N.eqb k 119 then xsd_word c
  else if N.eqb k 87 then negb (xsd_word c)
  else false.
Definition in_item (i : item) (c : N) : Prop :=
  match i with
  | One x => c = denoted x
  | Range x y => (denoted x <= c <= denoted y)%N
  | Multi k => xsd_multi k c = true
  | Category neg name => cat name c = negb neg
  end.
Definition in_class (neg d1 : bool) (l : list item) (d2 : bool) (c : N) : Prop :=
  let inside := ((d1 || d2)%bool = true /\ c = 45%N) \/ Exists (fun i => in_item i c) l in
  if neg then ~ inside else inside.
(** How often a piece may occur. *)
Definition often (q : quant) (n : nat) : Prop :=
  match q with
  | Once => n = 1%nat | Opt => (n <= 1)%nat | Star => True | Plus => (1 <= n)%nat
  | Exactly_ k => n = k | AtLeast k => (k <= n)%nat | FromTo a b => (a <= n <= b)%nat
  end.
Fixpoint lang_atom (a : atom) (s : str) : Prop :=
  match a with
  | AChar x => s = [denoted x]
  | ADot => exists c, s = [c] /\ c <> 10%N /\ c <> 13%N
  | AMulti k => exists c, s = [c] /\ xsd_multi k c = true
  | ACategory neg name => exists c, s = [c] /\ cat name c = negb neg
  | AClass neg d1 l d2 => exists c, s = [c] /\ in_class neg d1 l d2 c
  | AGroup r => lang r s
  end
with lang_branch (b : branch) (s : str) : Prop :=
  match b with
  | BEnd => s = []
  | BPiece a q b' => exists ws t, s = concat ws ++ t /\ often q (length ws) /\ Forall (lang_atom a) ws /\ lang_branch b' t
  end
with lang (r : pattern) (s : str) : Prop :=
  match r with PBranch b => lang_branch b s | POr b r' => lang_branch b s \/ lang r' s end.
(** The characters on which the library's "." \s and \w are those of XSD; [sp] and [wd] are the library's. *)
Definition common (sp wd : N -> bool) (c : N) : Prop := c <> 13%N /\ sp c = xsd_space c /\ wd c = xsd_word c.
End Lang.
(** The alternatives before the last one, and the last one. *)
Fixpoint before_last (r : pattern) : list branch := match r with PBranch _ => [] | POr b r' => b :: before_last r' end.
Fixpoint last_branch (r : pattern) : branch := match r with PBranch b => b | POr _ r' => last_branch r' end.

(** A prefix of [s] is in the language; [s] is, or [s] without a final newline. *)
Definition some_prefix (cat : str -> N -> bool) (b : branch) (s : str) : Prop := exists w t, s = w ++ t /\ lang_branch cat b w.
Definition whole_line (cat : str -> N -> bool) (b : branch) (s : str) : Prop :=
  lang_branch cat b s \/ exists s', s = s' ++ [10%N] /\ lang_branch cat b s'.
(** What "^" and "$" around the text make of it: they belong to the first and the last alternative. *)
Definition accepted_by (cat : str -> N -> bool) (r : pattern) (s : str) : Prop :=
  Exists (fun b => some_prefix cat b s) (before_last r) \/ whole_line cat (last_branch r) s.
(** The patterns treated: of the grammar, with a text, without "^" as itself, not ending in "$". *)
Definition supported (r : pattern) : Prop := pattern_ok r /\ caret_free r /\ show r <> [] /\ forall w, show r <> w ++ [36%N].
