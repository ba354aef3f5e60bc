(** Vocabulary for the property of the values of defaults (C81): the texts of RFC 6020. *)
From Verif Require Import PyStr PyVal Identity Typedefs Spec_Typedefs.
Local Open Scope Z_scope.

Inductive sign := NoSign | Plus | Minus.
Definition sign_text (s : sign) : str := match s with NoSign => [] | Plus => lit "+" | Minus => lit "-" end.
Definition signed (s : sign) (z : Z) : Z := match s with Minus => - z | _ => z end.
Definition all_below (b : Z) (ds : list Z) : Prop := Forall (fun d => 0 <= d < b) ds.
Definition digits (ds : list Z) : str := map (fun d => Z.to_N (d + 48)) ds.
Definition magnitude (b : Z) (ds : list Z) : Z := fold_left (fun a d => a * b + d) ds 0.
Inductive hex_char : N -> Z -> Prop :=
| HcDigit d : 0 <= d < 10 -> hex_char (Z.to_N (d + 48)) d
| HcLower d : 10 <= d < 16 -> hex_char (Z.to_N (d + 87)) d
| HcUpper d : 10 <= d < 16 -> hex_char (Z.to_N (d + 55)) d.
(** 9.2.1: the default of an integer. *)
Inductive numeral := Dec | Hex | Oct.
Inductive int_text : numeral -> str -> Z -> Prop :=
| ItDec sg ds : all_below 10 ds -> ds = [0] \/ (exists d ds', ds = d :: ds' /\ d <> 0) -> int_text Dec (sign_text sg ++ digits ds) (signed sg (magnitude 10 ds))
| ItHex sg cs ds : cs <> [] -> Forall2 hex_char cs ds -> int_text Hex (sign_text sg ++ lit "0x" ++ cs) (signed sg (magnitude 16 ds))
| ItOct sg ds : ds <> [] -> all_below 8 ds -> int_text Oct (sign_text sg ++ lit "0" ++ digits ds) (signed sg (magnitude 8 ds)).
(** 9.3.1: a decimal64 of value z / 10^n. *)
Inductive dec_text : str -> Z -> nat -> Prop :=
| DtInt sg ds : ds <> [] -> all_below 10 ds -> dec_text (sign_text sg ++ digits ds) (signed sg (magnitude 10 ds)) 0
| DtPoint sg ds fs : ds <> [] -> fs <> [] -> all_below 10 ds -> all_below 10 fs ->
    dec_text (sign_text sg ++ digits ds ++ lit "." ++ digits fs) (signed sg (magnitude 10 (ds ++ fs))) (length fs).
(** A text without quotes, backslashes and ends of lines. *)
Definition clean (s : str) : Prop := Forall (fun c => ~ In c [34; 92; 10; 13; 0]%N) s.

(** The nearest default of a leaf is [d], and the plugin finds it (C55). *)
Definition default_of (xp : bool) (cm0 : class_map) (tds : list tdef) (cm : class_map) (ty : ytype) (l : list tdef) (own : option str) (r : elemtype) (d : str) : Prop :=
  from_identities cm0 /\ separate (known_types cm0) tds /\ typedef_names tds /\ process_typedefs xp cm0 tds = Ok cm /\ chain tds ty l /\ build_elemtype xp cm ty = Ok r /\
  none_passed_over l /\ (own = None \/ ~ plain ty \/ (forall td l', l = td :: l' -> td_default td = None)) /\ nearest (own :: map td_default l) = Some d.
