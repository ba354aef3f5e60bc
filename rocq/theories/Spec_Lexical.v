(** Vocabulary for the property of values given as text (C82): the texts of RFC 6020, and those that Python takes. *)
From Verif Require Import PyStr PyVal Spec_Defaults.
Local Open Scope Z_scope.

Definition white (s : str) : Prop := Forall (fun c => In c [9; 10; 11; 12; 13; 32]%N) s.
(** The texts that the property speaks of: of ASCII characters without the separators 28 to 31, which Python takes for
    white space in some places and not in others. *)
Definition ordinary (s : str) : Prop := Forall (fun c => (c < 28 \/ 31 < c < 128)%N) s.
(** 9.2.1: an optional sign and digits. *)
Inductive yang_int : str -> Z -> Prop :=
| YangInt sg ds : ds <> [] -> all_below 10 ds -> yang_int (sign_text sg ++ digits ds) (signed sg (magnitude 10 ds)).
(** Python: also with spaces around, and with single underscores between the digits. *)
Definition grouped (g : list Z) (gs : list (list Z)) : str := digits g ++ flat_map (fun g => lit "_" ++ digits g) gs.
Inductive python_int : str -> Z -> Prop :=
| PythonInt a b sg g gs : white a -> white b -> g <> [] -> (forall h, In h gs -> h <> []) -> all_below 10 (g ++ concat gs) ->
    python_int (a ++ sign_text sg ++ grouped g gs ++ b) (signed sg (magnitude 10 (g ++ concat gs))).
(** Decimals: also without digits before or after the point, with an exponent, with underscores anywhere.  The value is
    that of c * 10^e. *)
Inductive exponent : str -> Z -> Prop :=
| NoExp : exponent [] 0
| Exp x sg ds : In x [69; 101]%N -> ds <> [] -> all_below 10 ds -> exponent (x :: sign_text sg ++ digits ds) (signed sg (magnitude 10 ds)).
Inductive mantissa : str -> Z -> nat -> Prop :=
| Whole ds : ds <> [] -> all_below 10 ds -> mantissa (digits ds) (magnitude 10 ds) 0
| Pointed ds fs : ds ++ fs <> [] -> all_below 10 (ds ++ fs) -> mantissa (digits ds ++ lit "." ++ digits fs) (magnitude 10 (ds ++ fs)) (length fs).
Definition without_underscores (s : str) : str := filter (fun c => negb (N.eqb c 95)) s.
Inductive python_dec : str -> Z -> Z -> Prop :=
| PythonDec a b t sg m ex c n e : white a -> white b -> (forall c, hd_error t = Some c \/ hd_error (rev t) = Some c -> ~ white [c]) ->
    without_underscores t = sign_text sg ++ m ++ ex -> mantissa m c n -> exponent ex e -> python_dec (a ++ t ++ b) (signed sg c) (e - Z.of_nat n).
