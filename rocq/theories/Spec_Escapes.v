(** Texts with escape sequences, piece by piece, and what Python shows of them (the Python reference, 2.4.1; C95). *)
From Verif Require Import PyStr Spec_Docs.
Import ListNotations.

Inductive piece :=
| Ch (c : N)                (** a character *)
| Cr | CrLf                 (** ends of lines other than LF *)
| Esc (e r : N)             (** a backslash and a letter or sign that stands for [r] *)
| Cont (s : str)            (** a backslash at the end of a line *)
| Oct (ds : str)            (** \ooo *)
| Hex (u : N) (ds : str)    (** \xhh, \uhhhh, \Uhhhhhhhh *)
| Kept (e : N).             (** any other character behind a backslash *)

Definition octal_digits : str := lit "01234567".
Definition digit_value (c : N) : N :=
  match find (fun p => N.eqb (fst p) c) (combine hex_digits [0; 1; 2; 3; 4; 5; 6; 7; 8; 9; 10; 11; 12; 13; 14; 15; 10; 11; 12; 13; 14; 15]%N) with
  | Some (_, v) => v
  | None => 0%N
  end.
Definition number_of (base : N) (ds : str) : N := fold_left (fun v c => v * base + digit_value c)%N ds 0%N.

Definition source (p : piece) : str :=
  match p with
  | Ch c => [c] | Cr => [13%N] | CrLf => [13; 10]%N
  | Esc e _ => [92%N; e] | Cont s => 92%N :: s | Oct ds => 92%N :: ds | Hex u ds => 92%N :: u :: ds | Kept e => [92%N; e]
  end.
Definition shown (p : piece) : str :=
  match p with
  | Ch c => [c] | Cr | CrLf => [10%N]
  | Esc _ r => [r] | Cont _ => [] | Oct ds => [number_of 8 ds] | Hex _ ds => [number_of 16 ds] | Kept e => [92%N; e]
  end.
Definition sources (ps : list piece) : str := concat (map source ps).
Definition shows (ps : list piece) : str := concat (map shown ps).

Definition piece_ok (p : piece) : Prop :=
  match p with
  | Ch c => ~ In c [92; 13; 0]%N
  | Cr | CrLf => True
  | Esc e r => In (e, r) [(92, 92); (39, 39); (34, 34); (97, 7); (98, 8); (102, 12); (110, 10); (114, 13); (116, 9); (118, 11)]%N
  | Cont s => In s [[10]; [13]; [13; 10]]%N
  | Oct ds => ds <> [] /\ length ds <= 3 /\ Forall (fun c => In c octal_digits) ds
  | Hex u ds => In (u, length ds) [(120%N, 2); (117%N, 4); (85%N, 8)] /\ Forall (fun c => In c hex_digits) ds /\ (number_of 16 ds <= 1114111)%N
  | Kept e => ~ In e ([92; 39; 34; 10; 13; 0]%N ++ lit "abfnrtvNxuU01234567")
  end.
(** The piece ends where it says, with [rest] behind it. *)
Definition apart (p : piece) (rest : str) : Prop :=
  match p with
  | Cr => forall s, rest <> 10%N :: s
  | Cont s => s = [13%N] -> forall t, rest <> 10%N :: t
  | Oct ds => length ds < 3 -> forall c t, rest = c :: t -> ~ In c octal_digits
  | _ => True
  end.
Fixpoint fits (ps : list piece) (rest : str) : Prop :=
  match ps with
  | [] => True
  | p :: ps' => piece_ok p /\ apart p (sources ps' ++ rest) /\ fits ps' rest
  end.
Definition three_in (ps : list piece) : Prop := exists a b, ps = a ++ [Ch 34; Ch 34; Ch 34] ++ b.
(** Names: words on one line. *)
Definition bare (s : str) : Prop := word s /\ ~ In 13%N s.
(** What Python refuses: NUL, too few digits, and numbers beyond the last character. *)
Definition broken (s : str) : Prop :=
  (exists t, s = 0%N :: t) \/ (exists t, s = 92%N :: 0%N :: t) \/
  exists u n ds t, In (u, n) [(120%N, 2); (117%N, 4); (85%N, 8)] /\ Forall (fun c => In c hex_digits) ds /\ s = 92%N :: u :: ds ++ t /\
    ((length ds < n /\ exists c t', t = c :: t' /\ ~ In c hex_digits) \/ (length ds = n /\ (1114111 < number_of 16 ds)%N)).
