(** Default texts with escape sequences, piece by piece (C81); the pieces are those of Spec_Escapes. *)
From Verif Require Import PyStr Spec_Docs Spec_Escapes.
Import ListNotations.

(** Pieces of a literal between two double quotes on one line. *)
Definition inline (p : piece) : Prop :=
  match p with
  | Ch c => ~ In c [34; 10]%N
  | Cr | CrLf => False
  | Cont s => s = [10%N]
  | _ => True
  end.
(** What Python refuses there: the end of the line, NUL, too few digits, and numbers beyond the last character. *)
Definition refused (s : str) : Prop :=
  (exists c t, s = c :: t /\ In c [10; 13; 0]%N) \/
  exists u n ds t, In (u, n) [(120%N, 2); (117%N, 4); (85%N, 8)] /\ Forall (fun c => In c hex_digits) ds /\ s = 92%N :: u :: ds ++ t /\
    ((length ds < n /\ forall c t', t = c :: t' -> ~ In c hex_digits) \/ (length ds = n /\ (1114111 < number_of 16 ds)%N)).
(** What ends the literal, or is not followed here: a double quote, a backslash at the very end, and a backslash with CR, NUL
    or the N of a character name. *)
Definition leaves (s : str) : Prop :=
  (exists t, s = 34%N :: t) \/ s = [92%N] \/ exists e t, s = 92%N :: e :: t /\ In e [13; 0; 78]%N.
