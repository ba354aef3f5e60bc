(** Brackets in a part of a path that are no predicates. *)
From Verif Require Import PyStr PathHelper Spec_Path.

(** A text that begins with a predicate: perhaps "and " or "or ", perhaps "@", a key, "=" with blanks around it, perhaps a
    quotation mark, and at least one character of a value. *)
Definition value_char (c : N) : Prop := ~ In c (lit " ^'""").
Definition blanks (s : str) : Prop := Forall (fun c => c = 32%N) s.
Definition begins_predicate (body : str) : Prop :=
  exists word sign key b1 b2 q v rest, body = word ++ sign ++ key ++ b1 ++ lit "=" ++ b2 ++ q ++ v ++ rest /\
    In word [[]; lit "and "; lit "or "] /\ In sign [[]; lit "@"] /\ key <> [] /\ Forall (fun c => key_char c \/ c = 58%N) key /\ blanks b1 /\ blanks b2 /\
    In q [[]; lit "'"; lit """"] /\ v <> [] /\ Forall value_char v.
(** A tag with brackets; what may be in them here. *)
Definition bracketed (tag : str) (bodies : list str) : str := tag ++ concat (map (fun b => lit "[" ++ b ++ lit "]") bodies).
Definition body_ok (b : str) : Prop := b <> [] /\ Forall (fun c => ~ In c (lit "[]|")) b.
(** A part of a path with a bracket that is no predicate. *)
Definition malformed (part : str) : Prop :=
  exists tag bodies, part = bracketed tag bodies /\ xml_name tag /\ Forall body_ok bodies /\ exists b, In b bodies /\ ~ begins_predicate b.
