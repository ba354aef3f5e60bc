(** Hexadecimal numbers as Python writes them, with single underscores between digits (the Python reference, 2.4.4). *)
From Verif Require Import PyStr Spec_Defaults.
From Coq Require Import ZArith.

Inductive grouped : str -> list Z -> Prop :=
| Grouped c d s ds : hex_char c d -> following s ds -> grouped (c :: s) (d :: ds)
with following : str -> list Z -> Prop :=
| FollowEnd : following [] []
| FollowDigit s ds : grouped s ds -> following s ds
| FollowUnderscore s ds : grouped s ds -> following (95%N :: s) ds.
