(** Enumeration numbering. *)
From Verif Require Import PyStr PyVal.
Local Open Scope Z_scope.

Fixpoint z_in (c : Z) (l : list Z) : bool :=
  match l with [] => false | x :: l' => (x =? c) || z_in c l' end.

(** pyangbind/lib/yangtypes.py:350-351, [while c in used_values: c += 1].  Fuel exhaustion is
    reported; [bump_fuel_enough] in Enum_proofs.v shows it never happens. *)
Fixpoint bump (fuel : nat) (used : list Z) (c : Z) : res Z :=
  match fuel with
  | O => Raise OutOfFuel
  | S f => if z_in c used then bump f used (c + 1) else Ok c
  end.

(** yangtypes.py:344-347: the explicit values. *)
Fixpoint used_values (l : list (str * option Z)) : list Z :=
  match l with
  | [] => []
  | (_, Some v) :: l' => v :: used_values l'
  | (_, None) :: l' => used_values l'
  end.

(** yangtypes.py:348-354: the loop over the names in order. *)
Fixpoint number_from (used : list Z) (c : Z) (l : list (str * option Z)) : res (list (str * Z)) :=
  match l with
  | [] => Ok []
  | (n, ov) :: l' =>
      c' <- bump (S (length used)) used c ;;
      r <- number_from used (c' + 1) l' ;;
      Ok ((n, match ov with Some v => v | None => c' end) :: r)
  end.

(** yangtypes.py:338-356: [_enumeration_dict] (names starting with '@' are dropped; a dict is
    an association list with distinct names). *)
Definition enum_values (l : list (str * option Z)) : res (list (str * Z)) :=
  let l' := filter (fun p => negb (startswith (lit "@") (fst p))) l in
  number_from (used_values l') 0 l'.

Fixpoint lookup_val (n : str) (l : list (str * Z)) : option Z :=
  match l with
  | [] => None
  | (m, v) :: l' => if str_eqb m n then Some v else lookup_val n l'
  end.

(** yangtypes.py:386-395, getValue(mapped=True) on a leaf holding [n]. *)
Definition get_value (l : list (str * option Z)) (n : str) : res Z :=
  d <- enum_values l ;; match lookup_val n d with Some v => Ok v | None => Raise KeyError end.
