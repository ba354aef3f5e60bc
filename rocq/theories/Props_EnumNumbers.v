(** Property theorems about the numbers of enumerations: C13. *)
From Verif Require Import PyStr PyVal Enum Spec_Types Spec_EnumNumbers.
From Verif Require EnumNumbers_proofs.
Import ListNotations.
Local Open Scope Z_scope.

(* ------------------------------------------------------------------ C13 *)
(** Which numbers all enumerations get: those of their value statements; and a name without one, after [i] other names, the
    free number with [i] free numbers below it. *)
Theorem C13_numbers : forall l, no_at l -> exists r, enum_values l = Ok r /\ map fst r = map fst l /\
  forall i n ov v, nth_error l i = Some (n, ov) -> nth_error r i = Some (n, v) ->
    match ov with Some w => v = w | None => nth_free l v i end.
Proof. exact EnumNumbers_proofs.numbers_thm. Qed.
Print Assumptions C13_numbers.
(** Exactly when these are the numbers of the RFC. *)
Theorem C13_rfc_exact : forall l, no_at l ->
  (enum_values l = Ok (rfc_numbers 0 l) <->
   forall i n r, nth_error l i = Some (n, None) -> nth_error (rfc_numbers 0 l) i = Some (n, r) -> nth_free l r i).
Proof. exact EnumNumbers_proofs.exact_thm. Qed.
Print Assumptions C13_rfc_exact.
(** So for enumerations, with different numbers, in which the names without value statement come first. *)
Theorem C13_rfc_first : forall l l', no_at (l ++ l') -> (forall p, In p l -> snd p = None) -> (forall p, In p l' -> snd p <> None) ->
  NoDup (map snd (rfc_numbers 0 (l ++ l'))) -> enum_values (l ++ l') = Ok (rfc_numbers 0 (l ++ l')).
Proof. exact EnumNumbers_proofs.first_thm. Qed.
Print Assumptions C13_rfc_first.
(** a; b; c = 7; d = 2: as in the RFC.  a = 2; b: not, b gets 1 instead of 3. *)
Example C13_numbers_case :
  let l := [(lit "a", None); (lit "b", None)] in let l' := [(lit "c", Some 7); (lit "d", Some 2)] in
  no_at (l ++ l') /\ (forall p, In p l -> snd p = None) /\ (forall p, In p l' -> snd p <> None) /\ NoDup (map snd (rfc_numbers 0 (l ++ l'))) /\
  (let m := [(lit "a", Some 2); (lit "b", None)] in no_at m /\ enum_values m = Ok [(lit "a", 2); (lit "b", 1)] /\ nth_free m 1 1 /\
     rfc_numbers 0 m = [(lit "a", 2); (lit "b", 3)] /\ ~ nth_free m 3 1).
Proof.
  cbv zeta. split; [repeat constructor|]. split; [intros p [<-|[<-|[]]]; reflexivity|]. split; [intros p [<-|[<-|[]]]; discriminate|].
  split; [cbn; repeat constructor; cbn; intuition discriminate|]. split; [repeat constructor|]. split; [vm_compute; reflexivity|].
  assert (H1 : nth_free [(lit "a", Some 2); (lit "b", None)] 1 1).
  { split; [discriminate|]. split; [intros (n & [E|[E|[]]]); discriminate E|]. exists [0]. split; [repeat constructor; intros []|]. split; [reflexivity|].
    intros x. cbn [In]. split.
    - intros [<-|[]]. split; [split; [discriminate|reflexivity]|]. intros (n & [E|[E|[]]]); discriminate E.
    - intros [[Ha Hb] _]. left. apply Z.le_antisymm; [exact Ha|]. now apply Z.lt_succ_r. }
  split; [exact H1|]. split; [vm_compute; reflexivity|]. intros H. discriminate (EnumNumbers_proofs.nth_free_unique _ _ _ _ H H1).
Qed.
