(** Property theorems about bits leaves as sets: C101. *)
From Coq Require Import String.
From Verif Require Import PyStr PyVal Restricted Bits Spec_Types BitsSets Spec_BitsSets.
From Verif Require BitsSets_proofs.
Import ListNotations.

(* ------------------------------------------------------------------ C101 *)
(** A call that returns has done what it does on a set; one that raises has not changed the set. *)
Theorem C101_members : forall allowed helper s o,
  let after := set_step allowed helper s o in
  (forall r, snd after = Ok r -> forall x, In x (held (fst after)) <-> meaning o (held s) x) /\
  (forall e, snd after = Raise e -> held (fst after) = held s).
Proof. exact BitsSets_proofs.step_members. Qed.
Print Assumptions C101_members.

(** Which calls return, all of them None; remove() only without a path helper. *)
Theorem C101_returns : forall allowed helper s o, snd (set_step allowed helper s o) = Ok None <-> returns allowed helper (held s) o.
Proof. exact BitsSets_proofs.step_returns. Qed.
Print Assumptions C101_returns.
(** Any number of calls of remove(): nothing happens with a path helper, and without it the bits are gone. *)
Theorem C101_removes : forall allowed bs s,
  held (set_run allowed true s (map (fun b => Own (BRemove b)) bs)) = held s /\
  forall x, In x (held (set_run allowed false s (map (fun b => Own (BRemove b)) bs))) <-> In x (held s) /\ ~ In x bs.
Proof. exact BitsSets_proofs.removes_thm. Qed.
Print Assumptions C101_removes.

(** The bits stay declared ones exactly if what update() and symmetric_difference_update() bring in is declared. *)
Theorem C101_declared_exact : forall allowed helper s o, legal allowed (held s) ->
  (legal allowed (held (fst (set_step allowed helper s o))) <-> forall x, brings o (held s) x -> In x (map fst allowed)).
Proof. exact BitsSets_proofs.step_legal. Qed.
Print Assumptions C101_declared_exact.
Theorem C101_declared_partial : forall allowed helper ops s, legal allowed (held s) ->
  Forall (fun o => match o with Update u | SymUpdate u => forall x, In x u -> In x (map fst allowed) | _ => True end) ops ->
  legal allowed (held (set_run allowed helper s ops)).
Proof. exact BitsSets_proofs.run_sets. Qed.
Print Assumptions C101_declared_partial.

(** Which operations mark the leaf as changed, and which tell the objects around it. *)
Theorem C101_flags : forall allowed helper s o,
  (inherited o = true -> mchanged (fst (set_step allowed helper s o)) = mchanged s) /\
  (inherited o = false -> forall r, snd (set_step allowed helper s o) = Ok r -> mchanged (fst (set_step allowed helper s o)) = true) /\
  (forall e, snd (set_step allowed helper s o) = Raise e -> mchanged (fst (set_step allowed helper s o)) = (mchanged s || through_leaf o)%bool) /\
  told (fst (set_step allowed helper s o)) = (told s || through_leaf o)%bool.
Proof. exact BitsSets_proofs.step_flags. Qed.
Print Assumptions C101_flags.

(** The statements |=, &=, -= and ^= always raise AttributeError, but the set is changed, the leaf is not marked as changed, and
    the objects around it are told. *)
Theorem C101_statements : forall allowed s o, inherited o = true ->
  snd (set_stmt allowed s o) = Raise AttributeError /\ (forall x, In x (held (fst (set_stmt allowed s o))) <-> meaning o (held s) x) /\
  mchanged (fst (set_stmt allowed s o)) = mchanged s /\ told (fst (set_stmt allowed s o)) = true.
Proof. exact BitsSets_proofs.stmt_thm. Qed.
Print Assumptions C101_statements.

(** str() of the leaf: the text of C14, or KeyError exactly if some bit is not declared. *)
Theorem C101_text : forall allowed l,
  ((exists t, bits_text allowed l = Ok t) <-> forall b, In b l -> In b (map fst allowed)) /\
  ((forall b, In b l -> In b (map fst allowed)) -> bits_text allowed l = Ok (bits_str allowed l)) /\
  (forall b, In b l -> ~ In b (map fst allowed) -> bits_text allowed l = Raise KeyError).
Proof. exact BitsSets_proofs.text_thm. Qed.
Print Assumptions C101_text.

(** A leaf with the bits up and down of which up is set. *)
Definition two_bits : list (str * str) := [(lit "up", lit "0"); (lit "down", lit "1")].
Definition up_set : bleaf := BLeaf [lit "up"] false false.
Lemma up_legal : legal two_bits (held up_set).
Proof. split; [repeat constructor; intros []|]. intros b [<-|[]]. left. reflexivity. Qed.
Example C101_case : legal two_bits (held up_set) /\
  held (set_run two_bits false up_set [SymUpdate [lit "down"]; Own (BRemove (lit "up")); Update [lit "down"; lit "up"]; DiffUpdate [lit "down"]]) = [lit "up"] /\
  bits_text two_bits (held (set_run two_bits true up_set [Own (BAdd (lit "down"))])) = Ok (lit "up down").
Proof. split; [exact up_legal|]. split; vm_compute; reflexivity. Qed.
(** update() takes a bit that is not declared, after which str() fails; update() with a declared bit does not mark the leaf as
    changed; add() does not tell the objects around it; a bit that is set cannot be removed; pop() gives nothing;
    |= raises and yet sets the bit. *)
Theorem C101_refuted : exists allowed s, legal allowed (held s) /\
  (exists u, let s' := fst (set_step allowed false s (Update u)) in ~ legal allowed (held s') /\ bits_text allowed (held s') = Raise KeyError) /\
  (exists b, let s' := fst (set_step allowed false s (Update [b])) in legal allowed (held s') /\ In b (held s') /\ ~ In b (held s) /\ mchanged s' = false) /\
  (exists b, let s' := fst (set_step allowed false s (Own (BAdd b))) in In b (held s') /\ ~ In b (held s) /\ told s' = false) /\
  (exists b, In b (held s) /\ snd (set_step allowed true s (Own (BRemove b))) = Raise AttributeError) /\
  (exists i b, nth_error (held s) i = Some b /\ set_step allowed false s (Own (BPop i)) = (BLeaf [] true true, Ok None)) /\
  (exists b, ~ In b (held s) /\ snd (set_stmt allowed s (Update [b])) = Raise AttributeError /\ In b (held (fst (set_stmt allowed s (Update [b]))))).
Proof.
  exists two_bits, up_set. split; [exact up_legal|]. cbv zeta.
  assert (Nd : ~ In (lit "down") (held up_set)) by (intros [H|[]]; discriminate H).
  split. { exists [lit "left"]. split; [|vm_compute; reflexivity]. intros H. apply (proj1 (C101_declared_exact _ _ _ _ up_legal)) with (x := lit "left") in H.
           - destruct H as [H|[H|[]]]; discriminate H.
           - split; [left; reflexivity|]. intros [G|[]]; discriminate G. }
  split. { exists (lit "down"). split; [apply C101_declared_exact; [exact up_legal|]; intros x [[<-|[]] _]; right; left; reflexivity|].
           split; [right; left; reflexivity|]. split; [exact Nd|reflexivity]. }
  split. { exists (lit "down"). split; [right; left; vm_compute; reflexivity|]. split; [exact Nd|vm_compute; reflexivity]. }
  split. { exists (lit "up"). split; [left; reflexivity|reflexivity]. }
  split. { exists 0%nat, (lit "up"). split; [reflexivity|vm_compute; reflexivity]. }
  exists (lit "down"). split; [exact Nd|]. split; [vm_compute; reflexivity|]. apply C101_statements; [reflexivity|]. right. left. reflexivity.
Qed.
Print Assumptions C101_refuted.
