(** Property theorems about patterns: C09. *)
From Verif Require Import PyStr PyVal Restricted StrTypes Spec_Types Regex Spec_Regex.
From Verif Require RegexLeaf_proofs.
Import ListNotations.

(** A string leaf whose type statements along the typedefs carry these patterns, one each. *)
Definition leaf_with (rs : list pattern) : ltype := LOne (str_chain (map (fun r => [SPattern (show r)]) rs)).
Definition ch (s : String.string) : branch := fold_right (fun c b => BPiece (AChar (Plain c)) Once b) BEnd (lit s).
Arguments ch _%string_scope.

(* ------------------------------------------------------------------ C09 *)
(** Full statement: the pattern matches the complete string.  False with alternatives: the anchors put
    around the text belong to the first and the last one only ("a|b" accepts "ax") ... *)
Theorem C09_alternatives_refuted : forall U O, exists r s, pattern_ok r /\ show r = lit "a|b" /\ s = lit "ax" /\
  ~ lang (u_cat U) r s /\ d_out (leaf_assign (with_regex U O) (leaf_with [r]) (VStr s)) = Ok (VStr s).
Proof.
  intros U O. exists (POr (ch "a") (PBranch (ch "b"))), (lit "ax"). split.
  - cbn. repeat split; intros H; repeat (destruct H as [H|H]; [discriminate H|]); exact H.
  - split; [reflexivity|]. split; [reflexivity|]. split.
    + intros [(ws & t & E & L & F & T)|(ws & t & E & L & F & T)]; cbn in T; subst t; (destruct ws as [|w [|? ?]]; [discriminate| |discriminate]);
        inversion F as [|? ? Fw _]; subst; cbn in Fw; subst w; discriminate E.
    + vm_compute. reflexivity.
Qed.
Print Assumptions C09_alternatives_refuted.

(** ... with a newline at the end of the string ("$" holds before it) ... *)
Theorem C09_newline_refuted : forall U O, exists r s, supported r /\ show r = lit "a" /\ s = lit "a" ++ [10%N] /\
  ~ lang (u_cat U) r s /\ d_out (leaf_assign (with_regex U O) (leaf_with [r]) (VStr s)) = Ok (VStr s).
Proof.
  intros U O. exists (PBranch (ch "a")), (lit "a" ++ [10%N]). split.
  - split; [cbn; repeat split; intros H; repeat (destruct H as [H|H]; [discriminate H|]); exact H|].
    split; [cbn; repeat split; discriminate|]. split; [discriminate|]. intros [|c [|d w]] E; discriminate E.
  - split; [reflexivity|]. split; [reflexivity|]. split.
    + intros (ws & t & E & L & F & T); cbn in T; subst t; (destruct ws as [|w [|? ?]]; [discriminate| |discriminate]);
        inversion F as [|? ? Fw _]; subst; cbn in Fw; subst w; discriminate E.
    + vm_compute. reflexivity.
Qed.
Print Assumptions C09_newline_refuted.

(** ... for patterns that end in "$" or begin with "^", which stand for themselves in YANG: "a$" accepts "a"
    and refuses "a$" ... *)
Theorem C09_dollar_refuted : forall U O, exists r s t, pattern_ok r /\ show r = lit "a$" /\ s = lit "a$" /\ t = lit "a" /\
  lang (u_cat U) r s /\ d_out (leaf_assign (with_regex U O) (leaf_with [r]) (VStr s)) = Raise ValueError /\
  ~ lang (u_cat U) r t /\ d_out (leaf_assign (with_regex U O) (leaf_with [r]) (VStr t)) = Ok (VStr t).
Proof.
  intros U O. exists (PBranch (ch "a$")), (lit "a$"), (lit "a"). split.
  - cbn; repeat split; intros H; repeat (destruct H as [H|H]; [discriminate H|]); exact H.
  - split; [reflexivity|]. split; [reflexivity|]. split; [reflexivity|]. split; [|split; [vm_compute; reflexivity|split; [|vm_compute; reflexivity]]].
    + exists [lit "a"], (lit "$"). split; [reflexivity|]. split; [reflexivity|]. split; [now repeat constructor|].
      exists [lit "$"], []. split; [reflexivity|]. split; [reflexivity|]. split; [now repeat constructor|reflexivity].
    + intros (ws & t & E & L & F & ws' & t' & E' & L' & F' & T). cbn in T. subst t' t.
      destruct ws as [|w [|? ?]]; [discriminate| |discriminate]. destruct ws' as [|w' [|? ?]]; [discriminate| |discriminate].
      inversion F as [|? ? Fw _]; subst. inversion F' as [|? ? Fw' _]; subst. cbn in Fw, Fw'. subst w w'. discriminate E.
Qed.
Print Assumptions C09_dollar_refuted.

(** ... and "^a" accepts "a" and refuses "^a". *)
Theorem C09_caret_refuted : forall U O, exists r s t, pattern_ok r /\ show r = lit "^a" /\ s = lit "^a" /\ t = lit "a" /\
  lang (u_cat U) r s /\ d_out (leaf_assign (with_regex U O) (leaf_with [r]) (VStr s)) = Raise ValueError /\
  ~ lang (u_cat U) r t /\ d_out (leaf_assign (with_regex U O) (leaf_with [r]) (VStr t)) = Ok (VStr t).
Proof.
  intros U O. exists (PBranch (ch "^a")), (lit "^a"), (lit "a"). split.
  - cbn; repeat split; intros H; repeat (destruct H as [H|H]; [discriminate H|]); exact H.
  - split; [reflexivity|]. split; [reflexivity|]. split; [reflexivity|]. split; [|split; [vm_compute; reflexivity|split; [|vm_compute; reflexivity]]].
    + exists [lit "^"], (lit "a"). split; [reflexivity|]. split; [reflexivity|]. split; [now repeat constructor|].
      exists [lit "a"], []. split; [reflexivity|]. split; [reflexivity|]. split; [now repeat constructor|reflexivity].
    + intros (ws & t & E & L & F & ws' & t' & E' & L' & F' & T). cbn in T. subst t' t.
      destruct ws as [|w [|? ?]]; [discriminate| |discriminate]. destruct ws' as [|w' [|? ?]]; [discriminate| |discriminate].
      inversion F as [|? ? Fw _]; subst. inversion F' as [|? ? Fw' _]; subst. cbn in Fw, Fw'. subst w w'. discriminate E.
Qed.
Print Assumptions C09_caret_refuted.

(** A "^" further in makes the leaf refuse every string of the pattern, and what one gets by leaving it out. *)
Theorem C09_inner_caret_refuted : forall U O, exists r s t, pattern_ok r /\ show r = lit "b^a" /\ s = lit "b^a" /\ t = lit "ba" /\
  lang (u_cat U) r s /\ d_out (leaf_assign (with_regex U O) (leaf_with [r]) (VStr s)) = Raise ValueError /\
  d_out (leaf_assign (with_regex U O) (leaf_with [r]) (VStr t)) = Raise ValueError.
Proof.
  intros U O. exists (PBranch (ch "b^a")), (lit "b^a"), (lit "ba"). split.
  - cbn; repeat split; intros H; repeat (destruct H as [H|H]; [discriminate H|]); exact H.
  - split; [reflexivity|]. split; [reflexivity|]. split; [reflexivity|]. split; [|split; vm_compute; reflexivity].
    exists [lit "b"], (lit "^a"). split; [reflexivity|]. split; [reflexivity|]. split; [now repeat constructor|].
    exists [lit "^"], (lit "a"). split; [reflexivity|]. split; [reflexivity|]. split; [now repeat constructor|].
    exists [lit "a"], []. split; [reflexivity|]. split; [reflexivity|]. split; [now repeat constructor|reflexivity].
Qed.
Print Assumptions C09_inner_caret_refuted.

(** For all patterns [supported], without alternatives outside groups - any nesting, repetitions, classes - and all strings that
    do not end in a newline: the leaf accepts exactly the strings of the language, all of them if there are
    several typedefs.  Missing: as above, and the characters for which "." \s or \w differ. *)
Theorem C09_anchored_partial : forall U O bs s,
  Forall (fun b => supported (PBranch b)) bs -> Forall (common (u_cat U) (u_space U) (u_word U)) s -> (forall w, s <> w ++ [10%N]) ->
  (Forall (fun b => lang (u_cat U) (PBranch b) s) bs ->
     leaf_assign (with_regex U O) (leaf_with (map PBranch bs)) (VStr s) = {| d_notified := true; d_out := Ok (VStr s) |}) /\
  (~ Forall (fun b => lang (u_cat U) (PBranch b) s) bs ->
     leaf_assign (with_regex U O) (leaf_with (map PBranch bs)) (VStr s) = {| d_notified := false; d_out := Raise ValueError |}).
Proof. intros U O bs s. unfold leaf_with. rewrite map_map. exact (RegexLeaf_proofs.anchored_main U O bs s). Qed.
Print Assumptions C09_anchored_partial.

(** What is accepted in general: the alternatives before the last one accept every string that begins with
    one of theirs; the last one its strings, with or without a newline at the end. *)
Theorem C09_accepted_partial : forall U O rs s,
  Forall supported rs -> Forall (common (u_cat U) (u_space U) (u_word U)) s ->
  (Forall (fun r => accepted_by (u_cat U) r s) rs ->
     leaf_assign (with_regex U O) (leaf_with rs) (VStr s) = {| d_notified := true; d_out := Ok (VStr s) |}) /\
  (~ Forall (fun r => accepted_by (u_cat U) r s) rs ->
     leaf_assign (with_regex U O) (leaf_with rs) (VStr s) = {| d_notified := false; d_out := Raise ValueError |}).
Proof. exact RegexLeaf_proofs.chain_main. Qed.
Print Assumptions C09_accepted_partial.

(** (\d{1,3}\.){3}\d{1,3}(%[a-zA-Z\p{L}-]+)? *)
Definition v4 : branch :=
  BPiece (AGroup (PBranch (BPiece (AMulti 100) (FromTo 1 3) (BPiece (AChar (Esc 46)) Once BEnd)))) (Exactly_ 3)
    (BPiece (AMulti 100) (FromTo 1 3)
      (BPiece (AGroup (PBranch (BPiece (AChar (Plain 37)) Once (BPiece (AClass false false [Range (Plain 97) (Plain 122); Range (Plain 65) (Plain 90); Category false (lit "L")] true) Plus BEnd)))) Opt BEnd)).
(** [^$x]*(a|b)?y *)
Definition other : branch :=
  BPiece (AClass true false [One (Plain 36); One (Plain 120)] false) Star
    (BPiece (AGroup (POr (ch "a") (PBranch (ch "b")))) Opt (ch "y")).
Definition ascii : unicode :=
  let cat n c := if str_eqb n (lit "Nd") then is_digit c else if str_eqb n (lit "L") then is_alpha c else false in
  {| u_cat := cat; u_space := xsd_space; u_word := xsd_word cat |}.

Lemma branch_supported b : branch_ok b -> caret_free_branch b -> show_branch b <> [] -> (forall c w, rev (show_branch b) = c :: w -> c <> 36%N) -> supported (PBranch b).
Proof.
  intros H1 H2 H3 H4. split; [exact H1|]. split; [exact H2|]. split; [exact H3|]. intros w E. cbn [show] in E.
  apply (H4 36%N (rev w)); [|reflexivity]. rewrite E. now rewrite rev_app_distr.
Qed.
Example C09_case : forall O, Forall (fun b => supported (PBranch b)) [v4] /\ Forall (fun b => supported (PBranch b)) [other] /\
  show (PBranch v4) = lit "(\d{1,3}\.){3}\d{1,3}(%[a-zA-Z\p{L}-]+)?" /\ show (PBranch other) = lit "[^$x]*(a|b)?y" /\
  Forall (common (u_cat ascii) (u_space ascii) (u_word ascii)) (lit "10.0.250.7%eth-x") /\
  d_out (leaf_assign (with_regex ascii O) (leaf_with [PBranch v4]) (VStr (lit "10.0.250.7%eth-x"))) = Ok (VStr (lit "10.0.250.7%eth-x")) /\
  d_out (leaf_assign (with_regex ascii O) (leaf_with [PBranch v4]) (VStr (lit "10.0.250.7x"))) = Raise ValueError /\
  d_out (leaf_assign (with_regex ascii O) (leaf_with [PBranch v4]) (VStr (lit "10.0.2507.7"))) = Raise ValueError /\
  d_out (leaf_assign (with_regex ascii O) (leaf_with [PBranch other]) (VStr (lit "bay"))) = Ok (VStr (lit "bay")) /\
  d_out (leaf_assign (with_regex ascii O) (leaf_with [PBranch other]) (VStr (lit "b$ay"))) = Raise ValueError /\
  supported (POr (ch "a") (PBranch v4)).
Proof.
  intros O.
  assert (NotIn : forall (c : N) l, existsb (N.eqb c) l = false -> ~ In c l).
  { intros c l H Hin. assert (existsb (N.eqb c) l = true) by (apply existsb_exists; exists c; split; [exact Hin|apply N.eqb_refl]). congruence. }
  assert (IsIn : forall (c : N) l, existsb (N.eqb c) l = true -> In c l).
  { intros c l H. apply existsb_exists in H. destruct H as (d & Hd & E). apply N.eqb_eq in E. now subst. }
  assert (V : supported (PBranch v4)).
  { apply branch_supported.
    - cbn [v4 branch_ok atom_ok pattern_ok quant_ok char_ok]. unfold multi_letter, esc_ok.
      split; [split; [apply IsIn; reflexivity|split; [repeat constructor|split; [apply IsIn; reflexivity|split; exact I]]]|].
      split; [exact I|]. split; [apply IsIn; reflexivity|]. split; [repeat constructor|]. split; [|split; exact I].
      split; [apply NotIn; reflexivity|]. split; [exact I|]. split; [split; [discriminate|]|split; exact I].
      constructor; [|constructor; [|constructor; [|constructor]]]; cbn [item_ok class_char_ok denoted].
      + split; [apply NotIn; reflexivity|]. split; [apply NotIn; reflexivity|]. discriminate.
      + split; [apply NotIn; reflexivity|]. split; [apply NotIn; reflexivity|]. discriminate.
      + split; [constructor; [left; split; discriminate|constructor]|]. repeat constructor.
    - cbn. repeat split; discriminate.
    - discriminate.
    - intros c w E. vm_compute in E. injection E as <- _. discriminate. }
  split; [constructor; [exact V|constructor]|]. split.
  { constructor; [|constructor]. apply branch_supported.
    - cbn [other branch_ok atom_ok pattern_ok quant_ok char_ok ch]. split; [split; [discriminate|]|].
      + constructor; [|constructor; [|constructor]]; cbn [item_ok class_char_ok]; apply NotIn; reflexivity.
      + split; [exact I|]. split; [split; (split; [apply NotIn; reflexivity|split; exact I])|]. split; [exact I|]. split; [apply NotIn; reflexivity|]. split; exact I.
    - cbn. repeat split; discriminate.
    - discriminate.
    - intros c w E. vm_compute in E. injection E as <- _. discriminate. }
  split; [vm_compute; reflexivity|]. split; [vm_compute; reflexivity|]. split.
  { apply Forall_forall. intros c Hc. split; [|split; reflexivity]. intros ->. revert Hc. apply NotIn. vm_compute. reflexivity. }
  split; [vm_compute; reflexivity|]. split; [vm_compute; reflexivity|]. split; [vm_compute; reflexivity|].
  split; [vm_compute; reflexivity|]. split; [vm_compute; reflexivity|].
  destruct V as (V1 & V2 & _ & V4). split; [split; [cbn; split; [intros H; vm_compute in H; repeat (destruct H as [H|H]; [discriminate H|]); exact H|split; exact I]|exact V1]|].
  split; [split; [cbn; split; [discriminate|exact I]|exact V2]|]. split; [discriminate|].
  intros w E. apply (f_equal (@rev N)) in E. rewrite rev_app_distr in E. vm_compute in E. discriminate E.
Qed.
