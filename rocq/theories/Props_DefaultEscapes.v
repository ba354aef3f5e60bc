(** Property theorems about defaults with escape sequences: C81. *)
From Coq Require Import String.
From Verif Require Import PyStr PyStr_facts PyVal PathHelper Identity Restricted IntTypes Typedefs Spec_Typedefs Defaults Spec_Defaults Props_Typedefs Spec_Docs Spec_Escapes Spec_DefaultEscapes.
From Verif Require Docs_proofs Defaults_proofs Escapes_proofs DefaultEscapes_proofs Props_Defaults.
Import ListNotations.

(* ------------------------------------------------------------------ C81 *)
(** All texts of strings (and of the types that are strings here).  The default is the text with its escape sequences
    replaced; the file cannot be read if there is an end of a line, NUL or an incomplete \x, \u or \U; and a double quote or a
    backslash at the end make code of what follows. *)
Theorem C81_escapes : forall xp cm0 tds cm ty l own r d O fuel, default_of xp cm0 tds cm ty l own r d -> length l < fuel -> base_key (end_of ty l) = lit "string" ->
  (xp = true -> ty_arg (end_of ty l) <> lit "leafref") -> forall ps s, d = sources ps ++ s -> fits ps s -> Forall inline ps ->
  (s = [] -> leaf_value O fuel cm r own = Made (Some (VStr (shows ps)))) /\
  (refused s -> leaf_value O fuel cm r own = Unreadable) /\
  (leaves s -> leaf_value O fuel cm r own = Code).
Proof. exact DefaultEscapes_proofs.escapes. Qed.
Print Assumptions C81_escapes.
(** These are all texts. *)
Theorem C81_cover : forall d, exists ps s, d = sources ps ++ s /\ (s = [] \/ refused s \/ leaves s) /\ fits ps s /\ Forall inline ps.
Proof. exact DefaultEscapes_proofs.cover. Qed.
Print Assumptions C81_cover.

(** A pattern with \d, a tab, \x41, an escaped quote and \129; then the same with \u12 at its end, and with a quote. *)
Definition de_pieces : list piece := [Ch 97; Kept 100; Esc 116 9; Hex 120 [52; 49]%N; Esc 34 34; Oct [49; 50]%N; Ch 57].
Example C81_escapes_case : 
  lit "a\d\t\x41\""\129" = sources de_pieces ++ [] /\ shows de_pieces = [97; 92; 100; 9; 65; 34; 10; 57]%N /\
  (forall s, In s [[]; lit "\u12"; lit """ + x"] -> fits de_pieces s) /\ Forall inline de_pieces /\ refused (lit "\u12") /\ leaves (lit """ + x") /\
  forall s, exists r, default_of false builtin_map [] builtin_map (just (lit "string")) [] (Some (sources de_pieces ++ s)) r (sources de_pieces ++ s).
Proof.
  split; [vm_compute; reflexivity|]. split; [vm_compute; reflexivity|].
  assert (B : forall (c : N) l, existsb (N.eqb c) l = true -> In c l) by exact Escapes_proofs.existsb_eqb_in.
  assert (B' : forall (c : N) l, existsb (N.eqb c) l = false -> ~ In c l) by (intros c l H K; apply Docs_proofs.in_b in K; rewrite K in H; discriminate H).
  split.
  { intros s _. cbn [fits de_pieces piece_ok apart]. split; [apply B'; reflexivity|]. split; [exact I|]. split; [apply B'; vm_compute; reflexivity|]. split; [exact I|]. split; [cbn; tauto|]. split; [exact I|].
    split. { split; [cbn; tauto|]. split; [repeat constructor; apply B; vm_compute; reflexivity|]. vm_compute. discriminate. }
    split; [exact I|]. split; [cbn; tauto|]. split; [exact I|].
    split. { split; [discriminate|]. split; [cbn; repeat constructor|]. repeat constructor; apply B; vm_compute; reflexivity. }
    split. { intros _ c t E. cbn [sources map concat source app] in E. injection E as <- _. apply B'. vm_compute. reflexivity. }
    split; [apply B'; reflexivity|]. split; exact I. }
  split. { unfold de_pieces. repeat (constructor; [cbn [inline]; first [exact I|apply B'; reflexivity]|]). constructor. }
  split. { right. exists 117%N, 4, [49; 50]%N, []. split; [cbn; tauto|]. split; [repeat constructor; apply B; vm_compute; reflexivity|]. split; [vm_compute; reflexivity|]. left. split; [cbn; repeat constructor|]. intros c t E. discriminate E. }
  split. { left. exists (lit " + x"). vm_compute. reflexivity. }
  intros s. eexists. apply Props_Defaults.default_here; [apply str_in_In; vm_compute; reflexivity|reflexivity|vm_compute; reflexivity].
Qed.
