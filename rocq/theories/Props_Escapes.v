(** Property theorems about descriptions with escape sequences: C95. *)
From Coq Require Import String.
From Verif Require Import PyStr PyVal Docs Spec_Docs Spec_Escapes.
From Verif Require Docs_proofs Escapes_proofs.
Import ListNotations.

(* ------------------------------------------------------------------ C95 *)
(** The description is shown with its escape sequences replaced, up to the line end that the generator puts behind it (a
    backslash at the end of the description takes that away as well), and the code is as it would be without it. *)
Theorem C95_escapes : forall name path ty module d ps, bare name -> bare path -> bare ty -> bare module -> d <> [] ->
  d ++ eol = sources ps -> fits ps (lit " ") -> ~ three_in ps ->
  docstring (getter_text name path ty (Some d)) [] = (getter_head name, Doc (getter_doc name path ty (shows ps) ++ lit "    ") (getter_body name)) /\
  docstring (setter_text name path ty (Some d)) [] = (setter_head name, Doc (setter_doc name path ty (shows ps) ++ lit "    ") []) /\
  docstring (class_text module path (Some d)) [] = (lit "  ", Doc (class_doc module path (shows ps) ++ lit "  ") eol).
Proof. exact Escapes_proofs.C95_escapes_thm. Qed.
Print Assumptions C95_escapes.
(** Three double quotes that are not part of an escape sequence end the docstrings, and what follows is code. *)
Theorem C95_escapes_quotes : forall name path ty module ps b, bare name -> bare path -> bare ty -> bare module ->
  fits ps three_quotes -> ~ three_in (ps ++ [Ch 34; Ch 34]) ->
  let d := sources ps ++ three_quotes ++ b in
  docstring (getter_text name path ty (Some d)) [] = (getter_head name, Doc (getter_doc name path ty (shows ps)) (b ++ (eol ++ lit "    ") ++ three_quotes ++ getter_body name)) /\
  docstring (setter_text name path ty (Some d)) [] = (setter_head name, Doc (setter_doc name path ty (shows ps)) (b ++ (eol ++ lit "    ") ++ three_quotes)) /\
  docstring (class_text module path (Some d)) [] = (lit "  ", Doc (class_doc module path (shows ps)) (b ++ (eol ++ lit "  ") ++ three_quotes ++ eol)).
Proof. exact Escapes_proofs.C95_escapes_quotes_thm. Qed.
Print Assumptions C95_escapes_quotes.
(** With NUL, too few hexadecimal digits or a number that is no character the file is a SyntaxError. *)
Theorem C95_broken : forall name path ty module d ps s, bare name -> bare path -> bare ty -> bare module -> d <> [] ->
  d ++ eol = sources ps ++ s -> broken s -> fits ps s -> ~ three_in ps ->
  docstring (getter_text name path ty (Some d)) [] = (getter_head name, DBad) /\
  docstring (setter_text name path ty (Some d)) [] = (setter_head name, DBad) /\
  docstring (class_text module path (Some d)) [] = (lit "  ", DBad).
Proof. exact Escapes_proofs.C95_broken_thm. Qed.
Print Assumptions C95_broken.
(** These are all descriptions, but for those where a character name (\N) comes first. *)
Theorem C95_cover : forall d,
  (exists ps, d ++ eol = sources ps /\ fits ps (lit " ") /\ ~ three_in ps) \/
  (exists ps b, d = sources ps ++ three_quotes ++ b /\ fits ps three_quotes /\ ~ three_in (ps ++ [Ch 34; Ch 34])) \/
  (exists ps s, d ++ eol = sources ps ++ s /\ broken s /\ fits ps s /\ ~ three_in ps) \/
  (exists ps b, d = sources ps ++ lit "\N" ++ b /\ fits ps (lit "\N") /\ ~ three_in ps).
Proof. exact Escapes_proofs.cover_thm. Qed.
Print Assumptions C95_cover.

(** \d is kept, \t and \x41 are not; an escaped quote before two others, an octal number before a digit that is none, and a
    backslash at the end. *)
Definition es_pieces : list piece := [Ch 97; Kept 100; Esc 116 9; Hex 120 [52; 49]%N; Esc 34 34; Ch 34; Ch 34; Oct [49; 50]%N; Ch 57; CrLf; Ch 98; Cont [10%N]].
Definition es_text : str := lit "a\d\t\x41\""""""\129" ++ [13; 10]%N ++ lit "b\".
Ltac no_three := intros (a & b & E); repeat (destruct a as [|? a]; [discriminate E|injection E as ? E]); destruct a; discriminate E.
Example C95_escapes_case : es_text ++ eol = sources es_pieces /\ fits es_pieces (lit " ") /\ ~ three_in es_pieces /\ shows es_pieces = [97; 92; 100; 9; 65; 34; 34; 34; 10; 57; 10; 98]%N.
Proof.
  split; [vm_compute; reflexivity|]. split; [|split; [unfold es_pieces; no_three|vm_compute; reflexivity]].
  assert (B : forall (c : N) l, existsb (N.eqb c) l = true -> In c l) by exact Escapes_proofs.existsb_eqb_in.
  assert (B' : forall (c : N) l, existsb (N.eqb c) l = false -> ~ In c l) by (intros c l H K; apply Docs_proofs.in_b in K; rewrite K in H; discriminate H).
  cbn [fits es_pieces piece_ok apart]. split; [apply B'; reflexivity|]. split; [exact I|]. split; [apply B'; vm_compute; reflexivity|]. split; [exact I|]. split; [cbn; tauto|]. split; [exact I|].
  split. { split; [cbn; tauto|]. split; [repeat constructor; apply B; vm_compute; reflexivity|]. vm_compute. discriminate. }
  split; [exact I|]. split; [cbn; tauto|]. split; [exact I|]. split; [apply B'; reflexivity|]. split; [exact I|]. split; [apply B'; reflexivity|]. split; [exact I|].
  split. { split; [discriminate|]. split; [cbn; repeat constructor|]. repeat constructor; apply B; vm_compute; reflexivity. }
  split. { intros _ c t E. vm_compute in E. injection E as <- _. apply B'. vm_compute. reflexivity. }
  split; [apply B'; reflexivity|]. split; [exact I|]. split; [exact I|]. split; [exact I|]. split; [apply B'; reflexivity|]. split; [exact I|]. split; [cbn; tauto|]. split; [|exact I]. intros E. discriminate E.
Qed.
(** \U00110000 is no character. *)
Example C95_broken_case : broken (lit "\U00110000 and more").
Proof.
  right. right. exists 85%N, 8%nat, (lit "00110000"), (lit " and more"). split; [cbn; tauto|]. split.
  - apply Forall_forall. intros c Hc. apply Escapes_proofs.existsb_eqb_in. pose proof (proj1 (forallb_forall (fun c => existsb (N.eqb c) hex_digits) (lit "00110000")) ltac:(vm_compute; reflexivity) c Hc) as E. exact E.
  - split; [vm_compute; reflexivity|]. right. split; vm_compute; reflexivity.
Qed.
