(** Property theorems about docstrings: C95. *)
From Coq Require Import String.
From Verif Require Import PyStr PyStr_facts PyVal Restricted Defaults Docs Spec_Docs.
From Verif Require Docs_proofs.
Import ListNotations.

(* ------------------------------------------------------------------ C95 *)
(** A description without backslashes, NUL and three double quotes in a row: in the getter, the setter and the class Python
    reads one docstring, which shows the description with each end of a line as a line feed, and around it the code that
    the plugin wrote. *)
Theorem C95_partial : forall name path ty module d, word name -> word path -> word ty -> word module -> d <> [] -> no_escapes d -> ~ has_three d ->
  docstring (getter_text name path ty (Some d)) [] = (getter_head name, Doc (line_ends (getter_doc name path ty d ++ eol ++ lit "    ")) (getter_body name)) /\
  docstring (setter_text name path ty (Some d)) [] = (setter_head name, Doc (line_ends (setter_doc name path ty d ++ eol ++ lit "    ")) []) /\
  docstring (class_text module path (Some d)) [] = (lit "  ", Doc (line_ends (class_doc module path d ++ eol ++ lit "  ")) eol).
Proof. exact Docs_proofs.C95_thm. Qed.
Print Assumptions C95_partial.
(** With three double quotes: the docstrings end there, and what the description has after them is read as code, in all
    three places. *)
Theorem C95_quotes : forall name path ty module a b, word name -> word path -> word ty -> word module -> no_escapes a -> ~ has_three (a ++ [34; 34]%N) ->
  let d := a ++ three_quotes ++ b in
  docstring (getter_text name path ty (Some d)) [] = (getter_head name, Doc (line_ends (getter_doc name path ty a)) (b ++ (eol ++ lit "    ") ++ three_quotes ++ getter_body name)) /\
  docstring (setter_text name path ty (Some d)) [] = (setter_head name, Doc (line_ends (setter_doc name path ty a)) (b ++ (eol ++ lit "    ") ++ three_quotes)) /\
  docstring (class_text module path (Some d)) [] = (lit "  ", Doc (line_ends (class_doc module path a)) (b ++ (eol ++ lit "  ") ++ three_quotes ++ eol)).
Proof. exact Docs_proofs.C95_quotes_thm. Qed.
Print Assumptions C95_quotes.

(** A description with quotes, a CR LF and a quote at its end. *)
Definition dc_descr : str := lit "The ""MTU"" of a link." ++ [13; 10]%N ++ lit "  See """"x""""".
Lemma dc_no_three s : Docs_proofs.triple s = false -> ~ has_three s.
Proof. intros E H. apply Docs_proofs.triple_has in H. rewrite E in H. discriminate. Qed.
Lemma dc_plain s : forallb (fun c => negb (N.eqb c 92) && negb (N.eqb c 0))%bool s = true -> no_escapes s.
Proof.
  intros H. apply Forall_forall. intros c Hc. pose proof (proj1 (forallb_forall _ _) H c Hc) as E. cbn beta in E. apply andb_prop in E. destruct E as [E1 E2].
  destruct (N.eqb_spec c 92); [discriminate|]. destruct (N.eqb_spec c 0); [discriminate|]. auto.
Qed.
Example C95_case : word (lit "mtu") /\ word (lit "/a/mtu") /\ word (lit "uint16") /\ word (lit "m") /\ dc_descr <> [] /\ no_escapes dc_descr /\ ~ has_three dc_descr /\
  no_escapes (lit "x""""y ") /\ ~ has_three (lit "x""""y " ++ [34; 34]%N).
Proof.
  split; [apply Docs_proofs.plain_word; vm_compute; reflexivity|]. split; [apply Docs_proofs.plain_word; vm_compute; reflexivity|]. split; [apply Docs_proofs.plain_word; vm_compute; reflexivity|]. split; [apply Docs_proofs.plain_word; vm_compute; reflexivity|].
  split; [intros E; apply (f_equal (@length _)) in E; vm_compute in E; discriminate|]. split; [apply dc_plain; vm_compute; reflexivity|]. split; [apply dc_no_three; vm_compute; reflexivity|].
  split; [apply dc_plain; vm_compute; reflexivity|]. apply dc_no_three; vm_compute; reflexivity.
Qed.

(** A leaf whose description brings a statement of its own: the getter runs it. *)
Theorem C95_quotes_refuted : exists name path ty d doc code, word name /\ word path /\ word ty /\ no_escapes d /\
  docstring (getter_text name path ty (Some d)) [] = (getter_head name, Doc doc (eol ++ lit "    import os" ++ code)) /\
  eol ++ lit "    import os" ++ code <> getter_body name.
Proof.
  exists (lit "mtu"), (lit "/a/mtu"), (lit "uint16"), (lit "text" ++ three_quotes ++ eol ++ lit "    import os" ++ eol ++ lit "    " ++ three_quotes), (getter_doc (lit "mtu") (lit "/a/mtu") (lit "uint16") (lit "text")),
    (eol ++ lit "    " ++ three_quotes ++ eol ++ lit "    " ++ three_quotes ++ getter_body (lit "mtu")).
  split; [apply Docs_proofs.plain_word; vm_compute; reflexivity|]. split; [apply Docs_proofs.plain_word; vm_compute; reflexivity|]. split; [apply Docs_proofs.plain_word; vm_compute; reflexivity|].
  split; [apply dc_plain; vm_compute; reflexivity|]. split; [vm_compute; reflexivity|]. intros E. apply (f_equal (@length _)) in E. vm_compute in E. discriminate.
Qed.
Print Assumptions C95_quotes_refuted.
(** A backslash with x, u or U and no hexadecimal digit after it: the file of the bindings is not Python code. *)
Theorem C95_backslash : forall name path ty module a u c b, word name -> word path -> word ty -> word module -> no_escapes a -> ~ has_three a -> In u [120; 117; 85]%N -> ~ In c hex_digits ->
  let d := a ++ [92%N; u; c] ++ b in
  docstring (getter_text name path ty (Some d)) [] = (getter_head name, DBad) /\
  docstring (setter_text name path ty (Some d)) [] = (setter_head name, DBad) /\
  docstring (class_text module path (Some d)) [] = (lit "  ", DBad).
Proof. exact Docs_proofs.C95_backslash_thm. Qed.
Print Assumptions C95_backslash.
Example C95_backslash_case : no_escapes (lit "C:") /\ ~ has_three (lit "C:") /\ In 117%N [120; 117; 85]%N /\ ~ In 115%N hex_digits /\ lit "C:\users" = lit "C:" ++ [92; 117; 115]%N ++ lit "ers".
Proof. split; [apply dc_plain; vm_compute; reflexivity|]. split; [apply dc_no_three; vm_compute; reflexivity|]. split; [right; now left|]. split; [intros H; apply Docs_proofs.in_b in H; vm_compute in H; discriminate|vm_compute; reflexivity]. Qed.
(** Other backslashes: the docstring shows something else. *)
Theorem C95_backslash_refuted : exists d doc, ~ has_three d /\ Forall (fun c => c <> 0%N) d /\
  docstring (getter_text (lit "x") (lit "/x") (lit "string") (Some d)) [] = (getter_head (lit "x"), Doc doc (getter_body (lit "x"))) /\ In 92%N d /\ ~ In 92%N doc.
Proof.
  exists (lit "\tmp"). eexists. split; [apply dc_no_three; vm_compute; reflexivity|]. split; [repeat constructor; discriminate|]. split; [vm_compute; reflexivity|]. split; [now left|]. intros H. apply Docs_proofs.in_b in H. vm_compute in H. discriminate.
Qed.
Print Assumptions C95_backslash_refuted.
