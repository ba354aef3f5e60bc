(** Property theorems about the literals of lists and references in the generated code: C100. *)
From Coq Require Import String.
From Verif Require Import PyStr PyVal Restricted Defaults Docs SafeName Spec_Names Spec_Keysep ListLiterals Spec_ListLiterals.
From Verif Require ListLiterals_proofs.
Import ListNotations.

(* ------------------------------------------------------------------ C100 *)
(** Lists with their keys on one line: Python reads the key with safe_name, the name and the keys of the YANG module. *)
Theorem C100_keys_partial : forall k more ty name user rest,
  Forall yang_identifier (k :: map snd more) -> Forall (fun p => separator (fst p)) more -> on_a_line more -> yang_identifier name ->
  segments (list_code ty user) (list_text (Some (key_arg k more)) ty name user rest) =
    Some ([safe_name (key_arg k more); name; key_arg k more], lit ", extensions=" ++ rest).
Proof. exact ListLiterals_proofs.list_thm. Qed.
Print Assumptions C100_keys_partial.

(** With keys over several lines there is no module: the first literal does not end on its line. *)
Theorem C100_key_lines : forall k more ty name user rest,
  Forall yang_identifier (k :: map snd more) -> Forall (fun p => separator (fst p)) more -> over_lines more ->
  segment key_code 34 (list_text (Some (key_arg k more)) ty name user rest) = DBad.
Proof. exact ListLiterals_proofs.lines_thm. Qed.
Print Assumptions C100_key_lines.

(** References, leaves and leaf-lists: Python reads the path and the name of the YANG module. *)
Theorem C100_paths_partial : forall lty ty path name req, path_text path -> yang_identifier name ->
  segments [(lit "base=" ++ ty ++ lit "(referenced_path=", 39%N); (lit ", caller=self._path() + [", 39%N)] (ref_text ty path name req) =
    Some ([path; name], lit "], path_helper=self._path_helper, require_instance=" ++ truth req ++ lit ")") /\
  segments [(lit "base=" ++ lty ++ lit "(allowed_type=" ++ ty ++ lit "(referenced_path=", 39%N); (lit ",caller=self._path() + [", 39%N)] (refs_text lty ty path name req) =
    Some ([path; name], lit "], path_helper=self._path_helper, require_instance=" ++ truth req ++ lit "))").
Proof. intros lty ty path name req Hp Hn. split; [exact (ListLiterals_proofs.ref_thm ty path name req Hp Hn)|exact (ListLiterals_proofs.refs_thm lty ty path name req Hp Hn)]. Qed.
Print Assumptions C100_paths_partial.

(** Ends of lines in a path, which RFC 6020 does not have, are not read. *)
Theorem C100_path_lines : forall lty ty path name req, path_lines path ->
  segment (lit "base=" ++ ty ++ lit "(referenced_path=") 39 (ref_text ty path name req) = DBad /\
  segment (lit "base=" ++ lty ++ lit "(allowed_type=" ++ ty ++ lit "(referenced_path=") 39 (refs_text lty ty path name req) = DBad.
Proof. intros lty ty path name req Hp. split; [exact (ListLiterals_proofs.ref_lines ty path name req Hp)|exact (ListLiterals_proofs.refs_lines lty ty path name req Hp)]. Qed.
Print Assumptions C100_path_lines.

Lemma ll_id s : match s with c :: s' => yang_start c && forallb yang_char s' | [] => false end = true -> yang_identifier s.
Proof.
  destruct s as [|c s']; [discriminate|]. intros H. apply andb_prop in H. destruct H as [H1 H2]. exists c, s'. split; [reflexivity|]. split; [exact H1|].
  apply Forall_forall. apply forallb_forall. exact H2.
Qed.
Lemma ll_path s : forallb path_char s = true -> Forall (fun c => path_char c = true) s.
Proof. intros H. apply Forall_forall. apply forallb_forall. exact H. Qed.

(** Two keys on one line, a path with a predicate, and the same path over two lines. *)
Example C100_case : let more := [(one_blank, lit "dst-ip")] in let p := lit "/a/b[c = current()/../d]" in
  Forall yang_identifier (lit "src-ip" :: map snd more) /\ Forall (fun p => separator (fst p)) more /\ on_a_line more /\ yang_identifier (lit "flow") /\
  safe_name (key_arg (lit "src-ip") more) = lit "src_ip dst_ip" /\ key_arg (lit "src-ip") more = lit "src-ip dst-ip" /\
  path_text (p ++ lit "/e") /\ path_lines (p ++ [10%N] ++ lit "/e").
Proof.
  cbv zeta. split; [constructor; [|constructor; [|constructor]]; apply ll_id; vm_compute; reflexivity|].
  split. { constructor; [|constructor]. split; [discriminate|]. constructor; [|constructor]. cbn. left. reflexivity. }
  split. { constructor; [|constructor]. constructor; [|constructor]. intros [H|H]; discriminate H. }
  split; [apply ll_id; vm_compute; reflexivity|]. split; [vm_compute; reflexivity|]. split; [vm_compute; reflexivity|].
  split. { split; [intros H; apply (f_equal (@length _)) in H; vm_compute in H; discriminate H|apply ll_path; vm_compute; reflexivity]. }
  split. { apply Forall_app. split; [eapply Forall_impl; [|apply ll_path; vm_compute; reflexivity]; cbv beta; intros c Hc; left; exact Hc|]. constructor; [right; left; reflexivity|].
           eapply Forall_impl; [|apply ll_path; vm_compute; reflexivity]. cbv beta. intros c Hc; left; exact Hc. }
  exists 10%N. split; [apply in_or_app; right; left; reflexivity|left; reflexivity].
Qed.
(** Legal keys for which no Python module comes out. *)
Theorem C100_refuted : exists k more, Forall yang_identifier (k :: map snd more) /\ Forall (fun p => separator (fst p)) more /\
  (forall ty name user rest, segments (list_code ty user) (list_text (Some (key_arg k more)) ty name user rest) = None).
Proof.
  exists (lit "a"), [([10%N], lit "b")].
  assert (Hi : Forall yang_identifier (lit "a" :: map snd [([10%N], lit "b")])) by (constructor; [|constructor; [|constructor]]; apply ll_id; vm_compute; reflexivity).
  assert (Hs : Forall (fun p : str * str => separator (fst p)) [([10%N], lit "b")]). { constructor; [|constructor]. split; [discriminate|]. constructor; [|constructor]. right. right. left. reflexivity. }
  split; [exact Hi|]. split; [exact Hs|].
  intros ty name user rest. unfold list_code. cbn [segments]. rewrite C100_key_lines; [reflexivity|exact Hi|exact Hs|]. left. left. left. reflexivity.
Qed.
Print Assumptions C100_refuted.
