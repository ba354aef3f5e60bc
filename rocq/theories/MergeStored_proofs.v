(** What programs have stored can be loaded into other trees. *)
From Verif Require Import PyStr PyVal Restricted Spec_Lists TypedList YList Tree Spec_Tree Tree_proofs Serialise Spec_Serialise Spec_Stored Spec_Loading Spec_Shape Spec_Accept Spec_AcceptJson Spec_Merge.
From Verif Require Serialise_proofs Stored_proofs Merge_proofs MergeIetf_proofs Rival_proofs Tree_case.

Lemma program_one_case O f cs os : Forall suited cs -> leaf_keys cs -> uniform cs -> own_choices cs -> python_names cs -> program O f cs os ->
  unrivalled cs (module_run O cs (module_new O cs) os) /\ Forall2 (storable O f) cs (module_run O cs (module_new O cs) os).
Proof.
  intros Hs Hlk Hu Ho Hn Hp. assert (Hk := Stored_proofs.leaf_plain cs Hlk). assert (Hst := Stored_proofs.program_storable O f cs os Hs (Stored_proofs.names_lists cs Hk Hu Hn) Hp).
  split; [|exact Hst]. apply Rival_proofs.one_case_unrivalled; auto; [exact (Serialise_proofs.storables_shaped O f cs _ Hst)|].
  apply Tree_case.one_case_past; auto. eapply Stored_proofs.program_case; eauto.
Qed.
Theorem plain_program_merged O im ft uid skip cs os l : Forall suited cs -> leaf_keys cs -> uniform cs -> own_choices cs -> python_names cs ->
  program O Plain cs os -> plain_deeds O ft uid cs l ->
  exists j m', dumps O im cs (module_run O cs (module_new O cs) os) = Ok j /\ load_json O uid cs false skip j (after O ft uid cs l) = (m', Ok tt) /\
    forall q s x w, schema_at cs q = Some s -> at_path (module_run O cs (module_new O cs) os) q = Some x -> holds s x w \/ is_entry q = true /\ w = ToldEntry ->
    exists y, at_path m' q = Some y /\ so w y.
Proof.
  intros Hs Hlk Hu Ho Hn Hp Hl. destruct (program_one_case O Plain cs os Hs Hlk Hu Ho Hn Hp) as [Hun Hst].
  apply Merge_proofs.plain_merged; auto. now apply Merge_proofs.leaf_even.
Qed.
Theorem ietf_program_merged O im ft uid skip cs os l : (forall i s m, im i s = Some m -> no_colon m) ->
  Forall suited cs -> leaf_keys cs -> uniform cs -> own_choices cs -> python_names cs -> ietf_names cs -> key_leaves cs ->
  program O Ietf cs os -> plain_deeds O ft uid cs l ->
  exists j m', dumps_ietf O im true WNone cs (module_run O cs (module_new O cs) os) = Ok j /\ load_ietf_json O uid cs false skip j (after O ft uid cs l) = (m', Ok tt) /\
    forall q s x w, schema_at cs q = Some s -> at_path (module_run O cs (module_new O cs) os) q = Some x -> holds_ietf s x w \/ is_entry q = true /\ w = WThere ->
    exists y, at_path m' q = Some y /\ meets w y.
Proof.
  intros Him Hs Hlk Hu Ho Hn Hin Hkl Hp Hl. destruct (program_one_case O Ietf cs os Hs Hlk Hu Ho Hn Hp) as [Hun Hst].
  apply MergeIetf_proofs.ietf_merged; auto. now apply Merge_proofs.leaf_even.
Qed.
