(** Property theorems about key arguments with any separators: C03. *)
From Verif Require Import PyStr SafeName Spec_Names Spec_Keysep.
From Verif Require Keysep_proofs.
Import ListNotations.

(* ------------------------------------------------------------------ C03 *)
(** For every key statement with two or more names, whatever is written between them: the attribute names used for the keys
    are those of the key leaves exactly when every separator is one blank and no name is escaped. *)
Theorem C03_separators_partial : forall k more, more <> [] -> Forall yang_identifier (k :: map snd more) -> Forall (fun p => separator (fst p)) more ->
  (list_key_attrs (key_arg k more) = map leaf_attr (k :: map snd more) <->
   (Forall (fun p => fst p = one_blank) more /\ Forall (fun n => ~ In (underscored n) escaped_words) (k :: map snd more))).
Proof. exact Keysep_proofs.separators_thm. Qed.
Print Assumptions C03_separators_partial.

Lemma ks_id c s : yang_start c = true -> forallb yang_char s = true -> yang_identifier (c :: s).
Proof. intros Hc Hs. exists c, s. split; [reflexivity|]. split; [assumption|]. apply Forall_forall. apply forallb_forall. assumption. Qed.
(** key "src-ip dst-ip". *)
Example C03_separators_case : list_key_attrs (key_arg (lit "src-ip") [(one_blank, lit "dst-ip")]) = [lit "src_ip"; lit "dst_ip"]
  /\ Forall yang_identifier (lit "src-ip" :: map snd [(one_blank, lit "dst-ip")]) /\ Forall (fun p : str * str => separator (fst p)) [(one_blank, lit "dst-ip")].
Proof.
  split; [vm_compute; reflexivity|]. split; [constructor; [apply ks_id; reflexivity|constructor; [apply ks_id; reflexivity|constructor]]|].
  constructor; [|constructor]. split; [discriminate|]. constructor; [left; reflexivity|constructor].
Qed.
(** key "a  b" has a key without a name; key "a", an end of a line and "b" is one key. *)
Theorem C03_separators_refuted : exists s1 s2 a b, separator s1 /\ separator s2 /\ yang_identifier a /\ yang_identifier b /\
  list_key_attrs (key_arg a [(s1, b)]) = [leaf_attr a; []; leaf_attr b] /\ length (list_key_attrs (key_arg a [(s2, b)])) = 1.
Proof.
  exists [32; 32]%N, [10%N], (lit "a"), (lit "b").
  split; [split; [discriminate|]; constructor; [left; reflexivity|]; constructor; [left; reflexivity|constructor]|].
  split; [split; [discriminate|]; constructor; [right; right; left; reflexivity|constructor]|].
  split; [apply ks_id; reflexivity|]. split; [apply ks_id; reflexivity|]. split; vm_compute; reflexivity.
Qed.
Print Assumptions C03_separators_refuted.
