(** Naming properties (C01-C04). *)
From Verif Require Import PyStr SafeName Spec_Names Names_proofs.

(** C01: what [safe_name] does on every string. *)
Theorem C01_safe_name_exact : forall s,
  (In (underscored s) escaped_words /\ safe_name s = underscored s ++ lit "_")
  \/ (~ In (underscored s) escaped_words /\ safe_name s = underscored s).
Proof. exact safe_name_exact. Qed.
Print Assumptions C01_safe_name_exact.

Theorem C01_safe_name_clean : forall s,
  ~ In 45%N (safe_name s) /\ ~ In 46%N (safe_name s) /\ ~ In (safe_name s) escaped_words.
Proof.
  exact (fun s => conj (fun H => proj1 (safe_name_chars s _ H) eq_refl)
                 (conj (fun H => proj2 (safe_name_chars s _ H) eq_refl) (safe_name_not_escaped s))).
Qed.
Print Assumptions C01_safe_name_clean.

Theorem C01_safe_name_idempotent : forall s, safe_name (safe_name s) = safe_name s.
Proof. exact safe_name_idempotent. Qed.
Print Assumptions C01_safe_name_idempotent.

Theorem C01_safe_name_collision : forall a b,
  safe_name a = safe_name b <->
  underscored a = underscored b
  \/ (In (underscored a) escaped_words /\ underscored b = underscored a ++ lit "_")
  \/ (In (underscored b) escaped_words /\ underscored a = underscored b ++ lit "_").
Proof. exact safe_name_collision. Qed.
Print Assumptions C01_safe_name_collision.

Example C01_instances :
  safe_name (lit "if-index.x") = lit "if_index_x" /\ safe_name (lit "yang-name") = lit "yang_name_"
  /\ safe_name (lit "list") = safe_name (lit "list_") /\ safe_name (lit "a-b") = safe_name (lit "a.b").
Proof. repeat split; vm_compute; reflexivity. Qed.

(** C02, full statement: [forall s, yang_identifier s -> py_legal (safe_name s)].  It is false: *)
Theorem C02_legal_identifier_refuted : exists s, yang_identifier s /\ ~ py_legal (safe_name s).
Proof.
  exists (lit "await"). split.
  - exists 97%N, (lit "wait"). split; [reflexivity|]. split; [reflexivity|].
    repeat (constructor; [reflexivity|]). constructor.
  - intros [_ H]. apply H. apply PyStr_facts.str_in_In. vm_compute. reflexivity.
Qed.
Print Assumptions C02_legal_identifier_refuted.

(** What holds instead, exactly: only the five missing keywords fail. *)
Theorem C02_legal_identifier_partial : forall s,
  yang_identifier s -> (py_legal (safe_name s) <-> ~ In s unescaped_keywords).
Proof. exact safe_name_legal_iff. Qed.
Print Assumptions C02_legal_identifier_partial.

Example C02_applies : yang_identifier (lit "a-b.c") /\ ~ In (lit "a-b.c") unescaped_keywords.
Proof.
  split.
  - exists 97%N, (lit "-b.c"). repeat split. repeat (constructor; [reflexivity|]). constructor.
  - apply PyStr_facts.str_in_false. vm_compute. reflexivity.
Qed.

(** C03, full statement: for every list of key names the attribute names used for the keys are
    those of the key leaves, [list_key_attrs (join " " ks) = map leaf_attr ks].  False: *)
Theorem C03_list_key_attrs_refuted : exists ks,
  Forall yang_identifier ks /\ list_key_attrs (join (lit " ") ks) <> map leaf_attr ks.
Proof.
  exists [lit "name"; lit "list"]. split.
  - constructor; [|constructor; [|constructor]].
    + exists 110%N, (lit "ame"). repeat split. repeat (constructor; [reflexivity|]). constructor.
    + exists 108%N, (lit "ist"). repeat split. repeat (constructor; [reflexivity|]). constructor.
  - vm_compute. discriminate.
Qed.
Print Assumptions C03_list_key_attrs_refuted.

(** It holds exactly for single keys and for composite keys without escaped words. *)
Theorem C03_list_key_attrs_partial : forall ks,
  ks <> [] -> Forall (fun w => ~ In 32%N w) ks ->
  (list_key_attrs (join (lit " ") ks) = map leaf_attr ks <->
   (length ks = 1 \/ Forall (fun k => ~ In (underscored k) escaped_words) ks)).
Proof. exact key_attrs_iff. Qed.
Print Assumptions C03_list_key_attrs_partial.

Example C03_applies : list_key_attrs (lit "src-ip dst-ip") = [lit "src_ip"; lit "dst_ip"]
  /\ list_key_attrs (lit "list") = [lit "list_"].
Proof. split; vm_compute; reflexivity. Qed.

(** C04, full statement: class names of distinct schema paths differ.  False: *)
Theorem C04_class_names_distinct_refuted : exists m e p1 p2,
  p1 <> p2 /\ class_name m e (p1 ++ [e]) = class_name m e (p2 ++ [e]).
Proof.
  exists (lit "m"), (lit "c"), [lit "a"; lit "b"], [lit "a-b"]. split; [discriminate|].
  vm_compute. reflexivity.
Qed.
Print Assumptions C04_class_names_distinct_refuted.

(** It holds for paths whose names are alphanumeric (no '-', '.', '_'). *)
Theorem C04_class_names_distinct_partial : forall m p1 p2 e1 e2,
  Forall plain_name (p1 ++ [e1]) -> Forall plain_name (p2 ++ [e2]) ->
  class_name m e1 (p1 ++ [e1]) = class_name m e2 (p2 ++ [e2]) -> p1 = p2 /\ e1 = e2.
Proof. exact class_name_inj. Qed.
Print Assumptions C04_class_names_distinct_partial.

Example C04_applies : Forall plain_name ([lit "interfaces"; lit "interface"] ++ [lit "state"]).
Proof. repeat (constructor; [split; [discriminate|repeat (constructor; [reflexivity|]); constructor]|]). constructor. Qed.
