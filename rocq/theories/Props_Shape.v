(** Property theorems about the shape of documents that load: C83. *)
From Verif Require Import PyStr PyStr_facts PyVal Restricted IntTypes StrTypes SafeName Spec_Types Spec_Lists TypedList YList
  Tree Spec_Tree Compile Spec_Compile Serialise Spec_Serialise Xml Spec_Loading Spec_Shape.
From Verif Require Shape_proofs Tree_cases.
From Verif Require Import Props_Tree Props_Loading.
Import ListNotations.

(* ------------------------------------------------------------------ C83 *)
(** A document that is loaded without an exception - into whatever state, with or without overwrite - has the shape of
    the schema, but for the exceptions that [strict] = false names. *)
Theorem C83_ietf : forall O uid cs overwrite skip d m m', load_ietf_json O uid cs overwrite skip d m = (m', Ok tt) ->
  ietf_fits O skip false (entry_schema cs) d.
Proof. intros O uid cs ov skip d m m'. exact (Shape_proofs.ietf_shape O uid cs skip ov d m m'). Qed.
Print Assumptions C83_ietf.
Theorem C83_json : forall O uid cs overwrite skip d m m', load_json O uid cs overwrite skip d m = (m', Ok tt) ->
  json_fits O skip false false (entry_schema cs) d.
Proof. intros O uid cs ov skip d m m'. exact (Shape_proofs.json_shape O uid cs skip ov d m m'). Qed.
Print Assumptions C83_json.

(** The exception for a mistake, when it is the first one: whatever the program did before, and whatever the document
    has before it ([pre]) at the top level, if that loads.  Missing: mistakes after other members further down, after
    other entries and inside entries of lists; skip_unknown and overwrite. *)
Theorem C83_mistakes_ietf_partial : forall O ft uid cs l pre ms e, let m := after O ft uid cs l in
  snd (load_ietf_json O uid cs false false (JObj pre) m) = Ok tt -> ietf_mistake O (entry_schema cs) (JObj ms) e ->
  snd (load_ietf_json O uid cs false false (JObj (pre ++ ms)) m) = Raise e.
Proof. intros O ft uid cs l pre ms e m. apply Shape_proofs.ietf_mistake_raises. apply Shape_proofs.after_shaped. Qed.
Print Assumptions C83_mistakes_ietf_partial.
Theorem C83_mistakes_json_partial : forall O ft uid cs l pre ms e, let m := after O ft uid cs l in
  snd (load_json O uid cs false false (JObj pre) m) = Ok tt -> json_mistake O (entry_schema cs) (JObj ms) e ->
  snd (load_json O uid cs false false (JObj (pre ++ ms)) m) = Raise e.
Proof. intros O ft uid cs l pre ms e m. apply Shape_proofs.json_mistake_raises. apply Shape_proofs.after_shaped. Qed.
Print Assumptions C83_mistakes_json_partial.

(** A list with a key, a list without, a container, a container without children, and a leaf-list. *)
Definition shelf : list ystmt :=
  [YList (hd (lit "m")) (Some (lit "k")) false [YLeaf (hd (lit "k")) txt None (lit "string"); YLeaf (hd (lit "a")) u8 None (lit "uint8")];
   YList (hd (lit "n")) None false [YLeaf (hd (lit "v")) u8 None (lit "uint8")];
   YCont (hd (lit "c")) false [YLeaf (hd (lit "t")) txt None (lit "string"); YLeaf (hd (lit "u")) u8 None (lit "uint8")];
   YCont (hd (lit "e")) true [];
   YLeafList (hd (lit "s")) [TStr] (lit "string")].
Definition shelf_cs := compile_module true shelf.
Definition nthcs (n : nat) : schema := nth n shelf_cs (SCont (info_of (hd []) None true) false []).
Lemma shelf_child key n : nth_error shelf_cs n = Some (nthcs n) -> str_eqb (e_py (s_info (nthcs n))) (safe_name key) = true ->
  forallb (fun s' => negb (str_eqb (e_py (s_info s')) (safe_name key))) (firstn n shelf_cs ++ skipn (S n) shelf_cs) = true -> the_child shelf_cs key (nthcs n).
Proof. apply Shape_proofs.child_by. Qed.
Definition s_leaf (n : str) (lt : ltype) (yt : str) : schema := SLeaf (info_of (hd n) None true) lt None yt false.
Ltac shelf_at n := apply (shelf_child _ n); vm_compute; reflexivity.
Ltac no_at := let H := fresh in intros H; vm_compute in H; repeat (destruct H as [H|H]; [discriminate|]); destruct H.

Definition full : list deed :=
  [LoadIetf false false (JObj [(lit "m", JArr [JObj [(lit "k", JStr (lit "x")); (lit "a", JInt 1)]; JObj [(lit "k", JStr (lit "y"))]]);
                               (lit "n", JArr [JObj [(lit "v", JInt 1)]])])].
Definition m_entries (m : list obj) : list pyval := map fst (entries m [Kid 0]).
Definition n_entries (m : list obj) : list pyval := map fst (entries m [Kid 1]).

(** A number for a list: the list loses its entries, and that without an exception. *)
Theorem C83_list_refuted : forall O, exists d m', load_ietf_json O longer shelf_cs false false d (after O no_floats longer shelf_cs full) = (m', Ok tt) /\
  ~ ietf_fits O false true (entry_schema shelf_cs) d /\
  m_entries (after O no_floats longer shelf_cs full) = [VStr (lit "x"); VStr (lit "y")] /\ m_entries m' = [].
Proof.
  intros O. exists (JObj [(lit "m", JInt 5)]). eexists. split; [vm_compute; reflexivity|]. split; [|split; vm_compute; reflexivity].
  intros H. assert (G : ietf_fits O false true (nthcs 0) (JInt 5)).
  { apply (Shape_proofs.ietf_proper O plain false shelf_cs [(lit "m", JInt 5)] (lit "m") _ _ H); [now left|no_at|shelf_at 0%nat]. }
  inversion G; subst; discriminate.
Qed.
Print Assumptions C83_list_refuted.
(** A number for an entry of a list, in the default format: the same. *)
Theorem C83_entry_refuted : forall O, exists d m', load_json O longer shelf_cs false false d (after O no_floats longer shelf_cs full) = (m', Ok tt) /\
  ~ json_fits O false true false (entry_schema shelf_cs) d /\
  m_entries (after O no_floats longer shelf_cs full) = [VStr (lit "x"); VStr (lit "y")] /\ m_entries m' = [].
Proof.
  intros O. exists (JObj [(lit "m", JObj [(lit "z", JInt 5)])]). eexists. split; [vm_compute; reflexivity|]. split; [|split; vm_compute; reflexivity].
  intros H. assert (G : json_fits O false true false (nthcs 0) (JObj [(lit "z", JInt 5)])).
  { apply (Shape_proofs.json_proper O false plain false shelf_cs [(lit "m", JObj [(lit "z", JInt 5)])] (lit "m") _ _ H); [now left|reflexivity|shelf_at 0%nat]. }
  inversion G as [| | |? ? ? ? ? ? HC| | |]; subst; try discriminate. destruct (HC [] (lit "z") (JInt 5) [] eq_refl) as [(ms & E & _)|[(E & _)|(E & _)]]; discriminate.
Qed.
Print Assumptions C83_entry_refuted.
(** A text for a leaf-list, in the default format: its characters are the members. *)
Theorem C83_text_refuted : forall O, exists d m', load_json O longer shelf_cs false false d (after O no_floats longer shelf_cs full) = (m', Ok tt) /\
  ~ json_fits O false true false (entry_schema shelf_cs) d /\
  members m' [Kid 4] = [VStr (lit "a"); VStr (lit "b"); VStr (lit "c")].
Proof.
  intros O. exists (JObj [(lit "s", JStr (lit "abca"))]). eexists. split; [vm_compute; reflexivity|]. split; [|vm_compute; reflexivity].
  intros H. assert (G : json_fits O false true false (nthcs 4) (JStr (lit "abca"))).
  { apply (Shape_proofs.json_proper O false plain false shelf_cs [(lit "s", JStr (lit "abca"))] (lit "s") _ _ H); [now left|reflexivity|shelf_at 4%nat]. }
  inversion G; subst; discriminate.
Qed.
Print Assumptions C83_text_refuted.
(** An array for a leaf with a text: the text is Python's for the array. *)
Theorem C83_array_refuted : forall O, exists d m', load_ietf_json O longer shelf_cs false false d (after O no_floats longer shelf_cs full) = (m', Ok tt) /\
  ~ ietf_fits O false true (entry_schema shelf_cs) d /\
  at_path m' [Kid 2; Kid 0] = Some (OLeaf true (VStr (o_str O (VList [VStr (lit "a"); VInt 1])))).
Proof.
  intros O. set (c := JObj [(lit "t", JArr [JStr (lit "a"); JInt 1])]). exists (JObj [(lit "c", c)]). eexists. split; [vm_compute; reflexivity|]. split; [|vm_compute; reflexivity].
  intros H. assert (G : ietf_fits O false true (nthcs 2) c).
  { apply (Shape_proofs.ietf_proper O plain false shelf_cs [(lit "c", c)] (lit "c") _ _ H); [now left|no_at|shelf_at 2%nat]. }
  assert (G2 : ietf_fits O false true (s_leaf (lit "t") txt (lit "string")) (JArr [JStr (lit "a"); JInt 1])).
  { eapply (Shape_proofs.ietf_proper O _ _ _ _ (lit "t") _ _ G); [now left|no_at|]. apply (Shape_proofs.child_by _ 0); vm_compute; reflexivity. }
  inversion G2; subst; try discriminate. contradiction.
Qed.
Print Assumptions C83_array_refuted.
(** An empty array for a name that the schema does not have is no mistake, nor is a number for a presence container
    without children; it is then present. *)
Theorem C83_unknown_refuted : forall O, exists d m', load_ietf_json O longer shelf_cs false false d (after O no_floats longer shelf_cs full) = (m', Ok tt) /\
  ~ ietf_fits O false true (entry_schema shelf_cs) d /\ m' = after O no_floats longer shelf_cs full.
Proof.
  intros O. exists (JObj [(lit "zzz", JArr [])]). eexists. split; [vm_compute; reflexivity|]. split; [|vm_compute; reflexivity].
  intros H. inversion H as [| | |? ? ? ? HC| | | | | | | | | | |]; subst; try discriminate.
  destruct (HC _ _ (or_introl eq_refl)) as [E|[(n & s' & Hn & Hf)|[(E & _)|(E & _)]]]; try discriminate; [revert E; no_at|].
  destruct Hn as [Hn Hp]. assert (B : forallb (fun s => negb (str_eqb (e_py (s_info s)) (safe_name (local_name (lit "zzz"))))) shelf_cs = true) by (vm_compute; reflexivity).
  rewrite forallb_forall in B. specialize (B s' (nth_error_In _ _ Hn)). rewrite Hp, str_eqb_refl in B. discriminate.
Qed.
Print Assumptions C83_unknown_refuted.
Theorem C83_container_refuted : forall O, exists d m', load_ietf_json O longer shelf_cs false false d (after O no_floats longer shelf_cs full) = (m', Ok tt) /\
  ~ ietf_fits O false true (entry_schema shelf_cs) d /\ at_path m' [Kid 3] = Some (OCont true true []).
Proof.
  intros O. exists (JObj [(lit "e", JInt 5)]). eexists. split; [vm_compute; reflexivity|]. split; [|vm_compute; reflexivity].
  intros H. assert (G : ietf_fits O false true (nthcs 3) (JInt 5)).
  { apply (Shape_proofs.ietf_proper O plain false shelf_cs [(lit "e", JInt 5)] (lit "e") _ _ H); [now left|no_at|shelf_at 3%nat]. }
  inversion G; subst; discriminate.
Qed.
Print Assumptions C83_container_refuted.

(** Documents of the proper shape load, and mistakes in others. *)
Definition good : list (str * json) :=
  [(lit "x:m", JArr [JObj [(lit "k", JStr (lit "z")); (lit "a", JInt 3)]]); (lit "c", JObj [(lit "t", JStr (lit "w"))]); (lit "s", JArr [JStr (lit "p"); JStr (lit "q")])].
Example C83_case : forall O, let m := after O no_floats longer shelf_cs full in
  (exists m', load_ietf_json O longer shelf_cs false false (JObj good) m = (m', Ok tt)) /\
  (exists m', load_json O longer shelf_cs false false (JObj [(lit "m", JObj [(lit "z", JObj [(lit "k", JStr (lit "z"))])]); (lit "s", JArr [JStr (lit "p")])]) m = (m', Ok tt)) /\
  (forall ms e, In (ms, e)
     [([(lit "c", JInt 5)], ValueError); ([(lit "zzz", JInt 5)], AttributeError); ([(lit "c", JObj [(lit "u", JObj [(lit "v", JInt 1)])])], AttributeError);
      ([(lit "m", JArr [JObj [(lit "a", JInt 1)]])], KeyError); ([(lit "m", JArr [JInt 1])], TypeError); ([(lit "c", JObj [(lit "u", JInt 256)])], ValueError)] ->
   ietf_mistake O (entry_schema shelf_cs) (JObj ms) e /\ snd (load_ietf_json O longer shelf_cs false false (JObj (good ++ ms)) m) = Raise e) /\
  (forall ms e, In (ms, e)
     [([(lit "c", JInt 5)], ValueError); ([(lit "zzz", JInt 5)], AttributeError); ([(lit "m", JArr [])], AttributeError); ([(lit "c", JObj [(lit "u", JInt 256)])], ValueError); ([(lit "s", JInt 5)], TypeError)] ->
   json_mistake O (entry_schema shelf_cs) (JObj ms) e /\ snd (load_json O longer shelf_cs false false (JObj ms) m) = Raise e).
Proof.
  intros O m. split; [eexists; vm_compute; reflexivity|]. split; [eexists; vm_compute; reflexivity|].
  assert (U : foreign shelf_cs (lit "zzz")).
  { intros n s' [Hn Hp]. assert (B : forallb (fun s => negb (str_eqb (e_py (s_info s)) (safe_name (lit "zzz")))) shelf_cs = true) by (vm_compute; reflexivity).
    rewrite forallb_forall in B. specialize (B s' (nth_error_In _ _ Hn)). rewrite Hp, str_eqb_refl in B. discriminate. }
  assert (C2 : the_child shelf_cs (lit "c") (nthcs 2)) by shelf_at 2%nat. assert (C0 : the_child shelf_cs (lit "m") (nthcs 0)) by shelf_at 0%nat.
  assert (C4 : the_child shelf_cs (lit "s") (nthcs 4)) by shelf_at 4%nat.
  assert (Cu : forall i pr cs, nthcs 2 = SCont i pr cs -> the_child cs (lit "u") (s_leaf (lit "u") u8 (lit "uint8"))).
  { intros i pr cs E. assert (cs = match nthcs 2 with SCont _ _ cs => cs | _ => [] end) as -> by now rewrite E. apply (Shape_proofs.child_by _ 1); vm_compute; reflexivity. }
  split; intros ms e H.
  - repeat (destruct H as [H|H]; [injection H as <- <-; split; [|vm_compute; reflexivity]|]); [..|destruct H].
    + apply (MIn O _ _ _ _ (nthcs 2)); [no_at|exact C2|]. apply MCont; [intros ms; discriminate|discriminate|discriminate].
    + apply MUnknown; [no_at|exact U|discriminate].
    + apply (MIn O _ _ _ _ (nthcs 2)); [no_at|exact C2|]. eapply MIn; [no_at|exact (Cu _ _ _ eq_refl)|]. apply MObject; [intros []|no_at|discriminate].
    + apply (MIn O _ _ _ _ (nthcs 0)); [no_at|exact C0|]. apply MKeys. intros K. destruct (K (lit "k") (or_introl eq_refl)) as (n & s & j & Hn & Hp & [E|[]]).
      apply (f_equal (fun x => str_eqb (fst x) (lit "a"))) in E. cbn [fst] in E. destruct n as [|[|n]]; [| |now destruct n]; injection Hn as <-; vm_compute in E, Hp; discriminate.
    + apply (MIn O _ _ _ _ (nthcs 0)); [no_at|exact C0|]. apply MEntry; [exists 0%nat; eexists; split; reflexivity|intros ms; discriminate].
    + apply (MIn O _ _ _ _ (nthcs 2)); [no_at|exact C2|]. eapply MIn; [no_at|exact (Cu _ _ _ eq_refl)|]. apply MValue; [exact I| | |vm_compute; reflexivity]; intros E; apply str_eqb_eq in E; vm_compute in E; discriminate.
  - repeat (destruct H as [H|H]; [injection H as <- <-; split; [|vm_compute; reflexivity]|]); [..|destruct H].
    + apply (NIn O _ _ _ _ (nthcs 2)); [exact C2|]. apply NCont. intros ms; discriminate.
    + apply NUnknown. exact U.
    + apply (NIn O _ _ _ _ (nthcs 0)); [exact C0|]. apply NList. intros ms; discriminate.
    + apply (NIn O _ _ _ _ (nthcs 2)); [exact C2|]. eapply NIn; [exact (Cu _ _ _ eq_refl)|]. apply NValue. vm_compute; reflexivity.
    + apply (NIn O _ _ _ _ (nthcs 4)); [exact C4|]. apply NSingle; intros; discriminate.
Qed.
