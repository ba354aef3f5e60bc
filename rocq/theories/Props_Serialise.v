(** Property theorems about JSON: C35-C42, C45, C58. *)
From Verif Require Import PyStr PyVal Restricted IntTypes StrTypes SafeName Spec_Types Spec_Lists TypedList MemberTypes YList
  Tree Spec_Tree Serialise Spec_Serialise.
From Verif Require Tree_proofs Tree_choice Rival_proofs Load_proofs Float_proofs Serialise_proofs Json_proofs Order_proofs Unknown_proofs UnknownIetf_proofs
  Overwrite_proofs Emit_proofs IetfRound_proofs Serialise_cases.
From Coq Require Import Lia Permutation.
Import ListNotations.
Local Open Scope Z_scope.

(* ------------------------------------------------------------------ data for the cases *)
Definition inf (n : str) : einfo :=
  {| e_py := safe_name n; e_yang := n; e_ns := lit "urn:m"; e_mod := lit "m"; e_choice := None; e_rw := true |}.
(** From another module, by augmentation. *)
Definition aug (n : str) : einfo :=
  {| e_py := safe_name n; e_yang := n; e_ns := lit "urn:x"; e_mod := lit "x"; e_choice := None; e_rw := true |}.
Definition u8t : mtype := MInt [[rng 0 255]].
Definition i64t : mtype := MInt [[rng (-9223372036854775808) 9223372036854775807]].
Definition leaf (n : String.string) (t : mtype) (yt : String.string) : schema := SLeaf (inf (lit n)) (LOne (pty_of t)) None (lit yt) false.
(** container c { leaf from-here; leaf b; container t { leaf z; } list l { key k; ordered-by user; } leaf-list ll; }
    list o { key k; ordered-by user; leaf k; leaf v; } *)
Definition entry_cs : list schema :=
  [SLeaf (inf (lit "k")) (LOne (pty_of MText)) None (lit "string") true; leaf "v" u8t "uint8"].
Definition doc_cs : list schema :=
  [SCont (inf (lit "c")) true
     [leaf "from-here" i64t "int64";
      SLeaf (aug (lit "b")) (LOne (pty_of MText)) (Some (VStr (lit "x"))) (lit "string") false;
      SCont (inf (lit "t")) false [leaf "z" u8t "uint8"; leaf "d" (MDec 2) "decimal64"; leaf "e" MBool "empty"];
      SList (inf (lit "l")) [lit "k"] false entry_cs;
      SLeafList (inf (lit "ll")) [pty_of MText] (lit "string")];
   SList (inf (lit "o")) [lit "k"] true entry_cs].
Lemma doc_names : python_names doc_cs.
Proof. apply Serialise_cases.names_by. vm_compute. reflexivity. Qed.
Lemma doc_yang : yang_names doc_cs.
Proof. apply Serialise_cases.yang_names_by. vm_compute. reflexivity. Qed.
Lemma doc_choice_free : choice_free doc_cs.
Proof. apply Serialise_cases.choice_free_by. vm_compute. reflexivity. Qed.
Lemma doc_keys_plain : keys_plain doc_cs.
Proof. apply Serialise_cases.keys_plain_by. vm_compute. reflexivity. Qed.

Definition run (O : oracle) cs os := module_run O cs (module_new O cs) os.
Lemma run_shaped O cs os : shaped cs (run O cs os).
Proof. apply Tree_proofs.module_run_shaped, Tree_proofs.fresh_shaped. Qed.
Definition assign (v : pyval) : op := ASet Attr (AVal v).
Definition add (k : String.string) : op := AList [] (YAdd (VStr (lit k))).
(** c.from_here = 5; c.t.z = 7; c.t.d = 1.25; c.l.add("one"); c.ll.append("a"); o.add("q"); o.add("p"); o["p"].v = 3 *)
Definition doc_ops : list (list pstep * op) :=
  [([Kid 0; Kid 0], assign (VInt 5)); ([Kid 0; Kid 2; Kid 0], assign (VInt 7)); ([Kid 0; Kid 2; Kid 1], assign (VDec 125 (-2)));
   ([Kid 0; Kid 3], add "one"); ([Kid 0; Kid 4], ALeafList (LAppend (VStr (lit "a"))));
   ([Kid 1], add "q"); ([Kid 1], add "p"); ([Kid 1; Ent (VStr (lit "p")); Kid 1], assign (VInt 3))].
Definition no_modules (i : einfo) (s : str) : option str := None.
Definition no_uid (es : list (pyval * obj)) : str := [].

Definition doc_kids : list obj :=
  [OCont true true
     [OLeaf true (VInt 5); OLeaf false (VStr []);
      OCont true false [OLeaf true (VInt 7); OLeaf true (VDec 125 (-2)); OLeaf false (VBool false)];
      OList false [(VStr (lit "one"), OCont true false [OLeaf true (VStr (lit "one")); OLeaf false (VInt 0)])];
      OLeafList true [VStr (lit "a")]];
   OList false [(VStr (lit "q"), OCont true false [OLeaf true (VStr (lit "q")); OLeaf false (VInt 0)]);
                (VStr (lit "p"), OCont true false [OLeaf true (VStr (lit "p")); OLeaf true (VInt 3)])]].
Lemma doc_reached O : run O doc_cs doc_ops = doc_kids.
Proof. vm_compute. reflexivity. Qed.

Ltac known := left; cbn; tauto.
Lemma u8_ok : mtype_wf u8t.
Proof. split; [discriminate|]. split; [repeat constructor|]. split; [repeat constructor|exact I]. Qed.
Lemma i64_ok : mtype_wf i64t.
Proof. split; [discriminate|]. split; [repeat constructor|]. split; [repeat constructor|exact I]. Qed.
Lemma leaf_storable O f n t yt ch v : (ch = true -> type_name (WVal t) (lit yt) /\ leaf_ok O f (WVal t) (lit yt) v) ->
  storable O f (leaf n t yt) (OLeaf ch v).
Proof. intros H. exact (SbLeaf O f (inf (lit n)) (WVal t) None (lit yt) false ch v H). Qed.
Lemma int_value O f levels yt z : in_levels z levels -> value_ok O f (MInt levels) yt (VInt z).
Proof. intros H. split; [now exists z|exact I]. Qed.
Lemma text_value O f yt s : value_ok O f MText yt (VStr s).
Proof. split; [now exists s|exact I]. Qed.
Lemma between z lo hi : lo <= z <= hi -> in_levels z [[rng lo hi]].
Proof. intros H. repeat constructor; cbn; lia. Qed.
Lemma entry_storable O f key ch v : 0 <= v <= 255 -> Forall2 (storable O f) entry_cs [OLeaf true (VStr key); OLeaf ch (VInt v)].
Proof.
  intros Hv. constructor; [|constructor; [|constructor]].
  - apply (SbLeaf O f (inf (lit "k")) (WVal MText) None (lit "string") true). intros _. split; [known|].
    split; [exact I|apply text_value].
  - apply leaf_storable. intros _. split; [known|]. split; [apply u8_ok|]. apply int_value, between. exact Hv.
Qed.
Lemma entry_key O key ch v : key <> [] -> plain_key O [lit "k"] entry_cs [OLeaf true (VStr key); OLeaf ch (VInt v)] (VStr key).
Proof.
  intros Hk. exists [key]. split; [reflexivity|]. split; [exact Hk|]. constructor; [|constructor].
  exists MText, (lit "string"), (VStr key). split; [|reflexivity]. exists 0%nat, (inf (lit "k")), None, true.
  split; [reflexivity|]. split; [reflexivity|]. split; [reflexivity|]. split; [exact I|apply text_value].
Qed.
Lemma one_distinct x : all_distinct [x].
Proof. intros [|[]] [|[]] a b Hi Hj Hne; try discriminate; lia. Qed.
Lemma two_distinct x y : py_eq x y = false -> py_eq y x = false -> all_distinct [x; y].
Proof.
  intros H1 H2 [|[|[]]] [|[|[]]] a b Hi Hj Hne; try lia; try discriminate;
    injection Hi as <-; injection Hj as <-; assumption.
Qed.
Lemma entry_ietf O key ch v : key <> [] -> ietf_key O [lit "k"] entry_cs [OLeaf true (VStr key); OLeaf ch (VInt v)] (VStr key).
Proof.
  intros Hk. exists MText, (lit "string"), (VStr key). split; [|split; [known|]].
  - exists 0%nat, (inf (lit "k")), None, true. split; [reflexivity|]. split; [reflexivity|]. split; [reflexivity|]. split; [exact I|apply text_value].
  - split; [discriminate|]. split; [reflexivity|]. intros E. injection E as E. now apply Hk.
Qed.
Lemma doc_storable O f : Forall2 (storable O f) doc_cs doc_kids.
Proof.
  constructor; [|constructor; [|constructor]].
  - apply SbCont; [|intros _ _; now left]. constructor; [|constructor; [|constructor; [|constructor; [|constructor; [|constructor]]]]].
    + apply leaf_storable. intros _. split; [known|]. split; [apply i64_ok|]. apply int_value, between. lia.
    + apply (SbLeaf O f _ (WVal MText)). discriminate.
    + apply SbCont; [|discriminate]. constructor; [|constructor; [|constructor; [|constructor]]].
      * apply leaf_storable. intros _. split; [known|]. split; [apply u8_ok|]. apply int_value, between. lia.
      * apply leaf_storable. intros _. split; [known|]. split; [exact I|]. split; [now exists 125|]. split; [lia|]. destruct f; vm_compute; reflexivity.
      * apply leaf_storable. discriminate.
    + apply SbList; [discriminate| |].
      * apply one_distinct.
      * constructor; [|constructor]. do 3 eexists. split; [reflexivity|]. split; [apply entry_storable; lia|]. destruct f; [apply entry_key|apply entry_ietf]; discriminate.
    + apply (SbLeafList O f _ MText); [exact I|discriminate| |apply one_distinct|discriminate].
      constructor; [|constructor]. split; [apply text_value|]. intros _. discriminate.
  - apply SbList; [discriminate| |].
    + apply two_distinct; vm_compute; reflexivity.
    + constructor; [|constructor; [|constructor]]; (do 3 eexists; split; [reflexivity|]; split; [apply entry_storable; lia|]; destruct f; [apply entry_key|apply entry_ietf]; discriminate).
Qed.

(* ------------------------------------------------------------------ C35 *)
(** Full statement: loads(dumps(obj)) has the same data for every tree.  False: a leaf-list of
    decimal64 comes back empty. *)
Theorem C35_round_trip_refuted : forall O, exists cs os j m',
  choice_free cs /\ python_names cs /\
  dumps O no_modules cs (run O cs os) = Ok j /\ loads O no_uid cs j = (m', Ok tt) /\
  get_kids true cs (run O cs os) <> get_kids true cs m'.
Proof.
  intros O. exists [SLeafList (inf (lit "ll")) [TDecPrec 1] (lit "decimal64")], [([Kid 0], ALeafList (LAppend (VDec 1 (-1))))].
  eexists _, _. split; [apply Serialise_cases.choice_free_by; reflexivity|]. split; [apply Serialise_cases.names_by; vm_compute; reflexivity|].
  split; [vm_compute; reflexivity|]. split; [vm_compute; reflexivity|]. vm_compute. discriminate.
Qed.
Print Assumptions C35_round_trip_refuted.

(** ... and so does a leaf in a choice of the same name as one further down:
    container c { choice ch { case x { leaf a; } } container t { choice ch { case y { leaf b; } } } } *)
Definition cased (c k n : String.string) : einfo :=
  {| e_py := safe_name (lit n); e_yang := lit n; e_ns := lit "urn:m"; e_mod := lit "m"; e_choice := Some (lit c, lit k); e_rw := true |}.
Definition case_leaf (c k n : String.string) (t : mtype) (yt : String.string) : schema :=
  SLeaf (cased c k n) (LOne (pty_of t)) None (lit yt) false.
Theorem C35_rivals_refuted : forall O, exists cs os j m',
  plain_keys cs /\ python_names cs /\ uniform cs /\ one_case cs (run O cs os) /\
  dumps O no_modules cs (run O cs os) = Ok j /\ loads O no_uid cs j = (m', Ok tt) /\
  get_kids true cs (run O cs os) <> get_kids true cs m'.
Proof.
  intros O. exists [SCont (inf (lit "c")) false [case_leaf "ch" "x" "a" u8t "uint8"; SCont (inf (lit "t")) false [case_leaf "ch" "y" "b" u8t "uint8"]]],
    [([Kid 0; Kid 1; Kid 0], assign (VInt 1)); ([Kid 0; Kid 0], assign (VInt 2))].
  eexists _, _. split; [apply Serialise_cases.plain_keys_by; vm_compute; reflexivity|].
  split; [apply Serialise_cases.names_by; vm_compute; reflexivity|]. split; [apply Serialise_cases.uniform_by; vm_compute; reflexivity|].
  split.
  { apply Tree_choice.one_case_run; [apply Serialise_cases.uniform_by; vm_compute; reflexivity|apply Tree_proofs.fresh_shaped|apply Tree_choice.new_one_case|].
    repeat constructor. }
  split; [vm_compute; reflexivity|]. split; [vm_compute; reflexivity|]. vm_compute. discriminate.
Qed.
Print Assumptions C35_rivals_refuted.

(** Missing: data in several cases of a choice, and the values excluded by [storable]. *)
Theorem C35_round_trip_partial : forall O im uid cs kids,
  plain_keys cs -> unrivalled cs kids -> python_names cs -> Forall2 (storable O Plain) cs kids ->
  exists j m', dumps O im cs kids = Ok j /\ loads O uid cs j = (m', Ok tt) /\ get_kids true cs m' = get_kids true cs kids.
Proof. exact Serialise_proofs.plain_round_trip. Qed.
Print Assumptions C35_round_trip_partial.

(** The same where no choice is inside another and choices on one path have different names. *)
Theorem C35_one_case_partial : forall O im uid cs kids,
  plain_keys cs -> uniform cs -> own_choices cs -> one_case cs kids -> python_names cs -> Forall2 (storable O Plain) cs kids ->
  exists j m', dumps O im cs kids = Ok j /\ loads O uid cs j = (m', Ok tt) /\ get_kids true cs m' = get_kids true cs kids.
Proof.
  intros O im uid cs kids H1 H2 H3 H4 H5 H6. apply Serialise_proofs.plain_round_trip; auto. apply Rival_proofs.one_case_unrivalled; auto.
  exact (Serialise_proofs.storables_shaped O Plain cs kids H6).
Qed.
Print Assumptions C35_one_case_partial.

(** container c { choice ch { case x { leaf a; } case y { container t { leaf z; } } }
                  list l { key k; leaf k; choice d { case p { leaf u; } case q { leaf w; } } } }
    c.a = "old"; c.t.z = 7; l.add("one"); l["one"].u = 1; l["one"].w = 2 *)
Definition ch_entry : list schema :=
  [SLeaf (inf (lit "k")) (LOne (pty_of MText)) None (lit "string") true; case_leaf "d" "p" "u" u8t "uint8"; case_leaf "d" "q" "w" u8t "uint8"].
Definition ch_cs : list schema :=
  [SCont (inf (lit "c")) false
     [case_leaf "ch" "x" "a" MText "string"; SCont (cased "ch" "y" "t") false [case_leaf "ch" "y" "z" u8t "uint8"];
      SList (inf (lit "l")) [lit "k"] false ch_entry]].
Definition ch_ops : list (list pstep * op) :=
  let e := Ent (VStr (lit "one")) in
  [([Kid 0; Kid 0], assign (VStr (lit "old"))); ([Kid 0; Kid 1; Kid 0], assign (VInt 7)); ([Kid 0; Kid 2], add "one");
   ([Kid 0; Kid 2; e; Kid 1], assign (VInt 1)); ([Kid 0; Kid 2; e; Kid 2], assign (VInt 2))].
Definition ch_kids : list obj :=
  [OCont true false
     [OLeaf false (VStr []); OCont true false [OLeaf true (VInt 7)];
      OList false [(VStr (lit "one"), OCont true false [OLeaf true (VStr (lit "one")); OLeaf false (VInt 0); OLeaf true (VInt 2)])]]].
Lemma ch_reached O : run O ch_cs ch_ops = ch_kids.
Proof. vm_compute. reflexivity. Qed.
Lemma case_storable O f c k n levels yt v : mtype_wf (MInt levels) -> type_name (WVal (MInt levels)) (lit yt) -> in_levels v levels -> forall ch,
  storable O f (case_leaf c k n (MInt levels) yt) (OLeaf ch (VInt v)).
Proof. intros H1 H2 H3 ch. apply (SbLeaf O f _ (WVal (MInt levels))). intros _. split; [exact H2|]. split; [exact H1|]. now apply int_value. Qed.
Lemma ch_storable O f : Forall2 (storable O f) ch_cs ch_kids.
Proof.
  constructor; [|constructor]. apply SbCont; [|discriminate]. constructor; [|constructor; [|constructor; [|constructor]]].
  - apply (SbLeaf O f _ (WVal MText)). discriminate.
  - apply SbCont; [|discriminate]. constructor; [|constructor]. apply case_storable; [apply u8_ok|known|apply between; lia].
  - apply SbList; [discriminate|apply one_distinct|]. constructor; [|constructor]. do 3 eexists. split; [reflexivity|]. split.
    + constructor; [|constructor; [|constructor; [|constructor]]].
      * apply (SbLeaf O f (inf (lit "k")) (WVal MText) None (lit "string") true). intros _. split; [known|]. split; [exact I|apply text_value].
      * apply case_storable; [apply u8_ok|known|apply between; lia].
      * apply case_storable; [apply u8_ok|known|apply between; lia].
    + destruct f.
      * exists [lit "one"]. split; [reflexivity|]. split; [discriminate|]. constructor; [|constructor].
        exists MText, (lit "string"), (VStr (lit "one")). split; [|reflexivity]. exists 0%nat, (inf (lit "k")), None, true.
        split; [reflexivity|]. split; [reflexivity|]. split; [reflexivity|]. split; [exact I|apply text_value].
      * exists MText, (lit "string"), (VStr (lit "one")). split; [|split; [known|]].
        { exists 0%nat, (inf (lit "k")), None, true. split; [reflexivity|]. split; [reflexivity|]. split; [reflexivity|]. split; [exact I|apply text_value]. }
        split; [discriminate|]. split; [reflexivity|]. discriminate.
Qed.
Lemma ch_ok O : plain_keys ch_cs /\ unrivalled ch_cs (run O ch_cs ch_ops) /\ python_names ch_cs.
Proof.
  split; [apply Serialise_cases.plain_keys_by; vm_compute; reflexivity|]. split.
  - apply Serialise_cases.unrivalled_by; [apply run_shaped|]. rewrite ch_reached. vm_compute. reflexivity.
  - apply Serialise_cases.names_by. vm_compute. reflexivity.
Qed.
Example C35_case : forall O,
  (plain_keys doc_cs /\ unrivalled doc_cs (run O doc_cs doc_ops) /\ python_names doc_cs /\
   Forall2 (storable O Plain) doc_cs (run O doc_cs doc_ops) /\ get_kids true doc_cs (run O doc_cs doc_ops) <> []) /\
  (plain_keys ch_cs /\ unrivalled ch_cs (run O ch_cs ch_ops) /\ python_names ch_cs /\
   Forall2 (storable O Plain) ch_cs (run O ch_cs ch_ops) /\ uniform ch_cs /\ own_choices ch_cs /\ one_case ch_cs (run O ch_cs ch_ops) /\
   rival ch_cs [Kid 0; Kid 1; Kid 0] [Kid 0; Kid 0] /\ get_kids true ch_cs (run O ch_cs ch_ops) <> []).
Proof.
  intros O. split.
  - destruct (Serialise_cases.no_choice_by doc_cs (run O doc_cs doc_ops)) as [H1 H2]; [vm_compute; reflexivity|]. split; [exact H1|]. split; [exact H2|].
    rewrite doc_reached. split; [apply doc_names|]. split; [apply doc_storable|]. discriminate.
  - destruct (ch_ok O) as (H1 & H2 & H3). destruct (Serialise_cases.choices_by ch_cs) as [H4 H5]; [vm_compute; reflexivity|].
    split; [exact H1|]. split; [exact H2|]. split; [exact H3|]. rewrite ch_reached. split; [apply ch_storable|]. split; [exact H4|]. split; [exact H5|].
    split; [apply Serialise_cases.one_case_by; vm_compute; reflexivity|]. split; [|discriminate].
    exists (case_leaf "ch" "x" "a" MText "string"), (lit "ch"), (lit "x"), [Kid 0; Kid 1], (SCont (cased "ch" "y" "t") false [case_leaf "ch" "y" "z" u8t "uint8"]), (lit "y").
    split; [cbn; lia|]. split; [repeat constructor|]. split; [reflexivity|]. split; [reflexivity|]. split; [now exists [Kid 0]|].
    split; [cbn; lia|]. split; [reflexivity|]. split; [reflexivity|]. discriminate.
Qed.

(* ------------------------------------------------------------------ C36 *)
(** Full statement: loads_ietf(dumps(obj, mode="ietf")) has the same data for every tree.  False: a list
    with a key of type uint64 comes back with the text of the number as key, ... *)
Theorem C36_round_trip_refuted : forall O, exists cs os j m',
  choice_free cs /\ python_names cs /\
  dumps_ietf O no_modules true WNone cs (run O cs os) = Ok j /\ loads_ietf O no_uid cs j = (m', Ok tt) /\
  get_kids true cs (run O cs os) <> get_kids true cs m'.
Proof.
  intros O. exists [SList (inf (lit "l")) [lit "k"] false [SLeaf (inf (lit "k")) (LOne (pty_of i64t)) None (lit "int64") true]],
    [([Kid 0], AList [] (YAdd (VInt 5)))].
  eexists _, _. split; [apply Serialise_cases.choice_free_by; reflexivity|]. split; [apply Serialise_cases.names_by; vm_compute; reflexivity|].
  split; [vm_compute; reflexivity|]. split; [vm_compute; reflexivity|]. vm_compute. discriminate.
Qed.
Print Assumptions C36_round_trip_refuted.
(** ... an identity that was set with a prefix comes back without one, ... *)
Theorem C36_identity_refuted : forall O, exists cs os j m',
  choice_free cs /\ python_names cs /\
  dumps_ietf O no_modules true WNone cs (run O cs os) = Ok j /\ loads_ietf O no_uid cs j = (m', Ok tt) /\
  get_kids true cs (run O cs os) <> get_kids true cs m'.
Proof.
  intros O. exists [leaf "i" (MEnum [lit "gige"; lit "x:gige"]) "identityref"], [([Kid 0], assign (VStr (lit "x:gige")))].
  eexists _, _. split; [apply Serialise_cases.choice_free_by; reflexivity|]. split; [apply Serialise_cases.names_by; vm_compute; reflexivity|].
  split; [vm_compute; reflexivity|]. split; [vm_compute; reflexivity|]. vm_compute. discriminate.
Qed.
Print Assumptions C36_identity_refuted.
(** ... and a leaf of type empty that was set to False cannot be read at all. *)
Theorem C36_empty_refuted : forall O, exists cs os j m',
  choice_free cs /\ python_names cs /\
  dumps_ietf O no_modules true WNone cs (run O cs os) = Ok j /\ loads_ietf O no_uid cs j = (m', Raise ValueError).
Proof.
  intros O. exists [leaf "e" MBool "empty"], [([Kid 0], assign (VBool false))].
  eexists _, _. split; [apply Serialise_cases.choice_free_by; reflexivity|]. split; [apply Serialise_cases.names_by; vm_compute; reflexivity|].
  split; [vm_compute; reflexivity|]. vm_compute. reflexivity.
Qed.
Print Assumptions C36_empty_refuted.

(** Missing: data in several cases of a choice, and the values and keys excluded by [storable]. *)
Theorem C36_round_trip_partial : forall O im uid cs kids,
  (forall i s m, im i s = Some m -> no_colon m) -> plain_keys cs -> unrivalled cs kids -> python_names cs -> ietf_names cs -> key_leaves cs ->
  Forall2 (storable O Ietf) cs kids ->
  exists j m', dumps_ietf O im true WNone cs kids = Ok j /\ loads_ietf O uid cs j = (m', Ok tt) /\
    get_kids true cs m' = get_kids true cs kids.
Proof. intros O im uid cs kids Him. exact (IetfRound_proofs.ietf_round_trip O im Him uid cs kids). Qed.
Print Assumptions C36_round_trip_partial.

(** The document above, and a list with two keys, an identity of another module, a leaf of type empty
    and a leaf-list of decimals:
    m2.add("a 7"); m2["a 7"].id = "gige"; m2["a 7"].e = True; m2["a 7"].ds.append(0.5) *)
Definition pair_cs : list schema :=
  [SLeaf (inf (lit "name")) (LOne (pty_of MText)) None (lit "string") true;
   SLeaf (inf (lit "no")) (LOne (pty_of i64t)) None (lit "int64") true;
   leaf "id" (MEnum [lit "gige"]) "identityref"; leaf "e" MBool "empty";
   SLeafList (inf (lit "ds")) [pty_of (MDec 1)] (lit "decimal64")].
Definition more_cs : list schema := [SList (inf (lit "m2")) [lit "name"; lit "no"] false pair_cs].
Definition more_ops : list (list pstep * op) :=
  let e := Ent (VStr (lit "a 7")) in
  [([Kid 0], add "a 7"); ([Kid 0; e; Kid 2], assign (VStr (lit "gige"))); ([Kid 0; e; Kid 3], assign (VBool true));
   ([Kid 0; e; Kid 4], ALeafList (LAppend (VDec 5 (-1))))].
Definition more_kids : list obj :=
  [OList false [(VStr (lit "a 7"), OCont true false
     [OLeaf true (VStr (lit "a")); OLeaf true (VInt 7); OLeaf true (VStr (lit "gige")); OLeaf true (VBool true);
      OLeafList true [VDec 5 (-1)]])]].
Lemma more_reached O : run O more_cs more_ops = more_kids.
Proof. vm_compute. reflexivity. Qed.
Lemma more_storable O : Forall2 (storable O Ietf) more_cs more_kids.
Proof.
  constructor; [|constructor]. apply SbList; [discriminate|apply one_distinct|]. constructor; [|constructor].
  do 3 eexists. split; [reflexivity|]. split.
  - constructor; [|constructor; [|constructor; [|constructor; [|constructor; [|constructor]]]]].
    + apply (SbLeaf O Ietf (inf (lit "name")) (WVal MText)). intros _. split; [known|]. split; [exact I|apply text_value].
    + apply (SbLeaf O Ietf (inf (lit "no")) (WVal i64t)). intros _. split; [known|]. split; [apply i64_ok|]. apply int_value, between. lia.
    + apply leaf_storable. intros _. split; [known|]. split; [exact I|]. split; [exists (lit "gige"); split; [reflexivity|now left]|].
      intros _ _. vm_compute. intuition discriminate.
    + apply leaf_storable. intros _. split; [known|]. split; [exact I|]. split; [now exists true|]. reflexivity.
    + apply (SbLeafList O Ietf (inf (lit "ds")) (MDec 1)); [exact I|discriminate| |apply one_distinct|discriminate].
      constructor; [|constructor]. split; [split; [now exists 5|split; [lia|vm_compute; reflexivity]]|]. split; [reflexivity|discriminate].
  - exists [lit "a"; lit "7"]. split; [reflexivity|]. split; [vm_compute; discriminate|]. constructor; [|constructor; [|constructor]].
    + exists MText, (lit "string"), (VStr (lit "a")). split; [|split; [known|split; [discriminate|reflexivity]]].
      exists 0%nat, (inf (lit "name")), None, true. split; [reflexivity|]. split; [reflexivity|]. split; [reflexivity|]. split; [exact I|apply text_value].
    + exists i64t, (lit "int64"), (VInt 7). split; [|split; [known|exists 7; split; reflexivity]].
      exists 1%nat, (inf (lit "no")), None, true. split; [reflexivity|]. split; [reflexivity|]. split; [reflexivity|]. split; [apply i64_ok|].
      apply int_value, between. lia.
Qed.
Definition other_module (i : einfo) (s : str) : option str := Some (lit "x").
Example C36_case : forall O, (forall i s m, other_module i s = Some m -> no_colon m) /\
  (plain_keys doc_cs /\ unrivalled doc_cs (run O doc_cs doc_ops) /\ python_names doc_cs /\ ietf_names doc_cs /\ key_leaves doc_cs /\
   Forall2 (storable O Ietf) doc_cs (run O doc_cs doc_ops) /\ get_kids true doc_cs (run O doc_cs doc_ops) <> []) /\
  (plain_keys more_cs /\ unrivalled more_cs (run O more_cs more_ops) /\ python_names more_cs /\ ietf_names more_cs /\ key_leaves more_cs /\
   Forall2 (storable O Ietf) more_cs (run O more_cs more_ops) /\ get_kids true more_cs (run O more_cs more_ops) <> []) /\
  (plain_keys ch_cs /\ unrivalled ch_cs (run O ch_cs ch_ops) /\ python_names ch_cs /\ ietf_names ch_cs /\ key_leaves ch_cs /\
   Forall2 (storable O Ietf) ch_cs (run O ch_cs ch_ops) /\ get_kids true ch_cs (run O ch_cs ch_ops) <> []).
Proof.
  intros O. pose proof (ch_ok O) as Hch. rewrite doc_reached, more_reached, ch_reached in *. split; [|split; [|split]].
  - intros i s m E. injection E as <-. vm_compute. intuition discriminate.
  - destruct (Serialise_cases.no_choice_by doc_cs doc_kids) as [H1 H2]; [vm_compute; reflexivity|]. split; [exact H1|]. split; [exact H2|]. split; [apply doc_names|]. split; [apply Serialise_cases.ietf_names_by; vm_compute; reflexivity|].
    split; [apply Serialise_cases.key_leaves_by; vm_compute; reflexivity|]. split; [apply doc_storable|]. discriminate.
  - destruct (Serialise_cases.no_choice_by more_cs more_kids) as [H1 H2]; [vm_compute; reflexivity|]. split; [exact H1|]. split; [exact H2|].
    split; [apply Serialise_cases.names_by; vm_compute; reflexivity|].
    split; [apply Serialise_cases.ietf_names_by; vm_compute; reflexivity|].
    split; [apply Serialise_cases.key_leaves_by; vm_compute; reflexivity|]. split; [apply more_storable|]. discriminate.
  - destruct Hch as (H1 & H2 & H3). split; [exact H1|]. split; [exact H2|]. split; [exact H3|].
    split; [apply Serialise_cases.ietf_names_by; vm_compute; reflexivity|].
    split; [apply Serialise_cases.key_leaves_by; vm_compute; reflexivity|]. split; [apply ch_storable|]. discriminate.
Qed.

(* ------------------------------------------------------------------ C37 *)
(** Whatever the tree: the order in which the entries of an ordered-by user list stand in the document
    does not matter, nothing else changed. *)
Theorem C37_any_order : forall O uid cs im kids j j', python_names cs ->
  dumps O im cs kids = Ok j -> shuffled (entry_schema cs) j j' ->
  forall overwrite skip m, load_json O uid cs overwrite skip j' m = load_json O uid cs overwrite skip j m.
Proof. intros O uid cs im kids j j' Hn. exact (Order_proofs.shuffled_load O uid cs Hn im kids j j'). Qed.
Print Assumptions C37_any_order.

(** ... and what comes back is the tree with its entries in their order.  Missing: as for C35. *)
Theorem C37_order_kept_partial : forall O im uid cs kids, plain_keys cs -> unrivalled cs kids -> python_names cs -> Forall2 (storable O Plain) cs kids ->
  exists j, dumps O im cs kids = Ok j /\
    forall j', shuffled (entry_schema cs) j j' ->
    exists m', loads O uid cs j' = (m', Ok tt) /\ get_kids true cs m' = get_kids true cs kids.
Proof.
  intros O im uid cs kids Hp Hu Hn Hs. destruct (Serialise_proofs.plain_round_trip O im uid cs kids Hp Hu Hn Hs) as (j & m' & Hd & Hl & Hg).
  exists j. split; [exact Hd|]. intros j' Hj. exists m'. split; [|exact Hg]. rewrite <- Hl.
  exact (Order_proofs.shuffled_load O uid cs Hn im kids j j' Hd Hj false false _).
Qed.
Print Assumptions C37_order_kept_partial.

Example C37_case : forall O, exists c e1 e2,
  dumps O no_modules doc_cs doc_kids = Ok (JObj [c; (lit "o", JObj [e1; e2])]) /\ e1 <> e2 /\
  shuffled (entry_schema doc_cs) (JObj [c; (lit "o", JObj [e1; e2])]) (JObj [c; (lit "o", JObj [e2; e1])]) /\
  get_kids true doc_cs (fst (loads O no_uid doc_cs (JObj [c; (lit "o", JObj [e2; e1])]))) = get_kids true doc_cs doc_kids.
Proof.
  intros O. do 3 eexists. split; [vm_compute; reflexivity|]. split; [discriminate|]. split; [|vm_compute; reflexivity].
  apply ShCont. constructor; [split; [reflexivity|now left]|]. constructor; [|constructor]. split; [reflexivity|]. right.
  exists (SList (inf (lit "o")) [lit "k"] true entry_cs). split; [right; now left|]. split; [reflexivity|].
  eapply ShList; [|apply perm_swap]. constructor; [split; [reflexivity|constructor]|]. constructor; [split; [reflexivity|constructor]|constructor].
Qed.

(* ------------------------------------------------------------------ C38 *)
(** Every member of every object in the document is named for a child of the node the object is
    for: with its plain name iff it is in the namespace of that node, else as "module:name". *)
Theorem C38_names : forall O im filter with_defaults cs kids j,
  dumps_ietf O im filter with_defaults cs kids = Ok j -> ietf_doc (fun _ _ _ => True) cs None kids j.
Proof. intros O im flt wd cs kids j. apply Json_proofs.dumps_doc; auto. Qed.
Print Assumptions C38_names.

Example C38_case : forall O, exists ms ms' x y, dumps_ietf O no_modules false WNone doc_cs doc_kids = Ok (JObj ms) /\
  assoc (lit "m:c") ms = Some (JObj ms') /\ assoc (lit "from-here") ms' = Some x /\ assoc (lit "x:b") ms' = Some y.
Proof.
  intros O. do 4 eexists. split; [vm_compute; reflexivity|]. split; [vm_compute; reflexivity|].
  split; vm_compute; reflexivity.
Qed.

(* ------------------------------------------------------------------ C39 *)
(** Full statement: 64-bit integers are always strings, booleans are booleans.  False: a typedef of
    int64 with a range is written as a number, ... *)
Theorem C39_scalars_refuted : forall O, exists levels v,
  (exists l, levels = l ++ [[rng (-9223372036854775808) 9223372036854775807]]) /\ mtype_wf (MInt levels) /\
  dumps_ietf O no_modules true WNone [SLeaf (inf (lit "a")) (LOne (pty_of (MInt levels))) None (lit "small") false] [OLeaf true (VInt v)]
  = Ok (JObj [(lit "m:a", JInt v)]).
Proof.
  intros O. exists [[rng 0 10]; [rng (-9223372036854775808) 9223372036854775807]], 5. split; [now exists [[rng 0 10]]|]. split.
  - split; [discriminate|]. split; [repeat constructor|]. split; [|split; [repeat constructor|]; split; [repeat constructor|exact I]]. repeat constructor; cbn; lia.
  - vm_compute. reflexivity.
Qed.
Print Assumptions C39_scalars_refuted.
(** ... and the members of a leaf-list of booleans are numbers. *)
Theorem C39_leaf_list_refuted : forall O,
  dumps_ietf O no_modules true WNone [SLeafList (inf (lit "a")) [pty_of MBool] (lit "boolean")]
    [OLeafList true [VBool true; VBool false]]
  = Ok (JObj [(lit "m:a", JArr [JInt 1; JInt 0])]).
Proof. intros O. vm_compute. reflexivity. Qed.
Print Assumptions C39_leaf_list_refuted.

(** Missing: integer types derived from int64 or uint64 by a typedef with a range, booleans in
    leaf-lists, unions. *)
Theorem C39_scalars_partial : forall O im filter with_defaults cs kids j,
  dumps_ietf O im filter with_defaults cs kids = Ok j -> ietf_doc (leaf_scalars O) cs None kids j.
Proof.
  intros O im flt wd cs kids j. apply Json_proofs.dumps_doc.
  - apply Json_proofs.leaf_scalars_hold.
  - apply Json_proofs.list_scalars_hold.
Qed.
Print Assumptions C39_scalars_partial.

Example C39_case : forall O, exists ms ms' mt, dumps_ietf O no_modules true WNone doc_cs doc_kids = Ok (JObj ms) /\
  assoc (lit "m:c") ms = Some (JObj ms') /\ assoc (lit "from-here") ms' = Some (JStr (lit "5")) /\ assoc (lit "t") ms' = Some (JObj mt) /\
  assoc (lit "z") mt = Some (JInt 7) /\ assoc (lit "d") mt = Some (JStr (lit "1.25")) /\
  type_name (WVal i64t) (lit "int64") /\ is_value (o_match O) i64t (VInt 5) /\ In (lit "int64") wide_names.
Proof.
  intros O. do 3 eexists. split; [vm_compute; reflexivity|]. split; [vm_compute; reflexivity|]. split; [vm_compute; reflexivity|].
  split; [vm_compute; reflexivity|]. split; [vm_compute; reflexivity|]. split; [vm_compute; reflexivity|].
  split; [known|]. split; [|cbn; tauto]. exists 5. split; [reflexivity|]. apply between. lia.
Qed.

(* ------------------------------------------------------------------ C40 *)
(** Full statement: an identity of another module is always written with that module's name.  False
    when the name of the identity begins with the name of the module, ... *)
Theorem C40_identities_refuted : forall O, exists im i v m,
  im i v = Some m /\ m <> e_mod i /\
  dumps_ietf O im true WNone [SLeaf i (LOne (pty_of (MEnum [v]))) None (lit "identityref") false] [OLeaf true (VStr v)]
  = Ok (JObj [(lit "m:id", JStr v)]).
Proof.
  intros O. exists (fun _ _ => Some (lit "eth")), (inf (lit "id")), (lit "ethernet"), (lit "eth").
  split; [reflexivity|]. split; [discriminate|vm_compute; reflexivity].
Qed.
Print Assumptions C40_identities_refuted.
(** ... and never in a leaf-list. *)
Theorem C40_leaf_list_refuted : forall O, exists im i v m,
  im i v = Some m /\ m <> e_mod i /\ startswith m v = false /\
  dumps_ietf O im true WNone [SLeafList i [pty_of (MEnum [v])] (lit "identityref")] [OLeafList true [VStr v]]
  = Ok (JObj [(lit "m:id", JArr [JStr v])]).
Proof.
  intros O. exists (fun _ _ => Some (lit "x")), (inf (lit "id")), (lit "gige"), (lit "x").
  split; [reflexivity|]. split; [discriminate|]. split; [reflexivity|vm_compute; reflexivity].
Qed.
Print Assumptions C40_leaf_list_refuted.

(** Missing: leaf-lists, and identities whose name begins with the name of their module. *)
Theorem C40_identities_partial : forall O im filter with_defaults cs kids j,
  dumps_ietf O im filter with_defaults cs kids = Ok j -> ietf_doc (identity_form im) cs None kids j.
Proof.
  intros O im flt wd cs kids j. apply Json_proofs.dumps_doc.
  - apply Json_proofs.identity_holds.
  - intros; exact I.
Qed.
Print Assumptions C40_identities_partial.

Example C40_case : forall O, let im := fun (i : einfo) s => Some (if str_eqb s (lit "gige") then lit "x" else lit "m") in
  let cs := [SLeaf (inf (lit "one")) (LOne (pty_of (MEnum [lit "gige"; lit "own"]))) None (lit "identityref") false;
             SLeaf (inf (lit "two")) (LOne (pty_of (MEnum [lit "gige"; lit "own"]))) None (lit "identityref") false] in
  dumps_ietf O im true WNone cs (run O cs [([Kid 0], assign (VStr (lit "gige"))); ([Kid 1], assign (VStr (lit "own")))])
  = Ok (JObj [(lit "m:one", JStr (lit "x:gige")); (lit "m:two", JStr (lit "own"))]) /\
  startswith (lit "x") (lit "gige") = false /\ lit "x" <> lit "m".
Proof. intros O. cbv zeta. split; [vm_compute; reflexivity|]. split; [reflexivity|discriminate]. Qed.

(* ------------------------------------------------------------------ C41 *)
(** Default format, skip_unknown. *)
Theorem C41_skip : forall O uid cs overwrite d m,
  load_json O uid cs overwrite true d m = load_json O uid cs overwrite false (cleaned false cs d) m.
Proof. exact Unknown_proofs.skip_unknown. Qed.
Print Assumptions C41_skip.
Example C41_skip_case : forall O,
  let d := JObj [(lit "nope", JInt 1); (lit "o", JObj [(lit "q", JObj [(lit "v", JInt 3); (lit "w", JInt 4)])])] in
  cleaned false doc_cs d = JObj [(lit "o", JObj [(lit "q", JObj [(lit "v", JInt 3)])])] /\
  snd (load_json O no_uid doc_cs false true d (module_new O doc_cs)) = Ok tt /\
  snd (load_json O no_uid doc_cs false false d (module_new O doc_cs)) = Raise AttributeError.
Proof. intros O. cbv zeta. split; [vm_compute; reflexivity|]. split; vm_compute; reflexivity. Qed.

(** Full statement: without skip_unknown an unknown member raises AttributeError.  False: of two
    entries of an ordered list that state the same position the first is not looked at. *)
Theorem C41_raises_refuted : forall O, exists d m',
  cleaned false doc_cs d <> d /\ load_json O no_uid doc_cs false false d (module_new O doc_cs) = (m', Ok tt).
Proof.
  intros O.
  exists (JObj [(lit "o", JObj [(lit "q", JObj [(lit "nope", JInt 4); (lit "__yang_order", JInt 0)]);
                               (lit "p", JObj [(lit "__yang_order", JInt 0)])])]).
  eexists. split; [vm_compute; discriminate|vm_compute; reflexivity].
Qed.
Print Assumptions C41_raises_refuted.

(** Missing: such entries ([unknown]); the exception is AttributeError provided the document is fine
    otherwise. *)
Theorem C41_raises_partial : forall O uid cs overwrite d m, unknown false cs d ->
  exists m' e, load_json O uid cs overwrite false d m = (m', Raise e) /\
    (forall m2, load_json O uid cs overwrite true d m = (m2, Ok tt) -> e = AttributeError).
Proof. exact Unknown_proofs.unknown_raises. Qed.
Print Assumptions C41_raises_partial.
Example C41_raises_case : forall O, let d := JObj [(lit "o", JObj [(lit "q", JObj [(lit "v", JInt 3); (lit "w", JInt 4)])])] in
  unknown false doc_cs d /\ exists m2, load_json O no_uid doc_cs false true d (module_new O doc_cs) = (m2, Ok tt).
Proof.
  intros O. cbv zeta. split; [|eexists; vm_compute; reflexivity].
  eapply (UnList _ _ _ (lit "o") _ _ _ _ [] (lit "q") _ []); [now left|reflexivity|vm_compute; reflexivity| |].
  - eapply UnHere; [right; now left|reflexivity|vm_compute; reflexivity].
  - intros _ _. constructor.
Qed.

(** IETF format.  Full statement: as above.  False: an unknown member that is an array raises even with
    skip_unknown. *)
Theorem C41_ietf_refuted : forall O, exists d m',
  cleaned_ietf doc_cs d = JObj [] /\
  load_ietf_json O no_uid doc_cs false true d (module_new O doc_cs) = (m', Raise AttributeError).
Proof.
  intros O. exists (JObj [(lit "nope", JArr [JInt 1])]). eexists. split; vm_compute; reflexivity.
Qed.
Print Assumptions C41_ietf_refuted.

(** Missing: unknown members that are arrays, objects given for leaves or leaf-lists ([fitting]). *)
Theorem C41_ietf_skip_partial : forall O uid cs, python_names cs -> keys_plain cs -> forall overwrite d m, fitting cs d ->
  load_ietf_json O uid cs overwrite true d m = load_ietf_json O uid cs overwrite false (cleaned_ietf cs d) m.
Proof. exact UnknownIetf_proofs.iskip_unknown. Qed.
Print Assumptions C41_ietf_skip_partial.
Theorem C41_ietf_raises_partial : forall O uid cs overwrite d m, unknown_ietf cs d ->
  exists m' e, load_ietf_json O uid cs overwrite false d m = (m', Raise e) /\
    (forall m2, load_ietf_json O uid cs overwrite true d m = (m2, Ok tt) -> e = AttributeError).
Proof. exact UnknownIetf_proofs.iunknown_raises. Qed.
Print Assumptions C41_ietf_raises_partial.
Example C41_ietf_case : forall O,
  let d := JObj [(lit "m:nope", JInt 1); (lit "m:o", JArr [JObj [(lit "k", JStr (lit "q")); (lit "w", JInt 4)]])] in
  python_names doc_cs /\ keys_plain doc_cs /\ fitting doc_cs d /\ unknown_ietf doc_cs d /\
  cleaned_ietf doc_cs d = JObj [(lit "m:o", JArr [JObj [(lit "k", JStr (lit "q"))]])] /\
  exists m2, load_ietf_json O no_uid doc_cs false true d (module_new O doc_cs) = (m2, Ok tt).
Proof.
  intros O. cbv zeta. split; [apply doc_names|]. split; [apply doc_keys_plain|]. split; [|split; [|split; [vm_compute; reflexivity|eexists; vm_compute; reflexivity]]].
  - constructor. constructor; [|constructor; [|constructor]].
    + right. replace (node_for _ _) with (@None schema) by (vm_compute; reflexivity). constructor. discriminate.
    + right. replace (node_for _ _) with (Some (SList (inf (lit "o")) [lit "k"] true entry_cs)) by (vm_compute; reflexivity).
      constructor. constructor; [|constructor]. constructor. constructor; [|constructor; [|constructor]].
      * right. replace (node_for _ _) with (Some (SLeaf (inf (lit "k")) (LOne (pty_of MText)) None (lit "string") true)) by (vm_compute; reflexivity).
        apply FmLeaf. discriminate.
      * right. replace (node_for _ _) with (@None schema) by (vm_compute; reflexivity). constructor. discriminate.
  - eapply (UiHere _ _ (lit "m:nope")); [now left|vm_compute; reflexivity|vm_compute; reflexivity|discriminate].
Qed.

(* ------------------------------------------------------------------ C42 *)
(** Full statement: after loading with overwrite=True a list holds exactly the entries of the
    document.  False: two entries that are not in the document are one too many, ... *)
Definition three : list (list pstep * op) := [([Kid 1], add "p"); ([Kid 1], add "q"); ([Kid 1], add "r")].
Theorem C42_overwrite_refuted : forall O, exists m',
  load_json O no_uid doc_cs true false (JObj [(lit "o", JObj [(lit "p", JObj [])])]) (run O doc_cs three) = (m', Raise RuntimeError) /\
  map fst (entries m' [Kid 1]) = [VStr (lit "p"); VStr (lit "r")].
Proof. intros O. eexists. split; vm_compute; reflexivity. Qed.
Print Assumptions C42_overwrite_refuted.
(** ... and the IETF decoder keeps the last entry of the document only. *)
Theorem C42_ietf_refuted : forall O, exists m',
  load_ietf_json O no_uid doc_cs true false
    (JObj [(lit "m:o", JArr [JObj [(lit "k", JStr (lit "p"))]; JObj [(lit "k", JStr (lit "q"))]])]) (module_new O doc_cs) = (m', Ok tt) /\
  map fst (entries m' [Kid 1]) = [VStr (lit "q")].
Proof. intros O. eexists. split; vm_compute; reflexivity. Qed.
Print Assumptions C42_ietf_refuted.

(** ... and in the entries of a list nothing is overwritten. *)
Theorem C42_nested_refuted : forall O,
  let cs := [SList (inf (lit "l")) [lit "k"] false
     [SLeaf (inf (lit "k")) (LOne (pty_of MText)) None (lit "string") true;
      SList (inf (lit "n")) [lit "k"] false [SLeaf (inf (lit "k")) (LOne (pty_of MText)) None (lit "string") true]]] in
  let q := [Kid 0; Ent (VStr (lit "a")); Kid 1] in
  exists m', load_json O no_uid cs true false (JObj [(lit "l", JObj [(lit "a", JObj [(lit "n", JObj [(lit "y", JObj [])])])])])
               (run O cs [([Kid 0], add "a"); (q, add "x")]) = (m', Ok tt) /\
    map fst (entries m' q) = [VStr (lit "x"); VStr (lit "y")].
Proof. intros O. cbv zeta. eexists. split; vm_compute; reflexivity. Qed.
Print Assumptions C42_nested_refuted.

(** Missing: the IETF format, documents for which an exception is raised, nodes in choices, lists
    inside list entries, documents with two members for one child or two entries at one position.  What the list
    held before does not matter. *)
Theorem C42_overwrite_partial : forall O uid cs, choice_free cs -> python_names cs ->
  forall skip d p entries m m', shaped cs m -> list_doc cs d p entries ->
  load_json O uid cs true skip d m = (m', Ok tt) ->
  exists ch es, at_path m' p = Some (OList ch es) /\
    (forall k, In k (map fst es) <-> exists t, k = VStr t /\ In t (map fst entries)).
Proof. exact Overwrite_proofs.overwrite_keys. Qed.
Print Assumptions C42_overwrite_partial.
Example C42_case : forall O,
  let d := JObj [(lit "c", JObj [(lit "l", JObj [(lit "new", JObj [(lit "v", JInt 1)])])]); (lit "o", JObj [(lit "q", JObj [])])] in
  list_doc doc_cs d [Kid 0; Kid 3] [(lit "new", JObj [(lit "v", JInt 1)])] /\
  list_doc doc_cs d [Kid 1] [(lit "q", JObj [])] /\ shaped doc_cs (run O doc_cs doc_ops) /\
  map fst (entries (run O doc_cs doc_ops) [Kid 0; Kid 3]) = [VStr (lit "one")] /\
  map fst (entries (run O doc_cs doc_ops) [Kid 1]) = [VStr (lit "q"); VStr (lit "p")] /\
  exists m', load_json O no_uid doc_cs true false d (run O doc_cs doc_ops) = (m', Ok tt).
Proof.
  intros O. cbv zeta. split; [|split; [|split; [apply run_shaped|split; [vm_compute; reflexivity|split; [vm_compute; reflexivity|eexists; vm_compute; reflexivity]]]]].
  - eapply (LdBelow _ _ (lit "c")); [repeat constructor; cbn; intuition discriminate|now left|reflexivity|reflexivity|].
    eapply (LdHere _ _ (lit "l")); [repeat constructor; cbn; intuition discriminate|now left|reflexivity|reflexivity|discriminate| |discriminate].
    constructor; [now eexists|constructor].
  - eapply (LdHere _ _ (lit "o")); [repeat constructor; cbn; intuition discriminate|right; now left|reflexivity|reflexivity|discriminate| |].
    + constructor; [now eexists|constructor].
    + intros _ es1 e es2 E. destruct es1 as [|a es1]; [injection E as <- <-; intros _; constructor|]. destruct es1; discriminate.
Qed.

(* ------------------------------------------------------------------ C45 *)
(** Full statement: with WithDefaults.IF_SET a leaf is written iff it was set.  False: a leaf whose
    value is equal to False, such as an integer that was never set, is written. *)
Theorem C45_if_set_refuted : forall O,
  let cs := [leaf "a" u8t "uint8"] in
  at_path (module_new O cs) [Kid 0] = Some (OLeaf false (VInt 0)) /\
  dumps_ietf O no_modules true WIfSet cs (module_new O cs) = Ok (JObj [(lit "m:a", JInt 0)]).
Proof. intros O. cbv zeta. split; vm_compute; reflexivity. Qed.
Print Assumptions C45_if_set_refuted.

(** Missing: leaves that are not set and whose value is equal to the default, or to False if there is none; those are
    written. *)
Theorem C45_if_set_partial : forall O im filter cs kids j p i lt d yt key ch v,
  python_names cs -> yang_names cs -> dumps_ietf O im filter WIfSet cs kids = Ok j ->
  schema_at cs p = Some (SLeaf i lt d yt key) -> at_path kids p = Some (OLeaf ch v) ->
  py_eq (default_of d) v = false ->
  (written None cs kids p j <> None <-> ch = true).
Proof.
  intros O im flt cs kids j p i lt d yt key ch v Hn Hy Hd Hs Ha He.
  rewrite (Emit_proofs.leaf_emitted O im flt WIfSet cs kids j p i lt d yt key ch v Hn Hy Hd Hs Ha).
  unfold Emit_proofs.emits. now rewrite He, Bool.orb_false_r.
Qed.
Print Assumptions C45_if_set_partial.
(** Without with_defaults, for comparison: written iff set, or all of them without the filter. *)
Theorem C45_filter : forall O im filter cs kids j p i lt d yt key ch v,
  python_names cs -> yang_names cs -> dumps_ietf O im filter WNone cs kids = Ok j ->
  schema_at cs p = Some (SLeaf i lt d yt key) -> at_path kids p = Some (OLeaf ch v) ->
  (written None cs kids p j <> None <-> filter = false \/ ch = true).
Proof.
  intros O im flt cs kids j p i lt d yt key ch v Hn Hy Hd Hs Ha.
  rewrite (Emit_proofs.leaf_emitted O im flt WNone cs kids j p i lt d yt key ch v Hn Hy Hd Hs Ha).
  unfold Emit_proofs.emits. destruct flt, ch; cbn; intuition discriminate.
Qed.
Print Assumptions C45_filter.
Example C45_case : forall O, exists j, dumps_ietf O no_modules true WIfSet doc_cs doc_kids = Ok j /\
  at_path doc_kids [Kid 1; Ent (VStr (lit "p")); Kid 1] = Some (OLeaf true (VInt 3)) /\ py_eq (VBool false) (VInt 3) = false /\
  written None doc_cs doc_kids [Kid 1; Ent (VStr (lit "p")); Kid 1] j = Some (JInt 3) /\
  at_path doc_kids [Kid 0; Kid 1] = Some (OLeaf false (VStr [])) /\ py_eq (VStr (lit "x")) (VStr []) = false /\
  written None doc_cs doc_kids [Kid 0; Kid 1] j = None.
Proof.
  intros O. eexists. split; [vm_compute; reflexivity|]. split; [reflexivity|]. split; [reflexivity|]. split; [vm_compute; reflexivity|].
  split; [reflexivity|]. split; [reflexivity|]. vm_compute. reflexivity.
Qed.

(* ------------------------------------------------------------------ C58 *)
(** Full statement: a decimal64 comes back from loads(dumps(.)) as it was.  False: a float does not have
    all decimals of 19 digits, ... *)
Definition dec_cs (t : pty) : list schema := [SLeaf (inf (lit "d")) (LOne t) None (lit "decimal64") false].
Theorem C58_decimals_refuted : forall O, exists n q q' j,
  - 2 ^ 63 <= q < 2 ^ 63 /\ q <> q' /\
  dumps O no_modules (dec_cs (TDecPrec n)) (run O (dec_cs (TDecPrec n)) [([Kid 0], assign (VDec q (- n)))]) = Ok j /\
  loads O no_uid (dec_cs (TDecPrec n)) j = ([OLeaf true (VDec q' (- n))], Ok tt).
Proof.
  intros O. exists 1, 90071992547409933. eexists _, _. split; [lia|]. split; [|split; [vm_compute; reflexivity|vm_compute; reflexivity]].
  vm_compute. discriminate.
Qed.
Print Assumptions C58_decimals_refuted.

(** ... and a decimal64 with a range has no precision at all: 0.1 comes back with 55 digits. *)
Theorem C58_ranged_refuted : forall O, let cs := dec_cs (TRestr TDecimal [RRange [lit "0..10"]]) in exists v j,
  dumps O no_modules cs (run O cs [([Kid 0], assign (VDec 1 (-1)))]) = Ok j /\
  loads O no_uid cs j = ([OLeaf true v], Ok tt) /\ py_eq (VDec 1 (-1)) v = false.
Proof. intros O. cbv zeta. eexists _, _. split; [vm_compute; reflexivity|]. split; vm_compute; reflexivity. Qed.
Print Assumptions C58_ranged_refuted.

(** Missing: values of 2^52 and more units of the last digit, types with a range. *)
Theorem C58_decimals_partial : forall O im uid n q,
  0 <= n -> Z.abs q < 2 ^ 52 ->
  exists j, dumps O im (dec_cs (pty_of (MDec n))) [OLeaf true (VDec q (- n))] = Ok j /\
    get_kids true (dec_cs (pty_of (MDec n))) (fst (loads O uid (dec_cs (pty_of (MDec n))) j)) = [(lit "d", DLeaf (VDec q (- n)))].
Proof.
  intros O im uid n q Hn Hq.
  destruct (Serialise_proofs.plain_round_trip O im uid (dec_cs (pty_of (MDec n))) [OLeaf true (VDec q (- n))]) as (j & m' & Hd & Hl & Hg).
  - apply Load_proofs.choice_free_keys, Serialise_cases.choice_free_by. reflexivity.
  - apply Load_proofs.choice_free_unrivalled, Serialise_cases.choice_free_by. reflexivity.
  - apply Serialise_cases.names_by. vm_compute. reflexivity.
  - constructor; [|constructor]. apply leaf_storable. intros _. split; [known|]. split; [exact I|]. split; [now exists q|]. split; assumption.
  - exists j. split; [exact Hd|]. rewrite Hl. exact Hg.
Qed.
Print Assumptions C58_decimals_partial.
Example C58_case : forall O, 0 <= 2 /\ Z.abs 12345 < 2 ^ 52 /\
  run O (dec_cs (pty_of (MDec 2))) [([Kid 0], assign (VStr (lit "123.45")))] = [OLeaf true (VDec 12345 (- (2)))].
Proof. intros O. split; [lia|]. split; [lia|vm_compute; reflexivity]. Qed.
