(** Property theorems: programs whose data survives being written and read (C73). *)
From Verif Require Import PyStr PyStr_facts PyVal Restricted IntTypes StrTypes SafeName Spec_Types Spec_Lists TypedList MemberTypes Bits YList
  Tree Spec_Tree Serialise Spec_Serialise Xml Spec_Xml Spec_Stored Spec_StoredXml.
From Verif Require Stored_proofs StoredXml_proofs Serialise_cases Tree_cases.
From Verif Require Import Props_Serialise.
From Coq Require Import Lia.
Import ListNotations.
Local Open Scope Z_scope.

(* ------------------------------------------------------------------ C73 *)
(** C35 and C36 ask the tree for what survives.  Here it is asked of the program: each operation is an assignment of a
    value of the leaf's type (or of a text for it), a clearing, an operation on a leaf-list, the addition of an entry
    under a key that spells its key leaves, a deletion, or _set_present(); each may be refused.  Whatever the order,
    the data is the same after dumps and loads. *)
Theorem C73_json : forall O im uid cs os,
  Forall suited cs -> leaf_keys cs -> uniform cs -> own_choices cs -> python_names cs ->
  program O Plain cs os ->
  exists j m', dumps O im cs (module_run O cs (module_new O cs) os) = Ok j /\ loads O uid cs j = (m', Ok tt) /\
    get_kids true cs m' = get_kids true cs (module_run O cs (module_new O cs) os).
Proof. exact Stored_proofs.plain_programs. Qed.
Print Assumptions C73_json.
Theorem C73_ietf : forall O im uid cs os, (forall i s m, im i s = Some m -> no_colon m) ->
  Forall suited cs -> leaf_keys cs -> uniform cs -> own_choices cs -> python_names cs -> ietf_names cs -> key_leaves cs ->
  program O Ietf cs os ->
  exists j m', dumps_ietf O im true WNone cs (module_run O cs (module_new O cs) os) = Ok j /\ loads_ietf O uid cs j = (m', Ok tt) /\
    get_kids true cs m' = get_kids true cs (module_run O cs (module_new O cs) os).
Proof. exact Stored_proofs.ietf_programs. Qed.
Print Assumptions C73_ietf.
(** The same for XML documents. *)
Theorem C73_xml : forall O ft im ins uid ns name cs os,
  Forall suited cs -> leaf_keys cs -> uniform cs -> own_choices cs -> python_names cs -> key_leaves cs ->
  xprogram O ft im ins cs os ->
  exists e m', encode O im ins true ns name cs (module_run O cs (module_new O cs) os) = Ok e /\ decode O ft uid cs e = (m', Ok tt) /\
    get_kids true cs m' = get_kids true cs (module_run O cs (module_new O cs) os).
Proof. exact StoredXml_proofs.xml_programs. Qed.
Print Assumptions C73_xml.

(** container c { presence; choice ch { case x { leaf a (uint8); } case y { leaf-list e (enumeration);
      list m { key "name no"; leaf name; leaf no (int64); leaf d (decimal64); } } } leaf s { length "2..4"; } leaf u (union of uint8 and string); leaf b (bits); }
    c.a = 7; c.a = "300"; c.e.append("left"); c.e.append("up"); c.s = "abc"; c.s = "x"; c.u = 9; c.b = "up on"; c.m.add("k 5");
    c.m.add(name="z", no="-6"); c.m["k 5"].d = 1.25; c.m["k 5"].name = "q"; c.m.delete("z -6") *)
Definition st_flags : list (str * str) := [(lit "up", lit "0"); (lit "on", lit "1")].
Definition st_enum : mtype := MEnum [lit "up"; lit "down"].
Definition st_text : mtype := MStr [[SLength [rng 2 4]]].
Definition st_entry : list schema :=
  [SLeaf (cased "ch" "y" "name") (LOne (pty_of MText)) None (lit "string") true;
   SLeaf (cased "ch" "y" "no") (LOne (pty_of i64t)) None (lit "int64") true; case_leaf "ch" "y" "d" (MDec 2) "decimal64"].
Definition st_cs : list schema :=
  [SCont (inf (lit "c")) true
     [case_leaf "ch" "x" "a" u8t "uint8"; SLeafList (cased "ch" "y" "e") [pty_of st_enum] (lit "enumeration"); leaf "s" st_text "string";
      SLeaf (inf (lit "u")) (ltype_of (WUnion [u8t; MText])) None (lit "union") false;
      SLeaf (inf (lit "b")) (ltype_of (WBits st_flags)) None (lit "bits") false;
      SList (cased "ch" "y" "m") [lit "name"; lit "no"] false st_entry]].
Definition st_ops : list (list pstep * op) :=
  let e := Ent (VStr (lit "k 5")) in
  [([Kid 0; Kid 0], assign (VInt 7)); ([Kid 0; Kid 0], assign (VStr (lit "300")));
   ([Kid 0; Kid 1], ALeafList (LAppend (VStr (lit "left")))); ([Kid 0; Kid 1], ALeafList (LAppend (VStr (lit "up"))));
   ([Kid 0; Kid 2], assign (VStr (lit "abc"))); ([Kid 0; Kid 2], assign (VStr (lit "x"))); ([Kid 0; Kid 3], assign (VInt 9));
   ([Kid 0; Kid 4], assign (VStr (lit "up on"))); ([Kid 0; Kid 5], add "k 5");
   ([Kid 0; Kid 5], AList [] (YAddKw [(lit "no", VStr (lit "-6")); (lit "name", VStr (lit "z"))]));
   ([Kid 0; Kid 5; e; Kid 2], assign (VDec 125 (-2))); ([Kid 0; Kid 5; e; Kid 0], assign (VStr (lit "q")));
   ([Kid 0; Kid 5], AList [] (YDelete (VStr (lit "z -6"))))].

Lemma st_name O f n a : n = lit "name" -> key_arg O f st_entry n (VStr a) (fun t yt v => match f with Plain => key_part t v a | Ietf => ietf_text t yt v a end).
Proof.
  intros ->. exists 0%nat, (cased "ch" "y" "name"), MText, None, (lit "string"), (VStr a). split; [reflexivity|]. split; [reflexivity|].
  split; [|destruct f; [reflexivity|split; [discriminate|reflexivity]]].
  split; [exact I|]. split; [exact I|]. split; [known|]. split; [split; [now exists a|reflexivity]|]. intros _. apply text_value.
Qed.
Lemma st_no O f n z : n = lit "no" -> key_arg O f st_entry n (VStr (print_Z z)) (fun t yt v => match f with Plain => key_part t v (print_Z z) | Ietf => ietf_text t yt v (print_Z z) end).
Proof.
  intros ->. exists 1%nat, (cased "ch" "y" "no"), i64t, None, (lit "int64"), (VInt z). split; [reflexivity|]. split; [reflexivity|].
  split; [|destruct f; exists z; split; reflexivity].
  split; [apply i64_ok|]. split; [cbn; lia|]. split; [known|]. split; [exists z; auto|]. intros H. now split.
Qed.
Lemma st_key O f a z p : p = print_Z z -> no_space a -> no_space p -> last (join [32%N] [a; p]) 0%N <> 32%N ->
  key_texts O f [lit "name"; lit "no"] st_entry [a; p].
Proof.
  intros -> Ha Hz Hl. destruct f.
  - split; [repeat constructor; assumption|]. constructor; [exact (st_name O Plain _ a eq_refl)|]. constructor; [exact (st_no O Plain _ z eq_refl)|constructor].
  - split; [exact Hl|]. split; [repeat constructor; assumption|].
    constructor; [exact (st_name O Ietf _ a eq_refl)|]. constructor; [exact (st_no O Ietf _ z eq_refl)|constructor].
Qed.
Ltac st_leaf := split; [vm_compute; reflexivity|].
Lemma st_num O f i d yt k z a : type_name (WVal u8t) yt -> a = VInt z \/ a = VStr (print_Z z) -> k = false ->
  proper O f (SLeaf i (LOne (pty_of u8t)) d yt k) (assign a).
Proof.
  intros Hn Ha ->. apply (PrLeaf O f i u8t d yt false Attr a (VInt z)); [|discriminate]. split; [apply u8_ok|]. split; [cbn; lia|]. split; [exact Hn|].
  split; [exists z; auto|]. intros H. now split.
Qed.
Lemma st_word O f s : proper O f (leaf "s" st_text "string") (assign (VStr s)).
Proof.
  apply (PrLeaf O f (inf (lit "s")) st_text None (lit "string") false Attr (VStr s) (VStr s)); [|discriminate].
  split; [split; [discriminate|split; [repeat constructor; discriminate|now left]]|]. split; [exact I|]. split; [known|].
  split; [split; [now exists s|reflexivity]|]. intros H. now split.
Qed.
Lemma st_member O f i s : proper O f (SLeafList i [pty_of st_enum] (lit "enumeration")) (ALeafList (LAppend (VStr s))).
Proof.
  apply PrMember; [exact I|]. constructor; [|constructor]. split; [now exists s|]. intros H. split; [|exact I]. split; [exact H|]. discriminate.
Qed.
Lemma st_program O f : program O f st_cs st_ops.
Proof.
  unfold program, st_ops. constructor; [|constructor; [|constructor; [|constructor; [|constructor; [|constructor; [|constructor; [|constructor; [|constructor; [|constructor; [|constructor; [|constructor; [|constructor; [|constructor]]]]]]]]]]]]];
    cbn [fst snd].
  - eexists. st_leaf. apply (st_num O f _ _ _ _ 7); [known|now left|reflexivity].
  - eexists. st_leaf. apply (st_num O f _ _ _ _ 300); [known|right; reflexivity|reflexivity].
  - eexists. st_leaf. apply st_member.
  - eexists. st_leaf. apply st_member.
  - eexists. st_leaf. apply st_word.
  - eexists. st_leaf. apply st_word.
  - eexists. st_leaf. apply (PrOwn O f (inf (lit "u")) (WUnion [u8t; MText]) None (lit "union") false Attr (VInt 9) (VInt 9)).
    + right. cbn. intuition discriminate.
    + exists u8t. split; [now left|]. split; [vm_compute; reflexivity|]. split; [apply u8_ok|]. split; [exists 9; split; [reflexivity|apply between; lia]|].
      right. right. cbn. tauto.
    + reflexivity.
    + discriminate.
  - eexists. st_leaf. apply (PrOwn O f (inf (lit "b")) (WBits st_flags) None (lit "bits") false Attr (VStr (lit "up on")) (VBits [lit "up"; lit "on"])).
    + right. cbn. intuition discriminate.
    + exists [lit "up"; lit "on"]. split; [reflexivity|]. split; [split; [repeat constructor; cbn; intuition discriminate|]; cbn; tauto|].
      split; [repeat constructor; discriminate|reflexivity].
    + exists [lit "up"; lit "on"]. split; reflexivity.
    + discriminate.
  - eexists. st_leaf. apply PrAdd. left. exists [lit "k"; lit "5"]. split; [reflexivity|].
    apply (st_key O f (lit "k") 5); [reflexivity| | |]; vm_compute; intuition discriminate.
  - eexists. st_leaf. apply (PrAddKw O f _ _ _ _ _ _ [lit "z"; lit "-6"]).
    + constructor; [reflexivity|]. constructor; [reflexivity|constructor].
    + apply (st_key O f (lit "z") (-6)); [reflexivity| | |]; vm_compute; intuition discriminate.
  - eexists. st_leaf. apply (PrOwn O f (cased "ch" "y" "d") (WVal (MDec 2)) None (lit "decimal64") false Attr (VDec 125 (-2)) (VDec 125 (-2))).
    + known.
    + split; [exact I|]. split; [now exists 125|]. split; [lia|]. destruct f; reflexivity.
    + reflexivity.
    + discriminate.
  - eexists. st_leaf. apply (PrOwn O f (cased "ch" "y" "name") (WVal MText) None (lit "string") true Attr (VStr (lit "q")) (VStr (lit "q"))).
    + known.
    + split; [exact I|]. apply text_value.
    + reflexivity.
    + discriminate.
  - eexists. st_leaf. apply PrDelete.
Qed.
Lemma st_suited : Forall suited st_cs.
Proof.
  constructor; [|constructor]. constructor. constructor; [apply (SuLeaf _ (WVal u8t))|]. constructor; [apply (SuLeafList _ st_enum); [exact I|discriminate]|].
  constructor; [apply (SuLeaf _ (WVal st_text))|]. constructor; [apply SuLeaf|]. constructor; [apply SuLeaf|]. constructor; [|constructor].
  apply SuList; [discriminate|repeat constructor; cbn; intuition discriminate| |].
  - constructor; [apply (SuLeaf _ (WVal MText))|]. constructor; [apply (SuLeaf _ (WVal i64t))|]. constructor; [apply (SuLeaf _ (WVal (MDec 2)))|constructor].
  - intros s Hs. cbn in Hs. destruct Hs as [<-|[<-|[<-|[]]]]; try reflexivity. vm_compute. intuition discriminate.
Qed.
Example C73_case : forall O,
  Forall suited st_cs /\ leaf_keys st_cs /\ uniform st_cs /\ own_choices st_cs /\ python_names st_cs /\ ietf_names st_cs /\
  key_leaves st_cs /\ program O Plain st_cs st_ops /\ program O Ietf st_cs st_ops /\
  get_kids true st_cs (run O st_cs st_ops) =
    [(lit "c", DDict [(lit "e", DLeafList [VStr (lit "up")]); (lit "s", DLeaf (VStr (lit "abc"))); (lit "u", DLeaf (VInt 9));
                      (lit "b", DLeaf (VBits [lit "up"; lit "on"]));
                      (lit "m", DList [(VStr (lit "k 5"), DDict [(lit "name", DLeaf (VStr (lit "k"))); (lit "no", DLeaf (VInt 5)); (lit "d", DLeaf (VDec 125 (-2)))])])])].
Proof.
  intros O. destruct (Serialise_cases.choices_by st_cs) as [H4 H5]; [vm_compute; reflexivity|].
  split; [exact st_suited|].
  split; [apply Tree_cases.keyed_leaf_keys; vm_compute; reflexivity|]. split; [exact H4|]. split; [exact H5|].
  split; [apply Serialise_cases.names_by; vm_compute; reflexivity|]. split; [apply Serialise_cases.ietf_names_by; vm_compute; reflexivity|].
  split; [apply Serialise_cases.key_leaves_by; vm_compute; reflexivity|]. split; [apply st_program|]. split; [apply st_program|].
  vm_compute. reflexivity.
Qed.

(** The same program, with strings that XML has, and an entry with a space in its key added by keyword. *)
Definition st_xops : list (list pstep * op) :=
  st_ops ++ [([Kid 0; Kid 5], AList [] (YAddKw [(lit "name", VStr (lit "a b")); (lit "no", VStr (lit "7"))]))].
Definition st_ft : str -> option pyval := fun _ => None.
Ltac xml_letters := repeat (apply Forall_cons; [unfold xml_letter; do 3 right; left; vm_compute; split; discriminate|]); apply Forall_nil.
Lemma st_xname O a : xml_text a -> py_str O (objectified st_ft a) = a ->
  key_arg O Ietf st_entry (lit "name") (VStr a) (fun t yt v => yt <> lit "identityref" /\ xkey_part O st_ft t v a).
Proof.
  intros Hx Ha. exists 0%nat, (cased "ch" "y" "name"), MText, None, (lit "string"), (VStr a). split; [reflexivity|]. split; [reflexivity|].
  split; [|split; [discriminate|split; [exact Hx|split; [reflexivity|exact Ha]]]].
  split; [exact I|]. split; [exact I|]. split; [known|]. split; [split; [now exists a|reflexivity]|]. intros _. apply text_value.
Qed.
Lemma st_xno O z p : p = print_Z z -> xml_text p ->
  key_arg O Ietf st_entry (lit "no") (VStr p) (fun t yt v => yt <> lit "identityref" /\ xkey_part O st_ft t v p).
Proof.
  intros -> Hx. exists 1%nat, (cased "ch" "y" "no"), i64t, None, (lit "int64"), (VInt z). split; [reflexivity|]. split; [reflexivity|].
  split; [|split; [discriminate|split; [exact Hx|exists z; split; reflexivity]]].
  split; [apply i64_ok|]. split; [cbn; lia|]. split; [known|]. split; [exists z; auto|]. intros H. now split.
Qed.
Lemma st_xnum O im ins i d z a : a = VInt z \/ a = VStr (print_Z z) ->
  xproper O st_ft im ins (SLeaf i (LOne (pty_of u8t)) d (lit "uint8") false) (assign a).
Proof.
  intros Ha. apply (XpLeaf O st_ft im ins i u8t d (lit "uint8") Attr a (VInt z)). split; [apply u8_ok|]. split; [cbn; lia|]. split; [known|].
  split; [exists z; auto|]. intros H. split; [apply u8_ok|]. split; [now split|]. split; [discriminate|]. split; [discriminate|]. discriminate.
Qed.
Lemma st_xword O im ins s : s <> [] -> xml_text s -> xproper O st_ft im ins (leaf "s" st_text "string") (assign (VStr s)).
Proof.
  intros Hs Hx. apply (XpLeaf O st_ft im ins (inf (lit "s")) st_text None (lit "string") Attr (VStr s) (VStr s)).
  assert (Hw : mtype_wf st_text) by (split; [discriminate|split; [repeat constructor; discriminate|now left]]).
  split; [exact Hw|]. split; [exact I|]. split; [known|].
  split; [split; [now exists s|reflexivity]|]. intros H. split; [exact Hw|]. split; [now split|]. split; [discriminate|]. split; [|discriminate].
  intros w E. injection E as <-. now split.
Qed.
Lemma st_xmember O im ins i s : py_str O (objectified st_ft s) = s -> xml_text s ->
  xproper O st_ft im ins (SLeafList i [pty_of st_enum] (lit "enumeration")) (ALeafList (LAppend (VStr s))).
Proof.
  intros Hs Hx. apply XpMember; [exact I|discriminate|]. constructor; [|constructor]. split; [now exists s|]. intros H. split; [|split; [discriminate|split]].
  - split; [exact H|]. discriminate.
  - intros w E. injection E as <-. exact Hx.
  - exists s. now split.
Qed.
Lemma st_xprogram O im ins : xprogram O st_ft im ins st_cs st_xops.
Proof.
  unfold xprogram, st_xops, st_ops. cbn [app]. constructor; [|constructor; [|constructor; [|constructor; [|constructor; [|constructor; [|constructor; [|constructor; [|constructor; [|constructor; [|constructor; [|constructor; [|constructor; [|constructor; [|constructor]]]]]]]]]]]]]];
    cbn [fst snd].
  - eexists. st_leaf. apply (st_xnum O im ins _ _ 7). now left.
  - eexists. st_leaf. apply (st_xnum O im ins _ _ 300). now right.
  - eexists. st_leaf. apply st_xmember; [vm_compute; reflexivity|xml_letters].
  - eexists. st_leaf. apply st_xmember; [vm_compute; reflexivity|xml_letters].
  - eexists. st_leaf. apply st_xword; [discriminate|xml_letters].
  - eexists. st_leaf. apply st_xword; [discriminate|xml_letters].
  - eexists. st_leaf. apply (XpOwn O st_ft im ins (inf (lit "u")) (WUnion [u8t; MText]) None (lit "union") Attr (VInt 9) (VInt 9)).
    + right. cbn. intuition discriminate.
    + exists u8t, (lit "9"). split; [now left|]. split; [vm_compute; reflexivity|]. split; [vm_compute; reflexivity|]. split; [apply u8_ok|].
      split; [split; [exists 9; split; [reflexivity|apply between; lia]|exact I]|]. split; [reflexivity|]. split; [discriminate|xml_letters].
    + reflexivity.
  - eexists. st_leaf. apply (XpOwn O st_ft im ins (inf (lit "b")) (WBits st_flags) None (lit "bits") Attr (VStr (lit "up on")) (VBits [lit "up"; lit "on"])).
    + right. cbn. intuition discriminate.
    + exists [lit "up"; lit "on"]. split; [reflexivity|]. split; [discriminate|]. split; [split; [repeat constructor; cbn; intuition discriminate|]; cbn; tauto|].
      split; [repeat constructor; discriminate|]. split; [reflexivity|]. apply Forall_cons; [xml_letters|]. apply Forall_cons; [xml_letters|apply Forall_nil].
    + exists [lit "up"; lit "on"]. split; reflexivity.
  - eexists. st_leaf. apply (XpAdd O st_ft im ins _ _ _ _ _ [lit "k"; lit "5"]); [repeat constructor; vm_compute; intuition discriminate|].
    constructor; [apply st_xname; [xml_letters|vm_compute; reflexivity]|]. constructor; [apply (st_xno O 5); [reflexivity|xml_letters]|constructor].
  - eexists. st_leaf. apply (XpAddKw O st_ft im ins _ _ _ _ _ _ [lit "z"; lit "-6"]).
    + constructor; [reflexivity|]. constructor; [reflexivity|constructor].
    + constructor; [apply st_xname; [xml_letters|vm_compute; reflexivity]|]. constructor; [apply (st_xno O (-6)); [reflexivity|xml_letters]|constructor].
  - eexists. st_leaf. apply (XpOwn O st_ft im ins (cased "ch" "y" "d") (WVal (MDec 2)) None (lit "decimal64") Attr (VDec 125 (-2)) (VDec 125 (-2))).
    + known.
    + split; [exact I|]. split; [split; [now exists 125|]; split; [lia|reflexivity]|]. split; [discriminate|]. split; discriminate.
    + reflexivity.
  - eexists. st_leaf. apply XpKey. discriminate.
  - eexists. st_leaf. apply XpDelete.
  - eexists. st_leaf. apply (XpAddKw O st_ft im ins _ _ _ _ _ _ [lit "a b"; lit "7"]).
    + constructor; [reflexivity|]. constructor; [reflexivity|constructor].
    + constructor; [apply st_xname; [xml_letters|vm_compute; reflexivity]|]. constructor; [apply (st_xno O 7); [reflexivity|xml_letters]|constructor].
Qed.
Example C73_xml_case : forall O im ins,
  xprogram O st_ft im ins st_cs st_xops /\
  get_kids true st_cs (run O st_cs st_xops) =
    [(lit "c", DDict [(lit "e", DLeafList [VStr (lit "up")]); (lit "s", DLeaf (VStr (lit "abc"))); (lit "u", DLeaf (VInt 9));
                      (lit "b", DLeaf (VBits [lit "up"; lit "on"]));
                      (lit "m", DList [(VStr (lit "k 5"), DDict [(lit "name", DLeaf (VStr (lit "k"))); (lit "no", DLeaf (VInt 5)); (lit "d", DLeaf (VDec 125 (-2)))]);
                                       (VStr (lit "a b 7"), DDict [(lit "name", DLeaf (VStr (lit "a b"))); (lit "no", DLeaf (VInt 7))])])])].
Proof. intros O im ins. split; [apply st_xprogram|vm_compute; reflexivity]. Qed.
