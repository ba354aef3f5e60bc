(** Property theorems about the values a tree holds: C72. *)
From Verif Require Import PyStr PyStr_facts PyVal Restricted IntTypes StrTypes MemberTypes SafeName Spec_Types Spec_Lists TypedList YList
  Tree Spec_Tree Serialise Spec_Serialise Xml Spec_Loading Spec_Values.
From Verif Require ValuesMain_proofs.
From Verif Require Import Props_Serialise Props_Loading.
From Coq Require Import Lia.
Import ListNotations.
Local Open Scope Z_scope.

(* ------------------------------------------------------------------ C72 *)
(** Full statement: a leaf that is set holds a value of its type.  False, also when the value comes out of a document:
    a text that is no number becomes 0, ... *)
Theorem C72_loaded_refuted : forall O uid, exists cs d m' i t dv yt v,
  cs = [SLeaf i (LOne (pty_of t)) dv yt false] /\ mtype_wf t /\
  load_json O uid cs false false d (module_new O cs) = (m', Ok tt) /\ at_path m' [Kid 0] = Some (OLeaf true v) /\ ~ is_value (o_match O) t v.
Proof.
  intros O uid. exists [leaf "port" (MInt [[rng 1024 65535]; [rng 0 65535]]) "inet:port"], (JObj [(lit "port", JStr (lit "http"))]).
  do 6 eexists. split; [reflexivity|]. split.
  { split; [discriminate|]. cbn [levels_wf]. repeat split; repeat constructor; cbn; try lia. }
  split; [vm_compute; reflexivity|]. split; [vm_compute; reflexivity|].
  cbn. intros (z & E & H). injection E as <-. inversion H as [|? ? H1 _]; subst. inversion H1 as [? ? H2|? ? H2]; [cbn in H2; lia|inversion H2].
Qed.
Print Assumptions C72_loaded_refuted.

(** ... and false for a leaf with a string type that is restricted twice becomes the text "False", checked only at the
    innermost level. *)
Theorem C72_text_refuted : forall O uid, exists cs d m' i t dv yt v,
  cs = [SLeaf i (LOne (pty_of t)) dv yt false] /\ mtype_wf t /\
  load_json O uid cs false false d (module_new O cs) = (m', Ok tt) /\ at_path m' [Kid 0] = Some (OLeaf true v) /\
  ~ is_value (o_match O) t v /\ ~ blank t v.
Proof.
  intros O uid. exists [leaf "code" (MStr [[SLength [rng 1 3]]; [SLength [rng 1 10]]]) "code"], (JObj [(lit "code", JBool false)]).
  do 6 eexists. split; [reflexivity|]. split.
  { split; [discriminate|]. split; [repeat constructor; try discriminate|]. right. repeat constructor. }
  split; [vm_compute; reflexivity|]. split; [vm_compute; reflexivity|]. split.
  - cbn [is_value]. intros (s & E & H). injection E as <-. inversion H as [|? ? H1 _]; subst. inversion H1 as [|? ? H2 _]; subst.
    cbn [sat] in H2. inversion H2 as [? ? H3|? ? H3]; [cbn in H3; lia|inversion H3].
  - cbn. discriminate.
Qed.
Print Assumptions C72_text_refuted.

(** Whatever is done to a module object - operations of all kinds with any arguments, also whole objects, whether or not
    they raise, and documents of all three formats, whether or not they are accepted - each leaf that is set holds a value
    of its type, or the value that stands for "no such value", and each leaf that is not set holds what it held at the
    start.  Missing: the "no such value" of integers, restricted strings and decimals; strings restricted by more than one
    typedef; unions of types restricted by more than one typedef; where leafrefs lead (C48). *)
Theorem C72_leaves_partial : forall O ft uid cs l q i w d yt k ch v,
  schema_at cs q = Some (SLeaf i (ltype_of w) d yt k) -> at_path (after O ft uid cs l) q = Some (OLeaf ch v) ->
  if ch then holds (o_match O) w v else start w v.
Proof. exact ValuesMain_proofs.leaves_hold. Qed.
Print Assumptions C72_leaves_partial.
(** The members of leaf-lists are values of (one of) their types.  Missing: types restricted by more than one typedef, bits
    and leafrefs as members. *)
Theorem C72_members_partial : forall O ft uid cs l q i ts yt ch vs,
  schema_at cs q = Some (SLeafList i (map pty_of ts) yt) -> at_path (after O ft uid cs l) q = Some (OLeafList ch vs) ->
  Forall mtype_wf ts -> Forall one_level ts -> Forall (fun v => exists t, In t ts /\ is_value (o_match O) t v) vs.
Proof. exact ValuesMain_proofs.members_hold. Qed.
Print Assumptions C72_members_partial.

(** container c { leaf n { type uint8; } leaf s { type string { length "2..4"; } } leaf u { type union { uint8; boolean; } }
                  leaf b { type bits { r; w; } } leaf-list e { enumeration up, down } list m { key k; leaf k; leaf d decimal64 } }
    Operations and documents of all kinds, several of them refused or refused half-way. *)
Definition hv_cs : list schema :=
  [SCont (inf (lit "c")) false
     [leaf "n" u8t "uint8"; leaf "s" (MStr [[SLength [rng 2 4]]]) "string";
      SLeaf (inf (lit "u")) (ltype_of (WUnion [u8t; MBool])) None (lit "union") false;
      SLeaf (inf (lit "b")) (ltype_of (WBits [(lit "r", lit "0"); (lit "w", lit "1")])) None (lit "bits") false;
      SLeafList (inf (lit "e")) (map pty_of [MEnum [lit "up"; lit "down"]]) (lit "enumeration");
      SList (inf (lit "m")) [lit "k"] false
        [SLeaf (inf (lit "k")) (LOne (pty_of MText)) None (lit "string") true; leaf "d" (MDec 2) "decimal64"]]].
Definition hv_deeds : list deed :=
  [Do [Kid 0; Kid 0] (ASet Attr (AVal (VInt 7))); Do [Kid 0; Kid 0] (ASet Attr (AVal (VInt 300)));
   LoadJson false false (JObj [(lit "c", JObj [(lit "s", JStr (lit "abc")); (lit "u", JStr (lit "true")); (lit "e", JArr [JStr (lit "up"); JStr (lit "left")])])]);
   LoadIetf false true (JObj [(lit "m:c", JObj [(lit "b", JStr (lit "w r")); (lit "e", JArr [JStr (lit "down")]);
                               (lit "m", JArr [JObj [(lit "k", JStr (lit "x")); (lit "d", JStr (lit "1.5"))]; JObj [(lit "k", JStr (lit "y")); (lit "d", JStr (lit "no"))]])])]);
   Do [Kid 0; Kid 1] (ASet Attr (AVal (VStr (lit "abcde"))))].
Example C72_case : forall O,
  get_kids true hv_cs (after O no_floats longer hv_cs hv_deeds) =
    [(lit "c", DDict [(lit "n", DLeaf (VInt 7)); (lit "s", DLeaf (VStr (lit "abc"))); (lit "u", DLeaf (VBool true));
                      (lit "b", DLeaf (VBits [lit "w"; lit "r"])); (lit "e", DLeafList [VStr (lit "down")]);
                      (lit "m", DList [(VStr (lit "x"), DDict [(lit "k", DLeaf (VStr (lit "x"))); (lit "d", DLeaf (VDec 150 (-2)))]);
                                       (VStr (lit "y"), DDict [(lit "k", DLeaf (VStr (lit "y")))])])])] /\
  at_path (after O no_floats longer hv_cs hv_deeds) [Kid 0; Kid 5; Ent (VStr (lit "y")); Kid 1] = Some (OLeaf false (VDec 0 0)) /\
  schema_at hv_cs [Kid 0; Kid 5; Ent (VStr (lit "x")); Kid 1] = Some (leaf "d" (MDec 2) "decimal64") /\
  mtype_wf (MStr [[SLength [rng 2 4]]]) /\ one_level_text (MStr [[SLength [rng 2 4]]]).
Proof.
  intros O. split; [vm_compute; reflexivity|]. split; [vm_compute; reflexivity|]. split; [reflexivity|].
  split; [|reflexivity]. split; [discriminate|]. split; [repeat constructor; discriminate|]. now left.
Qed.
