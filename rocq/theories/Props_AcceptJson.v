(** Property theorems about documents in the default format that are accepted: C87. *)
From Verif Require Import PyStr PyStr_facts PyVal Restricted IntTypes StrTypes SafeName Spec_Types Spec_Lists TypedList YList
  Tree Spec_Tree Compile Spec_Compile Serialise Spec_Serialise Xml Spec_Loading Spec_Shape Spec_AcceptJson.
From Verif Require Shape_proofs Accept_proofs AcceptJson_proofs Serialise_cases.
From Verif Require Import Props_Tree Props_Loading Props_Path Props_Shape.
Import ListNotations.

(* ------------------------------------------------------------------ C87 *)
(** A valid document loads into whatever state, and everything that it says then holds, at once and until the next
    change.  Missing: schemas with choices; lists without keys; overwrite. *)
Theorem C87_json_partial : forall O ft uid cs l skip ms, choice_free cs -> python_names cs -> json_valid O skip false (entry_schema cs) (JObj ms) ->
  exists m', load_json O uid cs false skip (JObj ms) (after O ft uid cs l) = (m', Ok tt) /\
    forall q t, tells O false (entry_schema cs) (JObj ms) q t -> exists x, at_path m' q = Some x /\ so t x.
Proof. intros O ft uid cs l skip ms Hc Hn. apply AcceptJson_proofs.json_accepted; [exact Hc|exact Hn|]. apply Shape_proofs.after_shaped. Qed.
Print Assumptions C87_json_partial.

(** A list ordered by the user with two keys, a leaf-list of numbers, one of strings, and a container with presence. *)
Definition u8m : pty := int_chain [[Between (Some 0%Z) (Some 255%Z) 0 0]].
Definition crate_cs := compile_module true
  [YList (hd (lit "p")) (Some (lit "k1 k2")) true
     [YLeaf (hd (lit "k1")) txt None (lit "string"); YLeaf (hd (lit "k2")) u8 None (lit "uint8"); YLeaf (hd (lit "v")) u8 None (lit "uint8")];
   YLeafList (hd (lit "n")) [u8m] (lit "uint8"); YLeafList (hd (lit "s")) [TStr] (lit "string"); YCont (hd (lit "e")) true [YLeaf (hd (lit "x")) u8 None (lit "uint8")]].
Definition crate (n : nat) : schema := nth n crate_cs (SCont (info_of (hd []) None true) false []).
Definition crate_at (m : list obj) (n : nat) : list pyval := members m [Kid n].

(** The hypothesis on leaf-lists is needed: members that each would be taken, but are not equal to what is made of them,
    are added and then removed, without an exception. *)
Theorem C87_members_refuted : forall O, exists j m', (exists v, tl_init O [u8m] true (jval (JArr [j])) = Ok [v]) /\
  load_json O longer crate_cs false false (JObj [(lit "n", JArr [j])]) (module_new O crate_cs) = (m', Ok tt) /\ crate_at m' 1 = [].
Proof. intros O. exists (JStr (lit "5")). eexists. split; [eexists; vm_compute; reflexivity|]. split; vm_compute; reflexivity. Qed.
Print Assumptions C87_members_refuted.

(** Nor is the order of the members that of the document, if some were there before. *)
Definition letters (l : list str) : json := JObj [(lit "s", JArr (map JStr l))].
Theorem C87_order_refuted : forall O, exists l1 l2 m', json_valid O false false (entry_schema crate_cs) (letters l2) /\
  load_json O longer crate_cs false false (letters l2) (after O no_floats longer crate_cs [LoadJson false false (letters l1)]) = (m', Ok tt) /\
  crate_at m' 2 = [VStr (lit "b"); VStr (lit "a")] /\ l2 = [lit "a"; lit "b"].
Proof.
  intros O. exists [lit "b"], [lit "a"; lit "b"]. eexists. split; [|split; [vm_compute; reflexivity|split; [vm_compute; reflexivity|reflexivity]]].
  apply JvCont; [apply AcceptJson_proofs.once_by, nodup_by; vm_compute; reflexivity|]. intros key j [E|[]]. injection E as <- <-. right. left. exists 2%nat, (crate 2).
  split; [apply Accept_proofs.spelt_by; vm_compute; reflexivity|]. apply JvLeafList. intros j [<-|[<-|[]]]; eexists; (split; [vm_compute; reflexivity|vm_compute; reflexivity]).
Qed.
Print Assumptions C87_order_refuted.

(** Of two entries with the same position, the first is lost. *)
Definition at_place (z : Z) : json := JObj [(lit "__yang_order", JInt z)].
Theorem C87_position_refuted : forall O, exists z m',
  load_json O longer crate_cs false false (JObj [(lit "p", JObj [(lit "a 1", at_place z); (lit "b 2", at_place z)])]) (module_new O crate_cs) = (m', Ok tt) /\
  m_entries m' = [VStr (lit "b 2")].
Proof. intros O. exists 0%Z. eexists. split; vm_compute; reflexivity. Qed.
Print Assumptions C87_position_refuted.

(** A document with an entry that is there and two that are not, in another order than that of the document. *)
Definition packed : list deed :=
  [LoadJson false false (JObj [(lit "p", JObj [(lit "b 2", JObj [(lit "v", JInt 2)])]); (lit "n", JArr [JInt 7; JInt 8])])].
Definition cargo : list (str * json) :=
  [(lit "p", JObj [(lit "a 1", JObj [(lit "v", JInt 9); (lit "__yang_order", JInt 3)]); (lit "b 2", JObj [(lit "k2", JInt 2); (lit "v", JInt 5)]); (lit "c 3", at_place 1)]);
   (lit "n", JArr [JInt 9; JInt 8]); (lit "e", JObj [(lit "x", JInt 1)])].
Ltac case_in H := repeat (destruct H as [H|H]; [injection H as <- <-|]); [..|destruct H].
Ltac crate_spelt n := exists n; eexists; split; [apply Accept_proofs.spelt_by; vm_compute; reflexivity|].
Example C87_case : forall O, choice_free crate_cs /\ python_names crate_cs /\ json_valid O false false (entry_schema crate_cs) (JObj cargo) /\
  (exists m', load_json O longer crate_cs false false (JObj cargo) (after O no_floats longer crate_cs packed) = (m', Ok tt) /\
     m_entries m' = [VStr (lit "b 2"); VStr (lit "c 3"); VStr (lit "a 1")] /\ crate_at m' 1 = [VInt 8; VInt 9]) /\
  tells O false (entry_schema crate_cs) (JObj cargo) [Kid 0; Ent (VStr (lit "b 2")); Kid 2] (ToldValue (VInt 5)) /\
  tells O false (entry_schema crate_cs) (JObj cargo) [Kid 1] (ToldMembers [VInt 9; VInt 8]) /\
  tells O false (entry_schema crate_cs) (JObj cargo) [Kid 3] ToldPresent.
Proof.
  intros O. split; [apply Serialise_cases.choice_free_by; vm_compute; reflexivity|]. split; [apply Serialise_cases.names_by; vm_compute; reflexivity|].
  assert (Leaf : forall od i d yt k z, (0 <= z)%Z /\ (z <= 255)%Z -> (exists v, d_out (leaf_assign O u8 (VInt z)) = Ok v) -> json_valid O false od (SLeaf i u8 d yt k) (JInt z)).
  { intros od i d yt k z _ (v & Hv). eapply JvLeaf. exact Hv. }
  assert (Name : forall n1 n2, existsb (N.eqb 32) n1 = false -> existsb (N.eqb 32) n2 = false -> (exists v, d_out (leaf_assign O u8 (VStr n2)) = Ok v) ->
    entry_name O (match crate 0 with SList _ _ _ cs => cs | _ => [] end) [lit "k1"; lit "k2"] (n1 ++ lit " " ++ n2)).
  { intros n1 n2 H1 H2 (v & Hv). right. split; [repeat constructor|]. exists [n1; n2]. split; [reflexivity|].
    assert (G : forall n, existsb (N.eqb 32) n = false -> ~ In 32%N n).
    { intros n H Hi. assert (existsb (N.eqb 32) n = true); [|congruence]. apply existsb_exists. exists 32%N. split; [exact Hi|reflexivity]. }
    split; [constructor; [now apply G|constructor; [now apply G|constructor]]|]. constructor; [|constructor; [|constructor]].
    - exists 0%nat. eexists _, _, _, _, (VStr n1). split; [reflexivity|]. split; [reflexivity|]. reflexivity.
    - exists 1%nat. eexists _, _, _, _, v. split; [reflexivity|]. split; [reflexivity|]. exact Hv. }
  split.
  { apply JvCont; [apply AcceptJson_proofs.once_by, nodup_by; vm_compute; reflexivity|]. intros key j H. case_in H; right; left.
    - exists 0%nat, (crate 0). split; [apply Accept_proofs.spelt_by; vm_compute; reflexivity|]. apply JvList; [apply nodup_by; vm_compute; reflexivity| |].
      + intros t e H. case_in H.
        * split; [apply (Name (lit "a") (lit "1")); [vm_compute; reflexivity|vm_compute; reflexivity|eexists; vm_compute; reflexivity]|].
          apply JvCont; [apply AcceptJson_proofs.once_by, nodup_by; vm_compute; reflexivity|]. intros key j H. case_in H; [right; left|left; split; reflexivity].
          crate_spelt 2%nat. apply Leaf; [split; discriminate|eexists; vm_compute; reflexivity].
        * split; [apply (Name (lit "b") (lit "2")); [vm_compute; reflexivity|vm_compute; reflexivity|eexists; vm_compute; reflexivity]|].
          apply JvCont; [apply AcceptJson_proofs.once_by, nodup_by; vm_compute; reflexivity|]. intros key j H. case_in H; right; left.
          -- crate_spelt 1%nat. apply Leaf; [split; discriminate|eexists; vm_compute; reflexivity].
          -- crate_spelt 2%nat. apply Leaf; [split; discriminate|eexists; vm_compute; reflexivity].
        * split; [apply (Name (lit "c") (lit "3")); [vm_compute; reflexivity|vm_compute; reflexivity|eexists; vm_compute; reflexivity]|].
          apply JvCont; [apply AcceptJson_proofs.once_by, nodup_by; vm_compute; reflexivity|]. intros key j H. case_in H. left; split; reflexivity.
      + intros _. split.
        * intros t e j H. case_in H; intros E; vm_compute in E; try discriminate; injection E as <-; eauto.
        * intros es1 t e es2 t' e' es3 E. destruct es1 as [|? [|? [|? es1]]]; [| | |destruct es1; discriminate].
          -- injection E as <- <- E. destruct es2 as [|? [|? es2]]; [| |destruct es2; discriminate]; injection E; intros; subst; vm_compute; discriminate.
          -- injection E as _ <- <- E. intros Hp. now destruct Hp.
          -- injection E as _ _ _ _ E. destruct es2; discriminate.
    - exists 1%nat, (crate 1). split; [apply Accept_proofs.spelt_by; vm_compute; reflexivity|]. apply JvLeafList. intros j [<-|[<-|[]]]; eexists; (split; [vm_compute; reflexivity|vm_compute; reflexivity]).
    - exists 3%nat, (crate 3). split; [apply Accept_proofs.spelt_by; vm_compute; reflexivity|]. apply JvCont; [apply AcceptJson_proofs.once_by, nodup_by; vm_compute; reflexivity|]. intros key j H. case_in H; right; left.
      crate_spelt 0%nat. apply Leaf; [split; discriminate|eexists; vm_compute; reflexivity]. }
  split; [eexists; split; [vm_compute; reflexivity|]; split; vm_compute; reflexivity|].
  assert (NA : forall key, ~ set_aside false key) by (intros key [H _]; discriminate).
  split.
  { eapply TellsIn; [now left|apply NA|apply (Accept_proofs.spelt_by _ _ 0 (crate 0)); vm_compute; reflexivity|]. eapply TellsInEntry; [right; now left|].
    eapply TellsIn; [right; now left| |apply Accept_proofs.spelt_by; vm_compute; reflexivity|eapply TellsLeaf; vm_compute; reflexivity].
    intros [_ H]. apply str_eqb_eq in H. vm_compute in H. discriminate. }
  split.
  { eapply TellsIn; [right; now left|apply NA|apply (Accept_proofs.spelt_by _ _ 1 (crate 1)); vm_compute; reflexivity|]. apply TellsLeafList. }
  eapply TellsIn; [right; right; now left|apply NA|apply (Accept_proofs.spelt_by _ _ 3 (crate 3)); vm_compute; reflexivity|]. apply TellsPresent.
Qed.
