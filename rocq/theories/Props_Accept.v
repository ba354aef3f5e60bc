(** Property theorems about documents that are accepted: C84. *)
From Verif Require Import PyStr PyStr_facts PyVal Restricted IntTypes StrTypes SafeName Spec_Types Spec_Lists TypedList YList
  Tree Spec_Tree Compile Spec_Compile Serialise Spec_Serialise Xml Spec_Loading Spec_Shape Spec_Accept.
From Verif Require Shape_proofs Accept_proofs Serialise_cases.
From Verif Require Import Props_Tree Props_Loading Props_Path Props_Shape.
Import ListNotations.

(* ------------------------------------------------------------------ C84 *)
(** A valid document loads into whatever state, and everything that it says then holds, at once and until the next
    change.  Missing: schemas with choices; lists without keys; the values of the key leaves of an entry; overwrite. *)
Theorem C84_ietf_partial : forall O ft uid cs l skip ms, choice_free cs -> python_names cs -> ietf_valid O skip (entry_schema cs) (JObj ms) ->
  exists m', load_ietf_json O uid cs false skip (JObj ms) (after O ft uid cs l) = (m', Ok tt) /\
    forall q w, says O (entry_schema cs) (JObj ms) q w -> exists x, at_path m' q = Some x /\ meets w x.
Proof. intros O ft uid cs l skip ms Hc Hn. apply Accept_proofs.ietf_accepted; [exact Hc|exact Hn|]. apply Shape_proofs.after_shaped. Qed.
Print Assumptions C84_ietf_partial.

(** The shape is not enough (the converse of C83 fails): an entry whose only key is the empty string is refused, although the key leaf takes it. *)
Ltac spelt_at := apply Accept_proofs.spelt_by; vm_compute; reflexivity.
Definition empty_key : json := JObj [(lit "m", JArr [JObj [(lit "k", JStr [])]])].
Theorem C84_empty_key_refuted : forall O, exists d, ietf_fits O false true (entry_schema shelf_cs) d /\ Spec_Shape.takes O txt (JStr []) /\
  snd (load_ietf_json O longer shelf_cs false false d (module_new O shelf_cs)) = Raise KeyError.
Proof.
  intros O. exists empty_key. split; [|split; [exists (VStr []); vm_compute; reflexivity|vm_compute; reflexivity]].
  apply ICont. intros key j [E|[]]. injection E as <- <-. right. left. exists 0%nat, (nthcs 0). split; [spelt_at|].
  apply IList. intros e [<-|[]]. eexists. split; [reflexivity|]. split.
  - intros k [<-|[]]. exists 0%nat. eexists _, _. split; [reflexivity|]. split; [reflexivity|]. now left.
  - apply ICont. intros key j [E|[]]. injection E as <- <-. right. left. exists 0%nat. eexists. split; [spelt_at|]. apply ILeaf; [exact I| |].
    + intros E. apply str_eqb_eq in E. vm_compute in E. discriminate.
    + left. reflexivity.
Qed.
Print Assumptions C84_empty_key_refuted.

(** A list with two keys. *)
Definition pairs_cs := compile_module true
  [YList (hd (lit "p")) (Some (lit "k1 k2")) false [YLeaf (hd (lit "k1")) txt None (lit "string"); YLeaf (hd (lit "k2")) txt None (lit "string"); YLeaf (hd (lit "v")) u8 None (lit "uint8")]].
Definition spaced (t : str) : json := JObj [(lit "p", JArr [JObj [(lit "k1", JStr (lit "a")); (lit "k2", JStr t); (lit "v", JInt 1)]])].
(** Loading a document twice: if the last key ends with a space, the entry is not found again and cannot be added either. *)
Theorem C84_twice_refuted : forall O, exists t m', load_ietf_json O longer pairs_cs false false (spaced t) (module_new O pairs_cs) = (m', Ok tt) /\
  ietf_fits O false true (entry_schema pairs_cs) (spaced t) /\
  snd (load_ietf_json O longer pairs_cs false false (spaced t) m') = Raise KeyError.
Proof.
  intros O. exists (lit "b "). eexists. split; [vm_compute; reflexivity|]. split; [|vm_compute; reflexivity].
  apply ICont. intros key j [E|[]]. injection E as <- <-. right. left. exists 0%nat. eexists. split; [spelt_at|].
  apply IList. intros e [<-|[]]. eexists. split; [reflexivity|]. split.
  - intros k [<-|[<-|[]]]; [exists 0%nat|exists 1%nat]; eexists _, _; (split; [reflexivity|]; split; [reflexivity|]); [now left|right; now left].
  - apply ICont. intros key j [E|[E|[E|[]]]]; injection E as <- <-; right; left.
    + exists 0%nat. eexists. split; [spelt_at|]. apply ILeaf; [exact I|intros E; apply str_eqb_eq in E; vm_compute in E; discriminate|left; reflexivity].
    + exists 1%nat. eexists. split; [spelt_at|]. apply ILeaf; [exact I|intros E; apply str_eqb_eq in E; vm_compute in E; discriminate|left; reflexivity].
    + exists 2%nat. eexists. split; [spelt_at|]. apply ILeaf; [exact I|intros E; apply str_eqb_eq in E; vm_compute in E; discriminate|].
      right. exists (JInt 1). split; [apply GivenPlain; left; intros E; apply str_eqb_eq in E; vm_compute in E; discriminate|]. eexists. vm_compute. reflexivity.
Qed.
Print Assumptions C84_twice_refuted.

(** A document with an entry that is there and one that is not, loaded into the full shelf. *)
Definition parcel : list (str * json) :=
  [(lit "m:m", JArr [JObj [(lit "k", JStr (lit "y")); (lit "a", JInt 9)]; JObj [(lit "k", JStr (lit "z")); (lit "@a", JObj [])]]);
   (lit "m:c", JObj [(lit "t", JStr (lit "q"))]); (lit "m:e", JObj []); (lit "m:s", JArr [JStr (lit "p"); JStr (lit "p2")])].
Lemma other_name a b : str_eqb a b = false -> a <> b.
Proof. apply str_eqb_neq. Qed.
Ltac other := apply other_name; vm_compute; reflexivity.
Lemma entry_key_k O ms k v : entry_key O (match nthcs 0 with SList _ _ _ cs => cs | _ => [] end) [lit "k"] (JObj ms) k ->
  (forall key j, In (key, j) ms -> str_eqb key (lit "k") = true -> j = v) -> k = jval v.
Proof.
  intros (kd & (ms' & E & H) & ->) Hv. injection E as <-. inversion H as [|? [n1 v1] ? ? (_ & n & s & j & Hn & Hp & Hi & E) H1]; subst. inversion H1; subst. cbn [snd] in E. rewrite E. f_equal.
  apply (Hv _ _ Hi). destruct n as [|[|n]]; [| |now destruct n]; injection Hn as <-; [vm_compute; reflexivity|]. apply str_eqb_eq in Hp. vm_compute in Hp. discriminate.
Qed.
Ltac case_in H := repeat (destruct H as [H|H]; [injection H as <- <-|]); [..|destruct H].
Example C84_case : forall O, choice_free shelf_cs /\ python_names shelf_cs /\ ietf_valid O false (entry_schema shelf_cs) (JObj parcel) /\
  (exists m', load_ietf_json O longer shelf_cs false false (JObj parcel) (after O no_floats longer shelf_cs full) = (m', Ok tt) /\
     m_entries m' = [VStr (lit "x"); VStr (lit "y"); VStr (lit "z")] /\ at_path m' [Kid 0; Ent (VStr (lit "y")); Kid 1] = Some (OLeaf true (VInt 9))) /\
  says O (entry_schema shelf_cs) (JObj parcel) [Kid 0; Ent (VStr (lit "y")); Kid 1] (WLeaf (VInt 9)) /\
  says O (entry_schema shelf_cs) (JObj parcel) [Kid 3] WPresent /\
  says O (entry_schema shelf_cs) (JObj parcel) [Kid 4] (WLeafList [VStr (lit "p"); VStr (lit "p2")]).
Proof.
  intros O. split; [apply Serialise_cases.choice_free_by; vm_compute; reflexivity|]. split; [apply Serialise_cases.names_by; vm_compute; reflexivity|].
  assert (Ky : forall ms v, (forall key j, In (key, j) ms -> str_eqb key (lit "k") = true -> j = JStr v) -> forall k, entry_key O (match nthcs 0 with SList _ _ _ cs => cs | _ => [] end) [lit "k"] (JObj ms) k -> k = VStr v).
  { intros ms v H k Hk. exact (entry_key_k O ms k (JStr v) Hk H). }
  assert (K1 : forall k, entry_key O (match nthcs 0 with SList _ _ _ cs => cs | _ => [] end) [lit "k"] (JObj [(lit "k", JStr (lit "y")); (lit "a", JInt 9)]) k -> k = VStr (lit "y")).
  { apply Ky. intros key j H. case_in H; [reflexivity|]. intros E. vm_compute in E. discriminate. }
  assert (K2 : forall k, entry_key O (match nthcs 0 with SList _ _ _ cs => cs | _ => [] end) [lit "k"] (JObj [(lit "k", JStr (lit "z")); (lit "@a", JObj [])]) k -> k = VStr (lit "z")).
  { apply Ky. intros key j H. case_in H; [reflexivity|]. intros E. vm_compute in E. discriminate. }
  assert (G : forall e v, (exists ms, e = JObj ((lit "k", JStr v) :: ms)) -> v <> [] -> (forall k, entry_key O (match nthcs 0 with SList _ _ _ cs => cs | _ => [] end) [lit "k"] e k -> k = VStr v) ->
    (exists w, d_out (leaf_assign O txt (VStr v)) = Ok w) -> good_key O (match nthcs 0 with SList _ _ _ cs => cs | _ => [] end) [lit "k"] e).
  { intros e v (ms & ->) Hv Hk (w & Hw). eexists. split; [reflexivity|]. split.
    - constructor; [|constructor]. exists 0%nat. eexists _, _, _, _, (JStr v), w. split; [reflexivity|]. split; [reflexivity|]. split; [now left|]. split; [exact I|exact Hw].
    - intros k Hek. rewrite (Hk k Hek). split; [congruence|]. intros t _ Hl. now destruct Hl. }
  assert (Sent : forall yt j, str_eqb yt (lit "empty") = false -> str_eqb yt (lit "identityref") = false -> scalar j -> sent yt j j).
  { intros yt j H1 H2 Hs. right. split; [now apply other_name|]. split; [exact Hs|]. split; [apply GivenPlain; left; now apply other_name|]. intros E. rewrite E in H2. discriminate. }
  split.
  { apply VCont; [apply Accept_proofs.once_by, nodup_by; vm_compute; reflexivity|]. intros key j H. case_in H; right; left.
    - exists 0%nat, (nthcs 0). split; [spelt_at|]. apply VList; [discriminate|apply nodup_by; vm_compute; reflexivity| |].
      + intros e [<-|[<-|[]]]; (split; [eapply G; [eexists; reflexivity|discriminate|assumption|eexists; vm_compute; reflexivity]|]).
        * apply VCont; [apply Accept_proofs.once_by, nodup_by; vm_compute; reflexivity|]. intros key j H. case_in H; right; left.
          -- exists 0%nat. eexists. split; [spelt_at|]. now apply VKey.
          -- exists 1%nat. eexists. split; [spelt_at|]. eapply VLeaf; [now apply Sent|vm_compute; reflexivity].
        * apply VCont; [apply Accept_proofs.once_by, nodup_by; vm_compute; reflexivity|]. intros key j H. case_in H; [right; left|left; now left].
          exists 0%nat. eexists. split; [spelt_at|]. now apply VKey.
      + intros l1 e1 l2 e2 l3 k1 k2 E H1 H2. destruct l1 as [|? [|? l1]]; [|destruct l2; discriminate|destruct l1; discriminate]. destruct l2 as [|? l2]; [|destruct l2; discriminate].
        injection E as <- <- _. rewrite (K1 k1 H1), (K2 k2 H2). vm_compute. reflexivity.
    - exists 2%nat, (nthcs 2). split; [spelt_at|]. apply VCont; [apply Accept_proofs.once_by, nodup_by; vm_compute; reflexivity|]. intros key j H. case_in H; right; left.
      exists 0%nat. eexists. split; [spelt_at|]. eapply VLeaf; [now apply Sent|vm_compute; reflexivity].
    - exists 3%nat, (nthcs 3). split; [spelt_at|]. apply VCont; [apply Accept_proofs.once_by, nodup_by; vm_compute; reflexivity|]. intros key j [].
    - exists 4%nat, (nthcs 4). split; [spelt_at|]. apply VLeafList; [other|intros _ [H|[H|[]]]; discriminate|]. right. eexists. vm_compute. reflexivity. }
  split; [eexists; split; [vm_compute; reflexivity|]; split; vm_compute; reflexivity|].
  split.
  { eapply SaysIn; [now left|no_at|apply (Accept_proofs.spelt_by _ _ 0 (nthcs 0)); vm_compute; reflexivity|]. eapply SaysInEntry; [now left| |].
    - exists [(lit "k", VStr (lit "y"))]. split; [|reflexivity]. eexists. split; [reflexivity|]. constructor; [|constructor]. split; [reflexivity|]. exists 0%nat. eexists _, (JStr (lit "y")). split; [reflexivity|]. split; [reflexivity|]. split; [now left|reflexivity].
    - eapply SaysIn; [right; now left|no_at|spelt_at|]. eapply SaysLeaf; [now apply Sent|vm_compute; reflexivity]. }
  split.
  { eapply SaysIn; [right; right; now left|no_at|apply (Accept_proofs.spelt_by _ _ 3 (nthcs 3)); vm_compute; reflexivity|]. apply SaysPresent. }
  eapply SaysIn; [right; right; right; now left|no_at|apply (Accept_proofs.spelt_by _ _ 4 (nthcs 4)); vm_compute; reflexivity|]. apply SaysLeafList; [discriminate|vm_compute; reflexivity].
Qed.
