(** Property theorems: annotations of IETF JSON documents (C77). *)
From Verif Require Import PyStr PyVal Restricted YList SafeName Tree Spec_Tree Serialise Spec_Serialise Spec_Loading Annotate Spec_Annotate.
From Verif Require Annotate_proofs Serialise_cases Load_proofs.
From Verif Require Import IntTypes StrTypes Spec_Types Spec_Lists TypedList MemberTypes Props_Serialise.
From Coq Require Import Lia.
Import ListNotations.
Local Open Scope Z_scope.

(* ------------------------------------------------------------------ C77 *)
(** Annotations do not touch the data: a document that is loaded leaves what it leaves without its annotations, and one
    whose annotations are objects, none of them for the module, is loaded or refused as it is without them.
    ([load_ietf_json] passes over annotations; every other theorem about IETF JSON is about it.) *)
Theorem C77_data : forall O uid cs overwrite skip d m, let x := note_ietf_json O uid cs overwrite skip d m in
  (snd x = Ok tt \/ noted_well true d = true -> load_ietf_json O uid cs overwrite skip d m = (fst (fst x), snd x)) /\
  (snd x <> Ok tt -> snd x = Raise AttributeError \/ load_ietf_json O uid cs overwrite skip d m = (fst (fst x), snd x)).
Proof. exact Annotate_proofs.same_data. Qed.
Print Assumptions C77_data.
(** After loading, the annotations a node has from this document are those the document has for it. *)
Theorem C77_partial : forall O uid cs skip d m m' l, choice_free cs -> python_names cs -> tidy O cs d -> consistent O cs d ->
  note_ietf_json O uid cs false skip d m = (m', l, Ok tt) -> forall p k v, annotated cs l p k v <-> says O cs d p k v.
Proof. exact Annotate_proofs.annotations. Qed.
Print Assumptions C77_partial.

(** { "m:c": { "@": {"m:who": "net"}, "m:from-here": 5, "@m:from-here": {"m:when": "now"}, "t": {"z": 7}, "@t": {"m:note": 1},
        "l": [ {"k": "one", "@": {"m:who": "ops"}, "v": 2, "@v": {"m:when": "then"}}, {"k": "two"} ], "@l": {"m:old": true},
        "ll": ["a"], "@ll": {"m:n": null}, "@b": {"m:who": "no one"} } } *)
Definition ann_entries : list json :=
  [JObj [(lit "k", JStr (lit "one")); (lit "@", JObj [(lit "m:who", JStr (lit "ops"))]); (lit "v", JInt 2); (lit "@v", JObj [(lit "m:when", JStr (lit "then"))])];
   JObj [(lit "k", JStr (lit "two"))]].
Definition ann_c : list (str * json) :=
  [(lit "@", JObj [(lit "m:who", JStr (lit "net"))]); (lit "m:from-here", JInt 5); (lit "@m:from-here", JObj [(lit "m:when", JStr (lit "now"))]);
   (lit "t", JObj [(lit "z", JInt 7)]); (lit "@t", JObj [(lit "m:note", JInt 1)]);
   (lit "l", JArr ann_entries); (lit "@l", JObj [(lit "m:old", JBool true)]);
   (lit "ll", JArr [JStr (lit "a")]); (lit "@ll", JObj [(lit "m:n", JNull)]); (lit "@b", JObj [(lit "m:who", JStr (lit "no one"))])].
Definition ann_doc : json := JObj [(lit "m:c", JObj ann_c)].
Definition ann_marks : list mark :=
  let e k r := Kid 0 :: Kid 3 :: Ent (VStr (lit k)) :: r in
  [Told [Kid 0]; Noted [Kid 0] (lit "m:who") (JStr (lit "net")); Renewed [Kid 0; Kid 0]; Noted [Kid 0; Kid 0] (lit "m:when") (JStr (lit "now"));
   Noted [Kid 0; Kid 2] (lit "m:note") (JInt 1); Renewed [Kid 0; Kid 2; Kid 0];
   Told [Kid 0; Kid 3]; Noted (e "one"%string []) (lit "m:who") (JStr (lit "ops")); Renewed (e "one"%string [Kid 1]);
   Noted (e "one"%string [Kid 1]) (lit "m:when") (JStr (lit "then")); Noted (e "one"%string []) (lit "m:old") (JBool true);
   Told [Kid 0; Kid 3]; Noted (e "two"%string []) (lit "m:old") (JBool true);
   Renewed [Kid 0; Kid 4]; Noted [Kid 0; Kid 4] (lit "m:n") JNull].
Lemma ann_run O : exists m', notes_ietf O no_uid doc_cs ann_doc = (m', ann_marks, Ok tt) /\ load_ietf_json O no_uid doc_cs false false ann_doc (module_new O doc_cs) = (m', Ok tt).
Proof. eexists. split; vm_compute; reflexivity. Qed.
Ltac ann_names := vm_compute; repeat constructor; cbn; intuition discriminate.
Definition c_kids : list schema := match doc_cs with SCont _ _ cs :: _ => cs | _ => [] end.
Definition t_kids : list schema := match nth_error c_kids 2 with Some (SCont _ _ cs) => cs | _ => [] end.
(** The members that have a value for a child. *)
Lemma ann_members cs ms l : NoDup (map (fun s => e_py (s_info s)) cs) ->
  map (fun kj => (fst kj, if metadata (fst kj) then None else option_map fst (find_kid (after_colon (fst kj)) cs), snd kj)) ms = l ->
  forall key n s j, valued cs ms key n s j -> In (key, Some n, j) l /\ nth_error cs n = Some s.
Proof.
  intros Hnd <- key n s j H. destruct (Annotate_proofs.valued_find _ _ _ _ _ _ Hnd H) as (H1 & H2 & H3). split; [|apply H].
  apply in_map_iff. exists (key, j). split; [|exact H1]. cbn [fst snd]. now rewrite H2, H3.
Qed.
Ltac ann_split H Hnd := eapply ann_members in H; [|exact Hnd|vm_compute; reflexivity]; destruct H as [H ?];
  repeat (destruct H as [H|H]; [try discriminate|]); try contradiction.
Ltac ann_flat Hnd := constructor; [ann_names|intros ? ? ? ? ? ? ? H H'; ann_split H Hnd; ann_split H' Hnd; congruence|intros ? ? ? ? H; ann_split H Hnd|intros ? ? ? ? ? ? ? H; ann_split H Hnd].
Lemma ann_tidy_entry O e : In e ann_entries -> tidy O entry_cs e.
Proof.
  assert (Hnd : NoDup (map (fun s => e_py (s_info s)) entry_cs)) by ann_names.
  intros [<-|[<-|[]]]; ann_flat Hnd.
Qed.
Lemma ann_key O e k : In e ann_entries -> Spec_Annotate.entry_key O entry_cs [lit "k"] e k ->
  (e = nth 0 ann_entries JNull /\ k = VStr (lit "one")) \/ (e = nth 1 ann_entries JNull /\ k = VStr (lit "two")).
Proof.
  intros Hin H. apply (Annotate_proofs.entry_text O entry_cs (lit "k") (SLeaf (inf (lit "k")) (LOne (pty_of MText)) None (lit "string") true) 0%nat) in H; [|reflexivity|ann_names|reflexivity].
  destruct H as (ms & j & -> & Hj & ->). destruct Hin as [E|[E|[]]]; injection E as <-; [left|right]; (split; [reflexivity|]);
    repeat (destruct Hj as [Hj|Hj]; [first [discriminate|injection Hj as <-; reflexivity]|]); destruct Hj.
Qed.
Lemma ann_tidy O : tidy O doc_cs ann_doc.
Proof.
  assert (Hnd : NoDup (map (fun s => e_py (s_info s)) doc_cs)) by ann_names.
  assert (Hndc : NoDup (map (fun s => e_py (s_info s)) c_kids)) by ann_names.
  assert (Hndt : NoDup (map (fun s => e_py (s_info s)) t_kids)) by ann_names.
  assert (T : tidy O t_kids (JObj [(lit "z", JInt 7)])) by ann_flat Hndt.
  assert (C : tidy O c_kids (JObj ann_c)).
  { constructor; [ann_names|..].
    - intros key key' n s s' j j' H H'. ann_split H Hndc; ann_split H' Hndc; congruence.
    - intros key n s ms' H. ann_split H Hndc. injection H as _ <- <-. injection H0 as <-. exact T.
    - intros key n i keys od cs' es H. ann_split H Hndc; injection H as _ <- <-; [|discriminate H0]. injection H0 as <- <- <- <-. split; [discriminate|]. split; [|split].
      + intros e k k' Hin H H'. destruct (ann_key O e k Hin H) as [[E ->]|[E ->]], (ann_key O e k' Hin H') as [[E' ->]|[E' ->]]; try reflexivity; rewrite E in E'; discriminate.
      + intros e Hin. now apply ann_tidy_entry.
      + constructor; [constructor; [|constructor]|constructor; [constructor|constructor]].
        intros k k' H H'. destruct (ann_key O _ k (or_introl eq_refl) H) as [[_ ->]|[E _]]; [|discriminate].
        destruct (ann_key O _ k' (or_intror (or_introl eq_refl)) H') as [[E _]|[_ ->]]; [discriminate|]. split; vm_compute; reflexivity. }
  constructor; [ann_names|..].
  - intros key key' n s s' j j' H H'. ann_split H Hnd; ann_split H' Hnd; congruence.
  - intros key n s ms' H. ann_split H Hnd. injection H as _ <- <-. injection H0 as <-. exact C.
  - intros key n i keys od cs' es H. ann_split H Hnd.
Qed.
Lemma ann_consistent O : consistent O doc_cs ann_doc.
Proof.
  destruct (ann_run O) as (m' & H & _). unfold notes_ietf in H. refine (Annotate_proofs.consistent_by _ _ _ _ _ _ _ _ doc_names (ann_tidy O) H _).
  clear. intros p k v v' H1 H2. vm_compute in H1, H2.
  repeat (destruct H1 as [H1|H1]; [try discriminate H1; injection H1 as <- <- <-; repeat (destruct H2 as [H2|H2]; [try discriminate H2; injection H2 as <-; reflexivity|]); destruct H2|]); destruct H1.
Qed.
Example C77_case : forall O, choice_free doc_cs /\ python_names doc_cs /\ tidy O doc_cs ann_doc /\ consistent O doc_cs ann_doc /\ noted_well true ann_doc = true /\
  (exists m', notes_ietf O no_uid doc_cs ann_doc = (m', ann_marks, Ok tt) /\ load_ietf_json O no_uid doc_cs false false ann_doc (module_new O doc_cs) = (m', Ok tt)) /\
  annotated doc_cs ann_marks [Kid 0; Kid 0] (lit "m:when") (JStr (lit "now")) /\
  annotated doc_cs ann_marks [Kid 0; Kid 3; Ent (VStr (lit "two"))] (lit "m:old") (JBool true) /\
  (forall k v, ~ annotated doc_cs ann_marks [Kid 0; Kid 3] k v) /\ (forall k v, ~ annotated doc_cs ann_marks [Kid 0; Kid 1] k v).
Proof.
  intros O. split; [exact doc_choice_free|]. split; [exact doc_names|]. split; [apply ann_tidy|]. split; [apply ann_consistent|]. split; [vm_compute; reflexivity|].
  split; [apply ann_run|]. destruct (ann_run O) as (m' & H & _).
  unfold notes_ietf in H. pose proof (C77_partial O no_uid doc_cs false ann_doc _ m' _ doc_choice_free doc_names (ann_tidy O) (ann_consistent O) H) as G. clear H.
  split; [|split; [|split]].
  - apply G. eapply (SayIn _ _ _ (lit "m:c") 0%nat); [split; [now left|split; [vm_compute; intuition discriminate|split; vm_compute; reflexivity]]|].
    eapply (SayChild _ _ _ (lit "m:from-here")); [split; [right; now left|split; [vm_compute; intuition discriminate|split; vm_compute; reflexivity]]|discriminate|].
    eexists. split; [do 2 right; now left|now left].
  - apply G. eapply (SayIn _ _ _ (lit "m:c") 0%nat); [split; [now left|split; [vm_compute; intuition discriminate|split; vm_compute; reflexivity]]|].
    eapply (SayEach _ _ _ (lit "l") 3%nat _ _ _ _ ann_entries (JObj [(lit "k", JStr (lit "two"))])); [split; [do 5 right; now left|split; [vm_compute; intuition discriminate|split; vm_compute; reflexivity]]|right; now left| |].
    + split; [discriminate|]. exists [(lit "k", VStr (lit "two"))]. split; [|reflexivity]. eexists. split; [reflexivity|]. constructor; [|constructor].
      split; [reflexivity|]. exists 0%nat. do 2 eexists. split; [reflexivity|]. split; [reflexivity|]. split; [now left|reflexivity].
    + eexists. split; [do 6 right; now left|now left].
  - intros k v (l1 & l2 & E & _). assert (Hin : In (Noted [Kid 0; Kid 3] k v) ann_marks) by (rewrite E; apply in_or_app; right; now left).
    clear - Hin. vm_compute in Hin. repeat (destruct Hin as [Hin|Hin]; [discriminate Hin|]); destruct Hin.
  - intros k v (l1 & l2 & E & _). assert (Hin : In (Noted [Kid 0; Kid 1] k v) ann_marks) by (rewrite E; apply in_or_app; right; now left).
    clear - Hin. vm_compute in Hin. repeat (destruct Hin as [Hin|Hin]; [discriminate Hin|]); destruct Hin.
Qed.

(** The annotations of a leaf-list, which RFC 7952 (5.2.4) writes as an array, are refused - after the value was set. *)
Theorem C77_leaf_list_refuted : exists cs d m', forall O, python_names cs /\ load_ietf_json O no_uid cs false false d (module_new O cs) = (m', Ok tt) /\
  exists l, notes_ietf O no_uid cs d = (m', l, Raise AttributeError).
Proof.
  exists [SLeafList (inf (lit "ll")) [pty_of MText] (lit "string")],
    (JObj [(lit "m:ll", JArr [JStr (lit "a")]); (lit "@m:ll", JArr [JObj [(lit "m:who", JStr (lit "net"))]])]), [OLeafList true [VStr (lit "a")]].
  intros O. split; [apply Serialise_cases.names_by; vm_compute; reflexivity|]. split; [vm_compute; reflexivity|]. eexists. vm_compute. reflexivity.
Qed.
Print Assumptions C77_leaf_list_refuted.
(** So are those of the module itself. *)
Theorem C77_module_refuted : exists cs d m', forall O, python_names cs /\ tidy O cs d /\ load_ietf_json O no_uid cs false false d (module_new O cs) = (m', Ok tt) /\
  notes_ietf O no_uid cs d = (module_new O cs, [], Raise AttributeError).
Proof.
  exists [leaf "a" MText "string"], (JObj [(lit "@", JObj [(lit "m:who", JStr (lit "net"))])]), [OLeaf false (VStr [])].
  intros O. split; [apply Serialise_cases.names_by; vm_compute; reflexivity|]. split; [|split; [vm_compute; reflexivity|vm_compute; reflexivity]].
  assert (Hnd : NoDup (map (fun s => e_py (s_info s)) [leaf "a" MText "string"])) by ann_names.
  ann_flat Hnd.
Qed.
Print Assumptions C77_module_refuted.
