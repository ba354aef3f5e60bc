(** Property theorems about dumps(skip_subtrees=..., select=...): C43, C44. *)
From Verif Require Import PyStr PyVal Restricted IntTypes StrTypes SafeName Spec_Types Spec_Lists TypedList MemberTypes YList
  Tree Spec_Tree Serialise Spec_Serialise Options Spec_Options Props_Serialise.
From Verif Require Options_proofs Select_proofs Serialise_cases.
From Coq Require Import Lia.
Import ListNotations.
Local Open Scope Z_scope.

(* ------------------------------------------------------------------ C43 *)
(** Default format.  Missing: paths through what is not an object of the document (see the
    refutations), lists whose keys are not texts. *)
Theorem C43_skip_partial : forall O im own cs kids ps j, python_names cs -> Forall text_keyed kids -> Forall no_slash (map bare own) ->
  Forall (fun p => p <> [] /\ Forall no_slash p /\ leads j p) ps -> dumps O im cs kids = Ok j ->
  exists j', dumps_skip O im own (map (fun p => path_text (map bare own ++ p)) ps) cs kids = Ok j' /\ pruned ps j j'.
Proof. exact Options_proofs.skip_prunes. Qed.
Print Assumptions C43_skip_partial.

(** IETF format; the paths are made of the names in the document, with prefixes where it has them. *)
Theorem C43_ietf_skip_partial : forall O im own cs kids ps j, python_names cs -> yang_names cs -> Forall no_slash (map bare own) ->
  Forall (fun p => p <> [] /\ Forall no_slash p /\ leads j p) ps -> dumps_ietf O im true WNone cs kids = Ok j ->
  exists j', dumps_ietf_skip O im own (map (fun p => path_text (map bare own ++ p)) ps) cs kids = Ok j' /\ pruned ps j j'.
Proof. exact Options_proofs.ietf_skip_prunes. Qed.
Print Assumptions C43_ietf_skip_partial.

(** list n { key k; leaf k { type uint8; } } *)
Definition num_cs : list schema := [SList (inf (lit "n")) [lit "k"] false [SLeaf (inf (lit "k")) (LOne (pty_of u8t)) None (lit "uint8") true]].
Definition num_ops : list (list pstep * op) := [([Kid 0], AList [] (YAdd (VInt 1)))].
Definition gone_at (q : list str) (r : res json) : Prop := exists j, r = Ok j /\ jfind q j = None.
Definition here_at (q : list str) (r : res json) : Prop := exists j ms, r = Ok j /\ jfind q j = Some (JObj ms).

(** The entry n[1] is in the document at /n/1, and stays there when that path is to be skipped. *)
Theorem C43_keys_refuted : exists cs ops q, forall O, python_names cs /\
  here_at q (dumps O no_modules cs (run O cs ops)) /\ here_at q (dumps_skip O no_modules [] [path_text q] cs (run O cs ops)).
Proof.
  exists num_cs, num_ops, [lit "n"; lit "1"]. intros O. split; [apply Serialise_cases.names_by; vm_compute; reflexivity|].
  split; [eexists; eexists; split; [vm_compute; reflexivity|]; vm_compute; reflexivity|].
  eexists; eexists; split; [vm_compute; reflexivity|]. vm_compute. reflexivity.
Qed.
Print Assumptions C43_keys_refuted.
(** A path that goes on below a leaf: nothing to skip, but an exception. *)
Theorem C43_beyond_refuted : exists cs ops q, forall O, python_names cs /\
  gone_at q (dumps O no_modules cs (run O cs ops)) /\ dumps_skip O no_modules [] [path_text q] cs (run O cs ops) = Raise TypeError.
Proof.
  exists doc_cs, doc_ops, [lit "c"; lit "from-here"; lit "x"]. intros O. split; [apply doc_names|].
  split; [eexists; split; [vm_compute; reflexivity|]; vm_compute; reflexivity|]. vm_compute. reflexivity.
Qed.
Print Assumptions C43_beyond_refuted.
(** IETF format: the path of the schema (/c/t) is ignored if the document has prefixes (/m:c/t), ... *)
Theorem C43_ietf_names_refuted : exists cs ops q q', forall O, python_names cs /\ yang_names cs /\
  here_at q' (dumps_ietf O no_modules true WNone cs (run O cs ops)) /\
  here_at q (dumps O no_modules cs (run O cs ops)) /\ gone_at q (dumps_skip O no_modules [] [path_text q] cs (run O cs ops)) /\
  dumps_ietf_skip O no_modules [] [path_text q] cs (run O cs ops) = dumps_ietf O no_modules true WNone cs (run O cs ops).
Proof.
  exists doc_cs, doc_ops, [lit "c"; lit "t"], [lit "m:c"; lit "t"]. intros O. split; [apply doc_names|]. split; [apply doc_yang|].
  split; [eexists; eexists; split; [vm_compute; reflexivity|]; vm_compute; reflexivity|].
  split; [eexists; eexists; split; [vm_compute; reflexivity|]; vm_compute; reflexivity|].
  split; [eexists; split; [vm_compute; reflexivity|]; vm_compute; reflexivity|].
  vm_compute. reflexivity.
Qed.
Print Assumptions C43_ietf_names_refuted.
(** ... and entries of lists cannot be skipped. *)
Theorem C43_ietf_entry_refuted : exists cs ops q q', forall O, python_names cs /\ yang_names cs /\
  here_at q (dumps O no_modules cs (run O cs ops)) /\ gone_at q (dumps_skip O no_modules [] [path_text q] cs (run O cs ops)) /\
  dumps_ietf_skip O no_modules [] [path_text q'] cs (run O cs ops) = Raise TypeError.
Proof.
  exists doc_cs, doc_ops, [lit "o"; lit "q"], [lit "m:o"; lit "q"]. intros O. split; [apply doc_names|]. split; [apply doc_yang|].
  split; [eexists; eexists; split; [vm_compute; reflexivity|]; vm_compute; reflexivity|].
  split; [eexists; split; [vm_compute; reflexivity|]; vm_compute; reflexivity|].
  vm_compute. reflexivity.
Qed.
Print Assumptions C43_ietf_entry_refuted.

Lemma doc_texts : Forall text_keyed doc_kids.
Proof.
  assert (T : forall k v, text_keyed (OCont true false [OLeaf true k; OLeaf v (VInt 0)])) by (intros; repeat constructor).
  assert (D : forall l : list str, NoDup l -> all_distinct (map VStr l)).
  { intros l Hd i j x y Hi Hj Hn. rewrite nth_error_map in Hi, Hj. destruct (nth_error l i) as [a|] eqn:Ea; [|discriminate]. destruct (nth_error l j) as [b|] eqn:Eb; [|discriminate].
    injection Hi as <-. injection Hj as <-. cbn. apply Options_proofs.str_neqb. intros ->. apply Hn.
    rewrite NoDup_nth_error in Hd. apply Hd; [apply nth_error_Some; congruence|congruence]. }
  constructor; [|constructor; [|constructor]].
  - constructor. constructor; [constructor|]. constructor; [constructor|]. constructor; [repeat constructor|].
    constructor; [|repeat constructor]. constructor; [apply (D [lit "one"]); repeat constructor; easy|].
    constructor; [|constructor]. split; [now eexists|]. repeat constructor.
  - constructor; [apply (D [lit "q"; lit "p"])|]; [repeat constructor; cbn; intuition discriminate|].
    constructor; [|constructor; [|constructor]]; (split; [now eexists|repeat constructor]).
Qed.
(** Deciding [leads]. *)
Fixpoint leads_b (p : list str) (j : json) : bool :=
  match p with
  | [] => true
  | n :: p' => match j with JObj ms => match assoc n ms with Some x => leads_b p' x | None => true end | _ => false end
  end.
Lemma leads_by p : forall j, leads_b p j = true -> leads j p.
Proof.
  induction p as [|n p IH]; intros j H q r E Hr; [symmetry in E; apply app_eq_nil in E as [_ ->]; congruence|].
  cbn in H. destruct j as [| | | | | |ms]; try discriminate. destruct q as [|m q]; [exact I|]. cbn in E. injection E as <- E.
  cbn [jfind]. destruct (assoc n ms) as [x|]; [|exact I]. now apply (IH x H q r).
Qed.
(** /c/t, /o/q (default format), /c/nothing/x and, in the IETF format, /m:c/t and /m:c/x:b below /m. *)
Example C43_case : forall O, Forall text_keyed (run O doc_cs doc_ops) /\ python_names doc_cs /\ yang_names doc_cs /\
  (exists j, dumps O no_modules doc_cs (run O doc_cs doc_ops) = Ok j /\
     Forall (fun p => p <> [] /\ Forall no_slash p /\ leads j p) [[lit "c"; lit "t"]; [lit "o"; lit "q"]; [lit "c"; lit "nothing"; lit "x"]]) /\
  (exists j, dumps_ietf O no_modules true WNone doc_cs (run O doc_cs doc_ops) = Ok j /\ Forall no_slash (map bare [lit "m"]) /\
     Forall (fun p => p <> [] /\ Forall no_slash p /\ leads j p) [[lit "m:c"; lit "t"]; [lit "m:c"; lit "x:b"]]).
Proof.
  intros O. rewrite doc_reached. split; [apply doc_texts|]. split; [apply doc_names|]. split; [apply doc_yang|].
  assert (NS : forall l, forallb (fun s => negb (existsb (N.eqb 47) s)) l = true -> Forall no_slash l).
  { intros l H. rewrite forallb_forall in H. apply Forall_forall. intros s Hs Hi. specialize (H s Hs). apply Bool.negb_true_iff in H.
    assert (E : existsb (N.eqb 47) s = true) by (apply existsb_exists; exists 47%N; now split). congruence. }
  split.
  - eexists. split; [vm_compute; reflexivity|].
    repeat (constructor; [split; [discriminate|]; split; [apply NS; vm_compute; reflexivity|apply leads_by; vm_compute; reflexivity]|]). constructor.
  - eexists. split; [vm_compute; reflexivity|]. split; [apply NS; vm_compute; reflexivity|].
    repeat (constructor; [split; [discriminate|]; split; [apply NS; vm_compute; reflexivity|apply leads_by; vm_compute; reflexivity]|]). constructor.
Qed.

(* ------------------------------------------------------------------ C44 *)
(** Default format.  Missing: entries in which a leaf that is asked for is not set (see the refutation);
    paths to nodes that are not leaves. *)
Theorem C44_select_partial : forall O im text i keys od cs sel es, python_names cs -> yang_names cs -> all_distinct (map fst es) ->
  Forall (fun pt => Forall no_dot (fst pt)) sel -> Forall (fun e => answerable O cs sel (snd e)) es ->
  exists kept, picked (fun e => selected O cs sel (snd e)) es kept /\
    dumps_select O im text i keys od cs (wanted sel) es = enc_dump O im (SList i keys od cs) (DList (get_entries cs kept)).
Proof. exact Select_proofs.select_exact. Qed.
Print Assumptions C44_select_partial.

(** IETF format.  Missing: paths to leaves below containers (see the refutation). *)
Theorem C44_ietf_select_partial : forall O im text cs sel es, python_names cs -> yang_names cs -> Forall (fun s => no_colon (e_mod (s_info s))) cs ->
  all_apart cs (map snd es) ->
  Forall (fun pt => length (fst pt) = 1%nat /\ Forall no_dot (fst pt)) sel -> Forall (fun e => exists ch pres kids, snd e = OCont ch pres kids) es ->
  Forall (fun e => answerable O cs sel (snd e)) es ->
  exists kept, picked (fun e => selected O cs sel (snd e)) es kept /\
    dumps_ietf_select O im text cs (wanted sel) es = dumps_ietf_select O im text cs [] kept.
Proof. exact Select_proofs.ietf_select_exact. Qed.
Print Assumptions C44_ietf_select_partial.

(** A path that leads to nothing in an entry that is looked at: no document, and this exception.  [sel1]: what is asked
    for before it, and has the value asked for; [es1]: the entries before, which have all that is asked for. *)
Theorem C44_refused : forall O im text i keys od cs sel1 path t sel2 es1 k ch pres kids es2 e, python_names cs -> yang_names cs ->
  Forall (fun pt => Forall no_dot (fst pt)) (sel1 ++ (path, t) :: sel2) -> Forall (fun x => answerable O cs (sel1 ++ (path, t) :: sel2) (snd x)) es1 ->
  selected O cs sel1 (OCont ch pres kids) -> stuck cs kids path e ->
  dumps_select O im text i keys od cs (wanted (sel1 ++ (path, t) :: sel2)) (es1 ++ (k, OCont ch pres kids) :: es2) = Raise e.
Proof. exact Select_proofs.select_refused. Qed.
Print Assumptions C44_refused.

(** list s { key k; leaf k; container t { leaf z { type uint8; } } } *)
Definition pick_i : einfo := inf (lit "s").
Definition pick_entry : list schema :=
  [SLeaf (inf (lit "k")) (LOne (pty_of MText)) None (lit "string") true; SCont (inf (lit "t")) false [leaf "z" u8t "uint8"]].
Definition pick_cs : list schema := [SList pick_i [lit "k"] false pick_entry].
Definition pick_ops : list (list pstep * op) :=
  [([Kid 0], add "a"); ([Kid 0; Ent (VStr (lit "a")); Kid 1; Kid 0], assign (VInt 1));
   ([Kid 0], add "b"); ([Kid 0; Ent (VStr (lit "b")); Kid 1; Kid 0], assign (VInt 2))].
Definition entries_of (kids : list obj) : list (pyval * obj) := match kids with OList _ es :: _ => es | _ => [] end.
Definition pick_es : list (pyval * obj) :=
  [(VStr (lit "a"), OCont true false [OLeaf true (VStr (lit "a")); OCont true false [OLeaf true (VInt 1)]]);
   (VStr (lit "b"), OCont true false [OLeaf true (VStr (lit "b")); OCont true false [OLeaf true (VInt 2)]])].
Lemma pick_reached O : entries_of (run O pick_cs pick_ops) = pick_es.
Proof. vm_compute. reflexivity. Qed.

(** select={"k": "b", "t.z": ...} after an entry with it, where t/z is not set; select={"k": "b", "t.z.y": ...}, where it is. *)
Example C44_refused_case : forall O, exists es kids, entries_of (run O pick_cs (firstn 3 pick_ops)) = es ++ [(VStr (lit "b"), OCont true false kids)] /\
  Forall (fun x => answerable O pick_entry [([lit "k"], lit "b"); ([lit "t"; lit "z"], lit "1")] (snd x)) es /\
  selected O pick_entry [([lit "k"], lit "b")] (OCont true false kids) /\ stuck pick_entry kids [lit "w"] KeyError /\
  stuck pick_entry kids [lit "k"; lit "y"] AttributeError /\
  (exists kids2, entries_of (run O pick_cs pick_ops) = es ++ [(VStr (lit "b"), OCont true false kids2)] /\
     stuck pick_entry kids2 [lit "t"; lit "w"] KeyError /\ stuck pick_entry kids2 [lit "t"; lit "z"; lit "y"] AttributeError).
Proof.
  intros O. exists (firstn 1 pick_es), [OLeaf true (VStr (lit "b")); OCont false false [OLeaf false (VInt 0)]].
  split; [vm_compute; reflexivity|].
  split. { constructor; [|constructor]. intros [|p [|p' b]] path t c E Hb; cbn in E.
    - injection E as <- <- _. eexists. do 3 eexists. split; [reflexivity|]. eapply (LaLeaf _ _ 0%nat (inf (lit "k"))); reflexivity.
    - injection E as _ <- <- _. eexists. do 3 eexists. split; [reflexivity|]. eapply (LaCont _ _ 1%nat (inf (lit "t"))); [reflexivity|reflexivity|]. eapply (LaLeaf _ _ 0%nat (inf (lit "z"))); reflexivity.
    - destruct b; discriminate. }
  split. { intros path t [E|[]]. injection E as <- <-. exists (VStr (lit "b")). split; [|vm_compute; reflexivity]. do 3 eexists. split; [reflexivity|]. eapply (LaLeaf _ _ 0%nat (inf (lit "k"))); reflexivity. }
  split. { apply StNone. intros s [<-|[<-|[]]]; vm_compute; discriminate. }
  split. { eapply (StLeaf _ _ 0%nat (inf (lit "k"))); reflexivity. }
  exists [OLeaf true (VStr (lit "b")); OCont true false [OLeaf true (VInt 2)]]. split; [vm_compute; reflexivity|]. split.
  - eapply (StIn _ _ 1%nat (inf (lit "t"))); [reflexivity|reflexivity|eapply (LaLeaf _ _ 0%nat (inf (lit "z"))); reflexivity|]. apply StNone. intros s [<-|[]]; vm_compute; discriminate.
  - eapply (StIn _ _ 1%nat (inf (lit "t"))); [reflexivity|reflexivity|eapply (LaLeaf _ _ 0%nat (inf (lit "z"))); reflexivity|]. eapply (StLeaf _ _ 0%nat (inf (lit "z"))); reflexivity.
Qed.
(** A leaf that is not set in some entry: KeyError, though another entry has the value asked for. *)
Theorem C44_unset_refuted : exists i keys cs sel ops, forall O im text, let es := entries_of (run O [SList i keys false cs] ops) in
  python_names cs /\ Exists (fun e => selected O cs sel (snd e)) es /\ dumps_select O im text i keys false cs (wanted sel) es = Raise KeyError.
Proof.
  exists pick_i, [lit "k"], pick_entry, [([lit "t"; lit "z"], lit "1")], (firstn 3 pick_ops). intros O im text es.
  split; [apply Serialise_cases.names_by; vm_compute; reflexivity|].
  assert (E : es = [(VStr (lit "a"), OCont true false [OLeaf true (VStr (lit "a")); OCont true false [OLeaf true (VInt 1)]]);
                    (VStr (lit "b"), OCont true false [OLeaf true (VStr (lit "b")); OCont false false [OLeaf false (VInt 0)]])]) by (vm_compute; reflexivity).
  rewrite E. split; [|vm_compute; reflexivity]. left. intros path t [H|[]]. injection H as <- <-. exists (VInt 1). split; [|vm_compute; reflexivity].
  do 3 eexists. split; [reflexivity|]. eapply (LaCont _ _ 1%nat (inf (lit "t"))); [reflexivity|reflexivity|]. eapply (LaLeaf _ _ 0%nat (inf (lit "z"))); reflexivity.
Qed.
Print Assumptions C44_unset_refuted.
(** The same selection in both formats: a leaf below a container cannot be asked for in the IETF format. *)
Theorem C44_ietf_nested_refuted : exists i keys cs sel ops, forall O text text', let es := entries_of (run O [SList i keys false cs] ops) in
  python_names cs /\ yang_names cs /\ Forall (fun e => answerable O cs sel (snd e)) es /\
  (exists ms, dumps_select O no_modules text i keys false cs (wanted sel) es = Ok (JObj ms) /\ length ms = 1%nat) /\
  dumps_ietf_select O no_modules text' cs (wanted sel) es = Raise KeyError.
Proof.
  exists pick_i, [lit "k"], pick_entry, [([lit "t"; lit "z"], lit "1")], pick_ops. intros O text text' es.
  split; [apply Serialise_cases.names_by; vm_compute; reflexivity|]. split; [apply Serialise_cases.yang_names_by; vm_compute; reflexivity|].
  change es with (entries_of (run O pick_cs pick_ops)). rewrite pick_reached. split; [|split; [|vm_compute; reflexivity]].
  - assert (A : forall a z b path t c, [([lit "t"; lit "z"], lit "1")] = b ++ (path, t) :: c ->
              exists v, leaf_set pick_entry path (OCont true false [a; OCont true false [OLeaf true z]]) v).
    { intros a z b path t c E. destruct b as [|p b]; [|destruct b; discriminate]. cbn in E. injection E as <- <- _. exists z. do 3 eexists. split; [reflexivity|].
      eapply (LaCont _ _ 1%nat (inf (lit "t"))); [reflexivity|reflexivity|]. eapply (LaLeaf _ _ 0%nat (inf (lit "z"))); reflexivity. }
    constructor; [|constructor; [|constructor]]; intros b path t c E _; eapply A; exact E.
  - eexists. split; [vm_compute; reflexivity|]. reflexivity.
Qed.
Print Assumptions C44_ietf_nested_refuted.

(** select={"k": "b"} and, in the default format, select={"t.z": "1", "k": "a"}. *)
Example C44_case : forall O, let es := entries_of (run O pick_cs pick_ops) in
  python_names pick_entry /\ yang_names pick_entry /\ Forall (fun s => no_colon (e_mod (s_info s))) pick_entry /\
  all_distinct (map fst es) /\ all_apart pick_entry (map snd es) /\
  Forall (fun e => exists ch pres kids, snd e = OCont ch pres kids) es /\
  Forall (fun e => answerable O pick_entry [([lit "k"], lit "b")] (snd e)) es /\
  Forall (fun e => answerable O pick_entry [([lit "t"; lit "z"], lit "1"); ([lit "k"], lit "a")] (snd e)) es /\
  Exists (fun e => selected O pick_entry [([lit "k"], lit "b")] (snd e)) es /\ Exists (fun e => ~ selected O pick_entry [([lit "k"], lit "b")] (snd e)) es.
Proof.
  intros O es. unfold es. rewrite pick_reached. clear es.
  assert (K : forall c v z, leaf_set pick_entry [lit "k"] (OCont true false [OLeaf true v; OCont c false z]) v).
  { intros c v z. do 3 eexists. split; [reflexivity|]. eapply (LaLeaf _ _ 0%nat (inf (lit "k"))); reflexivity. }
  assert (Z : forall a z, leaf_set pick_entry [lit "t"; lit "z"] (OCont true false [a; OCont true false [OLeaf true z]]) z).
  { intros a z. do 3 eexists. split; [reflexivity|]. eapply (LaCont _ _ 1%nat (inf (lit "t"))); [reflexivity|reflexivity|]. eapply (LaLeaf _ _ 0%nat (inf (lit "z"))); reflexivity. }
  split; [apply Serialise_cases.names_by; vm_compute; reflexivity|]. split; [apply Serialise_cases.yang_names_by; vm_compute; reflexivity|].
  split; [repeat constructor; vm_compute; intuition discriminate|].
  split. { intros [|[|i]] [|[|j]] x y Hx Hy Hn; try congruence; cbn in Hx, Hy; try (destruct i; discriminate); try (destruct j; discriminate);
    injection Hx as <-; injection Hy as <-; vm_compute; reflexivity. }
  split. { intros [|[|i]] [|[|j]] x y Hx Hy Hn; try congruence; cbn in Hx, Hy; try (destruct i; discriminate); try (destruct j; discriminate);
    injection Hx as <-; injection Hy as <-; do 6 eexists; (split; [reflexivity|]; split; [reflexivity|]); (eapply (DfLeaf _ _ _ 0%nat); [reflexivity|reflexivity|reflexivity|vm_compute; reflexivity]). }
  split; [repeat constructor; do 3 eexists; reflexivity|].
  split. { constructor; [|constructor; [|constructor]]; intros b path t c E _; (destruct b as [|p b]; [|destruct b; discriminate]); cbn in E; injection E as <- <- _; eexists; apply K. }
  assert (A : forall v z, answerable O pick_entry [([lit "t"; lit "z"], lit "1"); ([lit "k"], lit "a")] (OCont true false [OLeaf true v; OCont true false [OLeaf true z]])).
  { intros v z b path t c E _. destruct b as [|p [|p' b]]; cbn [app] in E.
    - injection E as <- <- _. eexists; apply Z.
    - injection E as _ <- <- _. eexists; apply K.
    - destruct b; discriminate. }
  split; [constructor; [apply A|]; constructor; [apply A|constructor]|].
  split.
  - right. left. intros path t [E|[]]. injection E as <- <-. exists (VStr (lit "b")). split; [apply K|reflexivity].
  - left. intros H. destruct (H [lit "k"] (lit "b") (or_introl eq_refl)) as (v & Hv & E).
    assert (C : Select_proofs.clean pick_entry).
    { intros p i pr cs' Hs. split; [eapply (Serialise_cases.names_by pick_entry); [vm_compute; reflexivity|exact Hs]|
        eapply (Serialise_cases.yang_names_by pick_entry); [vm_compute; reflexivity|exact Hs]]. }
    rewrite (Select_proofs.leaf_set_fun _ _ _ _ _ C Hv (K _ _ _)) in E. discriminate.
Qed.
