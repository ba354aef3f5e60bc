(** Property theorems about loading documents into a tree: C70, C71, and C30 for histories with loading. *)
From Verif Require Import PyStr PyStr_facts PyVal Restricted IntTypes StrTypes SafeName Spec_Types Spec_Lists TypedList YList
  Tree Spec_Tree Compile Spec_Compile Serialise Xml Spec_Loading.
From Verif Require LoadingMain_proofs Tree_cases Tree_main Serialise_cases Compile_proofs.
From Verif Require Import Props_Tree Props_Past.
From Coq Require Import Lia.
Import ListNotations.

(* ------------------------------------------------------------------ C70 *)
(** Loading a document into an existing module object, whatever the result, is a series of operations that a
    program could have done itself: each is for a node that the document names, all but the last succeed if
    there is an exception, all of them if not. *)
Theorem C70_json : forall O uid cs overwrite skip d m m' r, load_json O uid cs overwrite skip d m = (m', r) ->
  exists os, m' = module_run O cs m os /\ outcome O cs m os r /\ Forall (asked_for j_part j_elem overwrite cs d) os.
Proof.
  intros O uid cs ov skip d m m' r E. destruct (LoadingMain_proofs.json_series O uid cs ov skip d m m' r E) as (os & A & B & C & _). eauto.
Qed.
Print Assumptions C70_json.
Theorem C70_ietf : forall O uid cs overwrite skip d m m' r, load_ietf_json O uid cs overwrite skip d m = (m', r) ->
  exists os, m' = module_run O cs m os /\ outcome O cs m os r /\ Forall (asked_for i_part (i_elem O) overwrite cs d) os.
Proof.
  intros O uid cs ov skip d m m' r E. destruct (LoadingMain_proofs.ietf_series O uid cs ov skip d m m' r E) as (os & A & B & C & _). eauto.
Qed.
Print Assumptions C70_ietf.
Theorem C70_xml : forall O ft uid cs d m m' r, load_doc O ft uid cs d m = (m', r) ->
  exists os, m' = module_run O cs m os /\ outcome_again O cs m os r /\ Forall (asked_for x_part (x_elem O ft) false cs d) os.
Proof.
  intros O ft uid cs d m m' r E. destruct (LoadingMain_proofs.xml_series O uid cs ft d m m' r E) as (os & A & B & C & _). eauto.
Qed.
Print Assumptions C70_xml.

(** So the theorems about histories are about programs that load documents, too. *)
Theorem C70_histories : forall O ft uid cs l, new_names uid -> plain_deeds O ft uid cs l ->
  exists os, after O ft uid cs l = module_run O cs (module_new O cs) os /\
    Forall (fun po => plain_op (snd po)) os /\ new_uids O cs os.
Proof. intros O ft uid cs l. exact (LoadingMain_proofs.deeds_history O uid cs ft l). Qed.
Print Assumptions C70_histories.

(** Such as: at most one case of a choice has data.  Missing as for C30_histories_partial: lists without keys, choices at
    the top level, nested choices, the assignment of whole objects. *)
Theorem C30_loading_partial : forall O ft uid cs l, uniform cs -> leaf_keys cs ->
  (forall p i keys od cs', schema_at cs p = Some (SList i keys od cs') -> keys <> []) ->
  plain_deeds O ft uid cs l -> one_case cs (after O ft uid cs l).
Proof. intros O ft uid cs l. exact (LoadingMain_proofs.deeds_one_case O uid cs ft l). Qed.
Print Assumptions C30_loading_partial.

(** Names that are new: longer than all others. *)
Definition longer (es : list (pyval * obj)) : str :=
  0%N :: flat_map (fun ke => match fst ke with VStr t => t | _ => [] end) es.
Lemma longer_new : new_names longer.
Proof.
  intros es. unfold longer. set (u := 0%N :: _).
  assert (H : forall k x, In (k, x) es -> py_eq (VStr u) k = false).
  { intros k x Hin. destruct k as [| | | |t| | | | |]; try reflexivity. cbn [py_eq].
    destruct (str_eqb u t) eqn:E; [|reflexivity]. apply str_eqb_eq in E. exfalso.
    apply in_split in Hin as (l1 & l2 & ->). apply (f_equal (@length N)) in E. subst u. cbn [length] in E. rewrite flat_map_app in E. cbn in E.
    rewrite !app_length in E. lia. }
  clearbody u. induction es as [|[k x] es IH]; [reflexivity|]. cbn [mget]. rewrite (H k x (or_introl eq_refl)). apply IH. intros k' x' Hin. apply (H k' x'). now right.
Qed.

(** A list with keys, a list without, a leaf-list of texts, and a choice. *)
Definition box : list ystmt :=
  [YCont (hd (lit "c")) true
     [YChoice (lit "pick") None
        [(lit "one", [YLeaf (hd (lit "o")) txt None (lit "string")]);
         (lit "two", [YCont (hd (lit "t")) true [YLeaf (hd (lit "z")) u8 None (lit "uint8")]])];
      YList (hd (lit "m")) (Some (lit "k")) false
        [YLeaf (hd (lit "k")) txt None (lit "string"); YLeaf (hd (lit "a")) u8 None (lit "uint8"); YLeaf (hd (lit "b")) u8 None (lit "uint8")];
      YList (hd (lit "n")) None false [YLeaf (hd (lit "v")) u8 None (lit "uint8")]]].
Definition box_cs := compile_module true box.
Lemma box_nn : forall y, In y box -> no_nested_choice y.
Proof. unfold box. statements. Qed.
Lemma box_uniform : uniform box_cs.
Proof. apply Compile_proofs.compile_uniform, box_nn. Qed.
Lemma box_even : even_keys box_cs.
Proof. apply Tree_cases.even_by. vm_compute. reflexivity. Qed.

Definition no_floats : str -> option pyval := fun _ => None.
Definition box_deeds : list deed :=
  [Do [Kid 0; Kid 2] (AList (longer []) (YAdd (VStr (lit "e"))));
   LoadJson false false (JObj [(lit "c", JObj [(lit "m", JObj [(lit "e", JObj [(lit "b", JInt 7)]); (lit "f", JObj [(lit "a", JInt 8)])])])]);
   LoadIetf false false (JObj [(lit "m:c", JObj [(lit "n", JArr [JObj [(lit "v", JInt 1)]; JObj [(lit "v", JInt 2)]]); (lit "o", JStr (lit "x"))])]);
   LoadIetf false false (JObj [(lit "m:c", JObj [(lit "n", JArr [JObj [(lit "v", JInt 3)]; JObj [(lit "v", JInt 999)]; JObj [(lit "v", JInt 5)]])])])].
Lemma box_plain O : plain_deeds O no_floats longer box_cs box_deeds.
Proof.
  change box_deeds with (((([] ++ [nth 0 box_deeds (LoadXml (XElem [] [] [] [] []))]) ++ [nth 1 box_deeds (LoadXml (XElem [] [] [] [] []))]) ++
    [nth 2 box_deeds (LoadXml (XElem [] [] [] [] []))]) ++ [nth 3 box_deeds (LoadXml (XElem [] [] [] [] []))]).
  do 4 (apply PdSnoc; [|try exact I]); [constructor|]. split; [exact I|]. intros u yo ch es Ho _ Hx. vm_compute in Hx. injection Hx as <- <-. now injection Ho as <- _.
Qed.
(** The last document is refused half-way; two entries were made of it. *)
Example C70_case : forall O,
  new_names longer /\ plain_deeds O no_floats longer box_cs box_deeds /\
  snd (load_ietf_json O longer box_cs false false
    (JObj [(lit "m:c", JObj [(lit "n", JArr [JObj [(lit "v", JInt 3)]; JObj [(lit "v", JInt 999)]; JObj [(lit "v", JInt 5)]])])])
    (after O no_floats longer box_cs (removelast box_deeds))) = Raise ValueError /\
  get_kids true box_cs (after O no_floats longer box_cs box_deeds) =
    [(lit "c", DDict [(lit "o", DLeaf (VStr (lit "x")));
                      (lit "m", DList [(VStr (lit "e"), DDict [(lit "k", DLeaf (VStr (lit "e"))); (lit "b", DLeaf (VInt 7%Z))]);
                                       (VStr (lit "f"), DDict [(lit "k", DLeaf (VStr (lit "f"))); (lit "a", DLeaf (VInt 8%Z))])]);
                      (lit "n", DList [(VStr [0%N], DDict [(lit "v", DLeaf (VInt 1%Z))]);
                                       (VStr [0%N; 0%N], DDict [(lit "v", DLeaf (VInt 2%Z))]);
                                       (VStr [0%N; 0%N; 0%N; 0%N], DDict [(lit "v", DLeaf (VInt 3%Z))]);
                                       (VStr [0%N; 0%N; 0%N; 0%N; 0%N; 0%N; 0%N; 0%N], DDict [])])])].
Proof.
  intros O. split; [exact longer_new|]. split; [apply box_plain|]. split; vm_compute; reflexivity.
Qed.

Example C30_loading_case : forall O,
  let l := [LoadJson false false (JObj [(lit "c", JObj [(lit "o", JStr (lit "x"))])]);
            LoadIetf false false (JObj [(lit "m:c", JObj [(lit "t", JObj [(lit "l", JArr [JObj [(lit "k", JStr (lit "k1")); (lit "v", JInt 3)]])])])])] in
  uniform boxed_cs /\ leaf_keys boxed_cs /\
  (forall p i keys od cs', schema_at boxed_cs p = Some (SList i keys od cs') -> keys <> []) /\
  plain_deeds O no_floats longer boxed_cs l /\
  get_kids true boxed_cs (after O no_floats longer boxed_cs (removelast l)) = [(lit "c", DDict [(lit "o", DLeaf (VStr (lit "x")))])] /\
  get_kids true boxed_cs (after O no_floats longer boxed_cs l) =
    [(lit "c", DDict [(lit "t", DDict [(lit "l", DList [(VStr (lit "k1"), DDict [(lit "k", DLeaf (VStr (lit "k1"))); (lit "v", DLeaf (VInt 3%Z))])])])])].
Proof.
  intros O l. split; [exact boxed_uniform|]. split; [apply Tree_cases.keyed_leaf_keys, boxed_keyed|].
  split; [intros p i keys od cs' H ->; pose proof (Tree_cases.keyed_sub p (entry_schema boxed_cs) _ boxed_keyed H) as G; cbn in G; rewrite Bool.andb_false_r in G; discriminate|].
  split; [|split; vm_compute; reflexivity].
  change l with (([] ++ [nth 0 l (LoadXml (XElem [] [] [] [] []))]) ++ [nth 1 l (LoadXml (XElem [] [] [] [] []))]). subst l. cbv zeta.
  do 2 (apply PdSnoc; [|exact I]). constructor.
Qed.

(* ------------------------------------------------------------------ C71 *)
(** What a document has nothing for is after loading it - without overwrite, whatever the result - as it was,
    unless it belongs to another case than something the document has; entries of lists without keys ([there]):
    those that were there.  Missing: nested choices, the assignment of whole objects before. *)
Theorem C71_json_partial : forall O ft uid cs l skip d there q m' r, uniform cs -> even_keys cs -> new_names uid -> plain_deeds O ft uid cs l ->
  let m := after O ft uid cs l in load_json O uid cs false skip d m = (m', r) ->
  spared j_part j_elem j_whole there cs d q -> (there = true -> at_path m q <> None) ->
  (forall p r0, named j_part j_elem cs d p -> prefix r0 q -> ~ rival cs p r0) ->
  at_path m' q = at_path m q.
Proof. exact LoadingMain_proofs.json_rest. Qed.
Print Assumptions C71_json_partial.
Theorem C71_ietf_partial : forall O ft uid cs l skip d there q m' r, uniform cs -> even_keys cs -> new_names uid -> plain_deeds O ft uid cs l ->
  let m := after O ft uid cs l in load_ietf_json O uid cs false skip d m = (m', r) ->
  spared i_part (i_old O) i_whole there cs d q -> (there = true -> at_path m q <> None) ->
  (forall p r0, named i_part (i_elem O) cs d p -> prefix r0 q -> ~ rival cs p r0) ->
  at_path m' q = at_path m q.
Proof. exact LoadingMain_proofs.ietf_rest. Qed.
Print Assumptions C71_ietf_partial.
Theorem C71_xml_partial : forall O ft uid cs l d there q m' r, uniform cs -> even_keys cs -> new_names uid -> plain_deeds O ft uid cs l ->
  let m := after O ft uid cs l in load_doc O ft uid cs d m = (m', r) ->
  spared x_part (x_elem O ft) x_whole there cs d q -> (there = true -> at_path m q <> None) ->
  (forall p r0, named x_part (x_elem O ft) cs d p -> prefix r0 q -> ~ rival cs p r0) ->
  at_path m' q = at_path m q.
Proof. exact LoadingMain_proofs.xml_rest. Qed.
Print Assumptions C71_xml_partial.
(** With overwrite: children of the module that the document does not name. *)
Theorem C71_overwrite_partial : forall O ft uid cs l overwrite skip d n rest m' r, uniform cs -> even_keys cs -> new_names uid -> plain_deeds O ft uid cs l ->
  let m := after O ft uid cs l in load_json O uid cs overwrite skip d m = (m', r) ->
  (forall s d', ~ j_part cs d n s d') ->
  (forall p r0, named j_part j_elem cs d p -> prefix r0 (Kid n :: rest) -> ~ rival cs p r0) ->
  at_path m' (Kid n :: rest) = at_path m (Kid n :: rest).
Proof. exact LoadingMain_proofs.json_top. Qed.
Print Assumptions C71_overwrite_partial.
Theorem C71_overwrite_ietf_partial : forall O ft uid cs l overwrite skip d n rest m' r, uniform cs -> even_keys cs -> new_names uid -> plain_deeds O ft uid cs l ->
  let m := after O ft uid cs l in load_ietf_json O uid cs overwrite skip d m = (m', r) ->
  (forall s d', ~ i_part cs d n s d') ->
  (forall p r0, named i_part (i_elem O) cs d p -> prefix r0 (Kid n :: rest) -> ~ rival cs p r0) ->
  at_path m' (Kid n :: rest) = at_path m (Kid n :: rest).
Proof. exact LoadingMain_proofs.ietf_top. Qed.
Print Assumptions C71_overwrite_ietf_partial.

(** A document is not loaded completely or not at all: what comes before the value that is refused stays, and
    what belongs to another case is gone even if the value that should replace it is refused. *)
Theorem C71_refused_refuted : forall O,
  let m := after O no_floats longer box_cs [LoadJson false false (JObj [(lit "c", JObj [(lit "o", JStr (lit "x"))])])] in
  exists d m', load_json O longer box_cs false false d m = (m', Raise ValueError) /\
    get_kids true box_cs m = [(lit "c", DDict [(lit "o", DLeaf (VStr (lit "x")))])] /\
    at_path m' [Kid 0; Kid 0] = Some (OLeaf false (VStr [])) /\
    at_path m' [Kid 0; Kid 2; Ent (VStr (lit "g")); Kid 1] = Some (OLeaf true (VInt 1)).
Proof.
  intros O m. exists (JObj [(lit "c", JObj [(lit "m", JObj [(lit "g", JObj [(lit "a", JInt 1)])]); (lit "t", JObj [(lit "z", JInt 999)])])]).
  eexists. split; [vm_compute; reflexivity|]. split; [vm_compute; reflexivity|]. split; vm_compute; reflexivity.
Qed.
Print Assumptions C71_refused_refuted.

Lemma untagged_safe cs q : (forall r s, prefix r q -> schema_at cs r = Some s -> s_tag s = None) -> forall p r, prefix r q -> ~ rival cs p r.
Proof. intros H p r Hr (s & c & k' & t & st & k & _ & _ & Hs & Ht & _). rewrite (H r s Hr Hs) in Ht. discriminate. Qed.
(** Below the lists of [box] nothing is in a choice. *)
Lemma box_lists p r k q : prefix r q -> q = [Kid 0; Kid 0] -> p = [Kid 0] \/ (k = 2 \/ k = 3) /\ (exists z, p = Kid 0 :: Kid k :: z) -> ~ rival box_cs p r.
Proof.
  intros Hr -> Hp (s & c & k' & t & st & k0 & Hlen & _ & _ & _ & (z' & Ht) & Hl & Hst & Htg & _).
  destruct t as [|a [|b t]]; cbn in Hl; try lia.
  destruct Hp as [->|(Hk & z & ->)]; [discriminate|]. cbn in Ht. injection Ht as <- <- ->.
  assert (Hu : exists u, schema_at box_cs [Kid 0; Kid k] = Some u /\ Serialise_cases.tags_of u = []).
  { destruct Hk as [-> | ->]; eexists; (split; [vm_compute; reflexivity|]); vm_compute; reflexivity. }
  destruct Hu as (u & Hu & Hno). change (Kid 0 :: Kid k :: t) with ([Kid 0; Kid k] ++ t) in Hst. unfold schema_at in Hst, Hu.
  rewrite Tree_main.sub_app, Hu in Hst. pose proof (Serialise_cases.tags_sub t u st _ Hst Htg) as G. rewrite Hno in G. destruct G.
Qed.
(** The children of a name. *)
Definition hits (cs : list schema) (key : str) : list nat :=
  filter (fun n => match nth_error cs n with Some s => str_eqb (e_py (s_info s)) (safe_name key) | None => false end) (seq 0 (length cs)).
Lemma spelt_hits cs key n s l : spelt cs key n s -> hits cs key = l -> In n l /\ nth_error cs n = Some s.
Proof.
  intros [Hn Hs] <-. split; [|exact Hn]. apply filter_In. split.
  - apply in_seq. cbn. split; [lia|]. apply nth_error_Some. now rewrite Hn.
  - rewrite Hn, Hs. apply str_eqb_refl.
Qed.
Ltac spelt_in H :=
  let Hn := fresh "Hn" in let Hs := fresh "Hs" in
  destruct (spelt_hits _ _ _ _ _ H ltac:(vm_compute; reflexivity)) as [Hn Hs]; cbn [In] in Hn;
  repeat match type of Hn with _ \/ _ => destruct Hn as [Hn|Hn] end; try contradiction; try discriminate Hn; subst; vm_compute in Hs; try discriminate Hs; clear H.
Ltac members Hin := cbn [In] in Hin; repeat match type of Hin with _ \/ _ => destruct Hin as [Hin|Hin] end; try contradiction; injection Hin as Ha Hb; subst.
Ltac jparts H :=
  let ms := fresh "ms" in let key := fresh "key" in let E := fresh "E" in let Hin := fresh "Hin" in let Hsp := fresh "Hsp" in
  destruct H as (ms & key & E & Hin & Hsp); try discriminate E; injection E as <-; members Hin; spelt_in Hsp.
Ltac iparts H :=
  let ms := fresh "ms" in let key := fresh "key" in let E := fresh "E" in let Hin := fresh "Hin" in let Hat := fresh "Hat" in let Hsp := fresh "Hsp" in
  destruct H as (ms & key & E & Hin & Hat & Hsp); try discriminate E; injection E as <-; members Hin; clear Hat; spelt_in Hsp.

(** A document for the entries "e" and "g" that is refused half-way: nothing for "f", the other leaves of "e", the leaf "o". *)
Definition box_json : json :=
  JObj [(lit "c", JObj [(lit "m", JObj [(lit "e", JObj [(lit "b", JInt 9)]); (lit "g", JObj [(lit "a", JInt 999)])])])].
Lemma box_json_named p : named j_part j_elem box_cs box_json p -> p = [Kid 0] \/ (2 = 2 \/ 2 = 3) /\ (exists z, p = Kid 0 :: Kid 2 :: z).
Proof.
  inversion 1 as [? ? ? ? ? H1|? ? ? ? ? ? ? ? H1 H2|? ? ? ? ? ? ? ? ? ? ? H1 H2 H3]; subst; jparts H1; [now left|].
  injection Hs as <- <- <-. right. split; [now left|].
  inversion H2 as [? ? ? ? ? H1|? ? ? ? ? ? ? ? H1|? ? ? ? ? ? ? ? ? ? ? H1]; subst; jparts H1; eexists; reflexivity.
Qed.
Lemma box_untagged q : q = [Kid 0; Kid 2; Ent (VStr (lit "f"))] \/ q = [Kid 0; Kid 2; Ent (VStr (lit "e")); Kid 1] \/ q = [Kid 0; Kid 3; Ent (VStr [0%N])] ->
  forall p r, prefix r q -> ~ rival box_cs p r.
Proof.
  intros Hq. apply untagged_safe. intros r s [z E] Hs.
  destruct Hq as [-> |[-> | ->]]; destruct r as [|? [|? [|? [|? [|? r]]]]]; cbn in E; try discriminate E;
    (repeat match type of E with _ :: _ = _ :: _ => injection E as <- E end); subst; vm_compute in Hs; try discriminate Hs; now injection Hs as <-.
Qed.
Example C71_case : forall O,
  let m := after O no_floats longer box_cs box_deeds in
  uniform box_cs /\ even_keys box_cs /\ new_names longer /\ plain_deeds O no_floats longer box_cs box_deeds /\
  (exists m', load_json O longer box_cs false false box_json m = (m', Raise ValueError) /\
     at_path m' [Kid 0; Kid 2; Ent (VStr (lit "e")); Kid 2] = Some (OLeaf true (VInt 9)) /\
     at_path m' [Kid 0; Kid 2; Ent (VStr (lit "g"))] <> None) /\
  (spared j_part j_elem j_whole false box_cs box_json [Kid 0; Kid 0] /\
   (forall p r, named j_part j_elem box_cs box_json p -> prefix r [Kid 0; Kid 0] -> ~ rival box_cs p r) /\
   at_path m [Kid 0; Kid 0] = Some (OLeaf true (VStr (lit "x")))) /\
  (let q := [Kid 0; Kid 2; Ent (VStr (lit "f"))] in spared j_part j_elem j_whole false box_cs box_json q /\
   (forall p r, prefix r q -> ~ rival box_cs p r) /\ at_path m (q ++ [Kid 1]) = Some (OLeaf true (VInt 8))) /\
  (let q := [Kid 0; Kid 2; Ent (VStr (lit "e")); Kid 1] in spared j_part j_elem j_whole true box_cs box_json q /\
   (forall p r, prefix r q -> ~ rival box_cs p r) /\ at_path m q = Some (OLeaf false (VInt 0))).
Proof.
  intros O m. split; [exact box_uniform|]. split; [exact box_even|]. split; [exact longer_new|]. split; [apply box_plain|].
  split; [eexists; split; [vm_compute; reflexivity|split; [vm_compute; reflexivity|vm_compute; discriminate]]|]. split; [|split].
  - split; [|split; [|vm_compute; reflexivity]].
    + eapply SpIn; [vm_compute; reflexivity|]. intros d' H. jparts H. split; [intros G; eapply G; reflexivity|].
      apply SpHere. intros s d' H. jparts H.
    + intros p r Hp Hr. apply box_json_named in Hp. now apply (box_lists p r 2 _ Hr eq_refl).
  - split; [|split; [apply box_untagged; auto|vm_compute; reflexivity]].
    eapply SpIn; [vm_compute; reflexivity|]. intros d' H. jparts H. split; [intros G; eapply G; reflexivity|].
    eapply SpEntry; [vm_compute; reflexivity|right; discriminate|]. intros d' H. jparts H. split.
    + intros [G|(k & e & (es & t & E & Hin & ->) & G)]; [discriminate|]. injection E as <-. members Hin; eapply G; reflexivity.
    + intros k' e (es & t & E & Hin & ->) Hk. injection E as <-. members Hin; discriminate Hk.
  - split; [|split; [apply box_untagged; auto|vm_compute; reflexivity]].
    eapply SpIn; [vm_compute; reflexivity|]. intros d' H. jparts H. split; [intros G; eapply G; reflexivity|].
    eapply SpEntry; [vm_compute; reflexivity|now left|]. intros d' H. jparts H. split.
    + intros [G|(k & e & (es & t & E & Hin & ->) & G)]; [discriminate|]. injection E as <-. members Hin; eapply G; reflexivity.
    + intros k' e (es & t & E & Hin & ->) Hk. injection E as <-. members Hin; [|discriminate Hk]. split; [reflexivity|].
      apply SpHere. intros s d' H. jparts H.
Qed.

(** IETF JSON for the list without keys: the entries that were there stay.  XML for "e": "f" stays. *)
Definition box_ietf : json := JObj [(lit "m:c", JObj [(lit "n", JArr [JObj [(lit "v", JInt 7)]])])].
Definition x_box (name text : str) (kids : list xml) : xml := XElem (lit "urn:m") name [] text kids.
Definition box_xml : xml :=
  x_box (lit "data") [] [x_box (lit "c") [] [x_box (lit "m") [] [x_box (lit "k") (lit "e") []; x_box (lit "b") (lit "9") []]]].
Ltac xparts H :=
  let Hin := fresh "Hin" in let Hsp := fresh "Hsp" in
  destruct H as (Hin & Hsp); unfold box_xml, x_box in Hin; cbn [x_kids In] in Hin; repeat match type of Hin with _ \/ _ => destruct Hin as [Hin|Hin] end; try contradiction; subst; cbn [x_name] in Hsp; spelt_in Hsp.
Example C71_ietf_case : forall O,
  let m := after O no_floats longer box_cs box_deeds in
  (let q := [Kid 0; Kid 3; Ent (VStr [0%N])] in
   spared i_part (i_old O) i_whole true box_cs box_ietf q /\ at_path m (q ++ [Kid 0]) = Some (OLeaf true (VInt 1)) /\
   (forall p r, prefix r q -> ~ rival box_cs p r) /\
   exists m', load_ietf_json O longer box_cs false false box_ietf m = (m', Ok tt) /\ length (entries m' [Kid 0; Kid 3]) = 5) /\
  (let q := [Kid 0; Kid 2; Ent (VStr (lit "f"))] in
   spared x_part (x_elem O no_floats) x_whole false box_cs box_xml q /\ at_path m (q ++ [Kid 1]) = Some (OLeaf true (VInt 8)) /\
   (forall p r, prefix r q -> ~ rival box_cs p r) /\
   exists m', load_doc O no_floats longer box_cs box_xml m = (m', Ok tt) /\
     at_path m' [Kid 0; Kid 2; Ent (VStr (lit "e")); Kid 2] = Some (OLeaf true (VInt 9))).
Proof.
  intros O m. split.
  - split; [|split; [vm_compute; reflexivity|split; [apply box_untagged; auto|eexists; split; vm_compute; reflexivity]]].
    eapply SpIn; [vm_compute; reflexivity|]. intros d' H. iparts H. split; [intros G; eapply G; reflexivity|].
    eapply SpEntry; [vm_compute; reflexivity|now left|]. intros d' H. iparts H. split.
    + intros (e & [<-|[]] & G). eapply G; reflexivity.
    + intros k' e (_ & []).
  - split; [|split; [vm_compute; reflexivity|split; [apply box_untagged; auto|eexists; split; vm_compute; reflexivity]]].
    eapply SpIn; [vm_compute; reflexivity|]. intros d' H. xparts H. split; [intros []|].
    eapply SpEntry; [vm_compute; reflexivity|right; discriminate|]. intros d1 H. xparts H. split; [intros []|].
    intros k' e (-> & kd & Hkd & ->) Hk. exfalso. unfold x_key_values in Hkd.
    inversion Hkd as [|k kv ks kd' (Hf & n & s & c & Hnth & Hpy & Hch & Hname & Hv) Hrest]; subst. inversion Hrest; subst.
    cbn [x_kids In] in Hch. destruct Hch as [<-|[<-|[]]].
    + destruct kv as [k0 v]. cbn [fst snd] in *. subst. vm_compute in Hk. discriminate.
    + destruct n as [|[|[|n]]]; cbn in Hnth; [| | |destruct n; discriminate]; injection Hnth as <-; vm_compute in Hpy, Hname; congruence.
Qed.
