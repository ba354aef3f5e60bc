(** C91: get_list and the root object of the path helper; C67 again: members of leaf-lists. *)
From Coq Require Import Lia.
From Coq Require String.
From Verif Require Import PyStr PyVal SafeName PathHelper Spec_Path RegTree RegRef RegRoot Spec_RegTree Spec_RegRef Spec_RegRoot RegTree_proofs Props_Path Props_RegTree Props_RegRef.
From Verif Require RegList_proofs RegMembers_proofs.

(* ------------------------------------------------------------------ C67 *)
(** The members that a leaf-list got last are those that a leafref to it accepts. *)
Theorem C67_members_partial : forall uid text other cs os c o cpath ref up ns key q id p l assign v, fresh uid -> module_ok cs -> Forall (tame cs) os ->
  reaches cs (snd (session uid cs os)) p q id ->
  let wk := session uid cs (os ++ [(p, Members l)]) in in_tree cs (snd wk) c o -> Forall2 spells cpath c -> up <= length c -> reads ref up ns ->
  meant c up ns q -> (forall q' t, in_tree cs (snd wk) q' t -> meant c up ns q' -> q' = q) ->
  match leafref_new text other true key cpath ref (fst wk) assign v with
  | Ok _ => exists x, In x l /\ text x = v
  | Raise e => e = ValueError /\ forall x, In x l -> text x <> v
  end.
Proof. exact RegMembers_proofs.leafref_members. Qed.
Print Assumptions C67_members_partial.
(** The leaf-list vlan has two members, then three others; there is another leaf-list. *)
Example C67_members_case : (exists id, reaches ref_net ref_tree [Kid 2] [(lit "vlan", [])] id) /\
  (let w := fst (session uids ref_net (ref_ops ++ [([Kid 2], Members [S_ "30"; S_ "40"; S_ "30"])])) in
   let try (v : String.string) := leafref_new text_of (fun _ => lit "[]") true false uplink_path (lit "/vlan") w (Ok tt) (lit v) in
   try "40"%string = Ok (RefMember 1) /\ try "20"%string = Raise ValueError /\ try "red"%string = Raise ValueError).
Proof.
  split; [eexists; eapply reach_here; [reflexivity|vm_compute; reflexivity]|]. cbv zeta. split; [vm_compute; reflexivity|]. split; vm_compute; reflexivity.
Qed.

(* ------------------------------------------------------------------ C91 *)
(** A path to a child of a container or of a list entry: get_list returns this child, a list too.  Missing:
    what C65 leaves out, prefixes in the path, paths with "..". *)
Theorem C91_get_list_partial : forall uid cs os e caller q q' path cs' kids' i s x, fresh uid -> module_ok cs -> Forall (fine cs) os ->
  let wk := session uid cs os in children_at cs (snd wk) q cs' kids' -> same_place q q' -> Forall name_ok q' -> Forall2 spells path q' -> py_names cs' ->
  nth_error cs' i = Some s -> nth_error kids' i = Some x ->
  get_list e caller (path ++ [r_name s]) cs (snd wk) (fst wk) = Ok (GotChild x) /\ get_list e caller ([] :: path ++ [r_name s]) cs (snd wk) (fst wk) = Ok (GotChild x).
Proof. intros. eapply RegList_proofs.list_found; eassumption. Qed.
Print Assumptions C91_get_list_partial.
(** No child of this name: the exception that the caller asked for. *)
Theorem C91_no_child_partial : forall uid cs os e caller q q' path cs' kids' n, fresh uid -> module_ok cs -> Forall (fine cs) os ->
  let wk := session uid cs os in children_at cs (snd wk) q cs' kids' -> same_place q q' -> Forall name_ok q' -> Forall2 spells path q' ->
  (forall s, In s cs' -> safe_name (r_name s) <> safe_name n) ->
  get_list e caller (path ++ [n]) cs (snd wk) (fst wk) = Raise e /\ get_list e caller ([] :: path ++ [n]) cs (snd wk) (fst wk) = Raise e.
Proof. intros. eapply RegList_proofs.list_missing; eassumption. Qed.
Print Assumptions C91_no_child_partial.
(** Nothing there that could have a child. *)
Theorem C91_no_parent_partial : forall uid cs os e caller q q' path n, fresh uid -> module_ok cs -> Forall (tame cs) os ->
  let wk := session uid cs os in place_ok (keys_of cs) q -> (forall o, ~ in_tree cs (snd wk) q o) -> same_place q q' -> Forall name_ok q' -> Forall2 spells path q' ->
  get_list e caller (path ++ [n]) cs (snd wk) (fst wk) = Raise e /\ get_list e caller ([] :: path ++ [n]) cs (snd wk) (fst wk) = Raise e.
Proof. intros. eapply RegList_proofs.parent_missing; eassumption. Qed.
Print Assumptions C91_no_parent_partial.
(** The root object has every leaf, container and leaf-list at the top level as an element and as an attribute,
    and these are the objects of the tree. *)
Theorem C91_root_partial : forall uid cs os i s x o e caller, fresh uid -> module_ok cs -> py_names cs -> Forall (fine cs) os ->
  let wk := session uid cs os in nth_error cs i = Some s -> nth_error (snd wk) i = Some x -> as_object x = Some o -> is_leaf_list o = false ->
  get_unique e caller [[]] (w_help (fst wk)) = Ok None /\ In (r_name s) (root_elements (fst wk)) /\ root_attribute (r_name s) (fst wk) = Some o /\
  get_list e caller [[]; r_name s] cs (snd wk) (fst wk) = Ok (GotTop o).
Proof. intros uid cs os i s x o e caller Hu Hm Hpy Hos wk Hs Hx Ho Hl. eapply (RegList_proofs.root_shows uid Hu cs Hm Hpy false); try eassumption. rewrite Hl. discriminate. Qed.
Print Assumptions C91_root_partial.
Theorem C91_root_leaf_lists_partial : forall uid cs os i s x o e caller, fresh uid -> module_ok cs -> py_names cs -> Forall (tame cs) os ->
  let wk := session uid cs os in nth_error cs i = Some s -> nth_error (snd wk) i = Some x -> as_object x = Some o ->
  get_unique e caller [[]] (w_help (fst wk)) = Ok None /\ In (r_name s) (root_elements (fst wk)) /\ root_attribute (r_name s) (fst wk) = Some o /\
  get_list e caller [[]; r_name s] cs (snd wk) (fst wk) = Ok (GotTop o).
Proof. intros uid cs os i s x o e caller Hu Hm Hpy Hos wk Hs Hx Ho. eapply (RegList_proofs.root_shows uid Hu cs Hm Hpy true); try eassumption. reflexivity. Qed.
Print Assumptions C91_root_leaf_lists_partial.

(* ------------------------------------------------------------------ cases *)
Definition ref_world : world := fst (session uids ref_net ref_ops).
Definition eth0 : place := [(lit "interfaces", []); (lit "interface", [(lit "name", lit "eth0")])].
Definition eth0_path : list str := [lit "interfaces"; lit "interface[name='eth0']"].
Definition eth9 : place := [(lit "interfaces", []); (lit "interface", [(lit "name", lit "eth9")])].
Definition eth9_path : list str := [lit "interfaces"; lit "interface[name='eth9']"].
Lemma eth_spelled v : v = lit "eth0" \/ v = lit "eth9" -> Forall2 spells [lit "interfaces"; lit "interface[name='" ++ v ++ lit "']"] [(lit "interfaces", []); (lit "interface", [(lit "name", v)])].
Proof.
  intros [-> | ->]; (constructor; [apply spells_plain|]; constructor; [|constructor]).
  - apply (spells_by _ _ _ [(P (lit "name") (lit "eth0") false (lit "'"), [])]); [discriminate|vm_compute; reflexivity..].
  - apply (spells_by _ _ _ [(P (lit "name") (lit "eth9") false (lit "'"), [])]); [discriminate|vm_compute; reflexivity..].
Qed.
Definition eth_cs : list rschema := [L "name"; L "mtu"; RLeafList (lit "tag")].
Definition eth0_kids : list robj := [TLeaf (S_ "eth0"); TLeaf (S_ "1500"); TLeafList 4].
Definition eth1_kids : list robj := [TLeaf (S_ "eth1"); TLeaf (S_ "9000"); TLeafList 6].
Lemma eth0_children : children_at ref_net ref_tree eth0 eth_cs eth0_kids.
Proof.
  assert (E : exists r, ref_tree = TCont 0 [TList [([lit "eth0"], (3, eth0_kids)); ([lit "eth1"], (5, eth1_kids))]] :: r) by (eexists; vm_compute; reflexivity).
  destruct E as (r & ->).
  apply (at_cont_below _ _ 0 (lit "interfaces") [RList (lit "interface") [lit "name"] eth_cs] 0 [TList [([lit "eth0"], (3, eth0_kids)); ([lit "eth1"], (5, eth1_kids))]]); [reflexivity|reflexivity|].
  set (es := [([lit "eth0"], (3, eth0_kids)); ([lit "eth1"], (5, eth1_kids))]).
  exact (at_entry [RList (lit "interface") [lit "name"] eth_cs] [TList es] 0 (lit "interface") [lit "name"] eth_cs es [lit "eth0"] 3 eth0_kids eq_refl eq_refl (or_introl eq_refl)).
Qed.
Definition place_eqb (q q' : place) : bool :=
  texts_eqb (map fst q) (map fst q') && forallb (fun ab => texts_eqb (map snd (snd (fst ab))) (map snd (snd (snd ab)))) (combine q q').
Lemma place_eqb_refl q : place_eqb q q = true.
Proof.
  unfold place_eqb. rewrite (proj2 (RegTree_proofs.texts_eqb_eq _ _) eq_refl). cbn [andb].
  induction q as [|a q IH]; [reflexivity|]. cbn [combine forallb fst snd]. rewrite (proj2 (RegTree_proofs.texts_eqb_eq _ _) eq_refl). exact IH.
Qed.
Lemma eth9_missing o : ~ in_tree ref_net ref_tree eth9 o.
Proof.
  intros Ho. assert (Hi : In (eth9, o) (listing 2 ref_net ref_tree)) by (apply listing_all; [exact Ho|cbn; lia]).
  assert (B : forallb (fun qo => negb (place_eqb (fst qo) eth9)) (listing 2 ref_net ref_tree) = true) by (vm_compute; reflexivity).
  rewrite forallb_forall in B. specialize (B _ Hi). cbn [fst] in B.
  rewrite place_eqb_refl in B. discriminate.
Qed.
(** The list below a container, the children of one of its entries, the leaf-list of this entry; no entry eth9,
    no leaf speed; the leaf-list and the containers at the top level. *)
Example C91_case : fresh uids /\ module_ok ref_net /\ Forall (fine ref_net) ref_ops /\ Forall (tame ref_net) ref_ops /\ py_names ref_net /\
  Forall name_ok eth0 /\ Forall2 spells eth0_path eth0 /\ same_place eth0 eth0 /\
  (exists cs' kids', children_at ref_net ref_tree eth0 cs' kids' /\ py_names cs' /\ nth_error cs' 1 = Some (L "mtu") /\ nth_error kids' 1 = Some (TLeaf (S_ "1500")) /\
     forall s, In s cs' -> safe_name (r_name s) <> safe_name (lit "speed")) /\
  place_ok (keys_of ref_net) eth9 /\ Forall2 spells eth9_path eth9 /\ (forall o, ~ in_tree ref_net ref_tree eth9 o) /\
  get_list KeyError [] (eth0_path ++ [lit "mtu"]) ref_net ref_tree ref_world = Ok (GotChild (TLeaf (S_ "1500"))) /\
  (exists es, get_list KeyError [] [[]; lit "interfaces"; lit "interface"] ref_net ref_tree ref_world = Ok (GotChild (TList es)) /\ map fst es = [[lit "eth0"]; [lit "eth1"]]) /\
  get_list KeyError [] (eth0_path ++ [lit "speed"]) ref_net ref_tree ref_world = Raise KeyError /\ get_list KeyError [] (eth9_path ++ [lit "mtu"]) ref_net ref_tree ref_world = Raise KeyError /\
  root_elements ref_world = [lit "interfaces"; lit "system"; lit "vlan"] /\ (exists id, get_list KeyError [] [[]; lit "vlan"] ref_net ref_tree ref_world = Ok (GotTop (PLeafList id))).
Proof.
  split; [exact uids_fresh|]. split; [exact ref_net_ok|].
  split; [repeat (apply Forall_cons; [first [exact Logic.I|split; [exact Logic.I|let E := fresh in intros ? ? E; discriminate E]|fit_by|split; [fit_by|split; [good_by|eexists; split; [reflexivity|]]]]|]); apply Forall_nil|].
  split; [exact ref_tame|]. split; [apply nodup_by; vm_compute; reflexivity|]. split; [repeat (constructor; [apply name_by; vm_compute; reflexivity|]); constructor|].
  split; [exact (eth_spelled _ (or_introl eq_refl))|]. split; [repeat (constructor; [split; reflexivity|]); constructor|].
  split.
  { exists eth_cs, eth0_kids. split; [exact eth0_children|]. split; [apply nodup_by; vm_compute; reflexivity|]. split; [reflexivity|]. split; [reflexivity|].
    intros s H.
    assert (B : forallb (fun s => negb (str_eqb (safe_name (r_name s)) (safe_name (lit "speed")))) eth_cs = true) by (vm_compute; reflexivity).
    rewrite forallb_forall in B. specialize (B s H). intros E.
    rewrite E in B. rewrite PyStr_facts.str_eqb_refl in B. discriminate. }
  split; [split; [discriminate|split; [repeat (constructor; [apply name_by; vm_compute; reflexivity|]); constructor|vm_compute; repeat split]]|].
  split; [exact (eth_spelled _ (or_intror eq_refl))|].
  split; [exact eth9_missing|].
  split; [vm_compute; reflexivity|].
  split; [eexists; split; [vm_compute; reflexivity|vm_compute; reflexivity]|].
  split; [vm_compute; reflexivity|].
  split; [vm_compute; reflexivity|].
  split; [vm_compute; reflexivity|].
  eexists. vm_compute. reflexivity.
Qed.

(* ------------------------------------------------------------------ what does not hold *)
Definition top_list : list rschema := [RList (lit "l") [lit "k"] [L "k"]].
Lemma top_list_ok : module_ok top_list.
Proof. split; [apply nodup_by; vm_compute; reflexivity|schemas_by]. Qed.
(** A list at the top level is not registered: get_list does not find it. *)
Theorem C91_top_list_refuted : exists cs os i s x, module_ok cs /\ py_names cs /\ Forall (tame cs) os /\ let wk := session uids cs os in nth_error cs i = Some s /\ nth_error (snd wk) i = Some x /\ x <> TList [] /\
  forall e caller, get_list e caller [[]; r_name s] cs (snd wk) (fst wk) = Raise e.
Proof.
  exists top_list, [([Kid 0], Add [lit "a"] [G "a"])], 0. eexists _, _. split; [exact top_list_ok|]. split; [apply nodup_by; vm_compute; reflexivity|].
  split; [apply Forall_cons; [split; [fit_by|good_by]|apply Forall_nil]|]. cbv zeta. split; [reflexivity|]. split; [vm_compute; reflexivity|]. split; [discriminate|]. intros e caller. vm_compute. reflexivity.
Qed.
Print Assumptions C91_top_list_refuted.
(** With a prefix, as get accepts it, the last part is not found. *)
Theorem C91_prefix_refuted : exists cs os path part n pre x y, module_ok cs /\ Forall (tame cs) os /\ part = pre ++ lit ":" ++ n /\ let wk := session uids cs os in
  get [] (path ++ [part]) (w_help (fst wk)) = Ok [Some x] /\ get_list KeyError [] (path ++ [n]) cs (snd wk) (fst wk) = Ok (GotChild y) /\ as_object y = Some x /\
  forall e caller, get_list e caller (path ++ [part]) cs (snd wk) (fst wk) = Raise e.
Proof.
  exists [RCont (lit "c") [L "x"]], [([Kid 0; Kid 0], Set_ (VLeaf (G "1")))], [lit "c"], (lit "m:x"), (lit "x"), (lit "m"). eexists _, _.
  split; [split; [apply nodup_by; vm_compute; reflexivity|schemas_by]|]. split; [apply Forall_cons; [split; [exact Logic.I|eexists _, _; reflexivity]|apply Forall_nil]|]. split; [reflexivity|]. cbv zeta.
  split; [vm_compute; reflexivity|]. split; [vm_compute; reflexivity|]. split; [reflexivity|]. intros e caller. vm_compute. reflexivity.
Qed.
Print Assumptions C91_prefix_refuted.
(** Entries of a list at the top level become elements of the root object, and stay there when they are
    deleted. *)
Theorem C91_stale_refuted : exists cs os o, module_ok cs /\ Forall (tame cs) os /\ let wk := session uids cs os in
  (forall q t, ~ in_tree cs (snd wk) q t) /\ root_elements (fst wk) = [lit "l[k='a']"] /\ root_attribute (lit "l[k='a']") (fst wk) = Some o.
Proof.
  exists top_list, [([Kid 0], Add [lit "a"] [G "a"]); ([Kid 0], Delete [lit "a"])]. eexists. split; [exact top_list_ok|].
  split; [repeat (apply Forall_cons; [first [split; [fit_by|good_by]|exact Logic.I|fit_by]|]); apply Forall_nil|]. cbv zeta.
  split.
  { intros q t H. assert (Hi : In (q, t) (listing (length q) top_list (snd (session uids top_list [([Kid 0], Add [lit "a"] [G "a"]); ([Kid 0], Delete [lit "a"])])))) by (apply listing_all; [exact H|lia]).
    assert (E : snd (session uids top_list [([Kid 0], Add [lit "a"] [G "a"]); ([Kid 0], Delete [lit "a"])]) = [TList []]) by (vm_compute; reflexivity).
    rewrite E in Hi. destruct (length q); exact Hi. }
  split; vm_compute; reflexivity.
Qed.
Print Assumptions C91_stale_refuted.
(** A leaf-list that is assigned, and a value that is refused then: the root object has another object than the
    tree. *)
Theorem C91_leaf_list_refuted : exists cs os n id id', module_ok cs /\ py_names cs /\ cs = [RLeafList n] /\ let wk := session uids cs os in
  snd wk = [TLeafList id] /\ members id (w_heap (fst wk)) <> [] /\ root_attribute n (fst wk) = Some (PLeafList id') /\ members id' (w_heap (fst wk)) = [].
Proof.
  exists [RLeafList (lit "x")], [([Kid 0], Set_ (VMembers (Ok [S_ "a"]))); ([Kid 0], Set_ (VMembers (Raise ValueError)))], (lit "x"). eexists _, _.
  split; [split; [apply nodup_by; vm_compute; reflexivity|schemas_by]|]. split; [apply nodup_by; vm_compute; reflexivity|]. split; [reflexivity|]. cbv zeta.
  split; [vm_compute; reflexivity|]. split; [vm_compute; discriminate|]. split; vm_compute; reflexivity.
Qed.
Print Assumptions C91_leaf_list_refuted.
