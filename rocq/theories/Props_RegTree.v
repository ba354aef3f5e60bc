(** C65: the data tree and the path helper. *)
From Coq Require Import Permutation.
From Coq Require String.
From Verif Require Import PyStr PyVal PathHelper Spec_Path RegTree Spec_RegTree RegTree_proofs Props_Path.

(** Missing: leaf-lists that were assigned (see the refutation; [C65_exact_partial] has the others), key
    texts that the helper cannot hold, lists without keys, operations that fail halfway. *)
Theorem C65_found_partial : forall uid cs os, fresh uid -> module_ok cs -> Forall (fine cs) os -> forall q o, in_tree cs (snd (session uid cs os)) q o -> is_leaf_list o = false ->
  forall path q', same_place q q' -> Forall2 spells path q' -> exists o', get [] path (w_help (fst (session uid cs os))) = Ok [Some o'] /\ agrees o' o.
Proof. exact RegTree_proofs.session_found. Qed.
Print Assumptions C65_found_partial.
(** Missing: operations that construct an object in place of another one, and [del] (see the
    refutations). *)
Theorem C65_exact_partial : forall uid cs os, fresh uid -> module_ok cs -> Forall (tame cs) os -> forall path q q', place_ok (keys_of cs) q -> same_place q q' -> Forall2 spells path q' ->
  (forall o, in_tree cs (snd (session uid cs os)) q o -> exists o', get [] path (w_help (fst (session uid cs os))) = Ok [Some o'] /\ agrees o' o) /\
  ((forall o, ~ in_tree cs (snd (session uid cs os)) q o) -> get [] path (w_help (fst (session uid cs os))) = Ok []).
Proof. exact RegTree_proofs.session_exact. Qed.
Print Assumptions C65_exact_partial.

(* ------------------------------------------------------------------ cases *)
Definition key_textb (v : str) : bool :=
  match v with [] => false | _ => true end && forallb (fun c => negb (existsb (N.eqb c) (lit " ^'""[]"))) v && negb (has_sub (lit "||") v) && negb (N.eqb (last v 0%N) 124) &&
  forallb (fun c => N.leb 32 c && N.ltb c 127) v && negb (has_sub (lit "current()") v).
Lemma key_text_by v : key_textb v = true -> key_text_ok v.
Proof.
  unfold key_textb. intros H. apply andb_prop in H as [H H6]. apply andb_prop in H as [H H5]. apply andb_prop in H as [H H4]. apply andb_prop in H as [H H3]. apply andb_prop in H as [H1 H2].
  split; [destruct v; [discriminate|discriminate]|]. split.
  { intros c Hc Hin. rewrite forallb_forall in H2. specialize (H2 c Hc). apply Bool.negb_true_iff in H2. assert (existsb (N.eqb c) (lit " ^'""[]") = true); [|congruence]. apply existsb_exists. exists c. split; [assumption|apply N.eqb_refl]. }
  split; [apply bars_by; now rewrite H3, H4|]. split.
  { rewrite forallb_forall in H5. apply Forall_forall. intros c Hc. specialize (H5 c Hc). apply andb_prop in H5 as [H5 H7]. apply N.leb_le in H5. apply N.ltb_lt in H7. right. right. right. left. split; [assumption|]. eapply N.lt_trans; [exact H7|]. now vm_compute. }
  intros a b ->. apply Bool.negb_true_iff in H6. assert (E : has_sub (lit "current()") (a ++ lit "current()" ++ b) = true); [|congruence]. clear. induction a as [|c a IH].
  - cbn [app]. unfold has_sub. now destruct b.
  - cbn [app has_sub]. rewrite IH. apply orb_true_r.
Qed.

Definition L (n : String.string) : rschema := RLeaf (lit n) (VStr []).
Definition unit_cs : list rschema := [L "id"; RLeafList (lit "addr")].
Definition if_cs : list rschema := [L "name"; L "mtu"; RList (lit "unit") [lit "id"] unit_cs; RCont (lit "config") [L "descr"]].
Definition net : list rschema := [RCont (lit "interfaces") [RList (lit "interface") [lit "name"] if_cs]; L "host"].
Ltac schema_by :=
  first [ apply ok_leaf; apply xml_by; vm_compute; reflexivity
        | apply ok_leaf_list; apply xml_by; vm_compute; reflexivity
        | apply ok_cont; [apply xml_by; vm_compute; reflexivity|apply nodup_by; vm_compute; reflexivity|schemas_by]
        | apply ok_list; [apply xml_by; vm_compute; reflexivity|apply nodup_by; vm_compute; reflexivity|schemas_by|discriminate|apply nodup_by; vm_compute; reflexivity|
            let k := fresh in let H := fresh in intros k H; repeat (destruct H as [<-|H]; [split; [split; [apply xml_by; vm_compute; reflexivity|split; [apply key_by; vm_compute; reflexivity|vm_compute; discriminate]]|eexists; repeat (first [left; reflexivity|right])]|]); destruct H] ]
with schemas_by := let s := fresh in let H := fresh in intros s H; repeat (destruct H as [<-|H]; [schema_by|]); destruct H.
Lemma net_ok : module_ok net.
Proof. split; [apply nodup_by; vm_compute; reflexivity|schemas_by]. Qed.

Definition at_if : list rstep := [Kid 0; Kid 0].
Definition S_ (s : String.string) : pyval := VStr (lit s).
Definition G (s : String.string) : outcome := Good (S_ s).
Definition net_ops : list (list rstep * rop) :=
  [ (at_if, Add [lit "eth0"] [G "eth0"]);
    (at_if ++ [Ent [lit "eth0"]; Kid 1], Set_ (VLeaf (G "1500")));
    (at_if ++ [Ent [lit "eth0"]; Kid 2], Add [lit "7"] [G "7"]);
    (at_if ++ [Ent [lit "eth0"]; Kid 2; Ent [lit "7"]; Kid 1], Members [S_ "10.0.0.1"]);
    (at_if, Add [lit "eth1"] [G "eth1"]);
    (at_if ++ [Ent [lit "eth0"]; Kid 2], Add [lit "7"] [G "7"]);
    (at_if ++ [Ent [lit "eth0"]; Kid 1], Set_ (VLeaf (Refused ValueError)));
    (at_if ++ [Ent [lit "eth1"]; Kid 3; Kid 0], Set_ (VLeaf (G "x")));
    (at_if, Delete [lit "eth1"]);
    ([Kid 1], Set_ (VLeaf (G "r1"))) ].
Ltac fit_by := let n := fresh in let k := fresh in let c := fresh in let E := fresh in intros n k c E; first [discriminate E|injection E as _ <- _; split; [reflexivity|constructor; [apply key_text_by; vm_compute; reflexivity|constructor]]].
Ltac good_by := repeat (apply Forall_cons; [exact I|]); apply Forall_nil.
Lemma net_tame : Forall (tame net) net_ops.
Proof.
  repeat (apply Forall_cons; [first [split; [exact I|eexists _, _; reflexivity]|exact I|split; [fit_by|good_by]|fit_by]|]). apply Forall_nil.
Qed.
Definition part_if : str := lit "interface[@name='eth0']".
Definition part_unit : str := lit "unit[id=7]".
Definition net_place : place := [(lit "interfaces", []); (lit "interface", [(lit "name", lit "eth0")]); (lit "unit", [(lit "id", lit "7")]); (lit "addr", [])].
Definition net_place1 : place := [(lit "interfaces", []); (lit "interface", [(lit "name", lit "eth1")])].
Example C65_case : fresh uids /\ module_ok net /\ Forall (tame net) net_ops /\
  Forall2 spells [lit "interfaces"; part_if; part_unit; lit "addr"] net_place /\ place_ok (keys_of net) net_place /\ place_ok (keys_of net) net_place1 /\
  let wk := session uids net net_ops in
  (exists id, in_tree net (snd wk) net_place (PLeafList id) /\ members id (w_heap (fst wk)) = [S_ "10.0.0.1"] /\
     get [] [lit "interfaces"; part_if; part_unit; lit "addr"] (w_help (fst wk)) = Ok [Some (PLeafList id)]) /\
  get [] [lit "interfaces"; part_if; lit "mtu"] (w_help (fst wk)) = Ok [Some (PLeaf (S_ "1500"))] /\
  get [] [lit "interfaces"; lit "interface[name='eth1']"] (w_help (fst wk)) = Ok [] /\ get [] [lit "host"] (w_help (fst wk)) = Ok [Some (PLeaf (S_ "r1"))].
Proof.
  split; [exact uids_fresh|]. split; [exact net_ok|]. split; [exact net_tame|]. split.
  { constructor; [apply spells_plain|]. constructor; [apply (spells_by _ _ _ [(P (lit "name") (lit "eth0") true (lit "'"), [])]); [discriminate|vm_compute; reflexivity..]|].
    constructor; [apply (spells_by _ _ _ [(P (lit "id") (lit "7") false [], [])]); [discriminate|vm_compute; reflexivity..]|]. constructor; [apply spells_plain|constructor]. }
  split; [split; [discriminate|split; [repeat (constructor; [apply name_by; vm_compute; reflexivity|]); constructor|vm_compute; repeat split]]|].
  split; [split; [discriminate|split; [repeat (constructor; [apply name_by; vm_compute; reflexivity|]); constructor|vm_compute; repeat split]]|].
  cbv zeta. split.
  { set (wk := session uids net net_ops). vm_compute in wk. exists 4%nat. split; [|split; [vm_compute; reflexivity|vm_compute; reflexivity]].
    eapply (in_cont_below _ _ 0); [reflexivity|vm_compute; reflexivity|]. eapply (in_entry_below _ _ 0 (lit "interface") [lit "name"] if_cs _ [lit "eth0"]); [reflexivity|vm_compute; reflexivity|left; reflexivity|]. eapply (in_entry_below _ _ 2 (lit "unit") [lit "id"] unit_cs _ [lit "7"]); [reflexivity|vm_compute; reflexivity|left; reflexivity|]. eapply (in_leaf_list _ _ 1); [reflexivity|vm_compute; reflexivity]. }
  split; [vm_compute; reflexivity|]. split; vm_compute; reflexivity.
Qed.

(** Everything that [fine] allows: objects for containers and entries, unset, del, a failed add. *)
Definition net_fine : list (list rstep * rop) := net_ops ++
  [ (at_if, Put [lit "eth0"] [G "eth0"] (Some [(1%nat, VLeaf (G "9000")); (3%nat, VObject [(0%nat, VLeaf (G "d"))])]));
    (at_if ++ [Ent [lit "eth0"]; Kid 3], Set_ (VObject [(0%nat, VLeaf (G "e"))]));
    (at_if ++ [Ent [lit "eth0"]; Kid 1], Unset);
    (at_if, Add [lit "eth2"] [Refused ValueError]);
    (at_if, Add [lit "eth3"] [G "eth3"]);
    (at_if, Del [lit "eth3"]) ].
Ltac changed_by := let i := fresh in let v := fresh in let H := fresh in intros i v H; repeat (destruct H as [H|H]; [injection H as <- <-; eexists; split; [reflexivity|value_by]|]); (destruct H)
with value_by := first [apply good_leaf|apply good_leaf_list|apply good_list|apply good_cont; changed_by].
Lemma net_fine_ok : Forall (fine net) net_fine.
Proof.
  unfold net_fine. apply Forall_app. split.
  - repeat (apply Forall_cons; [first [exact I|split; [exact I|let E := fresh in intros ? ? E; discriminate E]|fit_by]|]). apply Forall_nil.
  - apply Forall_cons; [split; [fit_by|split; [good_by|eexists; split; [reflexivity|]]]; let E := fresh in let i := fresh in let v := fresh in intros ? ? ? i v E; injection E as _ _ <-; revert i v; changed_by|].
    apply Forall_cons; [split; [exact I|let E := fresh in intros ? ? E; injection E as _ <-; apply good_cont; changed_by]|].
    repeat (apply Forall_cons; [first [exact I|fit_by]|]). apply Forall_nil.
Qed.
Example C65_fine_case : Forall (fine net) net_fine /\
  let wk := session uids net net_fine in
  let q := [(lit "interfaces", []); (lit "interface", [(lit "name", lit "eth0")]); (lit "config", []); (lit "descr", [])] in
  in_tree net (snd wk) q (PLeaf (S_ "e")) /\ Forall2 spells [lit "interfaces"; part_if; lit "config"; lit "descr"] q /\
  get [] [lit "interfaces"; part_if; lit "config"; lit "descr"] (w_help (fst wk)) = Ok [Some (PLeaf (S_ "e"))] /\
  get [] [lit "interfaces"; part_if; lit "mtu"] (w_help (fst wk)) = Ok [Some (PLeaf (VStr []))].
Proof.
  split; [exact net_fine_ok|]. cbv zeta. split.
  { eapply (in_cont_below _ _ 0); [reflexivity|vm_compute; reflexivity|]. eapply (in_entry_below _ _ 0 (lit "interface") [lit "name"] if_cs _ [lit "eth0"]); [reflexivity|vm_compute; reflexivity|left; reflexivity|]. eapply (in_cont_below _ _ 3); [reflexivity|vm_compute; reflexivity|]. eapply (in_leaf _ _ 0); [reflexivity|vm_compute; reflexivity]. }
  split. { constructor; [apply spells_plain|]. constructor; [apply (spells_by _ _ _ [(P (lit "name") (lit "eth0") true (lit "'"), [])]); [discriminate|vm_compute; reflexivity..]|]. constructor; [apply spells_plain|]. constructor; [apply spells_plain|constructor]. }
  split; vm_compute; reflexivity.
Qed.

(* ------------------------------------------------------------------ refutations *)
Definition found_at (cs : list rschema) (os : list (list rstep * rop)) (path : list str) : res (list (option pobj)) := get [] path (w_help (fst (session uids cs os))).
(** Something is found where nothing is. *)
Definition ghost (cs : list rschema) (os : list (list rstep * rop)) : Prop := module_ok cs /\ exists path q, Forall2 spells path q /\ place_ok (keys_of cs) q /\
  (forall o, ~ in_tree cs (snd (session uids cs os)) q o) /\ exists o, found_at cs os path = Ok [Some o].
Definition box : list rschema := [RCont (lit "c") [RList (lit "l") [lit "k"] [L "k"; L "v"]]].
Lemma box_ok : module_ok box.
Proof. split; [apply nodup_by; vm_compute; reflexivity|schemas_by]. Qed.
Definition box_entry (k : str) : place := [(lit "c", []); (lit "l", [(lit "k", k)])].
Definition box_part (k : str) : str := lit "l[k='" ++ k ++ lit "']".
Lemma box_spelled : Forall2 spells [lit "c"; box_part (lit "a")] (box_entry (lit "a")) /\ place_ok (keys_of box) (box_entry (lit "a")).
Proof.
  split; [|split; [discriminate|split; [repeat (constructor; [apply name_by; vm_compute; reflexivity|]); constructor|vm_compute; repeat split]]].
  constructor; [apply spells_plain|]. constructor; [apply (spells_by _ _ _ [(P (lit "k") (lit "a") false (lit "'"), [])]); [discriminate|vm_compute; reflexivity..]|constructor].
Qed.
(** A list without entries: nothing is below it. *)
Lemma box_empty id o : ~ in_tree box [TCont id [TList []]] (box_entry (lit "a")) o.
Proof.
  intros H. inversion H as [| | |? ? i ? ? ? ? ? ? E1 E2 H'| |? ? i ? ? ? ? ? ? ? ? ? E1 E2 E3 H']; subst.
  - destruct i as [|[|]]; [|discriminate E1..]. injection E1 as <-. injection E2 as _ <-. inversion H' as [| | | |? ? j ? ? ? ? ? ? ? F1 F2 F3|]; subst; [destruct j as [|[|]]; [|discriminate..]; injection F2 as <-; destruct F3|].
    match goal with X : in_tree _ _ [] _ |- _ => inversion X end.
  - destruct i as [|[|]]; discriminate E1.
Qed.
Lemma box_ghost os : (exists id, snd (session uids box os) = [TCont id [TList []]]) -> (exists o, found_at box os [lit "c"; box_part (lit "a")] = Ok [Some o]) -> ghost box os.
Proof.
  intros [id E] Hf. split; [exact box_ok|]. exists [lit "c"; box_part (lit "a")], (box_entry (lit "a")). split; [apply box_spelled|]. split; [apply box_spelled|]. split; [|assumption]. rewrite E. apply box_empty.
Qed.
(** [del c.l["a"]] does not tell the helper. *)
Theorem C65_del_refuted : exists cs p ks ko, ghost cs [(p, Add ks ko); (p, Del ks)].
Proof. exists box, [Kid 0; Kid 0], [lit "a"], [G "a"]. apply box_ghost; [eexists|eexists]; vm_compute; reflexivity. Qed.
Print Assumptions C65_del_refuted.
(** add() that is refused leaves its entry with the helper. *)
Theorem C65_add_refuted : exists cs p ks e, ghost cs [(p, Add ks [Refused e])].
Proof. exists box, [Kid 0; Kid 0], [lit "a"], ValueError. apply box_ghost; [eexists|eexists]; vm_compute; reflexivity. Qed.
Print Assumptions C65_add_refuted.
(** So do _unset_c() and c = other: the entries of the old container are still found. *)
Theorem C65_unset_refuted : exists cs p ks ko p', ghost cs [(p, Add ks ko); (p', Unset)].
Proof. exists box, [Kid 0; Kid 0], [lit "a"], [G "a"], [Kid 0]. apply box_ghost; [eexists|eexists]; vm_compute; reflexivity. Qed.
Print Assumptions C65_unset_refuted.
Theorem C65_assign_refuted : exists cs p ks ko p' ch, ghost cs [(p, Add ks ko); (p', Set_ (VObject ch))].
Proof. exists box, [Kid 0; Kid 0], [lit "a"], [G "a"], [Kid 0], []. apply box_ghost; [eexists|eexists]; vm_compute; reflexivity. Qed.
Print Assumptions C65_assign_refuted.
(** A leaf that is refused late: the helper has the value, the tree does not. *)
Theorem C65_late_refuted : exists cs p v e path q v', module_ok cs /\ Forall2 spells path q /\ in_tree cs (snd (session uids cs [(p, Set_ (VLeaf (Late v e)))])) q (PLeaf v') /\
  found_at cs [(p, Set_ (VLeaf (Late v e)))] path = Ok [Some (PLeaf v)] /\ ~ agrees (PLeaf v) (PLeaf v').
Proof.
  exists [L "x"], [Kid 0], (S_ "b"), ValueError, [lit "x"], [(lit "x", [])], (VStr []). split; [split; [apply nodup_by; vm_compute; reflexivity|schemas_by]|]. split; [constructor; [apply spells_plain|constructor]|].
  split; [eapply (in_leaf _ _ 0); [reflexivity|vm_compute; reflexivity]|]. split; [vm_compute; reflexivity|]. vm_compute. intros [E|E]; discriminate.
Qed.
Print Assumptions C65_late_refuted.
(** A leaf-list that is assigned: the helper keeps the empty one that it replaces, for good. *)
Theorem C65_leaf_list_refuted : exists cs p path q l, module_ok cs /\ Forall2 spells path q /\ l <> [] /\
  let w := fst (session uids cs [(p, Set_ (VMembers (Ok l)))]) in
  exists id id', in_tree cs (snd (session uids cs [(p, Set_ (VMembers (Ok l)))])) q (PLeafList id) /\ members id (w_heap w) = l /\
    found_at cs [(p, Set_ (VMembers (Ok l)))] path = Ok [Some (PLeafList id')] /\ members id' (w_heap w) = [].
Proof.
  exists [RLeafList (lit "x")], [Kid 0], [lit "x"], [(lit "x", [])], [S_ "b"]. split; [split; [apply nodup_by; vm_compute; reflexivity|schemas_by]|]. split; [constructor; [apply spells_plain|constructor]|]. split; [discriminate|].
  cbv zeta. exists 1%nat, 0%nat. split; [eapply (in_leaf_list _ _ 0); [reflexivity|vm_compute; reflexivity]|]. split; [vm_compute; reflexivity|]. split; vm_compute; reflexivity.
Qed.
Print Assumptions C65_leaf_list_refuted.
(** A container that is refused, [c.d = 5]: the tree keeps the old one, the helper has an empty one in its place. *)
Theorem C65_refused_refuted : exists cs p v p' path q x x', module_ok cs /\ Forall2 spells path q /\
  let os := [(p, Set_ (VLeaf (Good x))); (p', Set_ v)] in
  in_tree cs (snd (session uids cs os)) q (PLeaf x) /\ found_at cs os path = Ok [Some (PLeaf x')] /\ ~ agrees (PLeaf x') (PLeaf x) /\
  (exists w kids, run uids cs (fst (module_new uids cs)) (snd (module_new uids cs)) [(p, Set_ (VLeaf (Good x)))] = (w, kids) /\ snd (exec uids [] cs kids p' (Set_ v) w) = Raise ValueError).
Proof.
  exists [RCont (lit "c") [RCont (lit "d") [L "x"]]], [Kid 0; Kid 0; Kid 0], VAny, [Kid 0; Kid 0], [lit "c"; lit "d"; lit "x"], [(lit "c", []); (lit "d", []); (lit "x", [])], (S_ "b"), (VStr []).
  split; [split; [apply nodup_by; vm_compute; reflexivity|schemas_by]|]. split; [repeat (constructor; [apply spells_plain|]); constructor|]. cbv zeta.
  split; [eapply (in_cont_below _ _ 0); [reflexivity|vm_compute; reflexivity|]; eapply (in_cont_below _ _ 0); [reflexivity|vm_compute; reflexivity|]; eapply (in_leaf _ _ 0); [reflexivity|vm_compute; reflexivity]|].
  split; [vm_compute; reflexivity|]. split; [vm_compute; intros [E|E]; discriminate|]. eexists _, _. split; [vm_compute; reflexivity|vm_compute; reflexivity].
Qed.
Print Assumptions C65_refused_refuted.
(** A list without keys cannot be used with a path helper: its entries are not registered, so their
    children have no parent. *)
Theorem C65_keyless_refuted : exists s uuid w kids, module_new uids [RCont (r_name s) []; RCont (lit "c") [s]] = (w, kids) /\ r_name s = lit "l" /\
  snd (exec uids [] [RCont (r_name s) []; RCont (lit "c") [s]] kids [Kid 1; Kid 0] (Add [uuid] []) w) = Raise XPathError.
Proof. exists (RList (lit "l") [] [L "v"]), (lit "0"). eexists _, _. split; [vm_compute; reflexivity|]. split; vm_compute; reflexivity. Qed.
Print Assumptions C65_keyless_refuted.
