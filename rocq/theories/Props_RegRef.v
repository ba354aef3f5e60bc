(** C66, C67: searches with the path helper, and leafrefs in a data tree. *)
From Coq Require Import Lia.
From Coq Require String.
From Verif Require Import PyStr PyVal PathHelper Spec_Path RegTree RegRef Spec_RegTree Spec_RegRef Props_Path Props_RegTree.
From Verif Require PathSearch_proofs RegRef_proofs.

(* ------------------------------------------------------------------ C66 *)
(** Any calls of register and unregister, then a search.  Missing: names and values outside [name_ok] and
    [pred_ok], "." in paths, paths that leave the tree by "..". *)
Theorem C66_search_partial : forall A (oeq : A -> A -> bool) uid keys (cs : list (call (A := A))) path pattern caller, fresh uid -> Forall (call_ok keys) cs -> Forall2 names path pattern -> Forall name_ok pattern -> pattern <> [] ->
  let M := fst (map_run oeq cs (fun _ => None)) in let st := fst (helper_run oeq uid cs helper_new) in
  found M (matching pattern) (get caller path st) /\ found M (matching pattern) (get caller ([] :: path) st).
Proof. exact @PathSearch_proofs.search_run. Qed.
Print Assumptions C66_search_partial.
Theorem C66_relative_partial : forall A (oeq : A -> A -> bool) uid keys (cs : list (call (A := A))) cpath c up path pattern, fresh uid -> Forall (call_ok keys) cs -> Forall2 spells cpath c -> place_ok keys c -> 0 < up <= length c ->
  Forall2 names path pattern -> Forall name_ok pattern -> pattern <> [] ->
  let M := fst (map_run oeq cs (fun _ => None)) in
  found M (fun q => M c <> None /\ exists r, q = firstn (length c - up) c ++ r /\ matching pattern r) (get cpath (repeat (lit "..") up ++ path) (fst (helper_run oeq uid cs helper_new))).
Proof. exact @PathSearch_proofs.relative_run. Qed.
Print Assumptions C66_relative_partial.
Theorem C66_unique_partial : forall A (oeq : A -> A -> bool) uid keys (cs : list (call (A := A))) e path pattern caller, fresh uid -> Forall (call_ok keys) cs -> Forall2 names path pattern -> Forall name_ok pattern -> pattern <> [] ->
  let M := fst (map_run oeq cs (fun _ => None)) in
  match get_unique e caller path (fst (helper_run oeq uid cs helper_new)) with
  | Ok o => exists q, matching pattern q /\ M q = o /\ o <> None /\ forall q', matching pattern q' -> M q' <> None -> q' = q
  | Raise e' => e' = e /\ ((forall q, matching pattern q -> M q = None) \/ exists q1 q2, q1 <> q2 /\ matching pattern q1 /\ matching pattern q2 /\ M q1 <> None /\ M q2 <> None)
  end.
Proof. exact @RegRef_proofs.unique_run. Qed.
Print Assumptions C66_unique_partial.
(** The same in a data tree: what is in the tree is found. *)
Theorem C66_tree_partial : forall uid cs os path pattern caller, fresh uid -> module_ok cs -> Forall (tame cs) os -> Forall2 names path pattern -> Forall name_ok pattern -> pattern <> [] ->
  let wk := session uid cs os in
  found_in cs (snd wk) (matching pattern) (get caller path (w_help (fst wk))) /\ found_in cs (snd wk) (matching pattern) (get caller ([] :: path) (w_help (fst wk))).
Proof. exact RegRef_proofs.tree_search. Qed.
Print Assumptions C66_tree_partial.

Definition some_if : node_name := (lit "interface", [(lit "name", lit "eth0")]).
Definition t_some : str := lit "if:interface[@name='eth0']".
Definition if_calls2 : list (call (A := nat)) := firstn 4 if_calls.
Lemma if_calls2_ok : Forall (call_ok if_keys) if_calls2.
Proof. unfold if_calls2. destruct C47_case as (_ & H & _). apply Forall_forall. intros c Hc. rewrite Forall_forall in H. apply H. rewrite <- (firstn_skipn 4 if_calls). apply in_or_app. now left. Qed.
(** interface[name='eth0'] stands for both units; "../../mtu"-like paths; get_unique. *)
Example C66_case : fresh uids /\ Forall (call_ok if_keys) if_calls2 /\ Forall2 names [lit "interfaces"; t_some] [n_ifs; some_if] /\ Forall name_ok [n_ifs; some_if] /\
  place_ok if_keys [n_ifs; n_if (lit "0"); n_mtu] /\ Forall2 spells [lit "interfaces"; t_if (lit "0"); lit "mtu"] [n_ifs; n_if (lit "0"); n_mtu] /\
  (let st := fst (helper_run Nat.eqb uids if_calls2 helper_new) in
   get [] [lit "interfaces"; t_some] st = Ok [Some 2%nat; Some 3%nat] /\
   get [lit "interfaces"; t_if (lit "0"); lit "mtu"] ([lit ".."; lit ".."; t_some]) st = Ok [Some 2%nat; Some 3%nat] /\
   get_unique KeyError [] [lit "interfaces"; t_some] st = Raise KeyError /\ get_unique KeyError [] [lit "interfaces"; t_some; lit "mtu"] st = Ok (Some 4%nat)).
Proof.
  split; [apply uids_fresh|]. split; [apply if_calls2_ok|]. assert (N1 : name_ok n_ifs) by (apply name_by; vm_compute; reflexivity).
  split; [constructor; [exists (lit "interfaces"); split; [apply spells_plain|now left]|constructor; [|constructor]]|].
  { exists (lit "interface[@name='eth0']"). split; [apply (spells_by _ _ _ [(P (lit "name") (lit "eth0") true (lit "'"), [])]); [discriminate|vm_compute; reflexivity..]|]. right. exists (lit "if"). split; [apply xml_by; vm_compute; reflexivity|vm_compute; reflexivity]. }
  split; [constructor; [assumption|constructor; [apply name_by; vm_compute; reflexivity|constructor]]|].
  destruct (if_ok (lit "0")) as (A1 & A2 & A3); [vm_compute; reflexivity|vm_compute; reflexivity|].
  split; [split; [discriminate|split; [constructor; [assumption|constructor; [assumption|constructor; [apply name_by; vm_compute; reflexivity|constructor]]]|vm_compute; repeat split]]|].
  split; [constructor; [apply spells_plain|constructor; [assumption|constructor; [apply spells_plain|constructor]]]|].
  cbv zeta. split; [vm_compute; reflexivity|]. split; [vm_compute; reflexivity|]. split; vm_compute; reflexivity.
Qed.
(** An object that is not registered sees nothing through a relative path, although what the path means is
    there. *)
Theorem C66_caller_refuted : exists (cs : list (call (A := nat))) cpath c, Forall (call_ok if_keys) cs /\ Forall2 spells cpath c /\ place_ok if_keys c /\
  let st := fst (helper_run Nat.eqb uids cs helper_new) in get [] [lit "interfaces"] st = Ok [Some 1%nat] /\ get cpath [lit ".."; lit ".."; lit "interfaces"] st = Ok [].
Proof.
  exists if_calls2, [lit "interfaces"; t_if (lit "2")], [n_ifs; n_if (lit "2")]. split; [apply if_calls2_ok|]. destruct (if_ok (lit "2")) as (A1 & A2 & A3); [vm_compute; reflexivity|vm_compute; reflexivity|].
  split; [constructor; [apply spells_plain|constructor; [assumption|constructor]]|].
  split; [split; [discriminate|split; [constructor; [apply name_by; vm_compute; reflexivity|constructor; [assumption|constructor]]|vm_compute; repeat split]]|]. cbv zeta. split; vm_compute; reflexivity.
Qed.
Print Assumptions C66_caller_refuted.

(* ------------------------------------------------------------------ C67 *)
(** A leafref with require-instance whose path leads to leaves: accepted are the texts of the leaves that
    the path means, in the tree as it is.  Missing: leaves that are no keys if there is only one of them,
    predicates in the path, and what C65 leaves out. *)
Theorem C67_leaves_partial : forall uid text other cs os c o cpath ref up ns key assign v, fresh uid -> module_ok cs -> Forall (tame cs) os ->
  let wk := session uid cs os in in_tree cs (snd wk) c o -> Forall2 spells cpath c -> up <= length c -> reads ref up ns ->
  (forall q t, in_tree cs (snd wk) q t -> meant c up ns q -> exists x, t = PLeaf x /\ forall y, py_eq y x = true -> text y = text x) ->
  (key = true \/ exists q1 q2 t1 t2, q1 <> q2 /\ in_tree cs (snd wk) q1 t1 /\ in_tree cs (snd wk) q2 t2 /\ meant c up ns q1 /\ meant c up ns q2) ->
  match leafref_new text other true key cpath ref (fst wk) assign v with
  | Ok _ => exists q x, in_tree cs (snd wk) q (PLeaf x) /\ meant c up ns q /\ text x = v
  | Raise e => e = ValueError /\ forall q x, in_tree cs (snd wk) q (PLeaf x) -> meant c up ns q -> text x <> v
  end.
Proof. exact RegRef_proofs.leafref_leaves. Qed.
Print Assumptions C67_leaves_partial.
(** To the members of one leaf-list. *)
Theorem C67_leaf_list_partial : forall uid text other cs os c o cpath ref up ns key q id assign v, fresh uid -> module_ok cs -> Forall (tame cs) os ->
  let wk := session uid cs os in in_tree cs (snd wk) c o -> Forall2 spells cpath c -> up <= length c -> reads ref up ns ->
  in_tree cs (snd wk) q (PLeafList id) -> meant c up ns q -> (forall q' t, in_tree cs (snd wk) q' t -> meant c up ns q' -> q' = q) ->
  match leafref_new text other true key cpath ref (fst wk) assign v with
  | Ok _ => exists x, In x (members id (w_heap (fst wk))) /\ text x = v
  | Raise e => e = ValueError /\ forall x, In x (members id (w_heap (fst wk))) -> text x <> v
  end.
Proof. exact RegRef_proofs.leafref_leaf_list. Qed.
Print Assumptions C67_leaf_list_partial.

(** What is in a tree, for literals. *)
Fixpoint listing (fuel : nat) (cs : list rschema) (kids : list robj) : list (place * pobj) :=
  match fuel with
  | 0 => []
  | S f => flat_map (fun sx => match sx with
      | (RLeaf n _, TLeaf v) => [([(n, [])], PLeaf v)]
      | (RLeafList n, TLeafList id) => [([(n, [])], PLeafList id)]
      | (RCont n cs', TCont id kids') => ([(n, [])], PNode id) :: map (fun qo => ((n, []) :: fst qo, snd qo)) (listing f cs' kids')
      | (RList n keys cs', TList es) => flat_map (fun e => ([(n, combine keys (fst e))], PNode (fst (snd e))) ::
            map (fun qo => ((n, combine keys (fst e)) :: fst qo, snd qo)) (listing f cs' (snd (snd e)))) es
      | _ => []
      end) (combine cs kids)
  end.
Lemma combine_nth {A B} i (l : list A) (m : list B) a b : nth_error l i = Some a -> nth_error m i = Some b -> In (a, b) (combine l m).
Proof.
  revert l m. induction i as [|i IH]; intros [|x l] [|y m] H1 H2; try discriminate; cbn [nth_error combine] in *; [injection H1 as ->; injection H2 as ->; now left|]. right. now apply IH.
Qed.
Lemma listing_all cs kids q o : in_tree cs kids q o -> forall fuel, length q <= fuel -> In (q, o) (listing fuel cs kids).
Proof.
  induction 1 as [cs kids i n v0 v H1 H2|cs kids i n id H1 H2|cs kids i n cs' id kids' H1 H2|cs kids i n cs' id kids' q o H1 H2 H3 IH|cs kids i n keys cs' es ks id ek H1 H2 H3|cs kids i n keys cs' es ks id ek q o H1 H2 H3 H4 IH];
    intros [|f] Hf; try (cbn in Hf; lia); cbn [listing]; apply in_flat_map; (eexists; split; [exact (combine_nth i _ _ _ _ H1 H2)|]); cbv iota beta.
  - now left.
  - now left.
  - now left.
  - right. apply in_map_iff. exists (q, o). split; [reflexivity|]. apply IH. cbn in Hf. lia.
  - apply in_flat_map. exists (ks, (id, ek)). split; [assumption|]. now left.
  - apply in_flat_map. exists (ks, (id, ek)). split; [assumption|]. right. apply in_map_iff. exists (q, o). split; [reflexivity|]. apply IH. cbn in Hf. lia.
Qed.
Lemma combine_in {A B} (l : list A) (m : list B) a b : In (a, b) (combine l m) -> exists i, nth_error l i = Some a /\ nth_error m i = Some b.
Proof.
  revert m. induction l as [|x l IH]; intros [|y m] H; try contradiction. destruct H as [H|H]; [injection H as -> ->; now exists 0|]. destruct (IH m H) as (i & H1 & H2). now exists (S i).
Qed.
Lemma listing_only fuel : forall cs kids q o, In (q, o) (listing fuel cs kids) -> in_tree cs kids q o.
Proof.
  induction fuel as [|f IH]; intros cs kids q o H; [contradiction|]. cbn [listing] in H. apply in_flat_map in H as ([s x] & Hsx & H). apply combine_in in Hsx as (i & H1 & H2).
  destruct s as [n v0|n|n cs'|n keys cs'], x as [v|id|id kids'|es]; try contradiction.
  - destruct H as [H|[]]. injection H as <- <-. now apply (in_leaf _ _ i n v0).
  - destruct H as [H|[]]. injection H as <- <-. now apply (in_leaf_list _ _ i).
  - destruct H as [H|H]; [injection H as <- <-; now apply (in_cont _ _ i n cs' id kids')|]. apply in_map_iff in H as ([q' o'] & E & H). injection E as <- <-. apply (in_cont_below _ _ i n cs' id kids'); [assumption..|now apply IH].
  - apply in_flat_map in H as ([ks [id ek]] & He & H). cbn [fst snd] in H. destruct H as [H|H]; [injection H as <- <-; now apply (in_entry _ _ i n keys cs' es ks id ek)|].
    apply in_map_iff in H as ([q' o'] & E & H). injection E as <- <-. apply (in_entry_below _ _ i n keys cs' es ks id ek); [assumption..|now apply IH].
Qed.

(** module { container interfaces { list interface { key name; leaf mtu; leaf-list tag } }
             container system { list user { key id; leaf uplink (a leafref) } } leaf-list vlan } *)
Definition ref_net : list rschema :=
  [ RCont (lit "interfaces") [RList (lit "interface") [lit "name"] [L "name"; L "mtu"; RLeafList (lit "tag")]];
    RCont (lit "system") [RList (lit "user") [lit "id"] [L "id"; L "uplink"]];
    RLeafList (lit "vlan") ].
Lemma ref_net_ok : module_ok ref_net.
Proof. split; [apply nodup_by; vm_compute; reflexivity|schemas_by]. Qed.
Definition ref_ops : list (list rstep * rop) :=
  [ ([Kid 0; Kid 0], Add [lit "eth0"] [G "eth0"]); ([Kid 0; Kid 0], Add [lit "eth1"] [G "eth1"]); ([Kid 0; Kid 0], Add [lit "eth2"] [G "eth2"]);
    ([Kid 0; Kid 0; Ent [lit "eth0"]; Kid 1], Set_ (VLeaf (G "1500"))); ([Kid 0; Kid 0; Ent [lit "eth1"]; Kid 1], Set_ (VLeaf (G "9000")));
    ([Kid 0; Kid 0; Ent [lit "eth0"]; Kid 2], Members [S_ "red"]); ([Kid 1; Kid 0], Add [lit "7"] [G "7"]); ([Kid 2], Members [S_ "10"; S_ "20"]); ([Kid 0; Kid 0], Delete [lit "eth2"]) ].
Lemma ref_tame : Forall (tame ref_net) ref_ops.
Proof. repeat (apply Forall_cons; [first [split; [exact I|eexists _, _; reflexivity]|exact I|split; [fit_by|good_by]|fit_by]|]). apply Forall_nil. Qed.
Definition uplink : place := [(lit "system", []); (lit "user", [(lit "id", lit "7")]); (lit "uplink", [])].
Definition uplink_path : list str := [lit "system"; lit "user[id='7']"; lit "uplink"].
Lemma uplink_spelled : Forall2 spells uplink_path uplink.
Proof. constructor; [apply spells_plain|]. constructor; [apply (spells_by _ _ _ [(P (lit "id") (lit "7") false (lit "'"), [])]); [discriminate|vm_compute; reflexivity..]|]. constructor; [apply spells_plain|constructor]. Qed.
Definition text_of (v : pyval) : str := match v with VStr s => s | _ => [] end.
Definition ref_tree : list robj := snd (session uids ref_net ref_ops).
Definition ref_try (key : bool) (ref v : String.string) : res reference := leafref_new text_of (fun _ => lit "[]") true key uplink_path (lit ref) (fst (session uids ref_net ref_ops)) (Ok tt) (lit v).
(** What holds of everything with these names, by computation. *)
Lemma places_by cs kids (c : place) up ns fuel (P : place * pobj -> bool) : up = 0 \/ firstn (length c - up) c = [] -> length ns <= fuel ->
  forallb (fun qo => negb (texts_eqb (map fst (fst qo)) ns) || P qo) (listing fuel cs kids) = true -> forall q o, in_tree cs kids q o -> meant c up ns q -> map fst q = ns /\ P (q, o) = true.
Proof.
  intros Hup Hf Hs q o Ho Hm. assert (Eq : map fst q = ns). { destruct up; [exact Hm|]. destruct Hm as (r & -> & Hr). destruct Hup as [Hup| ->]; [discriminate|exact Hr]. }
  split; [exact Eq|]. assert (Hi : In (q, o) (listing fuel cs kids)) by (apply listing_all; [assumption|]; rewrite <- Eq, map_length in Hf; exact Hf).
  rewrite forallb_forall in Hs. specialize (Hs (q, o) Hi). cbn [fst] in Hs. assert (Ee : texts_eqb (map fst q) ns = true) by (now apply RegTree_proofs.texts_eqb_eq). now rewrite Ee in Hs.
Qed.
Definition holds_string (qo : place * pobj) : bool := match snd qo with PLeaf (VStr _) => true | _ => false end.
Lemma strings_by q t : holds_string (q, t) = true -> exists x, t = PLeaf x /\ forall y, py_eq y x = true -> text_of y = text_of x.
Proof.
  intros H. destruct t as [x| |]; try discriminate. destruct x; try discriminate. eexists. split; [reflexivity|]. intros y Hy. destruct y; cbn [py_eq] in Hy; try discriminate; [|exfalso; revert Hy; cbn [num_of]; now destruct (num_of _)..]. apply PyStr_facts.str_eqb_eq in Hy. now subst.
Qed.
(** By absolute path, by relative path, and to a leaf that is no key but occurs twice. *)
Example C67_case : module_ok ref_net /\ Forall (tame ref_net) ref_ops /\ (exists t, in_tree ref_net ref_tree uplink t) /\ Forall2 spells uplink_path uplink /\
  reads (lit "/if:interfaces/if:interface/if:name") 0 [lit "interfaces"; lit "interface"; lit "name"] /\
  reads (lit "../../../interfaces/interface/name") 3 [lit "interfaces"; lit "interface"; lit "name"] /\
  (forall q t, in_tree ref_net ref_tree q t -> meant uplink 0 [lit "interfaces"; lit "interface"; lit "name"] q -> exists x, t = PLeaf x /\ forall y, py_eq y x = true -> text_of y = text_of x) /\
  (forall q t, in_tree ref_net ref_tree q t -> meant uplink 3 [lit "interfaces"; lit "interface"; lit "name"] q -> exists x, t = PLeaf x /\ forall y, py_eq y x = true -> text_of y = text_of x) /\
  ref_try true "/if:interfaces/if:interface/if:name" "eth1" = Ok (RefTo 1) /\ ref_try true "../../../interfaces/interface/name" "eth0" = Ok (RefTo 0) /\
  ref_try true "../../../interfaces/interface/name" "eth2" = Raise ValueError /\
  ref_try false "/interfaces/interface/mtu" "9000" = Ok (RefTo 1) /\ ref_try false "/interfaces/interface/mtu" "9001" = Raise ValueError /\
  ref_try false "/vlan" "20" = Ok (RefMember 1) /\ ref_try false "../../../vlan" "30" = Raise ValueError.
Proof.
  split; [exact ref_net_ok|]. split; [exact ref_tame|]. split; [eexists; apply (listing_only 3); vm_compute; repeat (first [left; reflexivity|right])|]. split; [exact uplink_spelled|].
  assert (X : xml_name (lit "interfaces") /\ xml_name (lit "interface") /\ xml_name (lit "name") /\ xml_name (lit "if")) by (repeat split; apply xml_by; vm_compute; reflexivity). destruct X as (X1 & X2 & X3 & X4).
  split. { exists [lit "if:interfaces"; lit "if:interface"; lit "if:name"]. split; [discriminate|]. split; [|vm_compute; reflexivity]. repeat (constructor; [split; [assumption|right; exists (lit "if"); split; [assumption|vm_compute; reflexivity]]|]). constructor. }
  split. { exists [lit "interfaces"; lit "interface"; lit "name"]. split; [discriminate|]. split; [|vm_compute; reflexivity]. repeat (constructor; [split; [assumption|now left]|]). constructor. }
  split; [intros q t Hq Hm; refine (strings_by q t (proj2 (places_by _ _ _ _ _ 3 holds_string _ _ _ _ _ Hq Hm))); [now left|cbn; lia|vm_compute; reflexivity]|].
  split; [intros q t Hq Hm; refine (strings_by q t (proj2 (places_by _ _ _ _ _ 3 holds_string _ _ _ _ _ Hq Hm))); [right; vm_compute; reflexivity|cbn; lia|vm_compute; reflexivity]|].
  repeat (split; [vm_compute; reflexivity|]). vm_compute; reflexivity.
Qed.
(** "/vlan" means one leaf-list; "/interfaces/interface/mtu" means two leaves. *)
Example C67_list_case : (exists id, in_tree ref_net ref_tree [(lit "vlan", [])] (PLeafList id) /\ members id (w_heap (fst (session uids ref_net ref_ops))) = [S_ "10"; S_ "20"]) /\
  reads (lit "/vlan") 0 [lit "vlan"] /\ (forall q' t, in_tree ref_net ref_tree q' t -> meant uplink 0 [lit "vlan"] q' -> q' = [(lit "vlan", [])]) /\
  (exists q1 q2 t1 t2, q1 <> q2 /\ in_tree ref_net ref_tree q1 t1 /\ in_tree ref_net ref_tree q2 t2 /\ meant uplink 0 [lit "interfaces"; lit "interface"; lit "mtu"] q1 /\ meant uplink 0 [lit "interfaces"; lit "interface"; lit "mtu"] q2).
Proof.
  split; [eexists; split; [apply (listing_only 1); vm_compute; repeat (first [left; reflexivity|right])|vm_compute; reflexivity]|].
  split; [exists [lit "vlan"]; split; [discriminate|]; split; [constructor; [split; [apply xml_by; vm_compute; reflexivity|now left]|constructor]|vm_compute; reflexivity]|].
  split. { intros q' t Ht Hm. destruct (places_by ref_net ref_tree uplink 0 [lit "vlan"] 1 (fun qo => match fst qo with [(_, [])] => true | _ => false end) (or_introl eq_refl) (le_n 1) ltac:(vm_compute; reflexivity) _ _ Ht Hm) as (E & H).
    cbn [fst] in H. destruct q' as [|[n [|]] [|]]; try discriminate. cbn [map fst] in E. injection E as E. now rewrite E. }
  exists [(lit "interfaces", []); (lit "interface", [(lit "name", lit "eth0")]); (lit "mtu", [])], [(lit "interfaces", []); (lit "interface", [(lit "name", lit "eth1")]); (lit "mtu", [])]. eexists _, _. split; [discriminate|].
  split; [apply (listing_only 3); vm_compute; repeat (first [left; reflexivity|right])|]. split; [apply (listing_only 3); vm_compute; repeat (first [left; reflexivity|right])|]. split; reflexivity.
Qed.

(** What is refused or accepted wrongly: [v] at the leaf [c] in the session [os]. *)
Definition one_op : list (list rstep * rop) := [([Kid 0; Kid 0], Add [lit "eth0"] [G "eth0"]); ([Kid 0; Kid 0; Ent [lit "eth0"]; Kid 1], Set_ (VLeaf (G "1500"))); ([Kid 1; Kid 0], Add [lit "7"] [G "7"])].
Lemma one_tame : Forall (tame ref_net) one_op.
Proof. repeat (apply Forall_cons; [first [split; [exact I|eexists _, _; reflexivity]|exact I|split; [fit_by|good_by]|fit_by]|]). apply Forall_nil. Qed.
(** A list with one entry: a leafref to a leaf of the entries that is no key takes any value that this leaf
    takes, and gives it to the leaf. *)
Theorem C67_single_refuted : exists cs os c o cpath ref ns v, module_ok cs /\ Forall (tame cs) os /\ let wk := session uids cs os in in_tree cs (snd wk) c o /\ Forall2 spells cpath c /\ reads ref 0 ns /\
  (forall other, leafref_new text_of other true false cpath ref (fst wk) (Ok tt) v = Ok RefPointer) /\ forall q x, in_tree cs (snd wk) q (PLeaf x) -> meant c 0 ns q -> text_of x <> v.
Proof.
  exists ref_net, one_op, uplink. eexists. exists uplink_path, (lit "/interfaces/interface/mtu"), [lit "interfaces"; lit "interface"; lit "mtu"], (lit "9000").
  split; [exact ref_net_ok|]. split; [exact one_tame|]. cbv zeta. split; [apply (listing_only 3); vm_compute; repeat (first [left; reflexivity|right])|]. split; [exact uplink_spelled|].
  split. { exists [lit "interfaces"; lit "interface"; lit "mtu"]. split; [discriminate|]. split; [|vm_compute; reflexivity]. repeat (constructor; [split; [apply xml_by; vm_compute; reflexivity|now left]|]). constructor. }
  split; [intros other; vm_compute; reflexivity|]. intros q x Hq Hm Hx.
  destruct (places_by ref_net (snd (session uids ref_net one_op)) uplink 0 [lit "interfaces"; lit "interface"; lit "mtu"] 3 (fun qo => match snd qo with PLeaf x => negb (str_eqb (text_of x) (lit "9000")) | _ => true end) (or_introl eq_refl) (le_n 3) ltac:(vm_compute; reflexivity) _ _ Hq Hm) as (_ & H).
  cbn [snd] in H. rewrite Hx in H. vm_compute in H. discriminate.
Qed.
Print Assumptions C67_single_refuted.
(** Leaf-lists in the entries of a list: their members are refused. *)
Theorem C67_leaf_lists_refuted : exists cs os c o cpath ref ns v q id, module_ok cs /\ Forall (tame cs) os /\ let wk := session uids cs os in in_tree cs (snd wk) c o /\ Forall2 spells cpath c /\ reads ref 0 ns /\
  in_tree cs (snd wk) q (PLeafList id) /\ meant c 0 ns q /\ In (VStr v) (members id (w_heap (fst wk))) /\
  forall other, (forall o, exists t, other o = lit "[" ++ t) -> leafref_new text_of other true false cpath ref (fst wk) (Ok tt) v = Raise ValueError.
Proof.
  exists ref_net, ref_ops, uplink. eexists. exists uplink_path, (lit "/interfaces/interface/tag"), [lit "interfaces"; lit "interface"; lit "tag"], (lit "red"), [(lit "interfaces", []); (lit "interface", [(lit "name", lit "eth0")]); (lit "tag", [])]. eexists.
  split; [exact ref_net_ok|]. split; [exact ref_tame|]. cbv zeta. split; [apply (listing_only 3); vm_compute; repeat (first [left; reflexivity|right])|]. split; [exact uplink_spelled|].
  split. { exists [lit "interfaces"; lit "interface"; lit "tag"]. split; [discriminate|]. split; [|vm_compute; reflexivity]. repeat (constructor; [split; [apply xml_by; vm_compute; reflexivity|now left]|]). constructor. }
  split; [apply (listing_only 3); vm_compute; repeat (first [left; reflexivity|right])|]. split; [reflexivity|]. split; [vm_compute; now left|].
  intros other Ho.
  assert (E : get uplink_path (path_parts (lit "/interfaces/interface/tag")) (w_help (fst (session uids ref_net ref_ops))) = Ok [Some (PLeafList 4); Some (PLeafList 6)]) by (vm_compute; reflexivity).
  unfold leafref_new. rewrite E. cbn [bind map target_of reference_new t_text position_last]. destruct (Ho (Some (PLeafList 4))) as (t1 & ->). destruct (Ho (Some (PLeafList 6))) as (t2 & ->).
  reflexivity.
Qed.
Print Assumptions C67_leaf_lists_refuted.
(** After del the entry can still be referred to. *)
Theorem C67_del_refuted : exists cs os c o cpath ref ns v, module_ok cs /\ let wk := session uids cs os in in_tree cs (snd wk) c o /\ Forall2 spells cpath c /\ reads ref 0 ns /\
  (forall other, leafref_new text_of other true true cpath ref (fst wk) (Ok tt) v = Ok (RefTo 0)) /\ forall q x, in_tree cs (snd wk) q x -> ~ meant c 0 ns q.
Proof.
  exists ref_net, (one_op ++ [([Kid 0; Kid 0], Del [lit "eth0"])]), uplink. eexists. exists uplink_path, (lit "/interfaces/interface/name"), [lit "interfaces"; lit "interface"; lit "name"], (lit "eth0").
  split; [exact ref_net_ok|]. cbv zeta. split; [apply (listing_only 3); vm_compute; repeat (first [left; reflexivity|right])|]. split; [exact uplink_spelled|].
  split. { exists [lit "interfaces"; lit "interface"; lit "name"]. split; [discriminate|]. split; [|vm_compute; reflexivity]. repeat (constructor; [split; [apply xml_by; vm_compute; reflexivity|now left]|]). constructor. }
  split; [intros other; vm_compute; reflexivity|]. intros q x Hq Hm. destruct (places_by ref_net (snd (session uids ref_net (one_op ++ [([Kid 0; Kid 0], Del [lit "eth0"])]))) uplink 0 [lit "interfaces"; lit "interface"; lit "name"] 3 (fun _ => false) (or_introl eq_refl) (le_n 3) ltac:(vm_compute; reflexivity) _ _ Hq Hm) as (_ & H). discriminate.
Qed.
Print Assumptions C67_del_refuted.
