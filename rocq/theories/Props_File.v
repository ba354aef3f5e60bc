(** Property C78: the file that the plugin writes makes the objects that the YANG modules declare. *)
From Verif Require Import PyStr PyVal SafeName Spec_Names Restricted Tree Compile Spec_Compile Split Spec_Split File Spec_File File_proofs.
Import ListNotations.

Definition gf_head (n : str) : yhead := {| y_name := n; y_ns := lit "urn:m"; y_mod := lit "m"; y_config := None |}.
Definition gf_leaf (n : str) : ystmt := YLeaf (gf_head n) (LUnion []) None (lit "string").
Definition gf_cont (n : str) (cs : list ystmt) : ystmt := YCont (gf_head n) false cs.
Definition gf_list (n : str) (cs : list ystmt) : ystmt := YList (gf_head n) (Some (lit "id")) false cs.
Definition gf_mod (n : str) (ss : list ystmt) : ymod := {| ym_name := n; ym_data := ss; ym_rpcs := []; ym_notes := []; ym_subs := [] |}.

(** /a/b/c and /a-b/c: the second class is the class of both, and the leaf of the first is lost. *)
Definition gf_clash : list ystmt :=
  [gf_cont (lit "a") [gf_cont (lit "b") [gf_cont (lit "c") [gf_leaf (lit "x")]]]; gf_cont (lit "a-b") [gf_cont (lit "c") [gf_leaf (lit "y")]]].
Theorem C78_clash_refuted : exists po ss p y b, attrs_apart_all ss /\ stmt_at true ss p y b /\ kept po y /\
  exists cs k, (forall fuel, (k <= fuel)%nat -> run_file fuel (build po false false [gf_mod (lit "m") ss]) (lit "m") = Ok cs) /\
    attr_at cs (map safe_name p) = None /\ attr_at cs (map safe_name [lit "a"; lit "b"; lit "c"; lit "y"]) <> None.
Proof.
  exists false, gf_clash, [lit "a"; lit "b"; lit "c"; lit "x"], (gf_leaf (lit "x")), true. split.
  { assert (One : forall n x, attrs_apart (gf_cont n [gf_leaf x])).
    { intros n x. constructor; [constructor; [intros []|constructor]|intros s [<-|[]]; constructor]. }
    split; [constructor; [vm_compute; intros [E|[]]; discriminate|constructor; [intros []|constructor]]|].
    intros s [<-|[<-|[]]].
    - constructor; [constructor; [intros []|constructor]|]. intros s [<-|[]]. constructor; [constructor; [intros []|constructor]|]. intros s [<-|[]]. apply One.
    - constructor; [constructor; [intros []|constructor]|]. intros s [<-|[]]. apply One. }
  split.
  { assert (Nc : forall n cs, (forall m c k, gf_cont n cs <> YChoice m c k)) by (intros; discriminate).
    apply (SaIn _ _ (gf_cont (lit "a") [gf_cont (lit "b") [gf_cont (lit "c") [gf_leaf (lit "x")]]]) _ [gf_cont (lit "b") [gf_cont (lit "c") [gf_leaf (lit "x")]]]);
      [apply ch_here; [now left|apply Nc]|left; now eexists _, _|].
    apply (SaIn _ _ (gf_cont (lit "b") [gf_cont (lit "c") [gf_leaf (lit "x")]]) _ [gf_cont (lit "c") [gf_leaf (lit "x")]]); [apply ch_here; [now left|apply Nc]|left; now eexists _, _|].
    apply (SaIn _ _ (gf_cont (lit "c") [gf_leaf (lit "x")]) _ [gf_leaf (lit "x")]); [apply ch_here; [now left|apply Nc]|left; now eexists _, _|].
    apply (SaHere true); [apply ch_here; [now left|intros; discriminate]|reflexivity]. }
  split; [exact I|]. eexists. exists 4%nat. split.
  { intros fuel Hf. do 4 (destruct fuel as [|fuel]; [exfalso; revert Hf; clear; intros; repeat (apply le_S_n in Hf); inversion Hf|]). vm_compute. reflexivity. }
  split; [vm_compute; reflexivity|vm_compute; discriminate].
Qed.
Print Assumptions C78_clash_refuted.
(** An rpc r of module m and the container /m/rpc/r: names of letters only, and the container is lost. *)
Definition gf_rpc : ymod :=
  {| ym_name := lit "m"; ym_data := [gf_cont (lit "m") [gf_cont (lit "rpc") [gf_cont (lit "r") [gf_leaf (lit "x")]]]];
     ym_rpcs := [gf_cont (lit "r") [gf_cont (lit "input") [gf_leaf (lit "y")]]]; ym_notes := []; ym_subs := [] |}.
Theorem C78_rpc_refuted : exists po y p z b, attrs_apart_all (ym_data y) /\ attrs_apart_all (ym_rpcs y) /\ Forall alnum_names (ym_data y ++ ym_rpcs y) /\ stmt_at true (ym_data y) p z b /\ kept po z /\
  exists cs k, (forall fuel, (k <= fuel)%nat -> run_file fuel (build po true false [y]) (lit "m") = Ok cs) /\ attr_at cs (map safe_name p) = None.
Proof.
  assert (One : forall n s, attrs_apart s -> level_names s <> [] -> (forall m c k, s <> YChoice m c k) -> attrs_apart (gf_cont n [s])).
  { intros n s Hs _ Hx. constructor; [|intros t [<-|[]]; exact Hs]. destruct s; try (constructor; [intros []|constructor]). exfalso. now apply (Hx name config cases). }
  assert (Al : forall n s, alnum n -> alnum_names s -> alnum_names (gf_cont n [s])) by (intros n s Hn Hs; constructor; [exact Hn|intros t [<-|[]]; exact Hs]).
  exists false, gf_rpc, [lit "m"; lit "rpc"; lit "r"; lit "x"], (gf_leaf (lit "x")), true. split; [|split; [|split; [|split; [|split]]]].
  - split; [constructor; [intros []|constructor]|]. intros s [<-|[]]. do 3 (apply One; [|discriminate|intros; discriminate]). constructor.
  - split; [constructor; [intros []|constructor]|]. intros s [<-|[]]. do 2 (apply One; [|discriminate|intros; discriminate]). constructor.
  - apply Forall_forall. intros s [<-|[<-|[]]]; repeat (apply Al; [split; [discriminate|repeat (constructor; [reflexivity|]); constructor]|]); constructor.
  - assert (Nc : forall n cs, (forall m c k, gf_cont n cs <> YChoice m c k)) by (intros; discriminate).
    apply (SaIn _ _ (gf_cont (lit "m") [gf_cont (lit "rpc") [gf_cont (lit "r") [gf_leaf (lit "x")]]]) _ [gf_cont (lit "rpc") [gf_cont (lit "r") [gf_leaf (lit "x")]]]);
      [apply ch_here; [now left|apply Nc]|left; now eexists _, _|].
    apply (SaIn _ _ (gf_cont (lit "rpc") [gf_cont (lit "r") [gf_leaf (lit "x")]]) _ [gf_cont (lit "r") [gf_leaf (lit "x")]]); [apply ch_here; [now left|apply Nc]|left; now eexists _, _|].
    apply (SaIn _ _ (gf_cont (lit "r") [gf_leaf (lit "x")]) _ [gf_leaf (lit "x")]); [apply ch_here; [now left|apply Nc]|left; now eexists _, _|].
    apply (SaHere true); [apply ch_here; [now left|intros; discriminate]|reflexivity].
  - exact I.
  - eexists. exists 5%nat. split.
    { intros fuel Hf. do 5 (destruct fuel as [|fuel]; [exfalso; revert Hf; clear; intros; repeat (apply le_S_n in Hf); inversion Hf|]). vm_compute. reflexivity. }
    vm_compute; reflexivity.
Qed.
Print Assumptions C78_rpc_refuted.
(** A class whose name is that of the class of its own child: no object can be made. *)
Definition gf_loop : list ystmt := [gf_cont (lit "m__m_") [gf_cont (lit "m_") [gf_leaf (lit "x")]]].
Theorem C78_loop_refuted : exists po ss, attrs_apart_all ss /\ forall fuel, run_file fuel (build po false false [gf_mod (lit "m") ss]) (lit "m") = Raise RuntimeError.
Proof.
  exists false, gf_loop. split.
  { split; [constructor; [intros []|constructor]|]. intros s [<-|[]]. constructor; [constructor; [intros []|constructor]|]. intros s [<-|[]].
    constructor; [constructor; [intros []|constructor]|]. intros s [<-|[]]. constructor. }
  set (f := build false false false [gf_mod (lit "m") gf_loop]).
  assert (L : forall fuel, instantiate fuel f (lit "yc_m__m__m__m__m_") = Raise RuntimeError).
  { induction fuel as [|fuel IH]; [reflexivity|].
    apply (instantiate_one fuel f _ (info_of (gf_head (lit "m_")) None true) (ShCont false) (lit "yc_m__m__m__m__m_")); [vm_compute; reflexivity|exact IH]. }
  intros fuel. assert (R : run_file fuel f (lit "m") = instantiate fuel f (lit "m")) by (unfold run_file; replace (existsb _ f) with false by (vm_compute; reflexivity); reflexivity).
  rewrite R. destruct fuel as [|fuel]; [reflexivity|].
  apply (instantiate_one fuel f _ (info_of (gf_head (lit "m__m_")) None true) (ShCont false) (lit "yc_m__m__m__m__m_")); [vm_compute; reflexivity|apply L].
Qed.
Print Assumptions C78_loop_refuted.
(** Leaves a-b and a.b: one attribute. *)
Theorem C78_siblings_refuted : exists po ss cs k, (forall fuel, (k <= fuel)%nat -> run_file fuel (build po false false [gf_mod (lit "m") ss]) (lit "m") = Ok cs) /\
  exists p y b, stmt_at true ss p y b /\ forall s, attr_at cs (map safe_name p) = Some s -> ~ stands_for po s y.
Proof.
  exists false, [gf_leaf (lit "a-b"); gf_leaf (lit "a.b")]. eexists. exists 1%nat. split.
  { intros fuel Hf. destruct fuel as [|fuel]; [inversion Hf|]. vm_compute. reflexivity. }
  exists [lit "a-b"], (gf_leaf (lit "a-b")), true. split; [apply (SaHere true); [apply ch_here; [now left|intros; discriminate]|reflexivity]|].
  intros s H. vm_compute in H. injection H as <-. intros (E & _). vm_compute in E. destruct E as [E _]. discriminate.
Qed.
Print Assumptions C78_siblings_refuted.

(** With sibling names apart in Python and one class of each name, making an object of the class of a module - or of the
    classes for its submodules, rpcs and notifications - gives the nodes declared there and no others. *)
Theorem C78_partial : forall po rpcs notes ys y, one_class_each (build po rpcs notes ys) -> clear_of_head (build po rpcs notes ys) -> In y ys ->
  (attrs_apart_all (ym_data y) -> forall x, In x (ym_name y :: ym_subs y) -> makes po (build po rpcs notes ys) (safe_name x) (ym_data y)) /\
  (rpcs = true -> ym_rpcs y <> [] -> attrs_apart_all (ym_rpcs y) ->
     makes po (build po rpcs notes ys) (class_name (ym_name y) (ym_name y) [safe_name (ym_name y) ++ lit "_rpc"]) (ym_rpcs y)) /\
  (notes = true -> ym_notes y <> [] -> attrs_apart_all (ym_notes y) ->
     makes po (build po rpcs notes ys) (class_name (ym_name y) (ym_name y) [safe_name (ym_name y) ++ lit "_notification"]) (ym_notes y)).
Proof. exact file_makes. Qed.
Print Assumptions C78_partial.
(** So it is for any modules without rpcs and notifications whose containers and lists have names of letters and digits. *)
Theorem C78_plain_partial : forall po ys,
  NoDup (map safe_name (flat_map (fun y => ym_name y :: ym_subs y) ys)) ->
  (forall x, In x (flat_map (fun y => ym_name y :: ym_subs y) ys) -> firstn 3 (safe_name x) <> lit "yc_" /\ ~ In (safe_name x) header_names) ->
  (forall y, In y ys -> attrs_apart_all (ym_data y) /\ forall s, In s (ym_data y) -> alnum_names s) ->
  forall y x, In y ys -> In x (ym_name y :: ym_subs y) -> makes po (build po false false ys) (safe_name x) (ym_data y).
Proof. exact plain_file_makes. Qed.
Print Assumptions C78_plain_partial.

(** Two modules, one with a submodule: nested lists, a choice, names with hyphens for leaves and modules. *)
Definition gf_one : list ystmt :=
  [gf_cont (lit "interfaces") [gf_list (lit "interface") [gf_leaf (lit "id"); gf_leaf (lit "oper-state");
     YChoice (lit "kind") None [(lit "one", [gf_cont (lit "if") [gf_leaf (lit "x")]]); (lit "two", [gf_leaf (lit "y")])]]]].
Definition gf_two : list ystmt := [gf_cont (lit "interfaces") [gf_leaf (lit "z")]].
Definition gf_mods : list ymod :=
  [{| ym_name := lit "oc-if"; ym_data := gf_one; ym_rpcs := []; ym_notes := []; ym_subs := [lit "oc-if-sub"] |}; gf_mod (lit "other") gf_two].
Example C78_case :
  NoDup (map safe_name (flat_map (fun y => ym_name y :: ym_subs y) gf_mods)) /\
  (forall x, In x (flat_map (fun y => ym_name y :: ym_subs y) gf_mods) -> firstn 3 (safe_name x) <> lit "yc_" /\ ~ In (safe_name x) header_names) /\
  (forall y, In y gf_mods -> attrs_apart_all (ym_data y) /\ forall s, In s (ym_data y) -> alnum_names s) /\
  exists cs, run_file 5 (build false false false gf_mods) (lit "oc_if_sub") = Ok cs /\
    (exists s, attr_at cs [lit "interfaces"; lit "interface"; lit "if_"; lit "x"] = Some s /\ stands_for false s (gf_leaf (lit "x"))) /\
    attr_at cs [lit "interfaces"; lit "z"] = None.
Proof.
  assert (Al : forall n, n <> [] -> forallb (fun c => is_alpha c || is_digit c) n = true -> alnum n).
  { intros n Hn H. split; [exact Hn|]. apply Forall_forall. now apply forallb_forall. }
  split; [|split; [|split]].
  - vm_compute. repeat (constructor; [intros H; repeat (destruct H as [H|H]; [discriminate|]); contradiction|]). constructor.
  - intros x [<-|[<-|[<-|[]]]]; (split; [vm_compute; discriminate|intros H; vm_compute in H; repeat (destruct H as [H|H]; [discriminate|]); contradiction]).
  - intros y [<-|[<-|[]]]; split.
    + split; [constructor; [intros []|constructor]|]. intros s [<-|[]]. constructor; [constructor; [intros []|constructor]|]. intros s [<-|[]]. constructor.
      * vm_compute. repeat (constructor; [intros H; repeat (destruct H as [H|H]; [discriminate|]); contradiction|]). constructor.
      * intros s [<-|[<-|[<-|[]]]]; constructor. intros k ss s [E|[E|[]]]; injection E as _ <-; (intros [<-|[]]); constructor; [constructor; [intros []|constructor]|].
        intros s [<-|[]]. constructor.
    + intros s [<-|[]]. constructor; [apply Al; [discriminate|reflexivity]|]. intros s [<-|[]]. constructor; [apply Al; [discriminate|reflexivity]|].
      intros s [<-|[<-|[<-|[]]]]; constructor. intros k ss s [E|[E|[]]]; injection E as _ <-; (intros [<-|[]]); constructor; [apply Al; [discriminate|reflexivity]|].
      intros s [<-|[]]. constructor.
    + split; [constructor; [intros []|constructor]|]. intros s [<-|[]]. constructor; [constructor; [intros []|constructor]|]. intros s [<-|[]]. constructor.
    + intros s [<-|[]]. constructor; [apply Al; [discriminate|reflexivity]|]. intros s [<-|[]]. constructor.
  - eexists. split; [vm_compute; reflexivity|]. split; [|vm_compute; reflexivity]. eexists. split; [vm_compute; reflexivity|].
    vm_compute. repeat split.
Qed.
