(** Property theorems about the definitions that the plugin finds: C68, C69; and one of C52. *)
From Verif Require Import PyStr PyStr_facts PyVal PathHelper Identity Restricted Spec_Types Typedefs Spec_Typedefs Collect Spec_Collect.
From Verif Require Collect_proofs CollectTypes_proofs TypedefDepth_proofs.
From Coq Require Import Lia.
Import ListNotations.

(* ------------------------------------------------------------------ C68 *)
(** Every definition of the modules needed, of their submodules and of imported modules is found under each prefix that it
    can have there, unless another one of the same name under the same prefix is. *)
Theorem C68_found_partial : forall D (c : str -> option (ymod D)) fuel ms kw defs p m n d, by_name c ms -> no_colons c ms kw -> collect c fuel ms kw = Ok defs ->
  under c ms p m -> defines kw (mo_body m) n d ->
  exists m' d', look (p ++ lit ":" ++ n) defs = Some d' /\ under c ms p m' /\ defines kw (mo_body m') n d'.
Proof. intros D. exact Collect_proofs.collect_found. Qed.
Print Assumptions C68_found_partial.
(** Nothing else is found. *)
Theorem C68_only : forall D (c : str -> option (ymod D)) fuel ms kw defs k d, collect c fuel ms kw = Ok defs -> look k defs = Some d ->
  exists p m n, under c ms p m /\ defines kw (mo_body m) n d /\ k = p ++ lit ":" ++ n.
Proof. intros D. exact Collect_proofs.collect_only. Qed.
Print Assumptions C68_only.
(** It ends if no module imports itself, directly or not, and never ends otherwise. *)
Theorem C68_ends : forall D (c : str -> option (ymod D)) rank ms kw, ranked c rank ms -> prefixed c ms -> exists fuel defs, collect c fuel ms kw = Ok defs.
Proof. intros D. exact Collect_proofs.collect_ends. Qed.
Print Assumptions C68_ends.
Theorem C68_cycle : forall D (c : str -> option (ymod D)) ms m kw, needed c ms m -> leads c m m -> prefixed c ms -> forall fuel, collect c fuel ms kw = Raise OutOfFuel.
Proof. intros D. exact Collect_proofs.collect_never. Qed.
Print Assumptions C68_cycle.

Definition tdstm (m n t : String.string) : stm tbody := Defn (lit "typedef") (lit n) {| tb_module := lit m; tb_type := TypedefDepth_proofs.just (lit t); tb_default := None |}.
Definition block (kw : String.string) (l : list (stm tbody)) : stm tbody := Block (lit kw) true l.
Definition modul (n p : String.string) (imports : list (str * str)) (includes : list str) (body : list (stm tbody)) : ymod tbody :=
  {| mo_name := lit n; mo_prefix := Some (lit p); mo_belongs := None; mo_imports := imports; mo_includes := includes; mo_body := body |}.
Definition submodul (n p : String.string) (imports : list (str * str)) (includes : list str) (body : list (stm tbody)) : ymod tbody :=
  {| mo_name := lit n; mo_prefix := None; mo_belongs := Some (lit p); mo_imports := imports; mo_includes := includes; mo_body := body |}.
Definition context (l : list (ymod tbody)) (n : str) : option (ymod tbody) := find (fun m => str_eqb (mo_name m) n) l.
(** The modules are in a file named as their prefixes. *)
Definition plain_modules : modules := TypedefDepth_proofs.one_module.

(** a has a submodule and imports b (as x); the submodule imports d, under its own prefix. *)
Definition mod_a := modul "a" "a" [(lit "b", lit "x")] [lit "asub"] [tdstm "a" "t" "u"; block "container" [tdstm "a" "u" "uint8"; block "list" [tdstm "a" "v" "string"]]].
Definition mod_asub := submodul "asub" "a" [(lit "d", lit "d")] [] [tdstm "asub" "w" "d:k"].
Definition mod_b := modul "b" "b" [(lit "d", lit "d")] [] [block "grouping" [tdstm "b" "g" "string"]].
Definition mod_d := modul "d" "d" [] [] [tdstm "d" "k" "int8"].
Definition four := context [mod_a; mod_asub; mod_b; mod_d].
Lemma four_cases n m : four n = Some m -> (n = lit "a" /\ m = mod_a) \/ (n = lit "asub" /\ m = mod_asub) \/ (n = lit "b" /\ m = mod_b) \/ (n = lit "d" /\ m = mod_d).
Proof.
  unfold four, context. cbn [find]. change (mo_name mod_a) with (lit "a"). change (mo_name mod_asub) with (lit "asub"). change (mo_name mod_b) with (lit "b"). change (mo_name mod_d) with (lit "d").
  destruct (str_eqb (lit "a") n) eqn:E1; [apply str_eqb_eq in E1 as <-; intros H; injection H as <-; left; split; reflexivity|].
  destruct (str_eqb (lit "asub") n) eqn:E2; [apply str_eqb_eq in E2 as <-; intros H; injection H as <-; right; left; split; reflexivity|].
  destruct (str_eqb (lit "b") n) eqn:E3; [apply str_eqb_eq in E3 as <-; intros H; injection H as <-; right; right; left; split; reflexivity|].
  destruct (str_eqb (lit "d") n) eqn:E4; [apply str_eqb_eq in E4 as <-; intros H; injection H as <-; right; right; right; split; reflexivity|discriminate].
Qed.
(** No prefix and no name in a list of modules has a colon. *)
Fixpoint stm_names (s : stm tbody) : list str := match s with Defn _ n _ => [n] | Block _ _ l => flat_map stm_names l end.
Definition mod_texts (m : ymod tbody) : list str :=
  match mo_prefix m with Some p => [p] | None => [] end ++ match mo_belongs m with Some p => [p] | None => [] end ++ map snd (mo_imports m) ++ flat_map stm_names (mo_body m).
Lemma no_colons_in l ms kw : (forall m, In m ms -> In m l) -> forallb (fun s => negb (ch_in 58 s)) (flat_map mod_texts l) = true -> no_colons (context l) ms kw.
Proof.
  intros Hs Hb. assert (N : forall m s, In m l -> In s (mod_texts m) -> ~ In 58%N s).
  { intros m s Hm H C. rewrite forallb_forall in Hb. specialize (Hb s (proj2 (in_flat_map _ _ _) (ex_intro _ m (conj Hm H)))). apply ch_in_In in C. rewrite C in Hb. discriminate. }
  assert (C : forall n m, context l n = Some m -> In m l) by (intros n m H; apply find_some in H; apply H).
  assert (G : forall m, needed (context l) ms m -> In m l) by (induction 1 as [m Hm|m p m' _ _ (n & Hc & _)]; [apply Hs, Hm|apply (C n m' Hc)]).
  assert (Dn : forall body n d, defines kw body n d -> In n (flat_map stm_names body)).
  { induction 1 as [body n d Hin|body kw' body' n d Hin _ _ IH]; apply in_flat_map; eexists; (split; [exact Hin|]); [left; reflexivity|exact IH]. }
  assert (O : forall m p, own_prefix m p -> In p (mod_texts m)).
  { intros m p [E|[E1 E2]]; unfold mod_texts; [rewrite E; left; reflexivity|]. rewrite E1, E2. left. reflexivity. }
  assert (I : forall m p, In p (map snd (mo_imports m)) -> In p (mod_texts m)) by (intros m p H; unfold mod_texts; apply in_or_app; right; apply in_or_app; right; apply in_or_app; left; exact H).
  assert (Q : forall p m, under (context l) ms p m -> ~ In 58%N p /\ In m l).
  { intros p m [m1 p1 Hn Ho|m1 p1 sub Hn Ho (n & _ & Hc)|m1 p1 m' Hn (n & Hc & Hi)].
    - split; [apply (N m1 p1 (G m1 Hn) (O m1 p1 Ho))|apply G, Hn].
    - split; [apply (N m1 p1 (G m1 Hn) (O m1 p1 Ho))|apply (C n sub Hc)].
    - split; [|apply (C n m' Hc)]. destruct Hi as [Hi|(sub & (k & _ & Hk) & Hi)].
      + apply (N m1 p1 (G m1 Hn)), I. apply in_map_iff. exists (n, p1). split; [reflexivity|exact Hi].
      + apply (N sub p1 (C k sub Hk)), I. apply in_map_iff. exists (n, p1). split; [reflexivity|exact Hi]. }
  intros p m Hu. destruct (Q p m Hu) as [Np Hm]. split; [exact Np|]. intros n d Hd. apply (N m n Hm). unfold mod_texts. apply in_or_app. right. apply in_or_app. right. apply in_or_app. right. apply (Dn _ n d Hd).
Qed.
Example C68_case : by_name four [mod_a] /\ no_colons four [mod_a] (lit "typedef") /\ (exists fuel defs, collect four fuel [mod_a] (lit "typedef") = Ok defs /\
    map fst defs = map lit ["a:t"; "a:u"; "a:v"; "a:w"; "x:g"; "d:k"; "b:g"]%string) /\
  under four [mod_a] (lit "x") mod_b /\ under four [mod_a] (lit "d") mod_d /\ under four [mod_a] (lit "a") mod_asub /\
  (exists d, defines (lit "typedef") (mo_body mod_a) (lit "v") d) /\
  ranked four (fun m => length (mo_imports m) + length (mo_includes m)) [mod_a].
Proof.
  split; [|split; [|split; [|split; [|split; [|split; [|split]]]]]].
  - split; [intros m [<-|[]]; reflexivity|]. intros n m H. apply four_cases in H as [[-> ->]|[[-> ->]|[[-> ->]|[-> ->]]]]; reflexivity.
  - apply no_colons_in; [intros m [<-|[]]; left; reflexivity|vm_compute; reflexivity].
  - exists 10. eexists. split; [vm_compute; reflexivity|vm_compute; reflexivity].
  - apply (under_import four [mod_a] mod_a); [apply needed_given; left; reflexivity|]. exists (lit "b"). split; [reflexivity|]. left. left. reflexivity.
  - apply (under_import four [mod_a] mod_a); [apply needed_given; left; reflexivity|]. exists (lit "d"). split; [reflexivity|]. right. exists mod_asub. split; [|left; reflexivity]. exists (lit "asub"). split; [left; reflexivity|reflexivity].
  - apply (under_sub four [mod_a] mod_a); [apply needed_given; left; reflexivity|left; reflexivity|]. exists (lit "asub"). split; [left; reflexivity|reflexivity].
  - eexists. eapply (def_inside _ _ (lit "container")); [right; left; reflexivity|left; reflexivity|]. eapply (def_inside _ _ (lit "list")); [right; left; reflexivity|right; left; reflexivity|]. apply def_here. left. reflexivity.
  - assert (G : forall m, needed four [mod_a] m -> In m [mod_a; mod_b; mod_d]).
    { induction 1 as [m [<-|[]]|m p m' _ IH (n & Hc & Hi)]; [left; reflexivity|]. apply four_cases in Hc as [[-> ->]|[[-> ->]|[[-> ->]|[-> ->]]]]; cbn [In]; auto. exfalso.
      assert (C : forall x : ymod tbody, In x [mod_a; mod_asub; mod_b; mod_d] -> ~ In (lit "asub", p) (mo_imports x)) by (intros x [<-|[<-|[<-|[<-|[]]]]] Hx; cbn in Hx; intuition discriminate).
      destruct Hi as [Hi|(sub & (k & _ & Hk) & Hi)]; [revert Hi; apply C; destruct IH as [<-|[<-|[<-|[]]]]; cbn; auto|]. revert Hi. apply C. apply four_cases in Hk as [[_ ->]|[[_ ->]|[[_ ->]|[_ ->]]]]; cbn; auto. }
    intros m p m' Hn (n & Hc & Hi). destruct (G m Hn) as [<-|[<-|[<-|[]]]].
    + destruct Hi as [[Hi|[]]|(sub & (k & [<-|[]] & Hk) & Hi)]; [injection Hi as <- <-; vm_compute in Hc; injection Hc as <-; vm_compute; lia|]. vm_compute in Hk. injection Hk as <-. destruct Hi as [Hi|[]]. injection Hi as <- <-. vm_compute in Hc. injection Hc as <-. vm_compute. lia.
    + destruct Hi as [[Hi|[]]|(sub & (k & [] & Hk) & Hi)]. injection Hi as <- <-. vm_compute in Hc. injection Hc as <-. vm_compute. lia.
    + destruct Hi as [[]|(sub & (k & [] & Hk) & Hi)].
Qed.
(** Two modules that import each other. *)
Definition mod_e := modul "e" "e" [(lit "f", lit "f")] [] [].
Definition mod_f := modul "f" "f" [(lit "e", lit "e")] [] [].
Example C68_cycle_case : needed (context [mod_e; mod_f]) [mod_e] mod_e /\ leads (context [mod_e; mod_f]) mod_e mod_e /\ prefixed (context [mod_e; mod_f]) [mod_e] /\ prefixed four [mod_a].
Proof.
  assert (P : forall l ms, (forall m, In m ms -> In m l) -> (forall m, In m l -> exists p, own_prefix m p) -> prefixed (context l) ms).
  { intros l ms Hs Hl m H. apply Hl. induction H as [m Hm|m p m' _ _ (n & Hc & _)]; [apply Hs, Hm|apply find_some in Hc; apply Hc]. }
  split; [apply needed_given; left; reflexivity|]. split; [|split].
  2:{ apply P; [intros m [<-|[]]; left; reflexivity|]. intros m [<-|[<-|[]]]; eexists; left; reflexivity. }
  2:{ apply P; [intros m [<-|[]]; left; reflexivity|]. intros m [<-|[<-|[<-|[<-|[]]]]]; eexists; [left; reflexivity|right; split; reflexivity|left; reflexivity|left; reflexivity]. }
  apply (leads_more _ mod_e (lit "e") mod_f); [apply (leads_one _ mod_e (lit "f"))|]; eexists; (split; [|left; left; reflexivity]); reflexivity.
Qed.

(** Not a typedef in a container in a choice: a leaf of this type in this container cannot be compiled. *)
Theorem C68_choice_refuted : exists m n d cm, written (lit "typedef") (mo_body m) n d /\
  compile_types (context [m]) plain_modules false 1000 10 4004 builtin_map [m] = Ok cm /\ build_elemtype false cm (TypedefDepth_proofs.just n) = Raise RuntimeError.
Proof.
  exists (modul "a" "a" [] [] [block "choice" [block "container" [tdstm "a" "t" "string"; block "leaf" []]]]). eexists. eexists. eexists. split; [|split; [vm_compute; reflexivity|]].
  - eapply written_inside; [left; reflexivity|]. eapply written_inside; [left; reflexivity|]. apply written_here. left. reflexivity.
  - vm_compute. reflexivity.
Qed.
Print Assumptions C68_choice_refuted.
(** Nor what is in a submodule that only another submodule includes. *)
Theorem C68_submodule_refuted : exists c m s s' n d cm, includes c m s /\ includes c s s' /\ by_name c [m] /\ defines (lit "typedef") (mo_body s') n d /\
  compile_types c plain_modules false 1000 10 4004 builtin_map [m] = Ok cm /\ build_elemtype false cm (TypedefDepth_proofs.just n) = Raise RuntimeError.
Proof.
  set (m := modul "a" "a" [] [lit "s"] []). set (s := submodul "s" "a" [] [lit "r"] [block "container" [block "leaf" []]]). set (s' := submodul "r" "a" [] [] [tdstm "r" "t" "string"]).
  exists (context [m; s; s']), m, s, s'. eexists. eexists. eexists. split; [exists (lit "s"); split; [left; reflexivity|reflexivity]|]. split; [exists (lit "r"); split; [left; reflexivity|reflexivity]|].
  split; [|split; [apply def_here; left; reflexivity|split; [vm_compute; reflexivity|vm_compute; reflexivity]]].
  split; [intros x [<-|[]]; reflexivity|]. intros n x H. unfold context in H. apply find_some in H as [_ H]. apply str_eqb_eq in H. exact H.
Qed.
Print Assumptions C68_submodule_refuted.

(* ------------------------------------------------------------------ C69 *)
(** A leaf takes what the type in the typedef takes which its type names, if the names of all typedefs are different, and each is
    to be seen under one prefix. *)
Theorem C69_partial : forall ctx ms c xp limit fuel fuel' cm0 cm, by_name ctx ms -> no_colons ctx ms (lit "typedef") ->
  (forall p m n d p' m' d', under ctx ms p m -> defines (lit "typedef") (mo_body m) n d -> under ctx ms p' m' -> defines (lit "typedef") (mo_body m') n d' -> p = p' /\ d = d') ->
  (forall p m n d, under ctx ms p m -> defines (lit "typedef") (mo_body m) n d -> ~ In n (known_types cm0) /\ ~ In (p ++ lit ":" ++ n) (known_types cm0) /\ ~ In n (lit "union" :: yang_types)) ->
  compile_types ctx c xp limit fuel fuel' cm0 ms = Ok cm ->
  forall p m n d ty, under ctx ms p m -> defines (lit "typedef") (mo_body m) n d -> plain ty -> ty_arg ty = n \/ ty_arg ty = p ++ lit ":" ++ n ->
  exists r0 r, build_elemtype xp cm (tb_type d) = Ok r0 /\ build_elemtype xp cm ty = Ok r /\ forall O v, leaf_assign O (leaf_ltype r) v = leaf_assign O (leaf_ltype r0) v.
Proof. exact CollectTypes_proofs.types_apart. Qed.
Print Assumptions C69_partial.
Definition mod_g := modul "g" "g" [(lit "d", lit "d")] [] [tdstm "g" "t" "u"; block "container" [tdstm "g" "u" "d:k"]].
Definition two := context [mod_g; mod_d].
Example C69_case : by_name two [mod_g] /\ no_colons two [mod_g] (lit "typedef") /\
  (forall p m n d p' m' d', under two [mod_g] p m -> defines (lit "typedef") (mo_body m) n d -> under two [mod_g] p' m' -> defines (lit "typedef") (mo_body m') n d' -> p = p' /\ d = d') /\
  (forall p m n d, under two [mod_g] p m -> defines (lit "typedef") (mo_body m) n d -> ~ In n (known_types builtin_map) /\ ~ In (p ++ lit ":" ++ n) (known_types builtin_map) /\ ~ In n (lit "union" :: yang_types)) /\
  (exists cm, compile_types two plain_modules false 1000 10 4004 builtin_map [mod_g] = Ok cm) /\ under two [mod_g] (lit "g") mod_g.
Proof.
  assert (C : forall n m, two n = Some m -> (n = lit "g" /\ m = mod_g) \/ (n = lit "d" /\ m = mod_d)).
  { intros n m. unfold two, context. cbn [find]. change (mo_name mod_g) with (lit "g"). change (mo_name mod_d) with (lit "d").
    destruct (str_eqb (lit "g") n) eqn:E1; [apply str_eqb_eq in E1 as <-; intros H; injection H as <-; left; split; reflexivity|].
    destruct (str_eqb (lit "d") n) eqn:E2; [apply str_eqb_eq in E2 as <-; intros H; injection H as <-; right; split; reflexivity|discriminate]. }
  assert (I : forall m p m', (m = mod_g \/ m = mod_d) -> imports two m p m' -> p = lit "d" /\ m' = mod_d).
  { intros m p m' Hm (n & Hc & Hi). destruct Hm as [->| ->].
    - destruct Hi as [[Hi|[]]|(sub & (k & [] & _) & _)]. injection Hi as <- <-. vm_compute in Hc. injection Hc as <-. split; reflexivity.
    - destruct Hi as [[]|(sub & (k & [] & _) & _)]. }
  assert (G : forall m, needed two [mod_g] m -> m = mod_g \/ m = mod_d).
  { induction 1 as [m [<-|[]]|m p m' _ IH Hi]; [left; reflexivity|]. right. apply (I m p m' IH Hi). }
  assert (U : forall p m, under two [mod_g] p m -> (p = lit "g" /\ m = mod_g) \/ (p = lit "d" /\ m = mod_d)).
  { intros p m [m1 p1 Hn Ho|m1 p1 sub Hn Ho (n & Hin & _)|m1 p1 m' Hn Hi].
    - destruct (G m1 Hn) as [->| ->]; (destruct Ho as [Ho|[Ho _]]; [|discriminate]); injection Ho as <-; [left|right]; split; reflexivity.
    - destruct (G m1 Hn) as [->| ->]; destruct Hin.
    - right. apply (I m1 p1 m' (G m1 Hn) Hi). }
  assert (Dd : forall n d, defines (lit "typedef") (mo_body mod_d) n d -> tdstm "d" "k" "int8" = Defn (lit "typedef") n d).
  { intros n d H. inversion H as [body n0 d0 Hin|body kw' body' n0 d0 Hin _ _]; subst; destruct Hin as [Hin|[]]; [exact Hin|discriminate]. }
  assert (Dg : forall n d, defines (lit "typedef") (mo_body mod_g) n d -> tdstm "g" "t" "u" = Defn (lit "typedef") n d \/ tdstm "g" "u" "d:k" = Defn (lit "typedef") n d).
  { intros n d H. inversion H as [body n0 d0 Hin|body kw' body' n0 d0 Hin _ H']; subst; destruct Hin as [Hin|[Hin|[]]]; try discriminate; [left; exact Hin|right]. injection Hin as <- <-.
    inversion H' as [body n0 d0 Hin'|body kw' body' n0 d0 Hin' _ _]; subst; destruct Hin' as [Hin'|[]]; [exact Hin'|discriminate]. }
  assert (A : forall p m n d, under two [mod_g] p m -> defines (lit "typedef") (mo_body m) n d ->
     (p = lit "g" /\ tdstm "g" "t" "u" = Defn (lit "typedef") n d) \/ (p = lit "g" /\ tdstm "g" "u" "d:k" = Defn (lit "typedef") n d) \/ (p = lit "d" /\ tdstm "d" "k" "int8" = Defn (lit "typedef") n d)).
  { intros p m n d Hu Hd. destruct (U p m Hu) as [[-> ->]|[-> ->]]; [destruct (Dg n d Hd) as [E|E]; [left|right; left]; split; try reflexivity; exact E|right; right; split; [reflexivity|apply Dd, Hd]]. }
  split; [|split; [|split; [|split; [|split]]]].
  - split; [intros m [<-|[]]; reflexivity|]. intros n m H. apply C in H as [[-> ->]|[-> ->]]; reflexivity.
  - intros p m Hu. split; [destruct (U p m Hu) as [[-> _]|[-> _]]; vm_compute; intuition discriminate|]. intros n d Hd. destruct (A p m n d Hu Hd) as [[_ E]|[[_ E]|[_ E]]]; injection E as <- _; vm_compute; intuition discriminate.
  - intros p m n d p' m' d' Hu Hd Hu' Hd'. destruct (A p m n d Hu Hd) as [[-> E]|[[-> E]|[-> E]]]; injection E as <- <-; (destruct (A p' m' _ d' Hu' Hd') as [[-> E]|[[-> E]|[-> E]]]; injection E; intros; try discriminate; subst; split; reflexivity).
  - intros p m n d Hu Hd. assert (N : forall s l, str_in s l = false -> ~ In s l) by (intros s l H H'; apply str_in_In in H'; congruence).
    destruct (A p m n d Hu Hd) as [[-> E]|[[-> E]|[-> E]]]; injection E as <- _; (split; [|split]); apply N; vm_compute; reflexivity.
  - eexists. vm_compute. reflexivity.
  - apply under_own; [apply needed_given; left; reflexivity|left; reflexivity].
Qed.

(** Not if another module has a typedef of the same name: here a has t = uint8 and b has t = string, and a leaf of type t in module a takes any
    string if a is given before b, and none if b is. *)
Theorem C69_module_refuted : forall O, exists a b t cm1 cm2 r1 r2,
  In (tdstm "a" "t" "uint8") (mo_body a) /\ In (tdstm "b" "t" "string") (mo_body b) /\ ty_arg t = lit "t" /\
  compile_types (context [a; b]) plain_modules false 1000 10 4004 builtin_map [a; b] = Ok cm1 /\ compile_types (context [a; b]) plain_modules false 1000 10 4004 builtin_map [b; a] = Ok cm2 /\
  build_elemtype false cm1 t = Ok r1 /\ build_elemtype false cm2 t = Ok r2 /\
  d_out (leaf_assign O (leaf_ltype r1) (VStr (lit "hello"))) = Ok (VStr (lit "hello")) /\ d_out (leaf_assign O (leaf_ltype r2) (VStr (lit "hello"))) = Raise ValueError.
Proof.
  intros O. exists (modul "a" "a" [] [] [tdstm "a" "t" "uint8"]), (modul "b" "b" [] [] [tdstm "b" "t" "string"]), (TypedefDepth_proofs.just (lit "t")). eexists. eexists. eexists. eexists.
  split; [left; reflexivity|]. split; [left; reflexivity|]. split; [reflexivity|]. split; [vm_compute; reflexivity|]. split; [vm_compute; reflexivity|]. split; [vm_compute; reflexivity|]. split; [vm_compute; reflexivity|].
  split; vm_compute; reflexivity.
Qed.
Print Assumptions C69_module_refuted.
(** Nor if another container of the module has: the last one counts for both. *)
Theorem C69_scope_refuted : forall O, exists body t cm r,
  body = [block "container" [tdstm "a" "t" "uint8"]; block "container" [tdstm "a" "t" "string"]] /\ ty_arg t = lit "t" /\
  compile_types (context [modul "a" "a" [] [] body]) plain_modules false 1000 10 4004 builtin_map [modul "a" "a" [] [] body] = Ok cm /\
  build_elemtype false cm t = Ok r /\ d_out (leaf_assign O (leaf_ltype r) (VStr (lit "hello"))) = Ok (VStr (lit "hello")).
Proof.
  intros O. eexists. exists (TypedefDepth_proofs.just (lit "t")). eexists. eexists. split; [reflexivity|]. split; [reflexivity|]. split; [vm_compute; reflexivity|]. split; [vm_compute; reflexivity|]. vm_compute. reflexivity.
Qed.
Print Assumptions C69_scope_refuted.

(** Two modules may have the same prefix.  Then the first of them counts: a leaf of type t in the second one, where t is a string, refuses a string. *)
Theorem C69_prefix_refuted : forall O, exists a b t cm r, mo_prefix a = mo_prefix b /\ In (tdstm "a" "t" "uint8") (mo_body a) /\ In (tdstm "b" "t" "string") (mo_body b) /\ ty_arg t = lit "t" /\
  compile_types (context [a; b]) plain_modules false 1000 10 4004 builtin_map [a; b] = Ok cm /\
  build_elemtype false cm t = Ok r /\ d_out (leaf_assign O (leaf_ltype r) (VStr (lit "hello"))) = Raise ValueError.
Proof.
  intros O. exists (modul "a" "p" [] [] [tdstm "a" "t" "uint8"]), (modul "b" "p" [] [] [tdstm "b" "t" "string"]), (TypedefDepth_proofs.just (lit "t")). eexists. eexists.
  split; [reflexivity|]. split; [left; reflexivity|]. split; [left; reflexivity|]. split; [reflexivity|]. split; [vm_compute; reflexivity|]. split; [vm_compute; reflexivity|]. vm_compute; reflexivity.
Qed.
Print Assumptions C69_prefix_refuted.

(* ------------------------------------------------------------------ C52 *)
(** Resolution does not fail exactly for undefined types: b has a typedef u, and a has a typedef of type x:u, where x is the prefix under which it imports
    b.  With a alone, or a before b, all is well; with b before a the typedef in a is entered before x:u is, and compilation fails. *)
Theorem C52_prefix_refuted : exists a b c, imports (context [a; b]) a (lit "x") b /\ mo_body b = [tdstm "b" "u" "string"] /\ mo_body a = [tdstm "a" "t" "x:u"] /\
  m_resolve c (lit "a") (lit "x") = Some (lit "b") /\ (forall m, m_prefix c m = m) /\
  (exists cm, compile_types (context [a; b]) c false 1000 10 4004 builtin_map [a] = Ok cm) /\ (exists cm, compile_types (context [a; b]) c false 1000 10 4004 builtin_map [a; b] = Ok cm) /\
  compile_types (context [a; b]) c false 1000 10 4004 builtin_map [b; a] = Raise RuntimeError.
Proof.
  exists (modul "a" "a" [(lit "b", lit "x")] [] [tdstm "a" "t" "x:u"]), (modul "b" "b" [] [] [tdstm "b" "u" "string"]),
    {| m_prefix m := m; m_namespace m := m; m_resolve _ p := if str_eqb p (lit "x") then Some (lit "b") else Some p; m_refs m := [m] |}.
  split; [exists (lit "b"); split; [reflexivity|left; left; reflexivity]|]. split; [reflexivity|]. split; [reflexivity|]. split; [reflexivity|]. split; [reflexivity|].
  split; [eexists; vm_compute; reflexivity|]. split; [eexists; vm_compute; reflexivity|]. vm_compute. reflexivity.
Qed.
Print Assumptions C52_prefix_refuted.
