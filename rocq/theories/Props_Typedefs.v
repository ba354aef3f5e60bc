(** Property theorems about typedefs: C52, C55, C56. *)
From Verif Require Import PyStr PyStr_facts PyVal PathHelper Identity Restricted IntTypes Spec_Types Typedefs Spec_Typedefs.
From Verif Require TypedefOrder_proofs TypedefMap_proofs TypedefDepth_proofs TypedefDefault_proofs TypedefRestr_proofs.
From Coq Require Import Lia ZArith Permutation.
Import ListNotations.

(* ------------------------------------------------------------------ C52 *)
(** The typedefs are all there, each after all that it uses. *)
Theorem C52_order : forall c limit fuel cm defs tds, (forall td, In td defs -> well_formed c (known_types cm) td) -> order_typedefs c limit fuel cm defs = Ok tds ->
  Permutation tds defs /\ in_order c (known_types cm) tds.
Proof. exact TypedefOrder_proofs.typedefs_order. Qed.
Print Assumptions C52_order.
(** It ends: each typedef is tried at most [S limit] times. *)
Theorem C52_ends : forall c limit fuel cm defs, (forall td, In td defs -> well_formed c (known_types cm) td) -> length defs * S limit <= fuel ->
  (exists tds, order_typedefs c limit fuel cm defs = Ok tds) \/ order_typedefs c limit fuel cm defs = Raise TypeError.
Proof. exact TypedefOrder_proofs.typedefs_end. Qed.
Print Assumptions C52_ends.
(** With at most 1001 typedefs it fails exactly if one of them refers to a type that is not defined, or to itself. *)
Theorem C52_iff_partial : forall c limit fuel cm defs, (forall td, In td defs -> well_formed c (known_types cm) td) ->
  (forall td td', In td defs -> In td' defs -> td_key td = td_key td' -> td = td') -> (forall td, In td defs -> ~ In (td_key td) (known_types cm)) ->
  length defs * S limit <= fuel -> length defs <= S limit ->
  ((exists tds, order_typedefs c limit fuel cm defs = Ok tds) <-> forall td, In td defs -> exists n, grounded_in c (known_types cm) defs n (td_key td)) /\
  (~ (forall td, In td defs -> exists n, grounded_in c (known_types cm) defs n (td_key td)) -> order_typedefs c limit fuel cm defs = Raise TypeError).
Proof. exact TypedefDepth_proofs.typedefs_iff. Qed.
Print Assumptions C52_iff_partial.
(** With more of them, if the references are not deeper than that. *)
Theorem C52_complete_partial : forall c limit fuel cm defs, (forall td, In td defs -> well_formed c (known_types cm) td) ->
  (forall td td', In td defs -> In td' defs -> td_key td = td_key td' -> td = td') -> (forall td, In td defs -> ~ In (td_key td) (known_types cm)) ->
  length defs * S limit <= fuel -> (forall td, In td defs -> grounded_in c (known_types cm) defs (S limit) (td_key td)) ->
  exists tds, order_typedefs c limit fuel cm defs = Ok tds.
Proof. exact TypedefOrder_proofs.typedefs_complete. Qed.
Print Assumptions C52_complete_partial.
(** What refers to something undefined or to itself never gets into the order. *)
Theorem C52_grounded : forall c limit fuel cm defs tds, (forall td, In td defs -> well_formed c (known_types cm) td) -> order_typedefs c limit fuel cm defs = Ok tds ->
  forall td, In td defs -> grounded_in c (known_types cm) defs (length defs) (td_key td).
Proof. exact TypedefOrder_proofs.typedefs_grounded. Qed.
Print Assumptions C52_grounded.
(** Then every name that a typedef mentions has an entry when its turn comes, if modules are imported under their
    own prefixes. *)
Theorem C52_found_partial : forall xp c cm tds l1 td l2 cm1 t, (forall td, In td tds -> key_ok td) -> in_order c (known_types cm) tds -> tds = l1 ++ td :: l2 ->
  well_formed c (known_types cm) td ->
  (forall p n m, mentions (td_type td) (p ++ lit ":" ++ n) -> ~ In 58%N p -> m_resolve c (td_module td) p = Some m -> m_prefix c m = p) ->
  ~ In 58%N (m_prefix c (td_module td)) -> (forall p n, look (p ++ lit ":" ++ n) cm <> None -> look n cm <> None) ->
  process_typedefs xp cm l1 = Ok cm1 -> mentions (td_type td) t ->
  look t cm1 <> None \/ In t [lit "enumeration"; lit "leafref"; lit "bits"].
Proof. exact TypedefMap_proofs.names_found. Qed.
Print Assumptions C52_found_partial.
(** Not with deeper references: 1002 typedefs, each the type of the next, last one first, are refused. *)
Theorem C52_depth_refuted : forall limit, exists c defs, length defs = S (S limit) /\ (forall td, In td defs -> well_formed c (known_types builtin_map) td) /\
  (forall td td', In td defs -> In td' defs -> td_key td = td_key td' -> td = td') /\ (forall td, In td defs -> ~ In (td_key td) (known_types builtin_map)) /\
  (forall td, In td defs -> exists n, grounded_in c (known_types builtin_map) defs n (td_key td)) /\
  forall fuel, length defs * S limit <= fuel -> order_typedefs c limit fuel builtin_map defs = Raise TypeError.
Proof. intros limit. exists TypedefDepth_proofs.one_module. exact (TypedefDepth_proofs.too_deep limit). Qed.
Print Assumptions C52_depth_refuted.

Definition just : str -> ytype := TypedefDepth_proofs.just.
Definition one_module : modules := TypedefDepth_proofs.one_module.
Definition tdef_of (m n : String.string) (ty : ytype) (d : option str) : tdef := {| td_key := lit m ++ lit ":" ++ lit n; td_module := lit m; td_type := ty; td_default := d |}.
Definition with_range (s : String.string) (ty : ytype) : ytype :=
  {| ty_arg := ty_arg ty; ty_patterns := ty_patterns ty; ty_length := ty_length ty; ty_range := Some (lit s); ty_enums := ty_enums ty; ty_digits := ty_digits ty; ty_path := ty_path ty;
     ty_require := ty_require ty; ty_bases := ty_bases ty; ty_bits := ty_bits ty; ty_subs := ty_subs ty |}.
Definition with_length (s : String.string) (ty : ytype) : ytype :=
  {| ty_arg := ty_arg ty; ty_patterns := ty_patterns ty; ty_length := Some (lit s); ty_range := ty_range ty; ty_enums := ty_enums ty; ty_digits := ty_digits ty; ty_path := ty_path ty;
     ty_require := ty_require ty; ty_bases := ty_bases ty; ty_bits := ty_bits ty; ty_subs := ty_subs ty |}.
Definition with_patterns (ps : list str) (ty : ytype) : ytype :=
  {| ty_arg := ty_arg ty; ty_patterns := ps; ty_length := ty_length ty; ty_range := ty_range ty; ty_enums := ty_enums ty; ty_digits := ty_digits ty; ty_path := ty_path ty;
     ty_require := ty_require ty; ty_bases := ty_bases ty; ty_bits := ty_bits ty; ty_subs := ty_subs ty |}.
Definition union_of (l : list ytype) : ytype :=
  {| ty_arg := lit "union"; ty_patterns := []; ty_length := None; ty_range := None; ty_enums := []; ty_digits := None; ty_path := None; ty_require := None; ty_bases := []; ty_bits := []; ty_subs := l |}.
Definition decimal (digits : String.string) : ytype :=
  {| ty_arg := lit "decimal64"; ty_patterns := []; ty_length := None; ty_range := None; ty_enums := []; ty_digits := Some (lit digits); ty_path := None; ty_require := None; ty_bases := []; ty_bits := []; ty_subs := [] |}.
Definition enumeration (l : list (str * option str)) : ytype :=
  {| ty_arg := lit "enumeration"; ty_patterns := []; ty_length := None; ty_range := None; ty_enums := l; ty_digits := None; ty_path := None; ty_require := None; ty_bases := []; ty_bits := []; ty_subs := [] |}.

(** The typedefs of two modules, in the wrong order: b:t uses a:s twice removed. *)
Definition some_defs : list tdef :=
  [tdef_of "b" "t" (union_of [just (lit "u"); just (lit "a:r"); just (lit "string")]) None; tdef_of "b" "u" (with_range "5..9" (just (lit "a:r"))) (Some (lit "7"));
   tdef_of "a" "r" (with_range "1..20" (just (lit "uint8"))) (Some (lit "2"))].
Lemma some_formed : forall td, In td some_defs -> well_formed one_module (known_types builtin_map) td.
Proof.
  assert (B : forall td, denotes one_module (known_types builtin_map) td (lit "a:r") (lit "a:r")).
  { intros td. left. exists (lit "a"), (lit "r"), (lit "a"). split; [reflexivity|]. split; [vm_compute; intuition discriminate|]. split; [vm_compute; intuition discriminate|]. split; reflexivity. }
  assert (K : forall td t, ~ In 58%N t -> str_in t (known_types builtin_map) = true -> denotes one_module (known_types builtin_map) td t t).
  { intros td t N H. right. left. split; [exact N|]. split; [apply str_in_In, H|reflexivity]. }
  intros td Hin. split; [|split].
  - destruct Hin as [<-|[<-|[<-|[]]]]; intros E; vm_compute in E; discriminate.
  - destruct Hin as [<-|[<-|[<-|[]]]]; intros s Hs; cbn in Hs; [|destruct Hs..]. destruct Hs as [<-|[<-|[<-|[]]]]; intros E; vm_compute in E; discriminate.
  - intros t M. destruct Hin as [<-|[<-|[<-|[]]]].
    + destruct M as [[C _]|(_ & s & Hs & M)]; [destruct C; reflexivity|]. cbn in Hs. destruct Hs as [<-|[<-|[<-|[]]]]; (destruct M as [[_ ->]|[C _]]; [|vm_compute in C; discriminate]).
      * exists (lit "b:u"). right. right. split; [vm_compute; intuition discriminate|]. split; [|reflexivity]. intros H. apply str_in_In in H. vm_compute in H. discriminate.
      * exists (lit "a:r"). apply B.
      * exists (lit "string"). apply K; [vm_compute; intuition discriminate|vm_compute; reflexivity].
    + destruct M as [[_ [[_ ->]|[C _]]]|[C _]]; [|vm_compute in C; discriminate..]. exists (lit "a:r"). apply B.
    + destruct M as [[_ [[_ ->]|[C _]]]|[C _]]; [|vm_compute in C; discriminate..]. exists (lit "uint8"). apply K; [vm_compute; intuition discriminate|vm_compute; reflexivity].
Qed.
Example C52_case : (forall td, In td some_defs -> well_formed one_module (known_types builtin_map) td) /\
  order_typedefs one_module 1000 3003 builtin_map some_defs = Ok (rev some_defs) /\ (exists cm, process_typedefs false builtin_map (rev some_defs) = Ok cm) /\
  order_typedefs one_module 1000 3003 builtin_map (tdef_of "a" "self" (just (lit "self")) None :: some_defs) = Raise TypeError.
Proof. split; [exact some_formed|]. split; [vm_compute; reflexivity|]. split; [eexists; vm_compute; reflexivity|vm_compute; reflexivity]. Qed.

(** Not if an identity anywhere has the name of the typedef: here identity n:x with a derived identity v, and in module m
    the typedef a of type x, where x is an 8 bit number.  A leaf of type a takes v and refuses 5; a leaf of
    type x takes 5. *)
Theorem C52_identity_refuted : forall O, exists D a x cm ra rx,
  build_typedefs one_module false 1000 2002 (identity_entries D builtin_map) [tdef_of "m" "a" (just (lit "x")) None; tdef_of "m" "x" (just (lit "uint8")) None] = Ok cm /\
  build_elemtype false cm a = Ok ra /\ build_elemtype false cm x = Ok rx /\ ty_arg a = lit "m:a" /\ ty_arg x = lit "m:x" /\
  d_out (leaf_assign O (leaf_ltype ra) (VStr (lit "v"))) = Ok (VStr (lit "v")) /\ d_out (leaf_assign O (leaf_ltype ra) (VStr (lit "5"))) = Raise ValueError /\
  d_out (leaf_assign O (leaf_ltype rx) (VStr (lit "5"))) = Ok (VInt 5).
Proof.
  intros O. exists [(lit "x", [(lit "v", (lit "n", lit "n"))]); (lit "n:x", [(lit "v", (lit "n", lit "n"))])], (just (lit "m:a")), (just (lit "m:x")).
  eexists. eexists. eexists. split; [vm_compute; reflexivity|]. split; [vm_compute; reflexivity|]. split; [vm_compute; reflexivity|]. split; [reflexivity|]. split; [reflexivity|].
  split; [vm_compute; reflexivity|]. split; vm_compute; reflexivity.
Qed.
Print Assumptions C52_identity_refuted.

(** Not for a union directly inside a union, which YANG allows. *)
Theorem C52_union_refuted : exists defs, defs = [tdef_of "m" "t" (union_of [union_of [just (lit "string"); just (lit "int8")]; just (lit "boolean")]) None] /\
  order_typedefs one_module 1000 1001 builtin_map defs = Raise TypeError.
Proof. eexists. split; [reflexivity|]. vm_compute. reflexivity. Qed.
Print Assumptions C52_union_refuted.

(* ------------------------------------------------------------------ C55 *)
(** The default of a leaf: the nearest one.  For types that are not unions, if the typedef that the leaf names (without
    a restriction) has no default where the leaf has one, and no typedef with a default is the type of another
    typedef that does not restrict it. *)
Theorem C55_partial : forall xp cm0 cm tds O ty l fuel own r, from_identities cm0 -> separate (known_types cm0) tds -> typedef_names tds -> process_typedefs xp cm0 tds = Ok cm ->
  chain tds ty l -> build_elemtype xp cm ty = Ok r -> length l < fuel -> none_passed_over l ->
  own = None \/ ~ plain ty \/ (forall td l', l = td :: l' -> td_default td = None) ->
  exists x, leaf_default O fuel cm r own = Ok x /\ option_map fst x = nearest (own :: map td_default l).
Proof.
  intros xp cm0 cm tds O ty l fuel own r Hi Hs Ht Hp Hc Hb Hf Hn Ho. destruct (TypedefDefault_proofs.default_nearest xp cm0 cm tds O ty l fuel own r Hi Hs Ht Hp Hc Hb Hf Hn Ho) as (x & H1 & H2 & _).
  exists x. auto.
Qed.
Print Assumptions C55_partial.
(** Not for any other leaf: a default of the typedef wins over the one of the leaf ... *)
Theorem C55_override_refuted : forall O, exists tds cm r b, process_typedefs false builtin_map tds = Ok cm /\ build_elemtype false cm (just (lit "t")) = Ok r /\
  leaf_default O 10 cm r (Some (lit "mine")) = Ok (Some (lit "theirs", b)).
Proof.
  intros O. exists [tdef_of "m" "t" (just (lit "string")) (Some (lit "theirs"))]. eexists. eexists. eexists. split; [vm_compute; reflexivity|]. split; [vm_compute; reflexivity|]. vm_compute. reflexivity.
Qed.
Print Assumptions C55_override_refuted.
(** ... and so does one of a member of a union. *)
Theorem C55_member_refuted : forall O, exists tds cm r b, process_typedefs false builtin_map tds = Ok cm /\ build_elemtype false cm (union_of [just (lit "int8"); just (lit "t")]) = Ok r /\
  leaf_default O 10 cm r (Some (lit "1")) = Ok (Some (lit "theirs", b)).
Proof.
  intros O. exists [tdef_of "m" "t" (just (lit "string")) (Some (lit "theirs"))]. eexists. eexists. eexists. split; [vm_compute; reflexivity|]. split; [vm_compute; reflexivity|]. vm_compute. reflexivity.
Qed.
Print Assumptions C55_member_refuted.
(** A default is lost if another typedef without restrictions and without a default lies between. *)
Theorem C55_passed_refuted : forall O, exists tds cm r, process_typedefs false builtin_map tds = Ok cm /\ build_elemtype false cm (just (lit "t")) = Ok r /\
  (exists td td', named tds (lit "t") td /\ named tds (ty_arg (td_type td)) td' /\ td_default td = None /\ td_default td' = Some (lit "d")) /\ leaf_default O 10 cm r None = Ok None.
Proof.
  intros O. set (u := tdef_of "m" "u" (just (lit "string")) (Some (lit "d"))). set (t := tdef_of "m" "t" (just (lit "u")) None). exists [u; t]. eexists. eexists.
  split; [vm_compute; reflexivity|]. split; [vm_compute; reflexivity|]. split; [|vm_compute; reflexivity]. exists t, u.
  split; [split; [right; left; reflexivity|right; exists (lit "m"); split; [reflexivity|split; vm_compute; intuition discriminate]]|].
  split; [split; [left; reflexivity|right; exists (lit "m"); split; [reflexivity|split; vm_compute; intuition discriminate]]|]. split; reflexivity.
Qed.
Print Assumptions C55_passed_refuted.

Lemma named_keys tds t td : named tds t td -> (forall td, In td tds -> exists p n, td_key td = p ++ lit ":" ++ n /\ ~ In 58%N p /\ ~ In 58%N n) -> In td tds /\ (t = td_key td \/ bare (td_key td) = Ok t).
Proof.
  intros [Hin H] K. split; [exact Hin|]. destruct H as [->|(p & E & Np & Nt)]; [left; reflexivity|]. right. unfold bare. rewrite E. change (lit ":") with [58%N]. cbn [app].
  rewrite split_on_app by exact Np. pose proof (split_on_no 58%N t Nt) as X. rewrite X. reflexivity.
Qed.
(** An 8 bit number, restricted twice; a string restricted by length and pattern. *)
Definition chain_defs : list tdef :=
  [tdef_of "m" "r" (with_range "1..20 | 30" (just (lit "uint8"))) (Some (lit "2")); tdef_of "m" "q" (just (lit "m:r")) None; tdef_of "m" "p" (with_range "5..9" (just (lit "r"))) None;
   tdef_of "m" "w" (with_length "2..9" (just (lit "string"))) None; tdef_of "m" "e" (enumeration [(lit "up", None); (lit "down", Some (lit "7"))]) None;
   tdef_of "m" "f" (just (lit "e")) None; tdef_of "m" "d" (decimal "2") None].
Lemma chain_keys td : In td chain_defs -> key_ok td.
Proof.
  intros H. repeat (destruct H as [<-|H]; [exists (lit "m"); eexists; split; [reflexivity|]; split; vm_compute; intuition discriminate|]). destruct H.
Qed.
Lemma chain_names t td : named chain_defs t td -> In (t, td) (flat_map (fun td => [(td_key td, td); (match bare (td_key td) with Ok n => n | _ => [] end, td)]) chain_defs).
Proof.
  intros H. apply named_keys in H; [|exact chain_keys]. destruct H as [Hin H]. apply in_flat_map. exists td. split; [exact Hin|]. destruct H as [->|E]; [left; reflexivity|]. rewrite E. right. left. reflexivity.
Qed.
Lemma chain_separate : separate (known_types builtin_map) chain_defs.
Proof.
  split; [exact chain_keys|]. split.
  - intros t td td' H H'. apply chain_names in H, H'. revert H H'. set (l := flat_map _ chain_defs). assert (N : NoDup (map fst l)).
    { unfold l. vm_compute. repeat (constructor; [intros C; repeat (destruct C as [C|C]; [discriminate C|]); exact C|]). constructor. }
    clearbody l. induction l as [|[u x] l IH]; intros H H'; [destruct H|]. inversion N as [|? ? N1 N2]; subst. cbn [fst] in N1.
    destruct H as [H|H], H' as [H'|H'].
    + congruence.
    + injection H as <- <-. destruct N1. apply (in_map fst) in H'. exact H'.
    + injection H' as <- <-. destruct N1. apply (in_map fst) in H. exact H.
    + apply (IH N2 H H').
  - intros t td H C. apply chain_names in H. cbn [flat_map chain_defs app] in H. apply str_in_In in C.
    repeat (destruct H as [H|H]; [injection H as <- <-; vm_compute in C; discriminate|]). destruct H.
Qed.
Lemma chain_typedefs : typedef_names chain_defs.
Proof.
  intros t td H C. apply chain_names in H. cbn [flat_map chain_defs app] in H. apply str_in_In in C. repeat (destruct H as [H|H]; [injection H as <- <-; vm_compute in C; discriminate|]). destruct H.
Qed.
Lemma builtin_identities : from_identities builtin_map.
Proof. exists []. split; [reflexivity|intros t []]. Qed.
Lemma is_named (n : String.string) td : In td chain_defs -> td_key td = lit "m" ++ lit ":" ++ lit n -> ch_in 58 (lit n) = false -> named chain_defs (lit n) td.
Proof. intros H E N. split; [exact H|]. right. exists (lit "m"). split; [exact E|]. split; [vm_compute; intuition discriminate|]. apply ch_in_false, N. Qed.
Tactic Notation "pick" integer(n) := do n right; left; reflexivity.
Example C55_case : exists cm r, from_identities builtin_map /\ separate (known_types builtin_map) chain_defs /\ typedef_names chain_defs /\ process_typedefs false builtin_map chain_defs = Ok cm /\
  (exists l, chain chain_defs (just (lit "p")) l /\ length l = 2 /\ none_passed_over l /\ nearest (map td_default l) = Some (lit "2")) /\ build_elemtype false cm (just (lit "p")) = Ok r /\
  forall O, leaf_default O 10 cm r None = Ok (Some (lit "2", builtin (match class_map_int "uint8" with Some t => t | None => TStr end) false)).
Proof.
  eexists. eexists. split; [exact builtin_identities|]. split; [exact chain_separate|]. split; [exact chain_typedefs|]. split; [vm_compute; reflexivity|]. split.
  { set (p := nth 2 chain_defs (nth 0 chain_defs (tdef_of "" "" (just []) None))). set (q := nth 0 chain_defs (tdef_of "" "" (just []) None)). exists [p; q]. split; [|split; [reflexivity|split; [|reflexivity]]].
    - apply chain_typedef; [apply is_named; [pick 2|reflexivity|reflexivity]|]. apply chain_typedef; [apply (is_named "r"); [pick 0|reflexivity|reflexivity]|].
      apply chain_end; [apply str_in_In; vm_compute; reflexivity|intros b l E; discriminate].
    - cbn [none_passed_over]. split; [|exact I]. intros (_ & _ & C). discriminate. }
  split; [vm_compute; reflexivity|]. intros O. vm_compute. reflexivity.
Qed.

(* ------------------------------------------------------------------ C56 *)
(** Strings: the patterns and the lengths along the typedefs are all enforced, if there is one at each level, or only one
    level has any. *)
Theorem C56_string_partial : forall xp cm0 cm tds, from_identities cm0 -> separate (known_types cm0) tds -> typedef_names tds -> process_typedefs xp cm0 tds = Ok cm ->
  forall ty levels, string_type tds ty levels -> slevels_wf levels -> Forall (fun l => length l = 1) levels \/ length levels <= 1 ->
  exists r, build_elemtype xp cm ty = Ok r /\ forall O s,
    let ok := Forall (Forall (fun x => sat (o_match O) wrap_anchors x s)) levels in
    (ok -> leaf_assign O (leaf_ltype r) (VStr s) = {| d_notified := true; d_out := Ok (VStr s) |}) /\
    (~ ok -> d_out (leaf_assign O (leaf_ltype r) (VStr s)) = Raise ValueError).
Proof. exact TypedefRestr_proofs.string_main. Qed.
Print Assumptions C56_string_partial.
(** Integers: all ranges along the typedefs and the one of the built-in type.  With two or more ranges a value that is not
    in one of the inner ones can be replaced by 0 (C60). *)
Theorem C56_int_partial : forall xp cm0 cm tds, from_identities cm0 -> separate (known_types cm0) tds -> typedef_names tds -> process_typedefs xp cm0 tds = Ok cm ->
  forall k ty levels, int_type tds k ty levels -> ranges_wf k levels ->
  exists r, build_elemtype xp cm ty = Ok r /\ forall O z,
    (in_levels z levels /\ kind_ok k z -> leaf_assign O (leaf_ltype r) (VInt z) = {| d_notified := true; d_out := Ok (VInt z) |}) /\
    (~ (in_levels z levels /\ kind_ok k z) ->
       d_out (leaf_assign O (leaf_ltype r) (VInt z)) = Raise ValueError \/
       d_out (leaf_assign O (leaf_ltype r) (VInt z)) = Ok (VInt 0) /\ ~ (in_levels z (tl (tl levels)) /\ kind_ok k z)) /\
    (length levels <= 1 -> ~ (in_levels z levels /\ kind_ok k z) -> d_out (leaf_assign O (leaf_ltype r) (VInt z)) = Raise ValueError).
Proof. exact TypedefRestr_proofs.int_main. Qed.
Print Assumptions C56_int_partial.
(** Typedefs that restrict nothing: the leaf takes what it would take with the type written out, whatever that is. *)
Theorem C56_transparent : forall xp cm0 cm tds, separate (known_types cm0) tds -> typedef_names tds -> process_typedefs xp cm0 tds = Ok cm ->
  forall ty0 ty r0, build_elemtype xp cm ty0 = Ok r0 -> plain_type tds ty0 ty ->
  exists r, build_elemtype xp cm ty = Ok r /\ forall O v, leaf_assign O (leaf_ltype r) v = leaf_assign O (leaf_ltype r0) v.
Proof. exact TypedefRestr_proofs.transparent_main. Qed.
Print Assumptions C56_transparent.
(** Enumerations and decimals without a range. *)
Theorem C56_enum : forall xp cm0 cm tds, separate (known_types cm0) tds -> typedef_names tds -> process_typedefs xp cm0 tds = Ok cm ->
  forall ty0 ty, plain ty0 -> ty_arg ty0 = lit "enumeration" -> (forall n v, In (n, Some v) (ty_enums ty0) -> exists z, v = print_Z z) ->
  (forall n, In n (map fst (ty_enums ty0)) -> startswith (lit "@") n = false) -> plain_type tds ty0 ty ->
  exists r, build_elemtype xp cm ty = Ok r /\ forall O v,
    (In (py_str O v) (map fst (ty_enums ty0)) -> leaf_assign O (leaf_ltype r) v = {| d_notified := true; d_out := Ok (VStr (py_str O v)) |}) /\
    (~ In (py_str O v) (map fst (ty_enums ty0)) -> d_out (leaf_assign O (leaf_ltype r) v) = Raise ValueError).
Proof. exact TypedefRestr_proofs.enum_main. Qed.
Print Assumptions C56_enum.
Theorem C56_digits_partial : forall xp cm0 cm tds, separate (known_types cm0) tds -> typedef_names tds -> process_typedefs xp cm0 tds = Ok cm ->
  forall ty0 ty n, plain ty0 -> ty_arg ty0 = lit "decimal64" -> ty_digits ty0 = Some (print_Z n) -> plain_type tds ty0 ty ->
  exists r, build_elemtype xp cm ty = Ok r /\ forall O v c e w, py_decimal v = Ok (c, e) -> d_out (leaf_assign O (leaf_ltype r) v) = Ok w ->
    exists q, w = VDec q (- n) /\ (0 <= e + n -> q = c * 10 ^ (e + n))%Z.
Proof. exact TypedefRestr_proofs.decimal_main. Qed.
Print Assumptions C56_digits_partial.
Example C56_case : exists cm, from_identities builtin_map /\ separate (known_types builtin_map) chain_defs /\ typedef_names chain_defs /\ process_typedefs false builtin_map chain_defs = Ok cm /\
  (exists levels, string_type chain_defs (with_patterns [lit "a*"] (just (lit "m:w"))) levels /\ slevels_wf levels /\ levels = [[SPattern (lit "a*")]; [SLength [rng 2 9]]]) /\
  (exists levels, int_type chain_defs U8 (just (lit "p")) levels /\ ranges_wf U8 levels /\ levels = [[rng 5 9]; [rng 1 20; Exactly 30]]) /\
  plain_type chain_defs (enumeration [(lit "up", None); (lit "down", Some (lit "7"))]) (just (lit "m:f")) /\ plain_type chain_defs (decimal "2") (just (lit "d")).
Proof.
  assert (K : forall n td, In td chain_defs -> td_key td = n -> named chain_defs n td) by (intros n td H E; split; [exact H|left; symmetry; exact E]).
  eexists. split; [exact builtin_identities|]. split; [exact chain_separate|]. split; [exact chain_typedefs|]. split; [vm_compute; reflexivity|]. split; [|split; [|split]].
  - eexists. split; [|split; [|reflexivity]].
    + apply (string_typedef chain_defs _ [SPattern (lit "a*")] (nth 3 chain_defs (nth 0 chain_defs (tdef_of "" "" (just []) None))) [[SLength [rng 2 9]]]).
      * apply K; [pick 3|reflexivity].
      * split; [reflexivity|]. exists [SPattern (lit "a*")], []. split; [reflexivity|]. split; [right; exists (lit "a*"); split; reflexivity|left; split; reflexivity].
      * apply (string_end chain_defs _ [SLength [rng 2 9]]); [reflexivity|]. split; [reflexivity|]. exists [], [SLength [rng 2 9]]. split; [reflexivity|]. split; [left; split; reflexivity|].
        right. exists (lit "2..9"), [rng 2 9]. split; [reflexivity|]. split; [left; exists (rng 2 9); split; reflexivity|reflexivity].
    + repeat constructor; try discriminate; vm_compute; intuition discriminate.
  - eexists. split; [|split; [|reflexivity]].
    + apply (int_typedef chain_defs U8 _ [] (nth 2 chain_defs (nth 0 chain_defs (tdef_of "" "" (just []) None))) [[rng 5 9]; [rng 1 20; Exactly 30]]).
      * apply is_named; [pick 2|reflexivity|reflexivity].
      * split; [reflexivity|]. split; [reflexivity|left; split; reflexivity].
      * apply (int_typedef chain_defs U8 _ [rng 5 9] (nth 0 chain_defs (tdef_of "" "" (just []) None)) [[rng 1 20; Exactly 30]]).
        -- apply (is_named "r"); [pick 0|reflexivity|reflexivity].
        -- split; [reflexivity|]. split; [reflexivity|]. right. exists (lit "5..9"). split; [reflexivity|]. left. exists (rng 5 9). split; reflexivity.
        -- apply (int_end chain_defs U8 _ [rng 1 20; Exactly 30]); [reflexivity|]. split; [reflexivity|]. split; [reflexivity|]. right. exists (lit "1..20 | 30"). split; [reflexivity|].
           right. split; [cbn; lia|]. split; [repeat constructor|]. exists [lit "1..20 "; lit " 30"]. split; [|reflexivity].
           constructor; [exists 0, 1; reflexivity|]. constructor; [exists 1, 0; reflexivity|constructor].
    + cbn [ranges_wf]. repeat split; repeat constructor; vm_compute; try discriminate; intuition discriminate.
  - apply (plain_typedef chain_defs _ _ (nth 5 chain_defs (nth 0 chain_defs (tdef_of "" "" (just []) None)))); [repeat split|apply K; [pick 5|reflexivity]|].
    apply (plain_typedef chain_defs _ _ (nth 4 chain_defs (nth 0 chain_defs (tdef_of "" "" (just []) None)))); [repeat split|apply (is_named "e"); [pick 4|reflexivity|reflexivity]|]. apply plain_end. repeat split.
  - apply (plain_typedef chain_defs _ _ (nth 6 chain_defs (nth 0 chain_defs (tdef_of "" "" (just []) None)))); [repeat split|apply is_named; [pick 6|reflexivity|reflexivity]|]. apply plain_end. repeat split.
Qed.
(** Not with two patterns: only the first one counts ... *)
Theorem C56_pattern_refuted : forall O, o_match O (lit "^.*$") (lit "ab") = true -> o_match O (lit "^x$") (lit "ab") = false -> exists ty r,
  ty_arg ty = lit "string" /\ ty_patterns ty = [lit ".*"; lit "x"] /\ build_elemtype false builtin_map ty = Ok r /\
  o_match O (wrap_anchors (lit "x")) (lit "ab") = false /\ d_out (leaf_assign O (leaf_ltype r) (VStr (lit "ab"))) = Ok (VStr (lit "ab")).
Proof.
  intros O H1 H2. exists (with_patterns [lit ".*"; lit "x"] (just (lit "string"))). eexists. split; [reflexivity|]. split; [reflexivity|]. split; [vm_compute; reflexivity|]. split; [exact H2|].
  destruct (TypedefRestr_proofs.string_main false builtin_map builtin_map [] builtin_identities) with (ty := with_patterns [lit ".*"] (just (lit "string"))) (levels := [[SPattern (lit ".*")]]) as (r & B & E).
  - split; [intros td []|]. split; [intros t td td' [[] _]|intros t td [[] _]].
  - intros t td [[] _].
  - reflexivity.
  - apply (string_end [] _ [SPattern (lit ".*")]); [reflexivity|]. split; [reflexivity|]. exists [SPattern (lit ".*")], []. split; [reflexivity|]. split; [right; exists (lit ".*"); split; reflexivity|left; split; reflexivity].
  - repeat constructor; try discriminate; vm_compute; intuition discriminate.
  - right. cbn. lia.
  - vm_compute in B. injection B as <-. destruct (E O (lit "ab")) as [E1 _]. cbn [leaf_ltype] in *. match goal with |- d_out ?x = _ => assert (X : x = {| d_notified := true; d_out := Ok (VStr (lit "ab")) |}) end.
    { apply E1. repeat constructor. exact H1. } rewrite X. reflexivity.
Qed.
Print Assumptions C56_pattern_refuted.
(** ... and with a range on a decimal64 the number of digits is not enforced. *)
Theorem C56_digits_refuted : forall O, exists ty r, ty_arg ty = lit "decimal64" /\ ty_digits ty = Some (lit "1") /\ build_elemtype false builtin_map ty = Ok r /\
  d_out (leaf_assign O (leaf_ltype r) (VStr (lit "1.25"))) = Ok (VDec 125 (-2)).
Proof. intros O. exists (with_range "1..2" (decimal "1")). eexists. split; [reflexivity|]. split; [reflexivity|]. split; [vm_compute; reflexivity|]. vm_compute. reflexivity. Qed.
Print Assumptions C56_digits_refuted.
