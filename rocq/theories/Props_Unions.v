(** Property theorems about unions: C85. *)
From Verif Require Import PyStr PyStr_facts PyVal PathHelper Identity Spec_Types Restricted IntTypes Typedefs Spec_Typedefs Spec_Unions Defaults Props_Typedefs.
From Verif Require Unions_proofs Props_Path.
From Coq Require Import ZArith Lia.
Import ListNotations.

(* ------------------------------------------------------------------ C85 *)
(** A union is the list of its members: unions among them - as typedefs - and typedefs of unions are opened, nothing is
    lost and nothing changes its place.  The first member that takes a value makes it; if none does, nothing happens. *)
Theorem C85_members : forall xp cm0 cm tds, from_identities cm0 -> separate (known_types cm0) tds -> typedef_names tds -> process_typedefs xp cm0 tds = Ok cm ->
  forall ty l r, union_members tds ty l -> build_elemtype xp cm ty = Ok r ->
  exists ts, Forall2 (fun s t => exists r', build_elemtype xp cm s = Ok r' /\ leaf_ltype r' = LOne t) l ts /\ forall O v,
    (forall ts1 t ts2 w, ts = ts1 ++ t :: ts2 -> Forall (fun t' => exists e, ty_call O t' v = Raise e) ts1 -> ty_call O t v = Ok w ->
       leaf_assign O (leaf_ltype r) v = {| d_notified := true; d_out := Ok w |}) /\
    (Forall (fun t' => exists e, ty_call O t' v = Raise e) ts -> leaf_assign O (leaf_ltype r) v = {| d_notified := false; d_out := Raise ValueError |}).
Proof. exact Unions_proofs.members_main. Qed.
Print Assumptions C85_members.
(** A union of integer types has the numbers that are in all ranges of one of its members, and no others: the numbers that
    a single type replaces by 0 (C60) are refused. *)
Theorem C85_integers : forall xp cm0 cm tds, from_identities cm0 -> separate (known_types cm0) tds -> typedef_names tds -> process_typedefs xp cm0 tds = Ok cm ->
  forall ty l ks r, union_members tds ty l -> build_elemtype xp cm ty = Ok r -> Forall2 (fun s kl => int_type tds (fst kl) s (snd kl) /\ ranges_wf (fst kl) (snd kl)) l ks ->
  forall O z, (Exists (fun kl => in_levels z (snd kl) /\ kind_ok (fst kl) z) ks -> leaf_assign O (leaf_ltype r) (VInt z) = {| d_notified := true; d_out := Ok (VInt z) |}) /\
    (~ Exists (fun kl => in_levels z (snd kl) /\ kind_ok (fst kl) z) ks -> leaf_assign O (leaf_ltype r) (VInt z) = {| d_notified := false; d_out := Raise ValueError |}).
Proof. exact Unions_proofs.integers_main. Qed.
Print Assumptions C85_integers.
(** The default of a leaf that is a union is read as that of the first member whose built-in type takes the text - the
    built-in type, whatever the member's restrictions say - if no member has a default of its own.  Members are types of YANG or lead to
    one through typedefs without restrictions. *)
Theorem C85_default_partial : forall xp cm0 cm tds, from_identities cm0 -> separate (known_types cm0) tds -> typedef_names tds -> process_typedefs xp cm0 tds = Ok cm ->
  forall O fuel ty r ss1 s ss2 s0 t q d w, plain ty -> ty_arg ty = lit "union" -> ty_subs ty = ss1 ++ s :: ss2 ->
  Forall (fun s => exists s0, leads tds s0 s /\ without_default tds s) (ty_subs ty) ->
  Forall (fun s => exists s0, leads tds s0 s /\ ~ bits_here s /\ exists t q e, base_class s0 t q /\ ty_call O t (VStr d) = Raise e /\ (e = TypeError \/ e = ValueError)) ss1 ->
  leads tds s0 s -> ~ bits_here s -> base_class s0 t q -> ty_call O t (VStr d) = Ok w -> build_elemtype xp cm ty = Ok r ->
  leaf_value O fuel cm r (Some d) = leaf_value O fuel cm (EOne (builtin t q)) (Some d).
Proof. intros xp cm0 cm tds Hi Hs Ht Hp O fuel ty r ss1 s ss2 s0 t q d w H1 H2 H3 H4 H5 H6 H7 H8 H9 H10. exact (Unions_proofs.union_default xp cm0 cm tds Hi Ht (TypedefMap_proofs.process_made xp cm0 tds cm Hs Hp) O fuel ty r ss1 s ss2 s0 t q d w H1 H2 H3 H4 H5 H6 H7 H8 H9 H10). Qed.
Print Assumptions C85_default_partial.
(** A default of a member takes the place of the leaf's own, the last one if there are several: the leaf has the default
    that it would have if it were of the member's type and said nothing. *)
Theorem C85_member_default : forall xp cm0 cm tds, from_identities cm0 -> separate (known_types cm0) tds -> typedef_names tds -> process_typedefs xp cm0 tds = Ok cm ->
  forall O fuel ty r ss1 s ss2 td d r' own, plain ty -> ty_arg ty = lit "union" -> ty_subs ty = ss1 ++ s :: ss2 -> Forall (fun s => exists s0, leads tds s0 s /\ without_default tds s) ss2 ->
  plain s -> named tds (ty_arg s) td -> td_default td = Some d -> (exists s0, leads tds s0 (td_type td)) -> build_elemtype xp cm ty = Ok r -> build_elemtype xp cm s = Ok r' ->
  leaf_default O fuel cm r own = leaf_default O fuel cm r' None.
Proof. intros xp cm0 cm tds Hi Hs Ht Hp. exact (Unions_proofs.union_member_default xp cm0 cm tds Hi Ht (TypedefMap_proofs.process_made xp cm0 tds cm Hs Hp)). Qed.
Print Assumptions C85_member_default.
(** The default of a typedef of a union of built-in types is read as the last of them that is not there before, whatever
    the text is, and it takes the place of the leaf's own. *)
Theorem C85_typedef_default : forall xp cm0 cm tds, from_identities cm0 -> separate (known_types cm0) tds -> typedef_names tds -> process_typedefs xp cm0 tds = Ok cm ->
  forall O fuel ty td r d own k t q l1 l2, plain ty -> named tds (ty_arg ty) td -> plain (td_type td) -> ty_arg (td_type td) = lit "union" ->
  td_default td = Some d -> d <> [] -> Forall (fun s => exists t q, look (ty_arg s) builtin_map = Some (builtin t q)) (ty_subs (td_type td)) ->
  map ty_arg (ty_subs (td_type td)) = l1 ++ k :: l2 -> ~ In k l1 -> incl l2 (l1 ++ [k]) -> length (ty_subs (td_type td)) <= fuel -> look k builtin_map = Some (builtin t q) -> build_elemtype xp cm ty = Ok r ->
  leaf_value O fuel cm r own = leaf_value O fuel cm (EOne (builtin t q)) (Some d).
Proof. intros xp cm0 cm tds Hi Hs Ht Hp. exact (Unions_proofs.typedef_default xp cm0 cm tds Hi Ht (TypedefMap_proofs.process_made xp cm0 tds cm Hs Hp)). Qed.
Print Assumptions C85_typedef_default.
(** Without a default the typedef has that of the first member that has one (not the last). *)
Theorem C85_typedef_first : forall xp cm0 cm tds, from_identities cm0 -> separate (known_types cm0) tds -> typedef_names tds -> process_typedefs xp cm0 tds = Ok cm ->
  forall O fuel ty td r own ss1 s ss2 td' d x b, plain ty -> named tds (ty_arg ty) td -> plain (td_type td) -> ty_arg (td_type td) = lit "union" ->
  td_default td = None -> ty_subs (td_type td) = ss1 ++ s :: ss2 -> Forall (fun s => exists s0, leads tds s0 s /\ without_default tds s) ss1 -> plain s -> named tds (ty_arg s) td' ->
  (exists s0, leads tds s0 (td_type td')) -> td_default td' = Some d ->
  build_elemtype xp cm ty = Ok r -> leaf_default O fuel cm r own = Ok (Some (x, b)) -> x = d.
Proof. intros xp cm0 cm tds Hi Hs Ht Hp. exact (Unions_proofs.typedef_first xp cm0 cm tds Hi Ht (TypedefMap_proofs.process_made xp cm0 tds cm Hs Hp)). Qed.
Print Assumptions C85_typedef_first.

(* ------------------------------------------------------------------ what goes wrong *)
Definition bits_of (l : list (str * option str)) : ytype :=
  {| ty_arg := lit "bits"; ty_patterns := []; ty_length := None; ty_range := None; ty_enums := []; ty_digits := None; ty_path := None; ty_require := None; ty_bases := []; ty_bits := l; ty_subs := [] |}.
Definition leafref_to (p : String.string) : ytype :=
  {| ty_arg := lit "leafref"; ty_patterns := []; ty_length := None; ty_range := None; ty_enums := []; ty_digits := None; ty_path := Some (lit p); ty_require := None; ty_bases := []; ty_bits := []; ty_subs := [] |}.
(** Nothing can be generated for a union of a decimal and a string with the default "auto": the exception that a decimal
    raises is not one of those that count as a refusal ... *)
Theorem C85_decimal_refuted : exists r, build_elemtype false builtin_map (union_of [decimal "2"; just (lit "string")]) = Ok r /\
  forall O fuel, leaf_value O fuel builtin_map r (Some (lit "auto")) = Failed InvalidOperation /\ d_out (leaf_assign O (leaf_ltype r) (VStr (lit "auto"))) = Ok (VStr (lit "auto")).
Proof. eexists. split; [vm_compute; reflexivity|]. intros O fuel. split; vm_compute; reflexivity. Qed.
Print Assumptions C85_decimal_refuted.
(** ... nor with bits in front of the member that takes the default, nor with a restricted typedef ... *)
Theorem C85_bits_refuted : exists r, build_elemtype false builtin_map (union_of [bits_of [(lit "a", Some (lit "0"))]; just (lit "string")]) = Ok r /\
  forall O fuel, leaf_value O fuel builtin_map r (Some (lit "auto")) = Failed KeyError /\ d_out (leaf_assign O (leaf_ltype r) (VStr (lit "auto"))) = Ok (VStr (lit "auto")).
Proof. eexists. split; [vm_compute; reflexivity|]. intros O fuel. split; vm_compute; reflexivity. Qed.
Print Assumptions C85_bits_refuted.
Theorem C85_restricted_refuted : exists cm r, process_typedefs false builtin_map [tdef_of "m" "t" (just (lit "uint8")) None] = Ok cm /\
  build_elemtype false cm (union_of [with_range "1..9" (just (lit "t")); just (lit "string")]) = Ok r /\ forall O fuel, leaf_value O fuel cm r (Some (lit "5")) = Failed KeyError /\
  d_out (leaf_assign O (leaf_ltype r) (VStr (lit "5"))) = Ok (VInt 5).
Proof. eexists. eexists. split; [vm_compute; reflexivity|]. split; [vm_compute; reflexivity|]. intros O fuel. split; vm_compute; reflexivity. Qed.
Print Assumptions C85_restricted_refuted.
(** ... nor for a typedef with a default of a union with a leafref. *)
Theorem C85_leafref_refuted : exists cm r, process_typedefs false builtin_map [tdef_of "m" "t" (union_of [just (lit "string"); leafref_to "../x"]) (Some (lit "auto"))] = Ok cm /\
  build_elemtype false cm (just (lit "t")) = Ok r /\ forall O fuel, (2 <= fuel)%nat -> leaf_value O fuel cm r None = Failed KeyError.
Proof. eexists. eexists. split; [vm_compute; reflexivity|]. split; [vm_compute; reflexivity|]. intros O fuel F. destruct fuel as [|[|fuel]]; [lia|lia|]. vm_compute. reflexivity. Qed.
Print Assumptions C85_leafref_refuted.
(** An enumeration takes every default: the "5" of this leaf is a text, which is none of its values. *)
Theorem C85_enumeration_refuted : exists r, build_elemtype false builtin_map (union_of [enumeration [(lit "auto", None)]; just (lit "uint8")]) = Ok r /\
  forall O fuel, leaf_value O fuel builtin_map r (Some (lit "5")) = Made (Some (VStr (lit "5"))) /\ d_out (leaf_assign O (leaf_ltype r) (VStr (lit "5"))) = Ok (VInt 5).
Proof. eexists. split; [vm_compute; reflexivity|]. intros O fuel. split; vm_compute; reflexivity. Qed.
Print Assumptions C85_enumeration_refuted.
(** A union directly inside a union is not taken, in a leaf either. *)
Theorem C85_nested : forall xp cm ty s, plain ty -> ty_arg ty = lit "union" -> In s (ty_subs ty) -> plain s -> ty_arg s = lit "union" -> exists e, build_elemtype xp cm ty = Raise e.
Proof. exact Unions_proofs.nested. Qed.
Print Assumptions C85_nested.

(* ------------------------------------------------------------------ a case *)
Definition names_of (tds : list tdef) : list (str * tdef) := flat_map (fun td => [(td_key td, td); (match bare (td_key td) with Ok n => n | _ => [] end, td)]) tds.
Lemma in_names tds t td : (forall td, In td tds -> key_ok td) -> named tds t td -> In (t, td) (names_of tds).
Proof.
  intros K H. apply named_keys in H; [|exact K]. destruct H as [Hin H]. apply in_flat_map. exists td. split; [exact Hin|]. destruct H as [->|E]; [left; reflexivity|]. rewrite E. right. left. reflexivity.
Qed.
Lemma separate_by known tds : (forall td, In td tds -> key_ok td) -> Props_Path.nodupb (map fst (names_of tds)) = true -> forallb (fun n => negb (str_in n known)) (map fst (names_of tds)) = true -> separate known tds.
Proof.
  intros K N F. split; [exact K|]. split.
  - intros t td td' H H'. apply (in_names _ _ _ K) in H, H'. apply Props_Path.nodup_by in N. revert N H H'. clear. generalize (names_of tds) as l. induction l as [|[u x] l IH]; intros N H H'; [destruct H|]. inversion N as [|? ? N1 N2]; subst. cbn [fst] in N1.
    destruct H as [H|H], H' as [H'|H'].
    + congruence.
    + injection H as <- <-. destruct N1. apply (in_map fst) in H'. exact H'.
    + injection H' as <- <-. destruct N1. apply (in_map fst) in H. exact H.
    + apply (IH N2 H H').
  - intros t td H C. apply (in_names _ _ _ K) in H. rewrite forallb_forall in F. specialize (F t (in_map fst _ _ H)). apply str_in_In in C. rewrite C in F. discriminate.
Qed.
Lemma typedefs_by tds : (forall td, In td tds -> key_ok td) -> forallb (fun n => negb (str_in n (lit "union" :: yang_types))) (map fst (names_of tds)) = true -> typedef_names tds.
Proof. intros K F t td H C. apply (in_names _ _ _ K) in H. rewrite forallb_forall in F. specialize (F t (in_map fst _ _ H)). apply str_in_In in C. rewrite C in F. discriminate. Qed.
(** r: uint8 1..20; u: union of r and of uint16 100..110; v: u; w: union of string, int8 and string, default 7; d: string, default x; e: int32, default 9; g: union of r, d, boolean and e. *)
Definition union_defs : list tdef :=
  [tdef_of "m" "r" (with_range "1..20" (just (lit "uint8"))) None; tdef_of "m" "u" (union_of [just (lit "r"); with_range "100..110" (just (lit "uint16"))]) None; tdef_of "m" "v" (just (lit "m:u")) None;
   tdef_of "m" "w" (union_of [just (lit "string"); just (lit "int8"); just (lit "string")]) (Some (lit "7")); tdef_of "m" "d" (just (lit "string")) (Some (lit "x")); tdef_of "m" "e" (just (lit "int32")) (Some (lit "9"));
   tdef_of "m" "g" (union_of [just (lit "r"); just (lit "d"); just (lit "boolean"); just (lit "e")]) None].
Lemma union_keys td : In td union_defs -> key_ok td.
Proof. intros H. repeat (destruct H as [<-|H]; [exists (lit "m"); eexists; split; [reflexivity|]; split; vm_compute; intuition discriminate|]). destruct H. Qed.
Lemma u_named (n : String.string) td : In td union_defs -> td_key td = lit "m" ++ lit ":" ++ lit n -> ch_in 58 (lit n) = false -> named union_defs (lit n) td.
Proof. intros H E N. split; [exact H|]. right. exists (lit "m"). split; [exact E|]. split; [vm_compute; intuition discriminate|]. apply ch_in_false, N. Qed.
Definition u_def (n : nat) : tdef := nth n union_defs (tdef_of "" "" (just []) None).
Definition wide : ytype := union_of [with_range "30..40" (just (lit "int8")); just (lit "v")].
Lemma is_plain (a : str) : plain (just a). Proof. repeat split. Qed.
Lemma r_int : int_type union_defs U8 (just (lit "r")) [[Between (Some 1%Z) (Some 20%Z) 0 0]].
Proof.
  apply (int_typedef union_defs U8 (just (lit "r")) [] (u_def 0) [[Between (Some 1%Z) (Some 20%Z) 0 0]]); [apply u_named; [pick 0|reflexivity|reflexivity]|split; [reflexivity|]; split; [reflexivity|left; split; reflexivity]|].
  apply (int_end union_defs U8 _ [Between (Some 1%Z) (Some 20%Z) 0 0]); [reflexivity|]. split; [reflexivity|]. split; [reflexivity|right]. exists (lit "1..20"). split; [reflexivity|left]. eexists. split; reflexivity.
Qed.
Lemma ranged_int (k : int_kind) (t : String.string) lo hi : lit t = show_part (rng lo hi) -> int_type union_defs k (with_range t (just (lit (kind_name k)))) [[rng lo hi]].
Proof. intros E. apply (int_end union_defs k _ [rng lo hi]); [reflexivity|]. split; [reflexivity|]. split; [reflexivity|right]. exists (lit t). split; [reflexivity|left]. exists (rng lo hi). split; [reflexivity|exact E]. Qed.
Lemma yang_leads (a : String.string) : str_in (lit a) yang_types = true -> leads union_defs (just (lit a)) (just (lit a)).
Proof. intros H. apply leads_end; [apply str_in_In, H|intros b l E; discriminate]. Qed.
Lemma yang_chain ty : str_in (ty_arg ty) yang_types = true -> ty_bases ty = [] -> chain union_defs ty [].
Proof. intros H B. apply chain_end; [apply str_in_In, H|intros b l E; rewrite B in E; discriminate]. Qed.
Lemma u_keyed n td : In td union_defs -> td_key td = n -> named union_defs n td. Proof. intros H E. split; [exact H|left; symmetry; exact E]. Qed.
Lemma u_separate : separate (known_types builtin_map) union_defs. Proof. apply separate_by; [exact union_keys|vm_compute; reflexivity|vm_compute; reflexivity]. Qed.
Lemma u_names : typedef_names union_defs. Proof. apply typedefs_by; [exact union_keys|vm_compute; reflexivity]. Qed.
Lemma no_typedef (a : String.string) : str_in (lit a) yang_types = true -> without_default union_defs (just (lit a)).
Proof. intros H _ td N. destruct (u_names _ _ N). right. apply str_in_In, H. Qed.
Lemma r_leads : leads union_defs (with_range "1..20" (just (lit "uint8"))) (just (lit "r")).
Proof. apply (leads_typedef union_defs _ (just (lit "r")) (u_def 0)); [apply is_plain|apply u_named; [pick 0|reflexivity|reflexivity]|]. apply leads_end; [apply str_in_In; vm_compute; reflexivity|intros b l E; discriminate]. Qed.
Lemma r_quiet : without_default union_defs (just (lit "r")).
Proof. intros _ td N. assert (E : td = u_def 0); [|rewrite E; reflexivity]. destruct u_separate as (_ & U & _). apply (U _ _ _ N). apply u_named; [pick 0|reflexivity|reflexivity]. Qed.
Example C85_case : exists cm, from_identities builtin_map /\ separate (known_types builtin_map) union_defs /\ typedef_names union_defs /\ process_typedefs false builtin_map union_defs = Ok cm /\
  (exists l ks r, union_members union_defs wide l /\ length l = 3 /\ Forall2 (fun s kl => int_type union_defs (fst kl) s (snd kl) /\ ranges_wf (fst kl) (snd kl)) l ks /\ build_elemtype false cm wide = Ok r /\
     forall O, d_out (leaf_assign O (leaf_ltype r) (VInt 105)) = Ok (VInt 105) /\ d_out (leaf_assign O (leaf_ltype r) (VInt 99)) = Raise ValueError) /\
  (let ty := union_of [just (lit "r"); just (lit "boolean"); just (lit "string")] in exists r, plain ty /\ ty_arg ty = lit "union" /\
     Forall (fun s => exists s0, leads union_defs s0 s /\ without_default union_defs s) (ty_subs ty) /\ build_elemtype false cm ty = Ok r /\
     (forall O, Forall (fun s => exists s0, leads union_defs s0 s /\ ~ bits_here s /\ exists t q e, base_class s0 t q /\ ty_call O t (VStr (lit "auto")) = Raise e /\ (e = TypeError \/ e = ValueError)) [just (lit "r"); just (lit "boolean")]) /\
     base_class (just (lit "string")) TStr true /\ forall O, leaf_value O 1 cm r (Some (lit "auto")) = Made (Some (VStr (lit "auto")))) /\
  (let ty := union_of [just (lit "e"); just (lit "d"); just (lit "r")] in exists r, build_elemtype false cm ty = Ok r /\ named union_defs (lit "d") (u_def 4) /\ td_default (u_def 4) = Some (lit "x") /\
     (exists s0, leads union_defs s0 (td_type (u_def 4))) /\ forall O, option_map fst (match leaf_default O 5 cm r (Some (lit "8")) with Ok x => x | _ => None end) = Some (lit "x")) /\
  (exists r, named union_defs (lit "w") (u_def 3) /\ build_elemtype false cm (just (lit "w")) = Ok r /\ forall O, leaf_value O 5 cm r (Some (lit "8")) = Made (Some (VInt 7))) /\
  (exists r, named union_defs (lit "g") (u_def 6) /\ build_elemtype false cm (just (lit "g")) = Ok r /\ forall O, option_map fst (match leaf_default O 9 cm r (Some (lit "8")) with Ok x => x | _ => None end) = Some (lit "x")).
Proof.
  eexists. split; [exact builtin_identities|]. split; [exact u_separate|]. split; [exact u_names|]. split; [vm_compute; reflexivity|]. split; [|split; [|split; [|split]]].
  - exists [with_range "30..40" (just (lit "int8")); just (lit "r"); with_range "100..110" (just (lit "uint16"))], [(I8, [[rng 30 40]]); (U8, [[rng 1 20]]); (U16, [[rng 100 110]])]. eexists. split; [|split; [reflexivity|split; [|split; [vm_compute; reflexivity|]]]].
    + apply um_union; [repeat split|reflexivity|]. cbn [wide union_of ty_subs]. apply (em_one _ _ _ []); [apply yang_chain; [vm_compute; reflexivity|reflexivity]|].
      apply (em_union _ (just (lit "v")) [] [just (lit "r"); with_range "100..110" (just (lit "uint16"))] []); [|apply em_nil].
      apply (um_typedef _ _ (u_def 2)); [apply is_plain|apply u_named; [pick 2|reflexivity|reflexivity]|]. apply (um_typedef _ _ (u_def 1)); [apply is_plain|apply (u_keyed (lit "m:u")); [pick 1|reflexivity]|].
      apply um_union; [repeat split|reflexivity|]. apply (em_one _ _ _ [u_def 0]); [|apply (em_one _ _ _ []); [apply yang_chain; [vm_compute; reflexivity|reflexivity]|apply em_nil]].
      apply chain_typedef; [apply (u_named "r"); [pick 0|reflexivity|reflexivity]|apply yang_chain; [vm_compute; reflexivity|reflexivity]].
    + constructor; [split; [apply (ranged_int I8); reflexivity|]|constructor; [split; [exact r_int|]|constructor; [split; [apply (ranged_int U16); reflexivity|]|constructor]]];
        (split; [repeat constructor|split; [repeat constructor; vm_compute; intuition discriminate|exact I]]).
    + intros O. split; vm_compute; reflexivity.
  - eexists. split; [repeat split|]. split; [reflexivity|]. split; [|split; [vm_compute; reflexivity|split; [|split; [vm_compute; reflexivity|]]]].
    + constructor; [eexists; split; [exact r_leads|exact r_quiet]|]. constructor; [eexists; split; [apply yang_leads; vm_compute; reflexivity|apply no_typedef; vm_compute; reflexivity]|].
      constructor; [eexists; split; [apply yang_leads; vm_compute; reflexivity|apply no_typedef; vm_compute; reflexivity]|constructor].
    + intros O. constructor; [|constructor; [|constructor]].
      * eexists. split; [exact r_leads|]. split; [intros [_ C]; vm_compute in C; discriminate|]. eexists. eexists. eexists. split; [vm_compute; reflexivity|]. split; [vm_compute; reflexivity|left; reflexivity].
      * eexists. split; [apply yang_leads; vm_compute; reflexivity|]. split; [intros [_ C]; vm_compute in C; discriminate|]. eexists. eexists. eexists. split; [vm_compute; reflexivity|]. split; [vm_compute; reflexivity|right; reflexivity].
    + intros O. vm_compute. reflexivity.
  - eexists. split; [vm_compute; reflexivity|]. split; [apply u_named; [pick 4|reflexivity|reflexivity]|]. split; [reflexivity|]. split; [eexists; apply (yang_leads "string"); vm_compute; reflexivity|]. intros O. vm_compute. reflexivity.
  - eexists. split; [apply u_named; [pick 3|reflexivity|reflexivity]|]. split; [vm_compute; reflexivity|]. intros O. vm_compute. reflexivity.
  - eexists. split; [apply u_named; [pick 6|reflexivity|reflexivity]|]. split; [vm_compute; reflexivity|]. intros O. vm_compute. reflexivity.
Qed.
