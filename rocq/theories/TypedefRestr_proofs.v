(** Proofs about restrictions along a chain of typedefs. *)
From Verif Require Import PyStr PyStr_facts PyVal PathHelper PathSim_proofs Identity Spec_Types Restricted IntTypes StrTypes Typedefs Spec_Typedefs TypedefOrder_proofs TypedefMap_proofs TypedefDefault_proofs.
From Verif Require Range_proofs Types_main Restricted_proofs Ints_proofs.
From Coq Require Import ZArith.
From Coq Require Import Lia.
Import ListNotations.

(* ------------------------------------------------------------------ texts *)
Definition part_char (c : N) : Prop := c = 45%N \/ digitN c \/ In c (lit ". minmax").
Lemma spaces_chars n c : In c (spaces n) -> c = 32%N.
Proof. intros H. apply repeat_spec in H. exact H. Qed.
Lemma print_part_char z c : In c (print_Z z) -> part_char c.
Proof. intros H. pose proof (print_Z_chars z) as F. rewrite Forall_forall in F. destruct (F c H) as [E|E]; [left; exact E|right; left; exact E]. Qed.
Lemma show_chars p c : In c (show_part p) -> part_char c.
Proof.
  destruct p as [lo hi a b|z]; cbn [show_part]; [|apply print_part_char]. intros H.
  apply in_app_or in H. destruct H as [H|H].
  { destruct lo; cbn [show_low] in H; [apply (print_part_char _ _ H)|]. right. right. vm_compute in H. vm_compute. intuition auto. }
  apply in_app_or in H. destruct H as [H|H]; [apply spaces_chars in H; subst c; right; right; vm_compute; auto 12|].
  apply in_app_or in H. destruct H as [H|H]; [right; right; vm_compute in H; vm_compute; intuition auto|].
  apply in_app_or in H. destruct H as [H|H]; [apply spaces_chars in H; subst c; right; right; vm_compute; auto 12|].
  destruct hi; cbn [show_high] in H; [apply (print_part_char _ _ H)|]. right. right. vm_compute in H. vm_compute. intuition auto.
Qed.
Lemma show_no_bar p : ~ In 124%N (show_part p).
Proof. intros H. apply show_chars in H. destruct H as [H|[H|H]]; [discriminate|unfold digitN in H; lia|vm_compute in H; intuition discriminate]. Qed.
Lemma tight_no_space p : tight p -> ~ In 32%N (show_part p).
Proof.
  intros T H. assert (P : forall z, ~ In 32%N (print_Z z)).
  { intros z Hz. pose proof (print_Z_chars z) as F. rewrite Forall_forall in F. destruct (F _ Hz) as [E|E]; [discriminate|unfold digitN in E; lia]. }
  destruct p as [lo hi a b|z]; cbn [show_part tight] in *; [|apply (P z H)]. destruct T as [-> ->]. cbn [spaces repeat app] in H.
  apply in_app_or in H. destruct H as [H|H]; [destruct lo; cbn [show_low] in H; [apply (P _ H)|vm_compute in H; intuition discriminate]|].
  apply in_app_or in H. destruct H as [H|H]; [vm_compute in H; intuition discriminate|]. destruct hi; cbn [show_high] in H; [apply (P _ H)|vm_compute in H; intuition discriminate].
Qed.
Lemma replace_app c r s t : replace_str c r (s ++ t) = replace_str c r s ++ replace_str c r t.
Proof. unfold replace_str. induction s as [|x s IH]; [reflexivity|]. cbn. rewrite IH. apply app_assoc. Qed.
Lemma replace_spaces n : replace_str 32 [] (spaces n) = [].
Proof. induction n as [|n IH]; [reflexivity|]. exact IH. Qed.
Lemma replace_none c r s : ~ In c s -> replace_str c r s = s.
Proof.
  unfold replace_str. induction s as [|x s IH]; intros H; [reflexivity|]. cbn in H. cbn. destruct (N.eqb_spec x c) as [->|N]; [destruct H; left; reflexivity|].
  cbn. rewrite IH; [reflexivity|]. intros C. apply H. right. exact C.
Qed.
Lemma bar_in_join w w' ws : In 124%N (join (lit "|") (w :: w' :: ws)).
Proof. rewrite join_cons2. apply in_or_app. right. left. reflexivity. Qed.
Lemma written_parts s ps : written s ps -> spec_parts s = map show_part ps.
Proof.
  unfold spec_parts. intros [(p & -> & ->)|(L & T & ws & F & ->)].
  - pose proof (show_no_bar p) as N. apply ch_in_false in N. rewrite N. reflexivity.
  - assert (B : ch_in 124 (join (lit "|") ws) = true).
    { apply ch_in_In. destruct F as [|w p ws ps Hw F]; [cbn in L; lia|]. destruct F as [|w' p' ws ps Hw' F]; [cbn in L; lia|]. apply bar_in_join. }
    rewrite B. change (lit "|") with [124%N]. rewrite split_join.
    + clear L B. induction F as [|w p ws ps (a & b & ->) F IH]; [reflexivity|]. inversion T as [|x y T1 T2]; subst. cbn [map]. rewrite (IH T2), !replace_app, !replace_spaces, app_nil_r. cbn [app].
      rewrite (replace_none _ _ _ (tight_no_space p T1)). reflexivity.
    + intros ->. inversion F; subst. cbn in L. lia.
    + clear L T B. induction F as [|w p ws ps (a & b & ->) F IH]; constructor; [|exact IH]. intros H. apply in_app_or in H. destruct H as [H|H]; [apply spaces_chars in H; discriminate|].
      apply in_app_or in H. destruct H as [H|H]; [apply (show_no_bar p H)|apply spaces_chars in H; discriminate].
Qed.
Lemma restricts_model ty l : restricts ty l -> restrictions ty = map restr_of l.
Proof.
  intros (Hr & lp & ll & -> & Hp & Hl). unfold restrictions. rewrite Hr, map_app, app_nil_r. f_equal.
  - destruct Hp as [[-> ->]|(p & -> & ->)]; reflexivity.
  - destruct Hl as [[-> ->]|(s & ps & -> & W & ->)]; [reflexivity|]. cbn. rewrite (written_parts s ps W). reflexivity.
Qed.
Lemma ranged_model ty l : ranged ty l -> restrictions ty = match l with [] => [] | _ => [RRange (map show_part l)] end.
Proof.
  intros (Hp & Hl & Hr). unfold restrictions. rewrite Hp, Hl. cbn [app]. destruct Hr as [[-> ->]|(s & -> & W)]; [reflexivity|]. rewrite (written_parts s l W). destruct l; [|reflexivity].
  destruct W as [(p & E & _)|(L & _)]; [discriminate|cbn in L; lia].
Qed.

(* ------------------------------------------------------------------ chains *)
Section Restr.
Context (xp : bool) (cm0 cm : class_map) (tds : list tdef).
Context (Hid : from_identities cm0) (Hty : typedef_names tds) (Hm : made xp cm0 tds tds cm).
Definition builds (ty : ytype) (t : pty) : Prop := exists e, build_elemtype xp cm ty = Ok (EOne e) /\ ce_native e = NOne t.
Definition wrap (rs : list restr) (t : pty) : pty := match rs with [] => t | _ => TRestr t rs end.
Lemma builds_typedef ty td t : named tds (ty_arg ty) td -> builds (td_type td) t -> builds ty (wrap (restrictions ty) t).
Proof.
  intros Hn (e0 & B0 & N0). pose proof Hm as (_ & _ & Hd). destruct (Hd td (proj1 Hn)) as (et & e' & known & Eb & Ee & Hl). rewrite B0 in Eb. injection Eb as <-.
  specialize (Hl _ Hn). pose proof (Hty _ _ Hn) as Nt.
  assert (Nl : forall s : String.string, str_in (lit s) (lit "union" :: yang_types) = true -> str_eqb (ty_arg ty) (lit s) = false).
  { intros s Hs. apply str_eqb_neq. intros E. apply Nt. rewrite E. apply str_in_In, Hs. }
  assert (N' : ce_native e' = NOne t).
  { cbn [typedef_entry] in Ee. match type of Ee with bind ?m _ = _ => destruct m as [q|]; cbn [bind] in Ee; [|discriminate] end. injection Ee as <-. exact N0. }
  destruct ty as [a ps ln rg en dg pt rq bs bi subs]. cbn [ty_arg] in *. unfold builds. cbn [build_elemtype ty_arg ty_enums ty_digits ty_path ty_require ty_bases ty_bits ty_subs].
  set (rs := restrictions (YType a ps ln rg en dg pt rq bs bi subs)) in *. destruct rs as [|r0 rs'].
  - rewrite !Nl by (vm_compute; reflexivity). rewrite Hl. exists e'. split; [reflexivity|exact N'].
  - rewrite Hl, N'. eexists. split; reflexivity.
Qed.
(** The built-in types whose entry is used as it is. *)
Lemma builds_builtin ty t q : look (ty_arg ty) builtin_map = Some (builtin t q) -> ~ In (ty_arg ty) [lit "decimal64"; lit "bits"] -> builds ty (wrap (restrictions ty) t).
Proof.
  intros L N. pose proof (builtin_facts _ _ L) as (_ & _ & _ & _ & Ns). assert (Lc : look (ty_arg ty) cm = Some (builtin t q)) by (destruct Hm as (E & _); apply E, (identities_builtin cm0 Hid), L).
  assert (Nl : forall s, In s [lit "enumeration"; lit "leafref"; lit "identityref"; lit "union"; lit "decimal64"; lit "bits"] -> str_eqb (ty_arg ty) s = false).
  { intros s Hs. apply str_eqb_neq. intros E. rewrite E in N, Ns. destruct Hs as [<-|[<-|[<-|[<-|[<-|[<-|[]]]]]]]; [apply Ns| apply Ns|apply Ns|apply Ns|apply N|apply N]; cbn [In]; auto. }
  destruct ty as [a ps ln rg en dg pt rq bs bi subs]. cbn [ty_arg] in *. unfold builds. cbn [build_elemtype ty_arg ty_enums ty_digits ty_path ty_require ty_bases ty_bits ty_subs].
  set (rs := restrictions (YType a ps ln rg en dg pt rq bs bi subs)) in *. destruct rs as [|r0 rs'].
  - rewrite !Nl by (cbn [In]; auto 10). rewrite Lc. exists (builtin t q). split; reflexivity.
  - rewrite Lc. eexists. split; reflexivity.
Qed.
Lemma string_builds ty ls : string_type tds ty ls -> builds ty (str_chain ls).
Proof.
  induction 1 as [ty l Ha Hr|ty l td ls Hn Hr Hs IH].
  - assert (B : builds ty (wrap (restrictions ty) TStr)) by (apply (builds_builtin ty TStr true); rewrite Ha; [vm_compute; reflexivity|vm_compute; intuition discriminate]).
    rewrite (restricts_model ty l Hr) in B. destruct l; exact B.
  - pose proof (builds_typedef ty td (str_chain ls) Hn IH) as B. rewrite (restricts_model ty l Hr) in B. destruct l; exact B.
Qed.
Lemma int_builds k ty ls : int_type tds k ty ls -> builds ty (int_chain (ls ++ [[Ints_proofs.kind_part k]])).
Proof.
  induction 1 as [ty l Ha Hr|ty l td ls Hn Hr Hs IH].
  - assert (B : builds ty (wrap (restrictions ty) (int_chain [[Ints_proofs.kind_part k]]))).
    { apply (builds_builtin ty _ false); rewrite Ha; [|destruct k; vm_compute; intuition discriminate]. assert (E : forall e, class_map_int (kind_name k) = Some e -> look (lit (kind_name k)) builtin_map = Some (builtin e false)) by (destruct k; intros e He; vm_compute in He; injection He as <-; vm_compute; reflexivity). apply E, Ints_proofs.class_map_chain. }
    rewrite (ranged_model ty l Hr) in B. destruct l; exact B.
  - pose proof (builds_typedef ty td _ Hn IH) as B. rewrite (ranged_model ty l Hr) in B. destruct l; exact B.
Qed.
Lemma plain_same ty0 ty r0 : build_elemtype xp cm ty0 = Ok r0 -> plain_type tds ty0 ty -> exists r, build_elemtype xp cm ty = Ok r /\ leaf_ltype r = leaf_ltype r0.
Proof.
  intros H0. induction 1 as [|ty td Hp Hn _ IH]; [exists r0; split; [exact H0|reflexivity]|]. destruct IH as (r1 & B1 & L1).
  pose proof Hm as (_ & _ & Hd). destruct (Hd td (proj1 Hn)) as (et & e' & known & Eb & Ee & Hl). rewrite B1 in Eb. injection Eb as <-.
  specialize (Hl _ Hn). pose proof (Hty _ _ Hn) as Nt.
  assert (Nl : forall s : String.string, str_in (lit s) (lit "union" :: yang_types) = true -> str_eqb (ty_arg ty) (lit s) = false).
  { intros s Hs. apply str_eqb_neq. intros E. apply Nt. rewrite E. apply str_in_In, Hs. }
  exists (EOne e'). split.
  - apply restrictions_plain in Hp. destruct ty as [a ps ln rg en dg pt rq bs bi subs]. cbn [ty_arg] in *. cbn [build_elemtype ty_arg ty_enums ty_digits ty_path ty_require ty_bases ty_bits ty_subs].
    rewrite Hp. rewrite !Nl by (vm_compute; reflexivity). rewrite Hl. reflexivity.
  - rewrite <- L1. destruct r1 as [e1|l1]; cbn [typedef_entry] in Ee.
    + match type of Ee with bind ?m _ = _ => destruct m as [q|]; cbn [bind] in Ee; [|discriminate] end. injection Ee as <-. reflexivity.
    + destruct (union_parents known l1) as [q|]; cbn [bind] in Ee; [|discriminate]. injection Ee as <-. reflexivity.
Qed.
End Restr.

Section Main.
Context (xp : bool) (cm0 cm : class_map) (tds : list tdef).
Context (Hid : from_identities cm0) (Hs : separate (known_types cm0) tds) (Hty : typedef_names tds) (Hp : process_typedefs xp cm0 tds = Ok cm).
Lemma string_main ty levels : string_type tds ty levels -> slevels_wf levels -> Forall (fun l => length l = 1%nat) levels \/ (length levels <= 1)%nat ->
  exists r, build_elemtype xp cm ty = Ok r /\ forall O s,
    let ok := Forall (Forall (fun x => sat (o_match O) wrap_anchors x s)) levels in
    (ok -> leaf_assign O (leaf_ltype r) (VStr s) = {| d_notified := true; d_out := Ok (VStr s) |}) /\
    (~ ok -> d_out (leaf_assign O (leaf_ltype r) (VStr s)) = Raise ValueError).
Proof.
  intros Ht W H1. pose proof (process_made xp cm0 tds cm Hs Hp) as M. destruct (string_builds xp cm0 cm tds Hid Hty M ty levels Ht) as (e & B & N).
  exists (EOne e). split; [exact B|]. intros O s. cbn [leaf_ltype]. rewrite N. destruct H1 as [H1|H1]; [apply Types_main.one_per_level_main; assumption|].
  destruct levels as [|l [|l' ls]]; [|cbn in H1|cbn in H1; lia].
  - apply (Types_main.one_per_level_main O [] s W). constructor.
  - inversion W as [|a b [W1 W2] W3]; subst. destruct (Types_main.str_single_main O l s W1 W2) as [A C]. split; intros H.
    + apply A. inversion H; assumption.
    + apply C. intros H'. apply H. repeat constructor. exact H'.
Qed.
Lemma ranges_levels k ls : ranges_wf k ls -> levels_wf (ls ++ [[Ints_proofs.kind_part k]]).
Proof.
  induction ls as [|l ls IH]; intros H; [apply Ints_proofs.kind_wf|]. destruct H as (S1 & B & R). cbn [app levels_wf]. split; [exact S1|]. split; [|apply IH, R].
  eapply Forall_impl; [|exact B]. intros p. apply Forall_impl. intros b [I1 I2]. apply Forall_app. split; [exact I1|]. apply Ints_proofs.kind_levels, I2.
Qed.
Lemma levels_kind k ls z : in_levels z (ls ++ [[Ints_proofs.kind_part k]]) <-> in_levels z ls /\ kind_ok k z.
Proof. unfold in_levels. rewrite Forall_app. pose proof (Ints_proofs.kind_levels k z) as E. unfold in_levels in E. rewrite E. reflexivity. Qed.
Local Open Scope Z_scope.
Lemma int_main k ty levels : int_type tds k ty levels -> ranges_wf k levels ->
  exists r, build_elemtype xp cm ty = Ok r /\ forall O z,
    (in_levels z levels /\ kind_ok k z -> leaf_assign O (leaf_ltype r) (VInt z) = {| d_notified := true; d_out := Ok (VInt z) |}) /\
    (~ (in_levels z levels /\ kind_ok k z) ->
       d_out (leaf_assign O (leaf_ltype r) (VInt z)) = Raise ValueError \/
       d_out (leaf_assign O (leaf_ltype r) (VInt z)) = Ok (VInt 0) /\ ~ (in_levels z (tl (tl levels)) /\ kind_ok k z)) /\
    ((length levels <= 1)%nat -> ~ (in_levels z levels /\ kind_ok k z) -> d_out (leaf_assign O (leaf_ltype r) (VInt z)) = Raise ValueError).
Proof.
  intros Ht W. pose proof (process_made xp cm0 tds cm Hs Hp) as M. destruct (int_builds xp cm0 cm tds Hid Hty M k ty levels Ht) as (e & B & N).
  exists (EOne e). split; [exact B|]. intros O z. cbn [leaf_ltype]. rewrite N. pose proof (ranges_levels k levels W) as WL. pose proof (levels_kind k levels z) as LK.
  set (all := levels ++ [[Ints_proofs.kind_part k]]) in *. destruct all as [|l ls] eqn:E; [destruct levels; discriminate|].
  assert (T : in_levelsb z (l :: ls) = true <-> in_levels z levels /\ kind_ok k z) by (rewrite <- LK; apply Range_proofs.in_levelsb_iff).
  assert (X : leaf_assign O (LOne (int_chain (l :: ls))) (VInt z) =
    if in_levelsb z (l :: ls) then {| d_notified := true; d_out := Ok (VInt z) |} else if Z.eqb z 0 then {| d_notified := false; d_out := Raise ValueError |}
    else if in_levelsb z ls then {| d_notified := false; d_out := Raise ValueError |} else if in_levelsb z (tl ls) then {| d_notified := true; d_out := Raise ValueError |} else {| d_notified := true; d_out := Ok (VInt 0) |}).
  { destruct (Z.eqb_spec z 0) as [->|Nz]; [apply Restricted_proofs.int_assign_zero, WL|]. rewrite Types_main.chain_main by (exact WL || (cbn; lia)). reflexivity. }
  rewrite X. destruct (in_levelsb z (l :: ls)).
  { pose proof (proj1 T eq_refl) as A. split; [reflexivity|]. split; intros; [contradiction|]. intros; contradiction. }
  assert (NA : ~ (in_levels z levels /\ kind_ok k z)) by (intros A; apply T in A; discriminate).
  split; [intros A; contradiction|]. destruct (Z.eqb z 0); [split; intros; [left|]; reflexivity|]. destruct (in_levelsb z ls) eqn:E1; [split; intros; [left|]; reflexivity|].
  destruct (in_levelsb z (tl ls)) eqn:E2; [split; intros; [left|]; reflexivity|]. split.
  - intros _. right. split; [reflexivity|]. intros [A1 A2]. assert (Q : in_levels z (tl ls)).
    { destruct levels as [|l1 [|l2 levels']]; cbn [app] in E; injection E as <- <-; cbn [tl]; [constructor|constructor|]. apply levels_kind. split; assumption. }
    apply Range_proofs.in_levelsb_iff in Q. congruence.
  - intros Ln. destruct levels as [|l1 [|l2 levels']]; cbn [app] in E; [injection E as <- <-; discriminate E2|injection E as <- <-; discriminate E2|cbn in Ln; lia].
Qed.
Lemma transparent_main ty0 ty r0 : build_elemtype xp cm ty0 = Ok r0 -> plain_type tds ty0 ty ->
  exists r, build_elemtype xp cm ty = Ok r /\ forall O v, leaf_assign O (leaf_ltype r) v = leaf_assign O (leaf_ltype r0) v.
Proof.
  intros B P. pose proof (process_made xp cm0 tds cm Hs Hp) as M. destruct (plain_same xp cm0 cm tds Hty M ty0 ty r0 B P) as (r & Br & L). exists r. split; [exact Br|]. intros O v. rewrite L. reflexivity.
Qed.
Lemma enum_main ty0 ty : plain ty0 -> ty_arg ty0 = lit "enumeration" -> (forall n v, In (n, Some v) (ty_enums ty0) -> exists z, v = print_Z z) ->
  (forall n, In n (map fst (ty_enums ty0)) -> startswith (lit "@") n = false) -> plain_type tds ty0 ty ->
  exists r, build_elemtype xp cm ty = Ok r /\ forall O v,
    (In (py_str O v) (map fst (ty_enums ty0)) -> leaf_assign O (leaf_ltype r) v = {| d_notified := true; d_out := Ok (VStr (py_str O v)) |}) /\
    (~ In (py_str O v) (map fst (ty_enums ty0)) -> d_out (leaf_assign O (leaf_ltype r) v) = Raise ValueError).
Proof.
  intros P A V NA PT. assert (B : build_elemtype xp cm ty0 = Ok (EOne (derived_entry (StrTypes.enum_type (map fst (ty_enums ty0))) (lit "string")))).
  { apply restrictions_plain in P. destruct ty0 as [a ps ln rg en dg pt rq bs bi subs]. cbn [ty_arg ty_enums] in *. cbn [build_elemtype ty_arg ty_enums]. rewrite P, A.
    rewrite (str_eqb_refl (lit "enumeration")).
    cbv iota. match goal with |- bind ?m _ = _ => assert (Q : exists q, m = Ok q) end.
    { clear - V. induction en as [|[n [v|]] en IH]; [eexists; reflexivity| |]; (destruct IH as (q & E); [intros n' v' H'; apply (V n' v'); right; exact H'|]); cbn [map_r snd].
      - destruct (V n v (or_introl eq_refl)) as (z & ->). assert (I : py_int (VStr (print_Z z)) = Ok z) by (cbn [py_int]; rewrite parse_print_Z; reflexivity). rewrite I. cbn [bind]. rewrite E. eexists; reflexivity.
      - cbn [bind]. rewrite E. eexists; reflexivity. }
    destruct Q as (q & ->). cbn [bind]. unfold StrTypes.enum_type. do 4 f_equal.
    assert (F : forall l : list str, (forall n, In n l -> startswith (lit "@") n = false) -> no_at l = l).
    { induction l as [|n l IH]; intros H; [reflexivity|]. unfold no_at in *. cbn [filter]. rewrite (H n (or_introl eq_refl)). cbn [negb]. rewrite IH; [reflexivity|]. intros n' H'. apply H. right. exact H'. }
    rewrite F by exact NA. reflexivity. }
  destruct (transparent_main _ _ _ B PT) as (r & Br & L). exists r. split; [exact Br|]. intros O v. rewrite L. cbn [leaf_ltype ce_native derived_entry]. apply Types_main.enum_main.
Qed.
Lemma decimal_main ty0 ty n : plain ty0 -> ty_arg ty0 = lit "decimal64" -> ty_digits ty0 = Some (print_Z n) -> plain_type tds ty0 ty ->
  exists r, build_elemtype xp cm ty = Ok r /\ forall O v c e w, py_decimal v = Ok (c, e) -> d_out (leaf_assign O (leaf_ltype r) v) = Ok w ->
    exists q, w = VDec q (- n) /\ (0 <= e + n -> q = c * 10 ^ (e + n)).
Proof.
  intros P A D PT. assert (B : build_elemtype xp cm ty0 = Ok (EOne (derived_entry (TDecPrec n) (lit "decimal64")))).
  { apply restrictions_plain in P. destruct ty0 as [a ps ln rg en dg pt rq bs bi subs]. cbn [ty_arg ty_digits] in *. cbn [build_elemtype ty_arg ty_digits]. rewrite P, A, D.
    change (str_eqb (lit "decimal64") (lit "enumeration")) with false. rewrite (str_eqb_refl (lit "decimal64")). cbv iota. pose proof (parse_print_Z n) as E. rewrite E. reflexivity. }
  destruct (transparent_main _ _ _ B PT) as (r & Br & L). exists r. split; [exact Br|]. intros O v c e w Hv. rewrite L. cbn [leaf_ltype ce_native derived_entry]. intros Hw.
  destruct (proj1 (Types_main.dec_main O n v c e Hv) w Hw) as (q & -> & R & _). exists q. split; [reflexivity|]. intros Ge. specialize (R 0 (Z.le_refl 0)).
  rewrite Z.add_0_r in R. destruct (R Ge) as (_ & _ & R'). apply R'. rewrite Z.pow_0_r. apply Z.mul_1_r.
Qed.
End Main.
