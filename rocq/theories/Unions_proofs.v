(** Proofs about unions and their defaults. *)
From Verif Require Import PyStr PyStr_facts PyVal PathHelper PathSim_proofs Identity Restricted IntTypes Spec_Types Typedefs Spec_Typedefs Spec_Unions Defaults TypedefOrder_proofs TypedefMap_proofs TypedefDefault_proofs.
From Verif Require StrTypes_proofs TypedefRestr_proofs Restricted_proofs Member_proofs Ints_proofs Range_proofs.
From Coq Require Import ZArith Lia.
Import ListNotations.

Scheme um_ind := Induction for union_members Sort Prop with em_ind := Induction for each_member Sort Prop.

Lemma union_build xp cm ty r : plain ty -> ty_arg ty = lit "union" -> build_elemtype xp cm ty = Ok r ->
  exists l, r = EUnion l /\ Forall2 (fun s te => fst te = ty_arg s /\ build_elemtype xp cm s = Ok (EOne (snd te))) (ty_subs ty) l.
Proof.
  intros Hp Ha H. apply restrictions_plain in Hp. destruct ty as [a ps ln rg en dg pt rq bs bi subs]. cbn [ty_arg ty_subs] in *. cbn [build_elemtype ty_arg ty_enums ty_digits ty_path ty_require ty_bases ty_bits ty_subs] in H.
  rewrite Hp in H. rewrite Ha in H. replace (str_eqb (lit "union") (lit "enumeration")) with false in H by (vm_compute; reflexivity). replace (str_eqb (lit "union") (lit "decimal64")) with false in H by (vm_compute; reflexivity).
  rewrite str_eqb_refl in H. clear Ha Hp. match type of H with bind (?f subs) _ = _ => set (each := f) in * end.
  destruct (each subs) as [l|] eqn:El; [|discriminate]. cbn [bind] in H. injection H as <-. exists l. split; [reflexivity|]. revert l El.
  induction subs as [|s subs IH]; intros l El; [injection El as <-; constructor|]. cbn in El. fold each in El. destruct (build_elemtype xp cm s) as [et|] eqn:Es; [|discriminate]. cbn [bind] in El.
  destruct et as [e|]; [|discriminate]. destruct (each subs) as [l'|] eqn:El'; [|discriminate]. cbn [bind] in El. injection El as <-. constructor; [split; [reflexivity|exact Es]|apply IH; reflexivity].
Qed.

Lemma nested xp cm ty s : plain ty -> ty_arg ty = lit "union" -> In s (ty_subs ty) -> plain s -> ty_arg s = lit "union" -> exists e, build_elemtype xp cm ty = Raise e.
Proof.
  intros Hp Ha Hin Hp' Ha'. destruct (build_elemtype xp cm ty) as [r|e] eqn:H; [exfalso|exists e; reflexivity]. destruct (union_build xp cm ty r Hp Ha H) as (l & _ & F).
  clear - F Hin Hp' Ha'. induction F as [|x te ss l [_ B] F IH]; [destruct Hin|]. destruct Hin as [->|Hin]; [|apply IH; exact Hin]. destruct (union_build xp cm s _ Hp' Ha' B) as (l' & E & _). discriminate.
Qed.
Section Chain.
Context (xp : bool) (cm0 cm : class_map) (tds : list tdef).
Context (Hid : from_identities cm0) (Hsep : separate (known_types cm0) tds) (Hty : typedef_names tds) (Hm : made xp cm0 tds tds cm).
Notation builds := (TypedefRestr_proofs.builds xp cm).

(** The entry of a plain reference to a typedef. *)
Lemma plain_typedef ty td r : plain ty -> named tds (ty_arg ty) td -> build_elemtype xp cm ty = Ok r ->
  exists et e known, r = EOne e /\ build_elemtype xp cm (td_type td) = Ok et /\ typedef_entry known td et = Ok e.
Proof.
  intros Hp Hn H. pose proof Hm as (_ & _ & Hd). destruct (Hd td (proj1 Hn)) as (et & e' & known & Eb & Ee & Hl). specialize (Hl _ Hn). pose proof (Hty _ _ Hn) as Nt.
  assert (Nl : forall s : String.string, str_in (lit s) (lit "union" :: yang_types) = true -> str_eqb (ty_arg ty) (lit s) = false).
  { intros s Hs. apply str_eqb_neq. intros E. apply Nt. rewrite E. apply str_in_In, Hs. }
  apply restrictions_plain in Hp. destruct ty as [a ps ln rg en dg pt rq bs bi subs]. cbn [ty_arg] in *. cbn [build_elemtype ty_arg ty_enums ty_digits ty_path ty_require ty_bases ty_bits ty_subs] in H.
  rewrite Hp in H. rewrite !Nl in H by (vm_compute; reflexivity). rewrite Hl in H. injection H as <-. exists et, e', known. auto.
Qed.
Lemma builtin_one k e : look k builtin_map = Some e -> exists t q, e = builtin t q.
Proof.
  intros H. apply look_some in H.
  assert (F : forallb (fun ke => match snd ke with {| ce_native := NOne _; ce_base := true; ce_parent := None; ce_default := None; ce_pytype := true; ce_ref := None |} => true | _ => false end) builtin_map = true) by (vm_compute; reflexivity).
  rewrite forallb_forall in F. specialize (F (k, e) H). cbn [snd] in F. destruct e as [[t|ts] [|] [p|] [d|] q [|] [rf|]]; try discriminate. exists t, q. reflexivity.
Qed.
Lemma chain_one ty c : chain tds ty c -> forall r, build_elemtype xp cm ty = Ok r -> exists t, builds ty t /\ leaf_ltype r = LOne t.
Proof.
  intros Hc r H. destruct (chain_build xp cm0 cm tds Hid Hty Hm ty c Hc r H) as (e & _ & -> & _).
  assert (G : exists t, ce_native e = NOne t); [|destruct G as (t & G); exists t; split; [exists e; split; assumption|cbn [leaf_ltype]; rewrite G; reflexivity]].
  revert e H. induction Hc as [ty Hy Hb|ty td l Hn Hc IH]; intros e H.
  - destruct ty as [a ps ln rg en dg pt rq bs bi subs]. cbn [ty_arg ty_bases] in *. cbn [build_elemtype ty_arg ty_enums ty_digits ty_path ty_require ty_bases ty_bits ty_subs] in H.
    assert (Lk : forall e', look a cm = Some e' -> exists t, ce_native e' = NOne t).
    { intros e' L. destruct (builtin_one a e' (look_type xp cm0 cm tds Hid Hty Hm a e' Hy L)) as (t & q & ->). exists t. reflexivity. }
    set (rs := restrictions (YType a ps ln rg en dg pt rq bs bi subs)) in *. destruct rs as [|r0 rs'].
    + destruct (str_eqb a (lit "enumeration")). { match type of H with bind ?m _ = _ => destruct m as [u|]; cbn [bind] in H; [|discriminate] end. injection H as <-. eexists. reflexivity. }
      destruct (str_eqb a (lit "decimal64")).
      { destruct dg as [d|]; [destruct (parse_int d); [|discriminate]; injection H as <-; eexists; reflexivity|]. destruct (look a cm) as [e'|] eqn:L; [|discriminate]. injection H as <-. apply Lk. reflexivity. }
      destruct (str_eqb a (lit "union")). { match type of H with bind ?m _ = _ => destruct m as [u|]; cbn [bind] in H; discriminate end. }
      destruct (str_eqb a (lit "leafref")). { destruct pt as [path|]; [|discriminate]. match type of H with bind ?m _ = _ => destruct m as [u|]; cbn [bind] in H; [|discriminate] end. destruct xp; injection H as <-; eexists; reflexivity. }
      destruct (str_eqb a (lit "identityref")).
      { destruct bs as [|b bs']; [discriminate|]. destruct (look b cm) as [e'|] eqn:L; [|discriminate]. injection H as <-. destruct (Hb b bs' eq_refl) as [Nb Nt].
        pose proof Hm as (_ & Ho & _). rewrite Ho in L by (intros td _; apply Nt). destruct (identities_other cm0 b e' Hid L) as [E|[_ (t & ->)]]; [|eexists; reflexivity].
        destruct (builtin_one b e' E) as (t & q & ->). eexists. reflexivity. }
      destruct (str_eqb a (lit "bits")). { match type of H with bind ?m _ = _ => destruct m as [u|]; cbn [bind] in H; [|discriminate] end. injection H as <-. eexists. reflexivity. }
      destruct (look a cm) as [e'|] eqn:L; [|discriminate]. injection H as <-. apply Lk. reflexivity.
    + destruct (look a cm) as [e'|] eqn:L; [|discriminate]. destruct (ce_native e'); [|discriminate]. injection H as <-. eexists. reflexivity.
  - pose proof Hm as (_ & _ & Hd). destruct (Hd td (proj1 Hn)) as (et & e' & known & Eb & Ee & Hl).
    destruct (chain_build xp cm0 cm tds Hid Hty Hm (td_type td) l Hc et Eb) as (e1 & _ & -> & _). destruct (IH e1 Eb) as (t & Ht).
    pose proof (TypedefRestr_proofs.builds_typedef xp cm0 cm tds Hty Hm ty td t Hn) as B. destruct B as (e2 & B2 & N2); [exists e1; split; assumption|]. rewrite H in B2. injection B2 as <-. eexists. exact N2.
Qed.
Lemma natives_members ty l : union_members tds ty l -> forall r, build_elemtype xp cm ty = Ok r -> exists ts, Forall2 builds l ts /\ leaf_ltype r = LUnion ts.
Proof.
  revert ty l. apply (um_ind tds (fun ty l _ => forall r, build_elemtype xp cm ty = Ok r -> exists ts, Forall2 builds l ts /\ leaf_ltype r = LUnion ts)
    (fun ss l _ => forall es, Forall2 (fun s te => fst te = ty_arg s /\ build_elemtype xp cm s = Ok (EOne (snd te))) ss es -> exists ts, Forall2 builds l ts /\ flat_map (fun te => natives (ce_native (snd te))) es = ts)).
  - intros ty l Hp Ha _ IH r H. destruct (union_build xp cm ty r Hp Ha H) as (es & -> & F). destruct (IH es F) as (ts & H1 & H2). exists ts. split; [exact H1|]. cbn [leaf_ltype]. rewrite H2. reflexivity.
  - intros ty td l Hp Hn _ IH r H. destruct (plain_typedef ty td r Hp Hn H) as (et & e & known & -> & B & Te). destruct (IH et B) as (ts & H1 & H2). exists ts. split; [exact H1|].
    rewrite <- H2. destruct et as [e1|l1]; cbn [typedef_entry] in Te.
    + match type of Te with bind ?m _ = _ => destruct m as [q|]; cbn [bind] in Te; [|discriminate] end. injection Te as <-. reflexivity.
    + destruct (union_parents known l1) as [q|]; cbn [bind] in Te; [|discriminate]. injection Te as <-. reflexivity.
  - intros es F. inversion F; subst. exists []. split; [constructor|reflexivity].
  - intros s ss c l Hc _ IH es F. inversion F as [|s' te ss' es' [_ B] F']; subst. destruct (IH es' F') as (ts & H1 & H2). destruct (chain_one s c Hc _ B) as (t & Bt & Lt).
    exists (t :: ts). split; [constructor; assumption|]. cbn [flat_map]. rewrite H2. cbn [leaf_ltype] in Lt. destruct (ce_native (snd te)); [injection Lt as ->; reflexivity|discriminate].
  - intros s ss l1 l2 _ IHs _ IH es F. inversion F as [|s' te ss' es' [_ B] F']; subst. destruct (IH es' F') as (ts & H1 & H2). destruct (IHs _ B) as (ts1 & H3 & H4).
    exists (ts1 ++ ts). split; [apply Forall2_app; assumption|]. cbn [flat_map]. rewrite H2. cbn [leaf_ltype] in H4. destruct (ce_native (snd te)); [discriminate|injection H4 as ->; reflexivity].
Qed.

(* ------------------------------------------------------------------ defaults *)
Lemma leads_build ty0 ty : leads tds ty0 ty -> forall r, build_elemtype xp cm ty = Ok r ->
  exists e ds, r = EOne e /\ top_ok cm (base_key ty0) ty e ds /\ length ds <= 1 /\ (without_default tds ty -> ce_default e = None) /\ (at_bits cm e -> bits_here ty).
Proof.
  induction 1 as [Hy Hb|ty td Hp Hn _ IH]; intros r H.
  - destruct (end_build xp cm0 cm tds Hid Hty Hm ty0 r Hy Hb H) as (e & ds & -> & H2 & H3 & H4 & _). exists e, ds. split; [reflexivity|]. split; [exact H2|]. split; [exact H3|]. split; [intros _; exact H4|].
    intros (Bb & Pb & _). clear H2 H3 H4. destruct ty0 as [a ps ln rg en dg pt rq bs bi subs]. cbn [ty_arg ty_bases] in *. unfold bits_here. rewrite <- restrictions_plain. cbn [ty_arg].
    cbn [build_elemtype ty_arg ty_enums ty_digits ty_path ty_require ty_bases ty_bits ty_subs] in H.
    assert (Lk : look a cm = Some e -> False).
    { intros L. destruct (builtin_facts a e (look_type xp cm0 cm tds Hid Hty Hm a e Hy L)) as (_ & P & _). congruence. }
    set (rs := restrictions (YType a ps ln rg en dg pt rq bs bi subs)) in *. destruct rs as [|r0 rs'].
    + split; [reflexivity|]. destruct (str_eqb a (lit "enumeration")). { match type of H with bind ?m _ = _ => destruct m as [u|]; cbn [bind] in H; [|discriminate] end. injection H as <-. discriminate. }
      destruct (str_eqb a (lit "decimal64")).
      { destruct dg as [d|]; [destruct (parse_int d); [|discriminate]; injection H as <-; discriminate|]. destruct (look a cm) as [e'|] eqn:L; [|discriminate]. injection H as ->. destruct (Lk eq_refl). }
      destruct (str_eqb a (lit "union")). { match type of H with bind ?m _ = _ => destruct m as [u|]; cbn [bind] in H; discriminate end. }
      destruct (str_eqb a (lit "leafref")). { destruct pt as [path|]; [|discriminate]. match type of H with bind ?m _ = _ => destruct m as [u|]; cbn [bind] in H; [|discriminate] end. destruct xp; injection H as <-; discriminate. }
      destruct (str_eqb a (lit "identityref")).
      { destruct bs as [|b bs']; [discriminate|]. destruct (look b cm) as [e'|] eqn:L; [|discriminate]. injection H as ->. destruct (Hb b bs' eq_refl) as [Nb Nt].
        pose proof Hm as (_ & Ho & _). rewrite Ho in L by (intros td _; apply Nt). destruct (identities_other cm0 b e Hid L) as [E|[_ (t & ->)]]; [|discriminate].
        destruct (builtin_facts b e E) as (_ & P & _). congruence. }
      destruct (str_eqb_spec a (lit "bits")) as [Ea|_]; [exact Ea|].
      destruct (look a cm) as [e'|] eqn:L; [|discriminate]. injection H as ->. destruct (Lk eq_refl).
    + destruct (look a cm) as [e'|] eqn:L; [|discriminate]. destruct (ce_native e'); [|discriminate]. injection H as <-. discriminate.
  - destruct (plain_typedef ty td r Hp Hn H) as (et & e & known & -> & B & Te). destruct (IH et B) as (e1 & ds1 & -> & T1 & L1 & _).
    destruct (typedef_up xp cm0 cm tds Hid Hty Hm _ td e1 ds1 known e T1 Te) as (ds & b & U & Lk & D & _ & Len). exists e, ds. split; [reflexivity|].
    assert (Bf : ce_base e = false /\ ce_parent e <> None).
    { cbn [typedef_entry] in Te. match type of Te with bind ?m _ = _ => destruct m as [q|]; cbn [bind] in Te; [|discriminate] end. injection Te as <-. split; [reflexivity|discriminate]. }
    split; [|split; [lia|split; [intros W; rewrite D; apply (W Hp td Hn)|intros (C & _); destruct Bf; congruence]]].
    split; [left; exists b; split; assumption|]. intros C. destruct Bf as [_ Bp]. contradiction.
Qed.
(** The entry whose class is tried. *)
Lemma tested ty0 ty : leads tds ty0 ty -> forall e, build_elemtype xp cm ty = Ok (EOne e) -> ~ bits_here ty ->
  exists t q, base_class ty0 t q /\ (if ce_base e then Ok e else match ce_parent e with Some (POne p) => match look p cm with Some t => Ok t | None => Raise KeyError end | Some (PMany _) => Raise TypeError | None => Raise KeyError end) = Ok (builtin t q).
Proof.
  intros L e H Nb. destruct (leads_build ty0 ty L _ H) as (e' & ds & E & [T _] & Ln & _ & Hb). injection E as <-. destruct T as [(b & U & Lk)|(Hbits & _)]; [|destruct (Nb (Hb Hbits))].
  destruct (builtin_one _ _ Lk) as (t & q & ->). exists t, q. split; [exact Lk|].
  inversion U as [e1 B1 P1|e1 p e2 ds2 b2 B1 P1 N1 L1 U1]; subst; [rewrite B1; reflexivity|].
  rewrite B1, P1, L1. f_equal. assert (ds2 = []) by (destruct ds2; [reflexivity|cbn in Ln; lia]). subst ds2. inversion U1; subst; reflexivity.
Qed.
Definition refuses (O : oracle) (d : str) (s0 : ytype) : Prop := exists t q e, base_class s0 t q /\ ty_call O t (VStr d) = Raise e /\ (e = TypeError \/ e = ValueError).
Lemma absolute_first O d ss1 : forall l1, Forall2 (fun s te => fst te = ty_arg s /\ build_elemtype xp cm s = Ok (EOne (snd te))) ss1 l1 ->
  Forall (fun s => exists s0, leads tds s0 s /\ ~ bits_here s /\ refuses O d s0) ss1 -> forall l2, absolute_default O cm (l1 ++ l2) d = absolute_default O cm l2 d.
Proof.
  induction ss1 as [|s ss1 IH]; intros l1 F R l2; inversion F as [|s' te ss' es' [_ B] F']; subst; [reflexivity|]. inversion R as [|x y (s0 & L & Nb & (t & q & e & Ht & C & K)) R']; subst.
  destruct te as [n e']. cbn [snd app absolute_default] in *. destruct (tested s0 s L e' B Nb) as (t' & q' & Ht' & E). unfold base_class in *. rewrite Ht in Ht'. injection Ht' as <- <-.
  rewrite E. cbn [bind builtin ce_pytype ce_native]. rewrite C. destruct K as [-> | ->]; apply (IH es' F' R').
Qed.
Lemma absolute_here O d s s0 t q w n e l2 : leads tds s0 s -> ~ bits_here s -> build_elemtype xp cm s = Ok (EOne e) -> base_class s0 t q -> ty_call O t (VStr d) = Ok w ->
  absolute_default O cm ((n, e) :: l2) d = Ok (builtin t q).
Proof.
  intros L Nb B Ht C. cbn [absolute_default]. destruct (tested s0 s L e B Nb) as (t' & q' & Ht' & E). unfold base_class in *. rewrite Ht in Ht'. injection Ht' as <- <-.
  rewrite E. cbn [bind builtin ce_pytype ce_native]. rewrite C. reflexivity.
Qed.
Lemma last_none l : Forall (fun te : str * centry => ce_default (snd te) = None) l -> last_default l = None.
Proof.
  unfold last_default. intros F. assert (G : forall acc, fold_left (fun acc te => match ce_default (snd te) with Some d => Some (d, snd te) | None => acc end) l acc = acc); [|apply G].
  induction F as [|te l H _ IH]; intros acc; cbn [fold_left]; [reflexivity|]. rewrite H. apply IH.
Qed.
Lemma last_some l1 n e d l2 : ce_default e = Some d -> Forall (fun te : str * centry => ce_default (snd te) = None) l2 -> last_default (l1 ++ (n, e) :: l2) = Some (d, e).
Proof.
  intros D F. unfold last_default. rewrite fold_left_app. cbn [fold_left snd]. rewrite D. generalize (Some (d, e)). induction F as [|te l H _ IH]; intros acc; cbn [fold_left]; [reflexivity|]. rewrite H. apply IH.
Qed.
Definition quiet (s : ytype) : Prop := exists s0, leads tds s0 s /\ without_default tds s.
Lemma quiet_members ss l : Forall2 (fun s te => fst te = ty_arg s /\ build_elemtype xp cm s = Ok (EOne (snd te))) ss l -> Forall quiet ss -> Forall (fun te => ce_default (snd te) = None) l.
Proof.
  induction 1 as [|s te ss l [_ B] F IH]; intros Q; [constructor|]. inversion Q as [|x y (s0 & L & W) Q']; subst. constructor; [|apply IH; exact Q'].
  destruct (leads_build s0 s L _ B) as (e & ds & E & _ & _ & D & _). injection E as ->. apply D, W.
Qed.
Lemma union_default O fuel ty r ss1 s ss2 s0 t q d w : plain ty -> ty_arg ty = lit "union" -> ty_subs ty = ss1 ++ s :: ss2 -> Forall quiet (ty_subs ty) ->
  Forall (fun s => exists s0, leads tds s0 s /\ ~ bits_here s /\ refuses O d s0) ss1 -> leads tds s0 s -> ~ bits_here s -> base_class s0 t q -> ty_call O t (VStr d) = Ok w ->
  build_elemtype xp cm ty = Ok r -> leaf_value O fuel cm r (Some d) = leaf_value O fuel cm (EOne (builtin t q)) (Some d).
Proof.
  intros Hp Ha Es Q R L Nb Ht C H. destruct (union_build xp cm ty r Hp Ha H) as (l & -> & F). pose proof (quiet_members _ _ F Q) as Fd. rewrite Es in F. apply Forall2_app_inv_l in F. destruct F as (l1 & l2' & F1 & F2 & ->).
  inversion F2 as [|s' te ss' l2 [_ B] F2']; subst. destruct te as [n e]. unfold leaf_value, leaf_default, choose_default. rewrite (last_none _ Fd). unfold default_base. cbn [option_map bind is_reference].
  rewrite (absolute_first O d ss1 l1 F1 R), (absolute_here O d s s0 t q w n e l2 L Nb B Ht C). reflexivity.
Qed.
Lemma union_member_default O fuel ty r ss1 s ss2 td d r' own : plain ty -> ty_arg ty = lit "union" -> ty_subs ty = ss1 ++ s :: ss2 -> Forall quiet ss2 ->
  plain s -> named tds (ty_arg s) td -> td_default td = Some d -> (exists s0, leads tds s0 (td_type td)) -> build_elemtype xp cm ty = Ok r -> build_elemtype xp cm s = Ok r' ->
  leaf_default O fuel cm r own = leaf_default O fuel cm r' None.
Proof.
  intros Hp Ha Es Q Ps Hn D (s0 & L) H H'. destruct (union_build xp cm ty r Hp Ha H) as (l & -> & F). rewrite Es in F. apply Forall2_app_inv_l in F. destruct F as (l1 & l2' & F1 & F2 & ->).
  inversion F2 as [|s' te ss' l2 [_ B] F2']; subst. destruct te as [n e]. cbn [snd] in B. rewrite H' in B. injection B as ->.
  destruct (plain_typedef s td _ Ps Hn H') as (et & e1 & known & E & B & Te). injection E as <-. destruct (leads_build s0 _ L et B) as (e2 & ds2 & -> & T2 & _).
  destruct (typedef_up xp cm0 cm tds Hid Hty Hm _ td e2 ds2 known e T2 Te) as (_ & _ & _ & _ & De & _). rewrite D in De.
  unfold leaf_default, choose_default. rewrite (last_some l1 n e d l2 De (quiet_members _ _ F2' Q)), De. reflexivity.
Qed.

(** Typedefs of unions. *)
Lemma typedef_union ty td r : plain ty -> named tds (ty_arg ty) td -> plain (td_type td) -> ty_arg (td_type td) = lit "union" -> build_elemtype xp cm ty = Ok r ->
  exists e l ps known, r = EOne e /\ Forall2 (fun s te => fst te = ty_arg s /\ build_elemtype xp cm s = Ok (EOne (snd te))) (ty_subs (td_type td)) l /\ union_parents known l = Ok ps /\
    ce_base e = false /\ ce_parent e = Some (PMany ps) /\ ce_default e = match td_default td with Some ((_ :: _) as d) => Some d | _ => first_default (map snd l) end.
Proof.
  intros Hp Hn Hpt Ha H. destruct (plain_typedef ty td r Hp Hn H) as (et & e & known & -> & B & Te). destruct (union_build xp cm _ et Hpt Ha B) as (l & -> & F). cbn [typedef_entry] in Te.
  destruct (union_parents known l) as [ps|] eqn:Eu; cbn [bind] in Te; [|discriminate]. injection Te as <-. exists {| ce_native := NMany (flat_map (fun te => natives (ce_native (snd te))) l); ce_base := false; ce_parent := Some (PMany ps); ce_default := match td_default td with Some ((_ :: _) as d) => Some d | _ => first_default (map snd l) end; ce_quote := false; ce_pytype := false; ce_ref := None |}, l, ps, known.
  split; [reflexivity|]. split; [exact F|]. split; [exact Eu|]. split; [reflexivity|]. split; reflexivity.
Qed.
Lemma parents_args known l : forall ps, union_parents known l = Ok ps -> Forall (fun te => fst te <> lit "identityref") l -> ps = map fst l.
Proof.
  induction l as [|[t e] l IH]; intros ps H F; cbn [union_parents map fst] in *; [injection H as <-; reflexivity|]. inversion F as [|x y N F']; subst. cbn [fst] in N. apply str_eqb_neq in N. rewrite N in H.
  destruct (str_in t known); cbn [bind] in H; [|discriminate]. destruct (union_parents known l) as [ps'|]; cbn [bind] in H; [|discriminate]. injection H as <-. rewrite (IH ps' eq_refl F'). reflexivity.
Qed.
Definition built_in (k : str) : Prop := exists t q, look k builtin_map = Some (builtin t q).
Lemma built_entry k t q : look k builtin_map = Some (builtin t q) -> tmp_entry cm k = Some (None, Some (builtin t q)).
Proof.
  intros H. pose proof (builtin_facts k _ H) as (_ & _ & _ & _ & N). rewrite (tmp_look cm k (builtin t q)); [reflexivity| |apply (builtin_up xp cm0 cm tds Hid Hm); exact H]. intros C. apply N. left. symmetry. exact C.
Qed.
Lemma visit_known l : forall fuel checked, Forall built_in l -> (length l <= fuel)%nat -> incl l checked -> ancestors fuel cm l checked = Ok checked.
Proof.
  induction l as [|k l IH]; intros fuel checked F Ln I; [destruct fuel; reflexivity|]. destruct fuel as [|fuel]; [cbn in Ln; lia|]. cbn [ancestors]. assert (S : str_in k checked = true) by (apply str_in_In, I; left; reflexivity). rewrite S.
  inversion F; subst. apply IH; [assumption|cbn in Ln; lia|intros x Hx; apply I; right; exact Hx].
Qed.
Lemma visit_last l1 : forall fuel k l2 checked, Forall built_in (l1 ++ k :: l2) -> (length (l1 ++ k :: l2) <= fuel)%nat -> ~ In k checked -> ~ In k l1 -> incl l2 (checked ++ l1 ++ [k]) ->
  exists ks, ancestors fuel cm (l1 ++ k :: l2) checked = Ok (ks ++ [k]).
Proof.
  induction l1 as [|x l1 IH]; intros fuel k l2 checked F Ln Nc N1 I; (destruct fuel as [|fuel]; [cbn in Ln; lia|]); cbn [app ancestors] in *.
  - assert (S : str_in k checked = false) by (apply str_in_false; exact Nc). inversion F as [|y z (t & q & Hb) F']; subst. rewrite S, (built_entry k t q Hb). cbn [parent_list]. rewrite app_nil_r. exists checked.
    apply visit_known; [assumption|cbn in Ln; lia|exact I].
  - inversion F as [|y z (t & q & Hb) F']; subst. assert (Nx : k <> x) by (intros ->; apply N1; left; reflexivity). assert (N1' : ~ In k l1) by (intros C; apply N1; right; exact C).
    destruct (str_in x checked) eqn:S.
    + apply IH; [assumption|cbn in Ln; lia|assumption|assumption|]. intros y Hy. specialize (I y Hy). apply in_app_or in I. apply in_or_app. destruct I as [I|[<-|I]]; [left; exact I|left; apply str_in_In; exact S|right; exact I].
    + rewrite (built_entry x t q Hb). cbn [parent_list]. rewrite app_nil_r. apply IH; [assumption|cbn in Ln; lia| |assumption|].
      * intros C. apply in_app_or in C. destruct C as [C|[C|[]]]; [exact (Nc C)|congruence].
      * intros y Hy. specialize (I y Hy). rewrite <- app_assoc. cbn [app] in *. exact I.
Qed.
Lemma typedef_default O fuel ty td r d own k t q l1 l2 : plain ty -> named tds (ty_arg ty) td -> plain (td_type td) -> ty_arg (td_type td) = lit "union" ->
  td_default td = Some d -> d <> [] -> Forall (fun s => built_in (ty_arg s)) (ty_subs (td_type td)) -> map ty_arg (ty_subs (td_type td)) = l1 ++ k :: l2 -> ~ In k l1 -> incl l2 (l1 ++ [k]) ->
  (length (ty_subs (td_type td)) <= fuel)%nat -> look k builtin_map = Some (builtin t q) -> build_elemtype xp cm ty = Ok r ->
  leaf_value O fuel cm r own = leaf_value O fuel cm (EOne (builtin t q)) (Some d).
Proof.
  intros Hp Hn Hpt Ha D Nd Fb Em N1 I Ln Hk H. destruct (typedef_union ty td r Hp Hn Hpt Ha H) as (e & l & ps & known & -> & F & Eu & Be & Pe & De).
  assert (Ml : map fst l = map ty_arg (ty_subs (td_type td))).
  { clear - F. induction F as [|s te ss l [E _] F IH]; [reflexivity|]. cbn [map]. rewrite E, IH. reflexivity. }
  assert (Ep : ps = l1 ++ k :: l2).
  { rewrite <- Em, <- Ml. apply (parents_args known l ps Eu). assert (Fk : Forall built_in (map fst l)).
    { rewrite Ml. clear - Fb. induction Fb; cbn [map]; constructor; assumption. }
    clear - Fk. induction l as [|te l IH]; [constructor|]. inversion Fk as [|x y (t & q & Hb) Fk']; subst. constructor; [|apply IH; exact Fk'].
    pose proof (builtin_facts _ _ Hb) as (_ & _ & _ & _ & N). intros C. apply N. right. right. left. symmetry. exact C. }
  rewrite D in De. destruct d as [|c d]; [contradiction|]. unfold leaf_value, leaf_default, choose_default. rewrite De. unfold default_base. cbn [bind]. rewrite Be, Pe. cbn [parent_list].
  assert (Fk : Forall built_in (l1 ++ k :: l2)). { rewrite <- Em. clear - Fb. induction Fb; cbn [map]; constructor; assumption. }
  destruct (visit_last l1 fuel k l2 [] Fk) as (ks & Ek); [rewrite <- Em, map_length; exact Ln|intros []|exact N1|exact I|]. rewrite Ep, Ek. cbn [bind]. rewrite rev_app_distr. cbn [rev app]. rewrite (built_entry k t q Hk).
  cbn [builtin ce_base bind]. assert (Rf : is_reference (EOne e) = false).
  { destruct (plain_typedef ty td _ Hp Hn H) as (et & e1 & known1 & E & B & Te). injection E as <-. destruct (union_build xp cm _ et Hpt Ha B) as (l' & -> & _). cbn [typedef_entry] in Te.
    destruct (union_parents known1 l'); cbn [bind] in Te; [|discriminate]. injection Te as <-. reflexivity. }
  rewrite Rf. reflexivity.
Qed.
Lemma typedef_first O fuel ty td r own ss1 s ss2 td' d x b : plain ty -> named tds (ty_arg ty) td -> plain (td_type td) -> ty_arg (td_type td) = lit "union" ->
  td_default td = None -> ty_subs (td_type td) = ss1 ++ s :: ss2 -> Forall quiet ss1 -> plain s -> named tds (ty_arg s) td' -> (exists s0, leads tds s0 (td_type td')) -> td_default td' = Some d ->
  build_elemtype xp cm ty = Ok r -> leaf_default O fuel cm r own = Ok (Some (x, b)) -> x = d.
Proof.
  intros Hp Hn Hpt Ha D Es Q Ps Hn' (s0 & L) D' H Hx. destruct (typedef_union ty td r Hp Hn Hpt Ha H) as (e & l & ps & known & -> & F & Eu & Be & Pe & De). rewrite Es in F. apply Forall2_app_inv_l in F. destruct F as (l1 & l2' & F1 & F2 & ->).
  inversion F2 as [|s' te ss' l2 [_ B] F2']; subst. destruct te as [n e1]. cbn [snd] in B.
  destruct (plain_typedef s td' _ Ps Hn' B) as (et & e2 & known2 & E & B2 & Te). injection E as <-. destruct (leads_build s0 _ L et B2) as (e3 & ds3 & -> & T3 & _).
  destruct (typedef_up xp cm0 cm tds Hid Hty Hm _ td' e3 ds3 known2 e1 T3 Te) as (_ & _ & _ & _ & D1 & _). rewrite D' in D1.
  assert (Ef : first_default (map snd (l1 ++ (n, e1) :: l2)) = Some d).
  { pose proof (quiet_members _ _ F1 Q) as Q1. clear - Q1 D1. induction Q1 as [|te l1 N Q1 IH]; cbn [app map snd first_default]; [rewrite D1; reflexivity|]. rewrite N. exact IH. }
  rewrite D, Ef in De. unfold leaf_default, choose_default in Hx. rewrite De in Hx. cbn [bind] in Hx. destruct (default_base O fuel cm d (DEntry e)); [|discriminate]. cbn [bind] in Hx. injection Hx as <- _. reflexivity.
Qed.
End Chain.

Section Main.
Context (xp : bool) (cm0 cm : class_map) (tds : list tdef).
Context (Hid : from_identities cm0) (Hsep : separate (known_types cm0) tds) (Hty : typedef_names tds) (Hp : process_typedefs xp cm0 tds = Ok cm).
Lemma members_main ty l r : union_members tds ty l -> build_elemtype xp cm ty = Ok r ->
  exists ts, Forall2 (fun s t => exists r', build_elemtype xp cm s = Ok r' /\ leaf_ltype r' = LOne t) l ts /\ forall O v,
    (forall ts1 t ts2 w, ts = ts1 ++ t :: ts2 -> Forall (fun t' => exists e, ty_call O t' v = Raise e) ts1 -> ty_call O t v = Ok w ->
       leaf_assign O (leaf_ltype r) v = {| d_notified := true; d_out := Ok w |}) /\
    (Forall (fun t' => exists e, ty_call O t' v = Raise e) ts -> leaf_assign O (leaf_ltype r) v = {| d_notified := false; d_out := Raise ValueError |}).
Proof.
  intros U H. pose proof (process_made xp cm0 tds cm Hsep Hp) as M. destruct (natives_members xp cm0 cm tds Hid Hty M ty l U r H) as (ts & F & E). exists ts. split.
  - clear - F. induction F as [|s t l ts (e & B & N) F IH]; constructor; [|exact IH]. exists (EOne e). split; [exact B|]. cbn [leaf_ltype]. rewrite N. reflexivity.
  - intros O v. rewrite E. apply StrTypes_proofs.union_assign.
Qed.
Lemma integers_main ty l ks r : union_members tds ty l -> build_elemtype xp cm ty = Ok r -> Forall2 (fun s kl => int_type tds (fst kl) s (snd kl) /\ ranges_wf (fst kl) (snd kl)) l ks ->
  forall O z, (Exists (fun kl => in_levels z (snd kl) /\ kind_ok (fst kl) z) ks -> leaf_assign O (leaf_ltype r) (VInt z) = {| d_notified := true; d_out := Ok (VInt z) |}) /\
    (~ Exists (fun kl => in_levels z (snd kl) /\ kind_ok (fst kl) z) ks -> leaf_assign O (leaf_ltype r) (VInt z) = {| d_notified := false; d_out := Raise ValueError |}).
Proof.
  intros U H K O z. pose proof (process_made xp cm0 tds cm Hsep Hp) as M. destruct (natives_members xp cm0 cm tds Hid Hty M ty l U r H) as (ts & F & E). rewrite E. clear U H E.
  assert (C : Forall2 (fun kl t => (in_levels z (snd kl) /\ kind_ok (fst kl) z -> ty_call O t (VInt z) = Ok (VInt z)) /\ (~ (in_levels z (snd kl) /\ kind_ok (fst kl) z) -> exists e, ty_call O t (VInt z) = Raise e)) ks ts).
  { revert ts F. induction K as [|s [k ls] l ks [Ki Kw] K IH]; intros ts F; inversion F as [|s' t l' ts' B F']; subst; [constructor|]. constructor; [|apply IH; exact F']. cbn [fst snd] in *.
    destruct (TypedefRestr_proofs.int_builds xp cm0 cm tds Hid Hty M k s ls Ki) as (e & B1 & N1). destruct B as (e2 & B2 & N2). rewrite B1 in B2. injection B2 as <-. rewrite N1 in N2. injection N2 as <-.
    pose proof (TypedefRestr_proofs.ranges_levels k ls Kw) as W. rewrite <- TypedefRestr_proofs.levels_kind. split; intros A.
    - apply Restricted_proofs.chain_call_ok; [exact W|reflexivity| |exact A]. destruct (Z.eq_dec z 0) as [->|N]; [now right|left; cbn; destruct z; congruence || reflexivity].
    - match goal with |- exists e, ?c = _ => destruct c as [w|e0] eqn:Ec; [|exists e0; reflexivity] end. exfalso. apply A.
      destruct (Member_proofs.int_call_value O (ls ++ [[Ints_proofs.kind_part k]]) (VInt z) w) as (z' & _ & Ez & _ & I); [destruct ls; discriminate|exact W|exact Ec|]. cbn in Ez. injection Ez as <-. apply I. discriminate. }
  clear F K. split.
  - intros A. assert (G : exists ts1 t ts2, ts = ts1 ++ t :: ts2 /\ Forall (fun t' => exists e, ty_call O t' (VInt z) = Raise e) ts1 /\ ty_call O t (VInt z) = Ok (VInt z)).
    { revert ts C. induction A as [kl ks A|kl ks A IH]; intros ts C; inversion C as [|x t y ts' [C1 C2] C']; subst.
      - exists [], t, ts'. split; [reflexivity|]. split; [constructor|apply C1, A].
      - assert (Dec : ty_call O t (VInt z) = Ok (VInt z) \/ exists e, ty_call O t (VInt z) = Raise e).
        { assert (Dd : in_levels z (snd kl ++ [[Ints_proofs.kind_part (fst kl)]]) \/ ~ in_levels z (snd kl ++ [[Ints_proofs.kind_part (fst kl)]])).
          { destruct (in_levelsb z (snd kl ++ [[Ints_proofs.kind_part (fst kl)]])) eqn:Eb; [left; apply Range_proofs.in_levelsb_iff; exact Eb|right; rewrite <- Range_proofs.in_levelsb_iff; congruence]. }
          rewrite TypedefRestr_proofs.levels_kind in Dd. destruct Dd as [Dd|Dd]; [left; apply C1, Dd|right; apply C2, Dd]. }
        destruct Dec as [Dec|Dec]; [exists [], t, ts'; split; [reflexivity|split; [constructor|exact Dec]]|].
        destruct (IH ts' C') as (ts1 & t1 & ts2 & -> & G1 & G2). exists (t :: ts1), t1, ts2. split; [reflexivity|]. split; [constructor; assumption|exact G2]. }
    destruct G as (ts1 & t & ts2 & G0 & G1 & G2). exact (proj1 (StrTypes_proofs.union_assign O ts (VInt z)) ts1 t ts2 (VInt z) G0 G1 G2).
  - intros A. apply (proj2 (StrTypes_proofs.union_assign O ts (VInt z))). revert ts C. induction ks as [|kl ks IH]; intros ts C; inversion C as [|x t y ts' [_ C2] C']; subst; constructor.
    + apply C2. intros C0. apply A. left. exact C0.
    + apply IH; [intros C0; apply A; right; exact C0|exact C'].
Qed.
End Main.
