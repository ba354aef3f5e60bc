(** Proofs about the entries that build_typedefs makes. *)
From Verif Require Import PyStr PyStr_facts PyVal PathHelper PathSim_proofs Identity Restricted IntTypes Typedefs Spec_Typedefs TypedefOrder_proofs.
From Coq Require Import Lia Permutation.
Import ListNotations.

Definition extends (cm cm' : class_map) : Prop := forall k e, look k cm = Some e -> look k cm' = Some e.
Lemma extends_refl cm : extends cm cm. Proof. intros k e H. exact H. Qed.
Lemma extends_trans a b d : extends a b -> extends b d -> extends a d. Proof. intros H1 H2 k e H. apply H2, H1, H. Qed.
Lemma look_in {A} k (d : list (str * A)) : look k d <> None <-> In k (map fst d).
Proof.
  induction d as [|[m a] d IH]; cbn [look map fst In]; [split; [intros H; now destruct H|intros []]|]. destruct (str_eqb_spec k m) as [->|N].
  - split; [left; reflexivity|discriminate].
  - rewrite IH. split; [intros H; right; exact H|intros [H|H]; [congruence|exact H]].
Qed.

(** Types: induction through the members of unions. *)
Lemma ytype_ind' (P : ytype -> Prop) : (forall a ps ln rg en dg pt rq bs bi subs, Forall P subs -> P (YType a ps ln rg en dg pt rq bs bi subs)) -> forall ty, P ty.
Proof.
  intros H. fix IH 1. intros [a ps ln rg en dg pt rq bs bi subs]. apply H. induction subs as [|s subs IHs]; constructor; [apply IH|exact IHs].
Qed.
Section Mono.
Context (xp : bool) (cm cm' : class_map) (E : extends cm cm').
Lemma build_mono ty : forall r, build_elemtype xp cm ty = Ok r -> build_elemtype xp cm' ty = Ok r.
Proof.
  induction ty as [a ps ln rg en dg pt rq bs bi subs IH] using ytype_ind'. intros r H. cbn [build_elemtype ty_arg ty_enums ty_digits ty_path ty_require ty_bases ty_bits ty_subs] in *.
  set (rs := restrictions (YType a ps ln rg en dg pt rq bs bi subs)) in *. destruct rs as [|r0 rs'].
  - destruct (str_eqb a (lit "enumeration")); [exact H|]. destruct (str_eqb a (lit "decimal64")).
    { destruct dg; [exact H|]. destruct (look a cm) as [e|] eqn:L; [|discriminate]. rewrite (E _ _ L). exact H. }
    destruct (str_eqb a (lit "union")).
    { match type of H with bind (?f subs) _ = _ => set (each := f) in * end. match goal with |- bind (?f subs) _ = _ => set (each' := f) in * end.
      assert (G : forall l, each subs = Ok l -> each' subs = Ok l).
      { clear H. induction subs as [|t ts IHts]; intros l Hl; [exact Hl|]. inversion IH as [|x y Ht Hts]; subst. cbn in Hl |- *.
        destruct (build_elemtype xp cm t) as [et'|] eqn:Et; [|discriminate]. rewrite (Ht _ eq_refl). cbn in Hl |- *. destruct et' as [e|]; [|exact Hl].
        fold each in Hl. fold each'. destruct (each ts) as [l'|] eqn:El; [|discriminate]. rewrite (IHts Hts l' eq_refl). exact Hl. }
      destruct (each subs) as [l|] eqn:El; [|discriminate]. rewrite (G l eq_refl). exact H. }
    destruct (str_eqb a (lit "leafref")); [exact H|]. destruct (str_eqb a (lit "identityref")).
    { destruct bs as [|b bs']; [exact H|]. destruct (look b cm) as [e|] eqn:L; [|discriminate]. rewrite (E _ _ L). exact H. }
    destruct (str_eqb a (lit "bits")); [exact H|]. destruct (look a cm) as [e|] eqn:L; [|discriminate]. rewrite (E _ _ L). exact H.
  - destruct (look a cm) as [e|] eqn:L; [|discriminate]. rewrite (E _ _ L). exact H.
Qed.
End Mono.

Lemma bare_key p n : ~ In 58%N p -> ~ In 58%N n -> bare (p ++ lit ":" ++ n) = Ok n.
Proof. intros Hp Hn. unfold bare. change (p ++ lit ":" ++ n) with (p ++ 58%N :: n). rewrite (split_on_app 58 p n Hp), (split_on_no 58 n Hn). reflexivity. Qed.
Lemma key_parts p n p' n' : ~ In 58%N p -> ~ In 58%N n -> ~ In 58%N p' -> ~ In 58%N n' -> p ++ lit ":" ++ n = p' ++ lit ":" ++ n' -> p = p' /\ n = n'.
Proof.
  intros Hp Hn Hp' Hn' E. assert (F : split_on 58 (p ++ 58%N :: n) = split_on 58 (p' ++ 58%N :: n')) by (exact (f_equal (split_on 58) E)).
  rewrite (split_on_app 58 p n Hp), (split_on_no 58 n Hn), (split_on_app 58 p' n' Hp'), (split_on_no 58 n' Hn') in F. injection F as -> ->. split; reflexivity.
Qed.
Lemma named_names tds t td : In td tds -> key_ok td -> (named tds t td <-> t = td_key td \/ bare (td_key td) = Ok t).
Proof.
  intros Hin (p & n & E & Hp & Hn). unfold named. rewrite E, (bare_key p n Hp Hn). split.
  - intros [_ [->|(p' & E' & Hp' & Ht)]]; [left; reflexivity|right]. destruct (key_parts p n p' t Hp Hn Hp' Ht E') as [_ ->]. reflexivity.
  - intros [->|H]; (split; [exact Hin|]); [left; reflexivity|right]. injection H as <-. exists p. split; [reflexivity|]. split; assumption.
Qed.

Section Process.
Context (xp : bool).
(** One typedef: what is new, and what stays. *)
Lemma process_one cm td cm1 : process_typedef xp cm td = Ok cm1 -> key_ok td -> exists et e, build_elemtype xp cm (td_type td) = Ok et /\ typedef_entry (known_types cm) td et = Ok e /\
  ~ In (td_key td) (known_types cm) /\ (forall t, t = td_key td \/ bare (td_key td) = Ok t -> look t cm1 = Some e) /\ (forall t, t <> td_key td -> bare (td_key td) <> Ok t -> look t cm1 = look t cm).
Proof.
  intros H K. unfold process_typedef in H. destruct (build_elemtype xp cm (td_type td)) as [et|] eqn:Et; [|discriminate]. cbn [bind] in H.
  destruct (str_in (td_key td) (known_types cm)) eqn:Ek; [discriminate|]. destruct (typedef_entry (known_types cm) td et) as [e|] eqn:Ee; [|discriminate]. cbn [bind] in H.
  destruct (bare (td_key td)) as [b|] eqn:Eb; [|discriminate]. cbn [bind] in H. injection H as <-. exists et, e. split; [reflexivity|]. split; [exact Ee|]. split; [apply str_in_false; exact Ek|]. split.
  - intros t [->|Hb]; rewrite !look_set; [|injection Hb as ->; rewrite str_eqb_refl; reflexivity]. rewrite str_eqb_refl. destruct (str_eqb (td_key td) b); reflexivity.
  - intros t N1 N2. rewrite !look_set. apply str_eqb_neq in N1. rewrite N1. destruct (str_eqb_spec t b) as [->|_]; [destruct (N2 eq_refl)|reflexivity].
Qed.
Lemma process_keeps cm td cm1 t : process_typedef xp cm td = Ok cm1 -> key_ok td -> look t cm <> None -> look t cm1 <> None.
Proof.
  intros H K L. destruct (process_one cm td cm1 H K) as (et & e & _ & _ & _ & Hn & Ho).
  destruct (str_eq_dec t (td_key td)) as [->|N1]; [rewrite (Hn _ (or_introl eq_refl)); discriminate|].
  destruct (bare (td_key td)) as [b|x] eqn:Eb; [|rewrite (Ho t N1); [exact L|discriminate]].
  destruct (str_eq_dec t b) as [->|N2]; [rewrite (Hn _ (or_intror eq_refl)); discriminate|]. rewrite (Ho t N1); [exact L|congruence].
Qed.
Lemma process_app l1 : forall cm l2, process_typedefs xp cm (l1 ++ l2) = (cm1 <- process_typedefs xp cm l1 ;; process_typedefs xp cm1 l2).
Proof. induction l1 as [|td l1 IH]; intros cm l2; cbn [app process_typedefs bind]; [reflexivity|]. destruct (process_typedef xp cm td) as [cm1|]; cbn [bind]; [apply IH|reflexivity]. Qed.
Lemma process_has : forall tds cm cm', process_typedefs xp cm tds = Ok cm' -> (forall td, In td tds -> key_ok td) ->
  (forall t, look t cm <> None -> look t cm' <> None) /\ (forall td t, In td tds -> t = td_key td \/ bare (td_key td) = Ok t -> look t cm' <> None).
Proof.
  induction tds as [|td tds IH]; intros cm cm' H K; cbn in H.
  - injection H as <-. split; [auto|intros td t []].
  - destruct (process_typedef xp cm td) as [cm1|] eqn:E1; [|discriminate]. cbn [bind] in H.
    destruct (IH cm1 cm' H (fun td' Hin => K td' (or_intror Hin))) as [H1 H2]. pose proof (K td (or_introl eq_refl)) as Kt. split.
    + intros t L. apply H1. apply (process_keeps cm td cm1 t E1 Kt L).
    + intros td' t [<-|Hin] Ht; [|apply (H2 td' t Hin Ht)]. apply H1. destruct (process_one cm td cm1 E1 Kt) as (et & e & _ & _ & _ & Hn & _). rewrite (Hn t Ht). discriminate.
Qed.

(** All the names that a typedef mentions have entries when its own is made, if prefixes are used the way the
    modules have chosen them. *)
Theorem names_found c cm tds l1 td l2 cm1 t : (forall td, In td tds -> key_ok td) -> in_order c (known_types cm) tds -> tds = l1 ++ td :: l2 -> well_formed c (known_types cm) td ->
  (forall p n m, mentions (td_type td) (p ++ lit ":" ++ n) -> ~ In 58%N p -> m_resolve c (td_module td) p = Some m -> m_prefix c m = p) ->
  ~ In 58%N (m_prefix c (td_module td)) -> (forall p n, look (p ++ lit ":" ++ n) cm <> None -> look n cm <> None) ->
  process_typedefs xp cm l1 = Ok cm1 -> mentions (td_type td) t -> look t cm1 <> None \/ In t [lit "enumeration"; lit "leafref"; lit "bits"].
Proof.
  intros K I E W R Pm B H M. destruct W as (_ & _ & Wd). destruct (Wd t M) as [k D].
  assert (K1 : forall td', In td' l1 -> key_ok td') by (intros td' Hin; apply K; rewrite E; apply in_or_app; left; exact Hin).
  destruct (process_has l1 cm cm1 H K1) as [Hk Hn].
  assert (G : In k (known_types cm) \/ exists td', In td' l1 /\ td_key td' = k) by (apply (I l1 td l2 E k); exists t; split; assumption).
  assert (KT : In t (known_types cm) -> look t cm1 <> None \/ In t [lit "enumeration"; lit "leafref"; lit "bits"]).
  { intros Hin. unfold known_types in Hin. apply in_app_or in Hin. destruct Hin as [Hin|Hin]; [left|right; exact Hin]. apply Hk. apply look_in. exact Hin. }
  destruct D as [(p & n & m & -> & Hp & Hnn & Hm & ->)|[(Ht & Hin & ->)|(Ht & Hin & ->)]].
  - rewrite (R p n m M Hp Hm) in G. destruct G as [G|(td' & Hin & Ek)]; [apply KT; exact G|]. left. apply (Hn td' _ Hin). left. symmetry. exact Ek.
  - apply KT. exact Hin.
  - destruct G as [G|(td' & Hin' & Ek)].
    + exfalso. unfold known_types in G. apply in_app_or in G. destruct G as [G|G].
      * apply Hin. unfold known_types. apply in_or_app. left. apply look_in. apply (B (m_prefix c (td_module td)) t). apply look_in. exact G.
      * assert (C : In 58%N (m_prefix c (td_module td) ++ lit ":" ++ t)) by (apply in_or_app; right; left; reflexivity).
        destruct G as [G|[G|[G|[]]]]; rewrite <- G in C; vm_compute in C; intuition discriminate.
    + left. apply (Hn td' t Hin'). right. rewrite Ek. apply bare_key; assumption.
Qed.

(** What the map holds in the end. *)
Definition entry_for (cm : class_map) (all : list tdef) (td : tdef) : Prop :=
  exists et e known, build_elemtype xp cm (td_type td) = Ok et /\ typedef_entry known td et = Ok e /\ forall t, named all t td -> look t cm = Some e.
Definition made (cm0 : class_map) (all done : list tdef) (cm : class_map) : Prop :=
  extends cm0 cm /\ (forall t, (forall td, In td done -> ~ named all t td) -> look t cm = look t cm0) /\ forall td, In td done -> entry_for cm all td.
Lemma made_step cm0 all done td cm1 cm2 : separate (known_types cm0) all -> (forall x, In x (done ++ [td]) -> In x all) -> made cm0 all done cm1 -> process_typedef xp cm1 td = Ok cm2 ->
  made cm0 all (done ++ [td]) cm2.
Proof.
  intros (Sk & Su & Sn) Sub (E0 & Ho & Hd) P. assert (Hin : In td all) by (apply Sub, in_or_app; right; left; reflexivity). pose proof (Sk td Hin) as K.
  destruct (process_one cm1 td cm2 P K) as (et & e & Eb & Ee & Nk & Hn & Hs).
  assert (NM : forall t, named all t td <-> t = td_key td \/ bare (td_key td) = Ok t) by (intros t; apply named_names; assumption).
  assert (Nd : ~ In td done).
  { intros Hdn. destruct (Hd td Hdn) as (et' & e' & kn & _ & _ & Hl). apply Nk. unfold known_types. apply in_or_app. left. apply look_in. rewrite (Hl (td_key td)); [discriminate|]. apply NM. left. reflexivity. }
  assert (Ex : extends cm1 cm2).
  { intros t e' L. assert (N : ~ named all t td).
    { intros Hnm. assert (L0 : look t cm1 = look t cm0).
      { apply Ho. intros td' Hin' Hnm'. apply Nd. rewrite (Su t td td' Hnm Hnm'). exact Hin'. }
      apply (Sn t td Hnm). unfold known_types. apply in_or_app. left. apply look_in. rewrite <- L0, L. discriminate. }
    rewrite Hs; [exact L| |]; intros C; apply N, NM; [left|right]; exact C. }
  split; [apply (extends_trans _ _ _ E0 Ex)|]. split.
  - intros t Nt. rewrite Hs.
    + apply Ho. intros td' Hin'. apply Nt, in_or_app. left. exact Hin'.
    + intros C. apply (Nt td); [apply in_or_app; right; left; reflexivity|]. apply NM. left. exact C.
    + intros C. apply (Nt td); [apply in_or_app; right; left; reflexivity|]. apply NM. right. exact C.
  - intros td' Hin'. apply in_app_or in Hin'. destruct Hin' as [Hin'|[<-|[]]].
    + destruct (Hd td' Hin') as (et' & e' & kn & B & T & L). exists et', e', kn. split; [apply (build_mono xp cm1 cm2 Ex); exact B|]. split; [exact T|]. intros t Ht. apply Ex, L, Ht.
    + exists et, e, (known_types cm1). split; [apply (build_mono xp cm1 cm2 Ex); exact Eb|]. split; [exact Ee|]. intros t Ht. apply Hn, NM, Ht.
Qed.
Theorem process_made cm0 tds cm : separate (known_types cm0) tds -> process_typedefs xp cm0 tds = Ok cm -> made cm0 tds tds cm.
Proof.
  intros S H. assert (G : forall l done cm1, tds = done ++ l -> made cm0 tds done cm1 -> process_typedefs xp cm1 l = Ok cm -> made cm0 tds tds cm).
  { induction l as [|td l IH]; intros done cm1 E M P; cbn in P.
    - injection P as <-. rewrite app_nil_r in E. subst tds. exact M.
    - destruct (process_typedef xp cm1 td) as [cm2|] eqn:E2; [|discriminate]. cbn [bind] in P. apply (IH (done ++ [td]) cm2); [rewrite <- app_assoc; exact E| |exact P].
      apply (made_step cm0 tds done td cm1 cm2 S); [|exact M|exact E2]. intros x Hx. rewrite E. apply in_app_or in Hx. apply in_or_app. destruct Hx as [Hx|[<-|[]]]; [left; exact Hx|right; left; reflexivity]. }
  apply (G tds [] cm0 eq_refl); [|exact H]. split; [apply extends_refl|]. split; [reflexivity|intros td []].
Qed.
End Process.
