(** Proofs about defaults along a chain of typedefs. *)
From Verif Require Import PyStr PyStr_facts PyVal PathHelper PathSim_proofs Identity Restricted IntTypes Typedefs Spec_Typedefs TypedefOrder_proofs TypedefMap_proofs.
From Coq Require Import Lia Permutation.
Import ListNotations.

Section Path.
Context (cm : class_map).
(** The names from an entry to its base. *)
Inductive path : str -> list str -> Prop :=
| path_end p e : tmp_entry cm p = Some (None, e) -> path p [p]
| path_step p q e ks : tmp_entry cm p = Some (Some (POne q), e) -> path q ks -> path p (p :: ks).
Lemma path_unique p ks : path p ks -> forall ks', path p ks' -> ks = ks'.
Proof.
  induction 1 as [p e E|p q e ks E _ IH]; intros ks' H'; inversion H' as [p' e' E'|p' q' e' ks'' E' Hp']; subst; rewrite E in E'; try discriminate; [reflexivity|].
  injection E' as -> _. rewrite (IH ks'' Hp'). reflexivity.
Qed.
Lemma path_suffix p ks : path p ks -> forall k, In k ks -> exists ks', path k ks' /\ length ks' <= length ks.
Proof.
  induction 1 as [p e E|p q e ks E Hp IH]; intros k Hk.
  - destruct Hk as [<-|[]]. exists [p]. split; [apply (path_end p e E)|reflexivity].
  - destruct Hk as [<-|Hk]; [exists (p :: ks); split; [apply (path_step p q e ks E Hp)|reflexivity]|]. destruct (IH k Hk) as (ks' & H1 & H2). exists ks'. split; [exact H1|cbn; lia].
Qed.
Lemma path_nodup p ks : path p ks -> NoDup ks.
Proof.
  induction 1 as [p e E|p q e ks E Hp IH]; [constructor; [intros []|constructor]|]. constructor; [|exact IH]. intros Hin.
  destruct (path_suffix q ks Hp p Hin) as (ks' & H1 & H2). pose proof (path_unique _ _ H1 _ (path_step p q e ks E Hp)) as E2. rewrite E2 in H2. cbn in H2. lia.
Qed.
Lemma ancestors_path p ks : path p ks -> forall fuel checked, length ks <= fuel -> (forall k, In k ks -> ~ In k checked) -> ancestors fuel cm [p] checked = Ok (checked ++ ks).
Proof.
  induction 1 as [p e E|p q e ks E Hp IH]; intros fuel checked L N; (destruct fuel as [|fuel]; [cbn in L; lia|]); cbn [ancestors].
  - assert (S : str_in p checked = false) by (apply str_in_false, N; left; reflexivity). rewrite S, E. cbn [parent_list app]. destruct fuel; reflexivity.
  - assert (S : str_in p checked = false) by (apply str_in_false, N; left; reflexivity). rewrite S, E. cbn [parent_list app]. rewrite IH.
    + rewrite <- app_assoc. reflexivity.
    + cbn in L. lia.
    + intros k Hk C. apply in_app_or in C. destruct C as [C|[<-|[]]]; [apply (N k); [right; exact Hk|exact C]|].
      pose proof (path_nodup _ _ (path_step p q e ks E Hp)) as ND. inversion ND; contradiction.
Qed.

(** The defaults above an entry, and its base. *)
Inductive ups : centry -> list (option str) -> centry -> Prop :=
| ups_here e : ce_base e = true -> ce_parent e = None -> ups e [] e
| ups_up e p e' ds b : ce_base e = false -> ce_parent e = Some (POne p) -> p <> lit "enumeration" -> look p cm = Some e' -> ups e' ds b -> ups e (ce_default e' :: ds) b.
Lemma tmp_look p e : p <> lit "enumeration" -> look p cm = Some e -> tmp_entry cm p = Some (ce_parent e, Some e).
Proof. intros N L. unfold tmp_entry. apply str_eqb_neq in N. rewrite N, L. reflexivity. Qed.
Lemma ups_base e ds b : ups e ds b -> ce_base b = true.
Proof. induction 1; assumption. Qed.
Lemma ups_path e ds b : ups e ds b -> ce_base e = false -> exists p ks k ks0, ce_parent e = Some (POne p) /\ path p ks /\ length ks = length ds /\ ks = ks0 ++ [k] /\ tmp_entry cm k = Some (None, Some b) /\
  match search_default cm ks with Some (d, e') => nearest ds = Some d /\ (exists ds', ups e' ds' b /\ length ds' <= length ds) | None => nearest ds = None end.
Proof.
  induction 1 as [e B P|e p e' ds b B P N L U IH]; intros Bf; [congruence|].
  assert (SD : forall ks, search_default cm (p :: ks) = match ce_default e' with Some d => Some (d, e') | None => search_default cm ks end).
  { intros ks. cbn [search_default]. apply str_eqb_neq in N. rewrite N. unfold option_default. rewrite L. destruct (ce_default e'); reflexivity. }
  inversion U as [e1 B1 P1|e1 p1 e2 ds1 b1 B1 P1 N1 L1 U1]; subst.
  - exists p, [p], p, []. split; [exact P|]. split; [apply (path_end p (Some b)); rewrite (tmp_look p b N L), P1; reflexivity|]. split; [reflexivity|]. split; [reflexivity|].
    split; [rewrite (tmp_look p b N L), P1; reflexivity|]. rewrite SD. cbn [search_default nearest]. destruct (ce_default b); [|reflexivity]. split; [reflexivity|]. exists []. split; [exact U|cbn; lia].
  - destruct (IH B1) as (q & ks & k & ks0 & Pq & Hp & Hl & Hk & Hb & Hs). rewrite P1 in Pq. injection Pq as <-.
    exists p, (p :: ks), k, (p :: ks0). split; [exact P|]. split; [apply (path_step p p1 (Some e') ks); [rewrite (tmp_look p e' N L), P1; reflexivity|exact Hp]|].
    split; [cbn in *; lia|]. split; [rewrite Hk; reflexivity|]. split; [exact Hb|]. rewrite SD. destruct (ce_default e') as [d|] eqn:Ed.
    + split; [reflexivity|]. exists (ce_default e2 :: ds1). split; [exact U|cbn; lia].
    + cbn [nearest]. cbn [nearest] in Hs. destruct (search_default cm ks) as [[d e3]|]; [|exact Hs]. destruct Hs as [Hs (ds' & H1 & H2)]. split; [exact Hs|]. exists ds'. split; [exact H1|cbn in *; lia].
Qed.
Lemma base_found O fuel d e ds b : ups e ds b -> length ds <= fuel -> default_base O fuel cm d (DEntry e) = Ok b.
Proof.
  intros U L. unfold default_base. cbn [bind]. destruct (ce_base e) eqn:B.
  - inversion U; subst; [reflexivity|congruence].
  - destruct (ups_path e ds b U B) as (p & ks & k & ks0 & P & Hp & Hl & Hk & Hb & _). rewrite P. cbn [parent_list]. rewrite (ancestors_path p ks Hp fuel []); [|lia|intros k' _ []].
    cbn [bind app]. rewrite Hk, rev_app_distr. cbn [rev app]. rewrite Hb, (ups_base _ _ _ U). reflexivity.
Qed.
(** The default of a leaf whose entry is [e]. *)
Definition at_bits (e : centry) : Prop := ce_base e = true /\ ce_parent e = Some (POne (lit "bits")) /\ ce_default e = None /\ exists b, look (lit "bits") cm = Some b /\ ce_base b = true /\ ce_parent b = None /\ ce_default b = None.
Lemma default_found O fuel e own ds b : ups e ds b -> length ds <= fuel ->
  exists r, leaf_default O fuel cm (EOne e) own = Ok r /\ option_map fst r = nearest [ce_default e; own; nearest ds] /\ (forall d b', r = Some (d, b') -> b' = b).
Proof.
  intros U L. unfold leaf_default, choose_default. destruct (ce_default e) as [d|] eqn:D; [|destruct own as [d|]].
  - cbn [bind]. rewrite (base_found O fuel d e ds b U L). cbn [bind]. eexists. split; [reflexivity|]. split; [reflexivity|]. intros d' b' E. injection E as _ <-. reflexivity.
  - cbn [bind]. rewrite (base_found O fuel d e ds b U L). cbn [bind]. eexists. split; [reflexivity|]. split; [reflexivity|]. intros d' b' E. injection E as _ <-. reflexivity.
  - destruct (ce_base e) eqn:B.
    + inversion U as [e1 B1 P1|]; subst; [|congruence]. rewrite P1. cbn [bind]. exists None. split; [reflexivity|]. split; [reflexivity|discriminate].
    + destruct (ups_path e ds b U B) as (p & ks & k & ks0 & P & Hp & Hl & Hk & Hb & Hs). rewrite P. cbn [parent_list]. rewrite (ancestors_path p ks Hp fuel []); [|lia|intros k' _ []].
      cbn [bind app]. cbn [nearest]. destruct (search_default cm ks) as [[d e']|]; cbn [option_map fst snd bind].
      * destruct Hs as [-> (ds' & U' & L')]. rewrite (base_found O fuel d e' ds' b U'); [|lia]. cbn [bind]. eexists. split; [reflexivity|]. split; [reflexivity|]. intros d' b' E. injection E as _ <-. reflexivity.
      * rewrite Hs. exists None. split; [reflexivity|]. split; [reflexivity|discriminate].
Qed.
Lemma default_bits O fuel e own : at_bits e -> 1 <= fuel -> exists r, leaf_default O fuel cm (EOne e) own = Ok r /\ option_map fst r = own /\ (forall d b', r = Some (d, b') -> b' = e).
Proof.
  intros (B & P & D & b & L & _ & Pb & Db) F. unfold leaf_default, choose_default. rewrite D. destruct own as [d|].
  - cbn [bind]. unfold default_base. cbn [bind]. rewrite B. cbn [bind]. eexists. split; [reflexivity|]. split; [reflexivity|]. intros d' b' E. injection E as _ <-. reflexivity.
  - rewrite P. cbn [parent_list]. assert (N : lit "bits" <> lit "enumeration") by (vm_compute; discriminate).
    rewrite (ancestors_path (lit "bits") [lit "bits"]); [|apply (path_end _ (Some b)); rewrite (tmp_look _ _ N L), Pb; reflexivity|exact F|intros k _ []].
    cbn [bind app]. assert (S : search_default cm [lit "bits"] = None).
    { cbn [search_default]. apply str_eqb_neq in N. rewrite N. unfold option_default. rewrite L, Db. reflexivity. }
    rewrite S. exists None. split; [reflexivity|]. split; [reflexivity|discriminate].
Qed.
End Path.

Lemma restrictions_plain ty : restrictions ty = [] <-> plain ty.
Proof.
  unfold restrictions, plain. destruct (ty_patterns ty) as [|p ps]; cbn [app]; [|split; [discriminate|intros [H _]; discriminate]].
  destruct (ty_length ty) as [s|]; cbn [app]; [split; [discriminate|intros (_ & H & _); discriminate]|]. destruct (ty_range ty); split; try discriminate; auto. intros (_ & _ & H). discriminate.
Qed.

(** The map before the typedefs. *)
Definition builtin_entry (k : str) (e : centry) : bool :=
  ce_base e && (match ce_parent e with None => true | _ => false end) && (match ce_default e with None => true | _ => false end) &&
  str_in k yang_types && negb (str_in k [lit "enumeration"; lit "leafref"; lit "identityref"; lit "union"]).
Lemma look_some {A} k (d : list (str * A)) a : look k d = Some a -> In (k, a) d.
Proof.
  induction d as [|[m x] d IH]; cbn [look]; [discriminate|]. destruct (str_eqb_spec k m) as [->|N]; [intros H; injection H as ->; left; reflexivity|intros H; right; apply IH; exact H].
Qed.
Lemma builtin_facts k e : look k builtin_map = Some e -> ce_base e = true /\ ce_parent e = None /\ ce_default e = None /\ In k yang_types /\ ~ In k [lit "enumeration"; lit "leafref"; lit "identityref"; lit "union"].
Proof.
  intros H. apply look_some in H. assert (F : forallb (fun ke => builtin_entry (fst ke) (snd ke)) builtin_map = true) by (vm_compute; reflexivity).
  rewrite forallb_forall in F. specialize (F (k, e) H). cbn [fst snd] in F. unfold builtin_entry in F. apply andb_true_iff in F. destruct F as [F F5]. apply andb_true_iff in F. destruct F as [F F4].
  apply andb_true_iff in F. destruct F as [F F3]. apply andb_true_iff in F. destruct F as [F1 F2]. split; [exact F1|]. split; [destruct (ce_parent e); [discriminate|reflexivity]|].
  split; [destruct (ce_default e); [discriminate|reflexivity]|]. split; [apply str_in_In; exact F4|]. apply str_in_false. apply negb_true_iff. exact F5.
Qed.
Lemma identities_look D : forall cm k, look k (identity_entries D cm) = look k cm \/ (In k (map fst D) /\ exists t, look k (identity_entries D cm) = Some (derived_entry t (lit "string"))).
Proof.
  unfold identity_entries. induction D as [|[m vs] D IH]; intros cm k; cbn [fold_left map fst snd]; [left; reflexivity|].
  destruct (IH (dict_set m (derived_entry (TRestr TStr [RDict (no_at (map fst vs))]) (lit "string")) cm) k) as [E|[Hin Ht]]; [|right; split; [right; exact Hin|exact Ht]].
  rewrite look_set in E. destruct (str_eqb_spec k m) as [Ek|N]; [|left; exact E]. right. split; [left; symmetry; exact Ek|]. eexists. exact E.
Qed.
Lemma identities_builtin cm : from_identities cm -> extends builtin_map cm.
Proof.
  intros (D & -> & N) k e H. destruct (identities_look D builtin_map k) as [->|[Hin _]]; [exact H|]. destruct (builtin_facts k e H) as (_ & _ & _ & Hy & _). destruct (N k Hin). right. exact Hy.
Qed.
Lemma identities_other cm k e : from_identities cm -> look k cm = Some e -> look k builtin_map = Some e \/ (~ In k yang_types /\ exists t, e = derived_entry t (lit "string")).
Proof.
  intros (D & -> & N) H. destruct (identities_look D builtin_map k) as [E|[Hin (t & E)]]; [left; rewrite <- E; exact H|right]. split; [intros C; apply (N k Hin); right; exact C|]. exists t. congruence.
Qed.

Section Chain.
Context (xp : bool) (cm0 cm : class_map) (tds : list tdef).
Context (Hid : from_identities cm0) (Hsep : separate (known_types cm0) tds) (Hty : typedef_names tds) (Hm : made xp cm0 tds tds cm).
Lemma not_named t : In t yang_types -> forall td, ~ named tds t td.
Proof. intros H td N. apply (Hty t td N). right. exact H. Qed.
Lemma look_type t e : In t yang_types -> look t cm = Some e -> look t builtin_map = Some e.
Proof.
  intros H L. pose proof Hm as Hm0; destruct Hm0 as (_ & Ho & _). rewrite Ho in L by (intros td _; apply not_named; exact H). destruct (identities_other cm0 t e Hid L) as [E|[N _]]; [exact E|contradiction].
Qed.
Lemma builtin_up t e : look t builtin_map = Some e -> look t cm = Some e.
Proof. intros H. pose proof Hm as Hm0; destruct Hm0 as (E & _). apply E. apply (identities_builtin cm0 Hid). exact H. Qed.
Lemma derived_ups ty p e' : p <> lit "enumeration" -> look p builtin_map = Some e' -> ups cm (derived_entry ty p) [None] e'.
Proof.
  intros N L. destruct (builtin_facts p e' L) as (B & P & D & _). rewrite <- D. apply (ups_up cm _ p e' [] e'); [reflexivity|reflexivity|exact N|apply builtin_up; exact L|]. apply ups_here; assumption.
Qed.
Lemma string_ups ty : ups cm (derived_entry ty (lit "string")) [None] (builtin TStr true).
Proof. apply derived_ups; [vm_compute; discriminate|vm_compute; reflexivity]. Qed.
Definition top_ok (k : str) (ty : ytype) (e : centry) (ds : list (option str)) : Prop :=
  ((exists b, ups cm e ds b /\ look k builtin_map = Some b) \/ (at_bits cm e /\ ds = [] /\ k = lit "bits")) /\ (ce_parent e = None -> look (ty_arg ty) cm = Some e /\ ty_arg ty <> lit "enumeration" /\ ce_base e = true /\ ce_default e = None /\ ds = []).
Lemma top_derived k ty t p ds b : ups cm (derived_entry t p) ds b -> look k builtin_map = Some b -> top_ok k ty (derived_entry t p) ds.
Proof. intros U L. split; [left; exists b; split; assumption|discriminate]. Qed.
Lemma string_key ty : In (ty_arg ty) [lit "enumeration"; lit "leafref"; lit "identityref"] -> look (base_key ty) builtin_map = Some (builtin TStr true).
Proof. intros H. unfold base_key. apply str_in_In in H. rewrite H. vm_compute. reflexivity. Qed.
Lemma other_key ty e : look (ty_arg ty) builtin_map = Some e -> look (base_key ty) builtin_map = Some e.
Proof.
  intros H. unfold base_key. destruct (builtin_facts _ _ H) as (_ & _ & _ & _ & N). assert (F : str_in (ty_arg ty) [lit "enumeration"; lit "leafref"; lit "identityref"] = false).
  { apply str_in_false. intros C. apply N. destruct C as [C|[C|[C|[]]]]; [left|right; left|right; right; left]; exact C. }
  rewrite F. exact H.
Qed.
Lemma end_build ty r : In (ty_arg ty) yang_types -> (forall b l, ty_bases ty = b :: l -> ~ In b yang_types /\ forall td, ~ named tds b td) -> build_elemtype xp cm ty = Ok r ->
  exists e ds, r = EOne e /\ top_ok (base_key ty) ty e ds /\ length ds <= 1 /\ ce_default e = None /\ nearest ds = None.
Proof.
  intros Hy Hb H. destruct ty as [a ps ln rg en dg pt rq bs bi subs]. cbn [ty_arg ty_bases] in *. cbn [build_elemtype ty_arg ty_enums ty_digits ty_path ty_require ty_bases ty_bits ty_subs] in H.
  set (rs := restrictions (YType a ps ln rg en dg pt rq bs bi subs)) in *. destruct rs as [|r0 rs'].
  - destruct (str_eqb_spec a (lit "enumeration")) as [Ea|_].
    { match type of H with bind ?m _ = _ => destruct m as [u|]; cbn [bind] in H; [|discriminate] end. injection H as <-. eexists. exists [None]. split; [reflexivity|]. split; [apply (top_derived _ _ _ _ _ _ (string_ups _)), string_key; cbn [ty_arg]; rewrite Ea; left; reflexivity|]. split; [reflexivity|]. split; reflexivity. }
    destruct (str_eqb_spec a (lit "decimal64")) as [Ea|_].
    { destruct dg as [d|].
      - destruct (parse_int d) as [z|]; [|discriminate]. injection H as <-. eexists. exists [None]. split; [reflexivity|]. split; [|split; [reflexivity|split; reflexivity]].
        eapply (top_derived _ _ (TDecPrec z) (lit "decimal64") [None]); [apply derived_ups; [vm_compute; discriminate|vm_compute; reflexivity]|]. apply other_key. cbn [ty_arg]. rewrite Ea. vm_compute. reflexivity.
      - destruct (look a cm) as [e|] eqn:L; [|discriminate]. injection H as <-. pose proof (look_type a e Hy L) as Lb. destruct (builtin_facts a e Lb) as (B & P & D & _ & Ns).
        exists e, []. split; [reflexivity|]. split; [|split; [cbn; lia|split; [exact D|reflexivity]]]. split; [left; exists e; split; [apply ups_here; assumption|apply other_key; exact Lb]|]. intros _. cbn [ty_arg]. split; [exact L|]. split; [intros C; apply Ns; left; symmetry; exact C|]. auto. }
    destruct (str_eqb_spec a (lit "union")) as [Ea|_].
    { exfalso. subst a. assert (F : str_in (lit "union") yang_types = false) by (vm_compute; reflexivity). apply str_in_false in F. contradiction. }
    destruct (str_eqb_spec a (lit "leafref")) as [Ea|_].
    { destruct pt as [path|]; [|discriminate]. match type of H with bind ?m _ = _ => destruct m as [u|]; cbn [bind] in H; [|discriminate] end. assert (Hx : xp = true \/ xp = false) by (destruct xp; auto). destruct Hx as [Hx|Hx]; rewrite Hx in H; injection H as <-.
      - eexists. exists [None]. split; [reflexivity|]. split; [|split; [reflexivity|split; reflexivity]]. split; [left|discriminate]. exists (builtin TStr true). split; [|apply string_key; cbn [ty_arg]; rewrite Ea; right; left; reflexivity].
        apply (ups_up cm _ (lit "string") (builtin TStr true) [] (builtin TStr true)); [reflexivity|reflexivity|vm_compute; discriminate|apply builtin_up; vm_compute; reflexivity|apply ups_here; reflexivity].
      - eexists. exists [None]. split; [reflexivity|]. split; [apply (top_derived _ _ _ _ _ _ (string_ups _)), string_key; cbn [ty_arg]; rewrite Ea; right; left; reflexivity|]. split; [reflexivity|]. split; reflexivity. }
    destruct (str_eqb_spec a (lit "identityref")) as [Ea|_].
    { destruct bs as [|b bs']; [discriminate|]. destruct (look b cm) as [e|] eqn:L; [|discriminate]. injection H as <-. destruct (Hb b bs' eq_refl) as [Nb Nt].
      pose proof Hm as Hm0; destruct Hm0 as (_ & Ho & _). rewrite Ho in L by (intros td _; apply Nt). destruct (identities_other cm0 b e Hid L) as [E|[_ (t & ->)]].
      - destruct (builtin_facts b e E) as (_ & _ & _ & Hyb & _). contradiction.
      - eexists. exists [None]. split; [reflexivity|]. split; [apply (top_derived _ _ _ _ _ _ (string_ups _)), string_key; cbn [ty_arg]; rewrite Ea; right; right; left; reflexivity|]. split; [reflexivity|]. split; reflexivity. }
    destruct (str_eqb_spec a (lit "bits")) as [Ea|_].
    { match type of H with bind ?m _ = _ => destruct m as [u|]; cbn [bind] in H; [|discriminate] end. injection H as <-. eexists. exists []. split; [reflexivity|]. split; [|split; [cbn; lia|split; reflexivity]]. split; [right|discriminate].
      split; [|split; [reflexivity|unfold base_key; cbn [ty_arg]; rewrite Ea; vm_compute; reflexivity]]. split; [reflexivity|]. split; [reflexivity|]. split; [reflexivity|]. exists (builtin (TBits []) true). split; [apply builtin_up; vm_compute; reflexivity|]. split; [reflexivity|]. split; reflexivity. }
    destruct (look a cm) as [e|] eqn:L; [|discriminate]. injection H as <-. pose proof (look_type a e Hy L) as Lb. destruct (builtin_facts a e Lb) as (B & P & D & _ & Ns).
    exists e, []. split; [reflexivity|]. split; [|split; [cbn; lia|split; [exact D|reflexivity]]]. split; [left; exists e; split; [apply ups_here; assumption|apply other_key; exact Lb]|]. intros _. cbn [ty_arg]. split; [exact L|]. split; [intros C; apply Ns; left; symmetry; exact C|]. auto.
  - destruct (look a cm) as [e|] eqn:L; [|discriminate]. destruct (ce_native e) as [t|ts]; [|discriminate]. injection H as <-. pose proof (look_type a e Hy L) as Lb. destruct (builtin_facts a e Lb) as (_ & _ & _ & _ & Ns).
    eexists. exists [None]. split; [reflexivity|]. split; [|split; [reflexivity|split; reflexivity]]. apply (top_derived _ _ _ _ _ e); [|apply other_key; exact Lb]. apply derived_ups; [|exact Lb]. intros C. apply Ns. left. symmetry. exact C.
Qed.

(** What the code sees of the defaults along a chain. *)
Fixpoint seen (ty : ytype) (l : list tdef) : option str :=
  match l with
  | [] => None
  | td :: l' => match restrictions ty with [] => seen (td_type td) l' | _ => nearest [td_default td; seen (td_type td) l'] end
  end.
Definition direct (ty : ytype) (l : list tdef) : option str := match l with td :: _ => match restrictions ty with [] => td_default td | _ => None end | [] => None end.
Lemma typedef_up k td e'' ds'' known e' : top_ok k (td_type td) e'' ds'' -> typedef_entry known td (EOne e'') = Ok e' ->
  exists ds' b, ups cm e' ds' b /\ look k builtin_map = Some b /\ ce_default e' = td_default td /\ nearest ds' = nearest ds'' /\ length ds' <= Nat.max 1 (length ds'').
Proof.
  intros [Hu Hp] H. cbn [typedef_entry] in H. destruct (ce_parent e'') as [p|] eqn:P.
  - cbn [bind] in H. injection H as <-. destruct Hu as [(b & U & Lk)|((B & Pb & D & b & L & Bb & Pbb & Db) & -> & ->)].
    + inversion U as [e1 B1 P1|e1 q e2 ds b1 B1 P1 N1 L1 U1]; subst; [congruence|]. rewrite P in P1. injection P1 as ->. eexists. exists b. split; [apply (ups_up cm _ q e2 ds b); [reflexivity|reflexivity|exact N1|exact L1|exact U1]|].
      split; [exact Lk|]. split; [reflexivity|]. split; [reflexivity|]. apply Nat.le_max_r.
    + rewrite Pb in P. injection P as <-. exists [ce_default b], b. split; [apply (ups_up cm _ (lit "bits") b [] b); [reflexivity|reflexivity|vm_compute; discriminate|exact L|apply ups_here; assumption]|].
      split; [apply look_type; [apply str_in_In; vm_compute; reflexivity|exact L]|].
      split; [reflexivity|]. rewrite Db. split; [reflexivity|]. cbn. lia.
  - destruct (Hp eq_refl) as (L & N & B & D & ->). match type of H with bind ?m _ = _ => destruct m as [q|] eqn:Eq; cbn [bind] in H; [|discriminate] end. injection H as <-.
    destruct (str_in (ty_arg (td_type td)) known); [|discriminate]. injection Eq as <-.
    assert (Lk : look k builtin_map = Some e'').
    { destruct Hu as [(b & U & Lk)|((_ & Pb & _) & _)]; [|congruence]. inversion U; subst; try congruence; exact Lk. }
    exists [ce_default e''], e''. split; [apply (ups_up cm _ (ty_arg (td_type td)) e'' [] e''); [reflexivity|reflexivity|exact N|exact L|apply ups_here; assumption]|].
    split; [exact Lk|]. split; [reflexivity|]. rewrite D. split; [reflexivity|]. cbn. lia.
Qed.
Lemma chain_build ty l : chain tds ty l -> forall r, build_elemtype xp cm ty = Ok r ->
  exists e ds, r = EOne e /\ top_ok (base_key (end_of ty l)) ty e ds /\ length ds <= S (length l) /\ ce_default e = direct ty l /\ nearest ds = seen ty l.
Proof.
  induction 1 as [ty Hy Hb|ty td l Hn Hc IH]; intros r H.
  - destruct (end_build ty r Hy Hb H) as (e & ds & H1 & H2 & H3 & H4 & H5). exists e, ds. auto.
  - pose proof Hm as Hm0; destruct Hm0 as (_ & _ & Hd). destruct (Hd td (proj1 Hn)) as (et & e' & known & Eb & Ee & Hl). destruct (IH et Eb) as (e'' & ds'' & -> & Ht & Hlen & _ & Hsn).
    destruct (typedef_up _ td e'' ds'' known e' Ht Ee) as (ds' & b & U & Lk & D & Nr & Len). cbn [end_of]. specialize (Hl _ Hn). pose proof (Hty _ _ Hn) as Nt.
    assert (Nall : forall s, In s (lit "union" :: yang_types) -> ty_arg ty <> s) by (intros s Hs E; apply Nt; rewrite E; exact Hs).
    assert (Nl : forall s : String.string, str_in (lit s) (lit "union" :: yang_types) = true -> str_eqb (ty_arg ty) (lit s) = false) by (intros s Hs; apply str_eqb_neq, Nall, str_in_In, Hs).
    destruct ty as [a ps ln rg en dg pt rq bs bi subs]. cbn [ty_arg] in *. cbn [build_elemtype ty_arg ty_enums ty_digits ty_path ty_require ty_bases ty_bits ty_subs] in H. cbn [seen direct].
    set (rs := restrictions (YType a ps ln rg en dg pt rq bs bi subs)) in *. destruct rs as [|r0 rs'].
    + rewrite !Nl in H by (vm_compute; reflexivity). rewrite Hl in H. injection H as <-. exists e', ds'. split; [reflexivity|]. split; [|split; [cbn [length] in *; lia|split; [exact D|rewrite Nr; exact Hsn]]].
      split; [left; exists b; split; [exact U|exact Lk]|]. intros P. exfalso. inversion U as [e1 B1 P1|e1 q e2 ds b1 B1 P1 N1 L1 U1]; subst; [|congruence].
      cbn [typedef_entry] in Ee. match type of Ee with bind ?m _ = _ => destruct m as [q|]; cbn [bind] in Ee; [|discriminate] end. injection Ee as <-. discriminate.
    + rewrite Hl in H. destruct (ce_native e') as [t|ts]; [|discriminate]. injection H as <-. eexists. exists (ce_default e' :: ds'). split; [reflexivity|]. split; [|split; [cbn [length] in *; lia|split; [reflexivity|]]].
      * apply (top_derived _ _ _ _ _ b); [|exact Lk]. apply (ups_up cm _ a e' ds' b); [reflexivity|reflexivity| |exact Hl|exact U]. apply Nall. apply str_in_In. vm_compute. reflexivity.
      * rewrite D. cbn [nearest]. destruct (td_default td); [reflexivity|]. rewrite Nr, Hsn. destruct (seen (td_type td) l); reflexivity.
Qed.
Theorem default_exact O ty l fuel own r : chain tds ty l -> build_elemtype xp cm ty = Ok r -> length l < fuel ->
  exists x, leaf_default O fuel cm r own = Ok x /\ option_map fst x = nearest [direct ty l; own; seen ty l] /\
    forall d b, x = Some (d, b) -> look (base_key (end_of ty l)) builtin_map = Some b \/ (base_key (end_of ty l) = lit "bits" /\ r = EOne b).
Proof.
  intros C B F. destruct (chain_build ty l C r B) as (e & ds & -> & [Hu Hp] & Len & D & N). destruct Hu as [(b & U & Lk)|(Hb & -> & Lk)].
  - destruct (default_found cm O fuel e own ds b U) as (x & E1 & E2 & E3); [lia|]. exists x. split; [exact E1|]. split; [rewrite E2, D, N; reflexivity|].
    intros d b' Hx. left. rewrite (E3 d b' Hx). exact Lk.
  - destruct (default_bits cm O fuel e own Hb) as (x & E1 & E2 & E3); [lia|]. exists x. split; [exact E1|]. split.
    + destruct Hb as (_ & _ & De & _). rewrite E2, <- D, De, <- N. cbn. destruct own; reflexivity.
    + intros d b' Hx. right. split; [exact Lk|]. rewrite (E3 d b' Hx). reflexivity.
Qed.
(** References need a path helper. *)
Lemma builtin_ref k e : look k builtin_map = Some e -> ce_ref e = None.
Proof.
  intros H. apply look_some in H. assert (F : forallb (fun ke => match ce_ref (snd ke) with None => true | _ => false end) builtin_map = true) by (vm_compute; reflexivity).
  rewrite forallb_forall in F. specialize (F (k, e) H). cbn [snd] in F. destruct (ce_ref e); [discriminate|reflexivity].
Qed.
Lemma end_ref ty r : In (ty_arg ty) yang_types -> (forall b l, ty_bases ty = b :: l -> ~ In b yang_types /\ forall td, ~ named tds b td) -> build_elemtype xp cm ty = Ok r ->
  exists e, r = EOne e /\ ((xp = true -> ty_arg ty <> lit "leafref") -> ce_ref e = None).
Proof.
  intros Hy Hb H. destruct ty as [a ps ln rg en dg pt rq bs bi subs]. cbn [ty_arg ty_bases] in *. cbn [build_elemtype ty_arg ty_enums ty_digits ty_path ty_require ty_bases ty_bits ty_subs] in H.
  destruct (restrictions (YType a ps ln rg en dg pt rq bs bi subs)) as [|r0 rs'].
  - destruct (str_eqb a (lit "enumeration")).
    { match type of H with bind ?m _ = _ => destruct m as [u|]; cbn [bind] in H; [|discriminate] end. injection H as <-. eexists. split; [reflexivity|]. reflexivity. }
    destruct (str_eqb a (lit "decimal64")).
    { destruct dg as [d|].
      - destruct (parse_int d) as [z|]; [|discriminate]. injection H as <-. eexists. split; [reflexivity|]. reflexivity.
      - destruct (look a cm) as [e|] eqn:L; [|discriminate]. injection H as <-. pose proof (look_type a e Hy L) as Lb. exists e. split; [reflexivity|]. intros _. exact (builtin_ref _ _ Lb). }
    destruct (str_eqb_spec a (lit "union")) as [Ea|_].
    { exfalso. subst a. assert (F : str_in (lit "union") yang_types = false) by (vm_compute; reflexivity). apply str_in_false in F. contradiction. }
    destruct (str_eqb_spec a (lit "leafref")) as [Ea|_].
    { destruct pt as [path|]; [|discriminate]. match type of H with bind ?m _ = _ => destruct m as [u|]; cbn [bind] in H; [|discriminate] end. assert (Hx : xp = true \/ xp = false) by (destruct xp; auto).
      destruct Hx as [Hx|Hx]; rewrite Hx in H; injection H as <-; eexists; (split; [reflexivity|]); intros Hl; [destruct (Hl Hx Ea)|reflexivity]. }
    destruct (str_eqb a (lit "identityref")).
    { destruct bs as [|b bs']; [discriminate|]. destruct (look b cm) as [e|] eqn:L; [|discriminate]. injection H as <-. destruct (Hb b bs' eq_refl) as [Nb Nt].
      pose proof Hm as Hm0; destruct Hm0 as (_ & Ho & _). rewrite Ho in L by (intros td _; apply Nt). destruct (identities_other cm0 b e Hid L) as [E|[_ (t & ->)]].
      - destruct (builtin_facts b e E) as (_ & _ & _ & Hyb & _). contradiction.
      - eexists. split; reflexivity. }
    destruct (str_eqb a (lit "bits")).
    { match type of H with bind ?m _ = _ => destruct m as [u|]; cbn [bind] in H; [|discriminate] end. injection H as <-. eexists. split; reflexivity. }
    destruct (look a cm) as [e|] eqn:L; [|discriminate]. injection H as <-. pose proof (look_type a e Hy L) as Lb. exists e. split; [reflexivity|]. intros _. exact (builtin_ref _ _ Lb).
  - destruct (look a cm) as [e|] eqn:L; [|discriminate]. destruct (ce_native e) as [t|ts]; [|discriminate]. injection H as <-. eexists. split; reflexivity.
Qed.
Lemma chain_ref ty l : chain tds ty l -> forall r, build_elemtype xp cm ty = Ok r -> exists e, r = EOne e /\ ((xp = true -> ty_arg (end_of ty l) <> lit "leafref") -> ce_ref e = None).
Proof.
  induction 1 as [ty Hy Hb|ty td l Hn Hc IH]; intros r H; [exact (end_ref ty r Hy Hb H)|].
  pose proof Hm as Hm0; destruct Hm0 as (_ & _ & Hd). destruct (Hd td (proj1 Hn)) as (et & e' & known & Eb & Ee & Hl). destruct (IH et Eb) as (e'' & -> & Hr). specialize (Hl _ Hn). pose proof (Hty _ _ Hn) as Nt.
  assert (Nl : forall s : String.string, str_in (lit s) (lit "union" :: yang_types) = true -> str_eqb (ty_arg ty) (lit s) = false).
  { intros s Hs. apply str_eqb_neq. intros E. apply Nt. rewrite E. apply str_in_In, Hs. }
  destruct ty as [a ps ln rg en dg pt rq bs bi subs]. cbn [ty_arg] in *. cbn [build_elemtype ty_arg ty_enums ty_digits ty_path ty_require ty_bases ty_bits ty_subs] in H. cbn [end_of].
  destruct (restrictions (YType a ps ln rg en dg pt rq bs bi subs)) as [|r0 rs'].
  - rewrite !Nl in H by (vm_compute; reflexivity). rewrite Hl in H. injection H as <-. exists e'. split; [reflexivity|]. intros N. cbn [typedef_entry] in Ee.
    match type of Ee with bind ?m _ = _ => destruct m as [q|]; cbn [bind] in Ee; [|discriminate] end. injection Ee as <-. cbn [ce_ref]. exact (Hr N).
  - rewrite Hl in H. destruct (ce_native e') as [t|ts]; [|discriminate]. injection H as <-. eexists. split; reflexivity.
Qed.
End Chain.

Lemma nearest2 a ds : nearest [a; nearest ds] = nearest (a :: ds).
Proof. cbn [nearest]. destruct a; [reflexivity|]. destruct (nearest ds); reflexivity. Qed.
Lemma seen_nearest l : forall td, none_passed_over (td :: l) -> seen (td_type td) l = nearest (map td_default l).
Proof.
  induction l as [|td' l IH]; intros td H; [reflexivity|]. destruct H as [H1 H2]. cbn [seen map]. specialize (IH td' H2). destruct (restrictions (td_type td)) eqn:E.
  - apply restrictions_plain in E. rewrite (H1 E), IH. reflexivity.
  - rewrite IH. apply nearest2.
Qed.
Theorem default_nearest xp cm0 cm tds O ty l fuel own r : from_identities cm0 -> separate (known_types cm0) tds -> typedef_names tds -> process_typedefs xp cm0 tds = Ok cm ->
  chain tds ty l -> build_elemtype xp cm ty = Ok r -> length l < fuel ->
  none_passed_over l -> (own = None \/ ~ plain ty \/ forall td l', l = td :: l' -> td_default td = None) ->
  exists x, leaf_default O fuel cm r own = Ok x /\ option_map fst x = nearest (own :: map td_default l) /\
    forall d b, x = Some (d, b) -> look (base_key (end_of ty l)) builtin_map = Some b \/ (base_key (end_of ty l) = lit "bits" /\ r = EOne b).
Proof.
  intros Hid Hs Ht Hp C B F N Ov. pose proof (process_made xp cm0 tds cm Hs Hp) as M. destruct (default_exact xp cm0 cm tds Hid Ht M O ty l fuel own r C B F) as (x & E1 & E2 & E3).
  exists x. split; [exact E1|]. split; [|exact E3]. rewrite E2. clear E3. destruct l as [|td l'].
  - cbn [direct seen map nearest]. destruct own; reflexivity.
  - pose proof (seen_nearest l' td N) as S. cbn [direct seen map]. rewrite S. destruct (restrictions ty) eqn:E.
    + apply restrictions_plain in E. destruct Ov as [->|[Ov|Ov]]; [|contradiction|rewrite (Ov td l' eq_refl)].
      * cbn [nearest]. destruct (td_default td); [reflexivity|]. destruct (nearest (map td_default l')); reflexivity.
      * cbn [nearest]. destruct own; [reflexivity|]. destruct (nearest (map td_default l')); reflexivity.
    + rewrite nearest2. cbn [nearest]. destruct own; [reflexivity|]. destruct (td_default td); [reflexivity|]. destruct (nearest (map td_default l')); reflexivity.
Qed.
