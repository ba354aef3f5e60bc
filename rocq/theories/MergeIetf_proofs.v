(** The same for the IETF format: what is written is a valid document that says what the tree holds. *)
From Coq Require Import Lia.
From Verif Require Import PyStr PyStr_facts PyVal Restricted Spec_Types Spec_Lists IntTypes StrTypes MemberTypes TypedList TypedList_proofs YList YList_proofs SafeName
  Tree Spec_Tree Tree_proofs Tree_frame Tree_main Tree_hist Tree_dump Serialise Spec_Serialise Spec_Stored Load_proofs Serialise_proofs Json_proofs Ietf_proofs IetfRound_proofs
  Spec_Loading Spec_Shape Spec_Accept Spec_AcceptJson Spec_AcceptChoice Spec_Merge Merge_proofs.
From Verif Require Accept_proofs AcceptChoice_proofs.
Local Open Scope Z_scope.

Section I.
Context (O : oracle) (im : einfo -> str -> option str) (skip : bool) (top : list schema).
Context (Him : forall i s m, im i s = Some m -> no_colon m).
Context (Hnm : python_names top) (Hin : ietf_names top) (Hkl : key_leaves top).
Local Notation gen_kid := (gen_kid true WNone).
Local Notation gen_kids := (gen_kids true WNone).

Lemma enc_scalar i lt yt v j : enc_leaf O im true i lt yt v = Ok j -> yt <> lit "empty" -> scalar j.
Proof.
  assert (Hint : forall v j, enc_int v = Ok j -> scalar j) by (intros v0 j0; unfold enc_int; destruct (py_int v0); [|discriminate]; intros E; cbn in E; now injection E as <-).
  assert (Hlong : forall v j, enc_long O true v = Ok j -> scalar j) by (intros v0 j0 E; unfold enc_long in E; now injection E as <-).
  assert (Hdec : forall v j, enc_decimal O true v = Ok j -> scalar j) by (intros v0 j0 E; unfold enc_decimal in E; now injection E as <-).
  assert (Hbin : forall v j, enc_binary v = Ok j -> scalar j) by (intros v0 j0 E; unfold enc_binary in E; destruct v0; try discriminate; now injection E as <-).
  assert (Hnat : forall v j, enc_native O true v = Ok j -> scalar j) by (intros v0 j0 E; unfold enc_native in E; destruct v0; try discriminate; eauto; now injection E as <-).
  assert (Hstr : forall t (j : json), Ok (JStr t) = Ok j -> scalar j) by (intros t j0 E; now injection E as <-).
  assert (Hcl : forall t v j, enc_class O true true t v = Ok j -> scalar j).
  { intros t v0 j0 E. unfold enc_class in E. cbn [orb] in E. destruct (base_of t) eqn:Eb; try discriminate; eauto; try (now injection E as <-); [destruct (int64_class t); eauto|destruct v0; try discriminate; now injection E as <-]. }
  intros E Hne. unfold enc_leaf in E. cbv zeta in E. rewrite (str_eqb_neq _ _ Hne) in E.
  repeat match type of E with (if ?b then _ else _) = _ => destruct b end; eauto.
  - destruct (base_of (leaf_class O lt v)); eauto.
  - unfold enc_identity in E. destruct (im i (py_str O v)); [destruct (negb _ && negb _)%bool|]; injection E as <-; exact I.
  - now injection E as <-.
Qed.

Definition shown (s : schema) (x : obj) (j : json) : Prop :=
  ietf_valid O skip s j /\
  (forall r w, says O s j r w -> exists t y, sub s r = Some t /\ node x r = Some y /\ has_data t y) /\
  (forall r t y w, sub s r = Some t -> node x r = Some y -> holds_ietf t y w \/ is_entry r = true /\ w = WThere ->
     exists r', Forall2 step_eq r' r /\ says O s j r' w).
Definition fine (s : schema) : Prop := forall q x ns nm t j, schema_at top q = Some s -> ends_kid q -> suited s -> storable O Ietf s x ->
  (is_key s = true -> s_ytype s <> lit "empty") -> gen_kid ns s x = Some (nm, t) -> enc_itree O im t = Ok j -> shown s x j.

(** What is held below is written. *)
Lemma written_above z : forall s x t y w ns, sub s z = Some t -> node x z = Some y -> holds_ietf t y w \/ is_entry z = true -> gen_kid ns s x <> None.
Proof.
  induction z as [|[n|k] z IH]; intros s x t y w ns Hs Hx Hd.
  - cbn in Hs, Hx. injection Hs as <-. injection Hx as <-. destruct Hd as [Hd|Hd]; [|discriminate]. inversion Hd; subst; [discriminate|discriminate|]. rewrite gen_cont. destruct (gen_kids _ _ _); discriminate.
  - cbn [sub node] in Hs, Hx. destruct s; try discriminate. destruct x; try discriminate. destruct (nth_error cs n) as [s0|] eqn:E1; [|discriminate]. destruct (nth_error kids n) as [x0|] eqn:E2; [|discriminate].
    assert (H0 : gen_kid (Some (e_ns i)) s0 x0 <> None). { apply (IH s0 x0 t y w _ Hs Hx). destruct Hd as [Hd|Hd]; [now left|right]. destruct z; [discriminate|exact Hd]. }
    rewrite gen_cont. assert (gen_kids (Some (e_ns i)) cs kids <> []); [|destruct (gen_kids (Some (e_ns i)) cs kids); [congruence|discriminate]].
    clear - H0 E1 E2. revert kids n E1 E2. induction cs as [|c cs IHc]; intros [|y kids] [|n] E1 E2; try discriminate; cbn in E1, E2; cbn [Serialise.gen_kids].
    + injection E1 as ->. injection E2 as ->. destruct (gen_kid (Some (e_ns i)) s0 x0); [discriminate|congruence].
    + destruct (gen_kid (Some (e_ns i)) c y); [discriminate|]. exact (IHc _ _ E1 E2).
  - cbn [sub node] in Hs, Hx. destruct s; try discriminate. destruct x; try discriminate. rewrite gen_list. destruct es; [discriminate|discriminate].
Qed.
Lemma gen_in ns cs : forall kids n s x g, nth_error cs n = Some s -> nth_error kids n = Some x -> gen_kid ns s x = Some g -> In g (gen_kids ns cs kids).
Proof.
  induction cs as [|s0 cs IH]; intros [|x0 kids] [|n] s x d Hs Hx Hd; try discriminate; cbn in Hs, Hx; cbn [Serialise.gen_kids].
  - injection Hs as ->. injection Hx as ->. rewrite Hd. now left.
  - destruct (gen_kid ns s0 x0); [right|]; eapply IH; eassumption.
Qed.
Lemma gen_from ns cs : forall kids g, In g (gen_kids ns cs kids) -> exists n s x, nth_error cs n = Some s /\ nth_error kids n = Some x /\ gen_kid ns s x = Some g.
Proof.
  induction cs as [|s0 cs IH]; intros [|x0 kids] g H; try contradiction. cbn [Serialise.gen_kids] in H.
  destruct (gen_kid ns s0 x0) as [d0|] eqn:E.
  - destruct H as [H|H]; [subst g; exists 0%nat, s0, x0; auto|]. destruct (IH _ _ H) as (n & H'). now exists (S n).
  - destruct (IH _ _ H) as (n & H'). now exists (S n).
Qed.
Lemma local_own ns cs n s : inamed_ok cs -> nth_error cs n = Some s -> local_name (qualified ns (s_info s)) = e_yang (s_info s) /\ ~ In 64%N (qualified ns (s_info s)).
Proof.
  intros [_ H] Hs. rewrite Forall_forall in H. destruct (H s (nth_error_In _ _ Hs)) as (H1 & H2 & H3). split; [now apply local_qualified|].
  intros Hi. pose proof (metadata_qualified ns _ H2 H3) as M. unfold metadata in M. assert (existsb (N.eqb 64) (qualified ns (s_info s)) = true); [|congruence]. apply existsb_exists. exists 64%N. split; [exact Hi|reflexivity].
Qed.
Lemma gen_names ns cs : inamed_ok cs -> forall kids, NoDup (map (fun nd => safe_name (local_name (fst nd))) (gen_kids ns cs kids)).
Proof.
  intros [[Hd Hn] Hc]. induction cs as [|s cs IH]; intros [|x kids]; try constructor. cbn [map] in Hd. inversion Hd as [|? ? Hni Hd']; subst. inversion Hn as [|? ? [Hp _] Hn']; subst. inversion Hc as [|? ? [Hc1 _] Hc']; subst.
  cbn [Serialise.gen_kids]. destruct (gen_kid ns s x) as [[nm d]|] eqn:Eg; [|now apply IH]. cbn [map fst]. pose proof (gen_name _ _ _ _ _ _ _ Eg) as ->. rewrite local_qualified by assumption. constructor; [|now apply IH].
  intros Hi. apply in_map_iff in Hi. destruct Hi as ([nm d'] & E & Hi). cbn [fst] in E. destruct (gen_from _ _ _ _ Hi) as (n & s' & x' & Hs' & _ & Hg'). pose proof (gen_name _ _ _ _ _ _ _ Hg') as ->.
  pose proof (nth_error_In _ _ Hs') as Hi'. rewrite Forall_forall in Hc', Hn'. rewrite local_qualified in E by apply (Hc' _ Hi').
  apply Hni. rewrite Hp, <- E, <- (proj1 (Hn' _ Hi')). change (e_py (s_info s')) with ((fun s => e_py (s_info s)) s'). now apply in_map.
Qed.

Definition item_of ns (cs : list schema) (kids : list obj) (kj : str * json) : Prop :=
  exists n s x nm t, nth_error cs n = Some s /\ nth_error kids n = Some x /\ gen_kid ns s x = Some (nm, t) /\ fst kj = qualified ns (s_info s) /\ enc_itree O im t = Ok (snd kj).
Lemma kids_doc ns cs kids ms : inamed_ok cs -> map_res (member_enc O im) (gen_kids ns cs kids) = Ok ms ->
  Forall (item_of ns cs kids) ms /\ NoDup (map (fun m => safe_name (local_name (fst m))) ms) /\
  (forall n s x nm t, nth_error cs n = Some s -> nth_error kids n = Some x -> gen_kid ns s x = Some (nm, t) -> exists j, In (qualified ns (s_info s), j) ms /\ enc_itree O im t = Ok j).
Proof.
  intros Hn H. pose proof (map_res_all _ _ _ H) as F.
  assert (G : forall nm t j, member_enc O im (nm, t) = Ok j -> exists j0, j = (nm, j0) /\ enc_itree O im t = Ok j0).
  { intros nm t j E. unfold member_enc in E. cbn [fst snd] in E. destruct (enc_itree O im t) as [j0|]; [|discriminate]. cbn in E. injection E as <-. now exists j0. }
  split; [|split].
  - apply Forall_forall. intros kj Hkj. destruct (F2_in_r _ _ _ F _ Hkj) as ([nm t] & Hi & E). destruct (gen_from _ _ _ _ Hi) as (n & s & x & Hs & Hx & Hg).
    destruct (G _ _ _ E) as (j0 & -> & Ej). exists n, s, x, nm, t. pose proof (gen_name _ _ _ _ _ _ _ Hg). auto.
  - pose proof (gen_names ns cs Hn kids) as N. replace (map (fun m : str * json => safe_name (local_name (fst m))) ms) with (map (fun nd : str * itree => safe_name (local_name (fst nd))) (gen_kids ns cs kids)); [exact N|].
    clear - F G. induction F as [|[nm t] b l l' E HF IH]; [reflexivity|]. cbn [map]. rewrite IH. destruct (G _ _ _ E) as (j0 & -> & _). reflexivity.
  - intros n s x nm t Hs Hx Hg. destruct (F2_in_l _ _ _ F _ (gen_in _ _ _ _ _ _ _ Hs Hx Hg)) as (kj & Hi & E). destruct (G _ _ _ E) as (j0 & -> & Ej). exists j0. pose proof (gen_name _ _ _ _ _ _ _ Hg) as <-. auto.
Qed.

Lemma spelt_local ns cs n s : inamed_ok cs -> nth_error cs n = Some s -> spelt cs (local_name (qualified ns (s_info s))) n s.
Proof. intros Hn Hs. rewrite (proj1 (local_own ns cs n s Hn Hs)). apply spelt_own; [apply Hn|exact Hs]. Qed.

Lemma kids_fine ns i pr cs : inamed_ok cs -> Forall fine cs -> (forall n s, nth_error cs n = Some s -> exists q, schema_at top q = Some s /\ ends_kid q) -> Forall suited cs ->
  forall c ps kids ms, Forall2 (storable O Ietf) cs kids -> (forall s, In s cs -> is_key s = true -> s_ytype s <> lit "empty") ->
  map_res (member_enc O im) (gen_kids ns cs kids) = Ok ms -> (pr = true -> ps = true) ->
  shown (SCont i pr cs) (OCont c ps kids) (JObj ms).
Proof.
  intros Hn HF Hq Hsu c ps kids ms Hst Hke Hms Hpp. destruct (kids_doc ns cs kids ms Hn Hms) as (Hi & Hd & Hc). rewrite Forall_forall in HF, Hsu, Hi.
  assert (Hfine : forall a s x nm t j, nth_error cs a = Some s -> nth_error kids a = Some x -> gen_kid ns s x = Some (nm, t) -> enc_itree O im t = Ok j -> shown s x j).
  { intros a s x nm t j Hs Hx Hg He. pose proof (nth_error_In _ _ Hs) as HI. destruct (Hq a s Hs) as (q & Hq' & Hend). destruct (Forall2_nth _ _ _ _ _ Hst Hs) as (x' & Hx' & Hst'). rewrite Hx in Hx'. injection Hx' as <-.
    exact (HF s HI q x ns nm t j Hq' Hend (Hsu s HI) Hst' (Hke s HI) Hg He). }
  split; [|split].
  - apply VCont.
    + split.
      * apply (NoDup_map_inv (fun k => safe_name (local_name k))). now rewrite map_map.
      * intros ms1 key j ms2 key' j' ms3 -> _ _ a s s' [Hs Hp] [Hs' Hp']. rewrite Hs in Hs'. injection Hs' as <-. rewrite map_app in Hd. cbn [map fst] in Hd. apply NoDup_remove_2 in Hd. apply Hd. apply in_or_app. right.
        rewrite map_app. apply in_or_app. right. left. cbn [fst]. congruence.
    + intros key j Hk. right. left. destruct (Hi _ Hk) as (a & s & x & nm & t & Hs & Hx & Hg & Ek & He). cbn [fst snd] in *. subst key. exists a, s. split; [now apply spelt_local|].
      exact (proj1 (Hfine a s x nm t j Hs Hx Hg He)).
  - intros r w Ht. inversion Ht as [| |? ? ?|? ? ? ? key j a s r' ? Hk Has Hsp Ht'| |]; subst.
    + exists (SCont i true cs), (OCont c ps kids). split; [reflexivity|]. split; [reflexivity|]. rewrite (Hpp eq_refl). unfold has_data. rewrite get_cont. destruct (get_kids true cs kids); discriminate.
    + destruct (Hi _ Hk) as (a' & s' & x & nm & t & Hs & Hx & Hg & Ek & He). cbn [fst snd] in *. subst key.
      destruct (Accept_proofs.spelt_one cs _ _ _ _ _ (proj1 (proj1 Hn)) Hsp (spelt_local ns cs a' s' Hn Hs)) as [-> ->].
      cbn [sub node]. rewrite Hs, Hx. exact (proj1 (proj2 (Hfine a' s' x nm t j Hs Hx Hg He)) r' w Ht').
  - intros r t y w Hsub Hnode Hw. destruct r as [|[a|k] r].
    + cbn in Hsub, Hnode. injection Hsub as <-. injection Hnode as <-. destruct Hw as [Hw|[Hw _]]; [|discriminate]. inversion Hw; subst. exists []. split; constructor.
    + cbn [sub node] in Hsub, Hnode. destruct (nth_error cs a) as [s|] eqn:Hs; [|discriminate]. destruct (nth_error kids a) as [x|] eqn:Hx; [|discriminate].
      assert (Hdt : gen_kid ns s x <> None).
      { apply (written_above r s x t y w ns Hsub Hnode). destruct Hw as [Hw|[Hw _]]; [now left|]. right. destruct r; [discriminate|exact Hw]. }
      destruct (gen_kid ns s x) as [[nm g]|] eqn:Hg; [|congruence].
      destruct (Hc a s x nm g Hs Hx Hg) as (j & Hk & He).
      destruct (proj2 (proj2 (Hfine a s x nm g j Hs Hx Hg He)) r t y w Hsub Hnode) as (r' & H1 & H2).
      { destruct Hw as [Hw|[Hw ->]]; [now left|]. right. split; [|reflexivity]. destruct r; [discriminate|exact Hw]. }
      exists (Kid a :: r'). split; [constructor; [constructor|exact H1]|].
      apply SaysIn with (qualified ns (s_info s)) j s; [exact Hk|exact (proj2 (local_own ns cs a s Hn Hs))|now apply spelt_local|exact H2].
    + discriminate.
Qed.

Lemma leaf_sent i w (d : option pyval) yt (k : bool) v j : type_name w yt -> leaf_ok O Ietf w yt v -> enc_leaf O im true i (ltype_of w) yt v = Ok j ->
  exists j', sent yt j j' /\ d_out (leaf_assign O (ltype_of w) (jval j')) = Ok v.
Proof.
  intros Hn Hl He. destruct (ietf_leaf O im Him i w d yt k v Hn Hl) as (j0 & j' & E0 & Hto & Hv & Hnn & Ha). rewrite He in E0. injection E0 as <-. exists j'. split; [|exact Ha].
  unfold ietf_value in Hv. cbn [s_ytype] in Hv. destruct (list_eq_dec N.eq_dec yt (lit "empty")) as [->|Hne].
  - left. split; [reflexivity|]. rewrite str_eqb_refl in Hv. assert (j = JArr [JNull]) as ->; [|split; [reflexivity|]].
    + destruct j as [| | | | |l|]; try discriminate Hv. destruct l as [|[] [|]]; try discriminate Hv. reflexivity.
    + cbn [bind] in Hv. change (str_eqb (lit "empty") (lit "identityref")) with false in Hv. now injection Hv as <-.
  - right. rewrite (str_eqb_neq _ _ Hne) in Hv. cbn [bind] in Hv. split; [exact Hne|]. pose proof (enc_scalar _ _ _ _ _ He Hne) as Hsc. split; [exact Hsc|].
    destruct (list_eq_dec N.eq_dec yt (lit "identityref")) as [->|Hid].
    + rewrite str_eqb_refl in Hv. destruct j as [| | | |t|l|]; try contradiction; try discriminate Hv. split; [|intros _; now exists t].
      destruct (has_char 58 t) eqn:Hc; injection Hv as <-.
      * unfold has_char in Hc. apply existsb_exists in Hc. destruct Hc as (c & Hc & Ec). apply N.eqb_eq in Ec. subst c.
        assert (Hcut : exists a b, t = a ++ lit ":" ++ b /\ ~ In 58%N a).
        { clear - Hc. induction t as [|c t IH]; [contradiction|]. destruct (N.eq_dec c 58) as [->|Hne]; [exists [], t; split; [reflexivity|intros []]|].
          destruct Hc as [Hc|Hc]; [congruence|]. destruct (IH Hc) as (a & b & -> & Hn). exists (c :: a), b. split; [reflexivity|]. intros [H|H]; auto. }
        destruct Hcut as (a & b & -> & Ha'). rewrite (proj2 (Accept_proofs.after_colon_cut a b Ha')). now constructor.
      * constructor. right. intros v0 E Hv0. injection E as ->. unfold has_char in Hc. assert (existsb (N.eqb 58) v0 = true); [|congruence]. apply existsb_exists. exists 58%N. split; [exact Hv0|reflexivity].
    + rewrite (str_eqb_neq _ _ Hid) in Hv. injection Hv as <-. split; [|congruence]. constructor. now left.
Qed.
Lemma leaf_fine i lt d yt k : fine (SLeaf i lt d yt k).
Proof.
  intros q x ns nm t j _ _ _ Hst Hke Hg He. inversion Hst as [? w ? ? ? ch v Hok| | |]; subst. cbn in Hg. destruct ch; [|discriminate]. injection Hg as <- <-. cbn [enc_itree] in He.
  destruct (Hok eq_refl) as [Hn Hl]. destruct (leaf_sent i w d yt k v j Hn Hl He) as (j' & Hs & Ha). split; [|split].
  - destruct k; [|eapply VLeaf; eassumption]. constructor. eapply enc_scalar; [exact He|]. now apply Hke.
  - intros r w' Ht. inversion Ht; subst; eexists _, _; (split; [reflexivity|split; [reflexivity|discriminate]]).
  - intros r t y w' Hsub Hnode Hw. destruct r as [|[]]; try discriminate. cbn in Hsub, Hnode. injection Hsub as <-. injection Hnode as <-. destruct Hw as [Hw|[Hw _]]; [|discriminate]. inversion Hw; subst.
    exists []. split; [constructor|]. econstructor; eassumption.
Qed.
Lemma leaf_list_fine i ts yt : fine (SLeafList i ts yt).
Proof.
  intros q x ns nm g j Hq Hend Hsu Hst _ Hg He. pose proof (storable_iready O im Him top Hnm Hkl _ q Hq Hend x Hst) as Hr.
  inversion Hst as [|? t ? ch l Hwf Hyt Hall Hd Hch| |]; subst. inversion Hr as [|? ? ? ? ? js Hjs Hdist _ Hv| |]; subst. cbn in Hg. destruct ch; [|discriminate]. injection Hg as <- <-. cbn [enc_itree] in He.
  unfold enc_members in He. assert (E : map_res (enc_member O true [pty_of t]) l = Ok js).
  { clear - Hjs. induction Hjs as [|v j l0 js0 (H & _) HF IH]; [reflexivity|]. rewrite map_res_cons, H. cbn [bind]. now rewrite IH. }
  rewrite E in He. cbn in He. injection He as <-.
  assert (Hb : tl_init O [pty_of t] true (jval (JArr js)) = Ok l).
  { cbn [jval tl_init]. rewrite (build_all O [pty_of t] js [] l l Hjs Hdist (incl_nil_l _) (incl_refl _)). reflexivity. }
  split; [|split].
  - apply VLeafList; [exact Hyt| |right; now exists l]. intros -> Hc. unfold ietf_value in Hv. cbn [s_ytype] in Hv. change (str_eqb (lit "identityref") (lit "empty")) with false in Hv. rewrite str_eqb_refl in Hv. cbn [bind] in Hv.
    replace (existsb _ js) with true in Hv; [discriminate|]. symmetry. apply existsb_exists. exists (JStr (lit ":")). split; [exact Hc|reflexivity].
  - intros r w' Ht. inversion Ht as [|? ? ? ? vs Hne Hi| | | |]; subst. exists (SLeafList i [pty_of t] yt), (OLeafList true l). split; [reflexivity|]. split; [reflexivity|]. unfold has_data. cbn.
    destruct l; [|discriminate]. inversion Hjs; subst. congruence.
  - intros r t0 y w' Hsub Hnode Hw. destruct r as [|[]]; try discriminate. cbn in Hsub, Hnode. injection Hsub as <-. injection Hnode as <-. destruct Hw as [Hw|[Hw _]]; [|discriminate]. inversion Hw; subst.
    exists []. split; [constructor|]. constructor; [|exact Hb]. intros ->. inversion Hjs; subst. congruence.
Qed.
Lemma kid_places q i pr cs : schema_at top q = Some (SCont i pr cs) -> forall n s, nth_error cs n = Some s -> exists q', schema_at top q' = Some s /\ ends_kid q'.
Proof. intros Hq n s Hs. exists (q ++ [Kid n]). split; [now rewrite (schema_kid top q i pr cs)|apply ends_kid_app]. Qed.
Lemma names_here q i pr cs : schema_at top q = Some (SCont i pr cs) -> inamed_ok cs.
Proof. intros Hq. split; [exact (Hnm _ _ _ _ Hq)|exact (Hin _ _ _ _ Hq)]. Qed.
Lemma cont_fine i pr cs : Forall fine cs -> fine (SCont i pr cs).
Proof.
  intros IH q x ns nm g j Hq Hend Hsu Hst _ Hg He. inversion Hst as [| |? ? ? ch pres kids Hk Hp|]; subst. inversion Hsu as [| |? ? ? Hsk|]; subst. rewrite gen_cont in Hg.
  assert (Hgg : g = IDict (gen_kids (Some (e_ns i)) cs kids)). { destruct (gen_kids (Some (e_ns i)) cs kids); [destruct pres; congruence|congruence]. }
  assert (Hpp : pr = true -> pres = true).
  { intros Epr. destruct (Hp eq_refl Epr) as [H|H]; [exact H|]. rewrite (untouched_gens _ _ _ H) in Hg. destruct pres; [reflexivity|discriminate]. }
  subst g. clear Hg. rewrite enc_dict in He. destruct (map_res (member_enc O im) (gen_kids (Some (e_ns i)) cs kids)) as [ms|] eqn:E; [|discriminate]. cbn in He. injection He as <-.
  apply (kids_fine (Some (e_ns i)) i pr cs (names_here _ _ _ _ Hq) IH (kid_places q i pr cs Hq) Hsk ch pres kids ms Hk); auto.
  intros s Hs Hks. destruct Hend as (q' & n & ->). destruct Hkl as (_ & Hkc & _). pose proof (Hkc _ _ _ _ _ Hq) as F. rewrite Forall_forall in F. rewrite (F s Hs) in Hks. discriminate.
Qed.

(** The keys of an entry, as they stand in its document. *)
Lemma key_types keys cs kids k : ietf_key O keys cs kids k -> keys <> [] -> forall n, In n keys -> exists a i lt d yt kf v, nth_error cs a = Some (SLeaf i lt d yt kf) /\ e_py i = n /\ nth_error kids a = Some (OLeaf true v) /\ yt <> lit "empty".
Proof.
  assert (H : forall n t yt v, key_leaf O Ietf cs kids n t yt v -> yt <> lit "empty" -> exists a i lt d yt kf v, nth_error cs a = Some (SLeaf i lt d yt kf) /\ e_py i = n /\ nth_error kids a = Some (OLeaf true v) /\ yt <> lit "empty").
  { intros n t yt v (a & i & d & kf & Ha & Hp & Hx & _) Hne. exists a, i, (LOne (pty_of t)), d, yt, kf, v. auto. }
  assert (T : forall t yt, type_name (WVal t) yt -> (match t with MStr _ | MText | MEnum _ => yt <> lit "identityref" | MInt _ => True | _ => False end) -> yt <> lit "empty").
  { intros t yt Ht Hm. apply (type_ordinary t yt Ht). destruct t; try exact I; try contradiction; exact Hm. }
  intros Hk Hne n Hi. destruct keys as [|n0 [|n1 ks]]; [congruence| |].
  - destruct Hi as [<-|[]]. destruct Hk as (t & yt & v & Hl & Hty & Hs). apply (H _ _ _ _ Hl). apply (T t yt Hty). destruct t; cbn in Hs; try contradiction; try exact I; apply Hs.
  - destruct Hk as (parts & _ & _ & HF). destruct (F2_in_l _ _ _ HF _ Hi) as (p & _ & t & yt & v & Hl & Hty & Hs). apply (H _ _ _ _ Hl). apply (T t yt Hty). destruct t; cbn in Hs; try contradiction; try exact I; apply Hs.
Qed.
Lemma entry_keys i keys cs kids k ms : inamed_ok cs -> keys <> [] -> Forall (fun s => In (e_py (s_info s)) keys -> e_ns (s_info s) = e_ns i) cs ->
  (forall s, In s cs -> In (e_py (s_info s)) keys -> is_key s = true) -> ietf_key O keys cs kids k ->
  map_res (member_enc O im) (gen_kids (Some (e_ns i)) cs kids) = Ok ms ->
  (forall k', entry_key O cs keys (JObj ms) k' <-> k' = k) /\ good_key O cs keys (JObj ms) /\ has_data (entry_schema cs) (OCont false false kids).
Proof.
  intros Hn Hne Hns Hmark Hk Hms. destruct (kids_doc _ _ _ _ Hn Hms) as (Hi & Hd & Hc). rewrite Forall_forall in Hi.
  destruct (ietf_key_made O im keys cs kids i k (proj1 (proj1 Hn)) Hne Hns Hk) as (kvs & Hkv & Hmade).
  pose proof (key_types keys cs kids k Hk Hne) as Hty.
  (* each key in the document *)
  assert (Hdoc : Forall2 (fun n kv => exists a ki lt d yt j v, nth_error cs a = Some (SLeaf ki lt d yt true) /\ e_py ki = n /\ nth_error kids a = Some (OLeaf true v) /\ In (e_yang ki, j) ms /\ scalar j /\ jval j = kv /\ d_out (leaf_assign O lt kv) = Ok v) keys kvs).
  { assert (Hall : forall n, In n keys -> forall kv, key_value O im cs kids i n kv -> exists a ki lt d yt j v, nth_error cs a = Some (SLeaf ki lt d yt true) /\ e_py ki = n /\ nth_error kids a = Some (OLeaf true v) /\ In (e_yang ki, j) ms /\ scalar j /\ jval j = kv /\ d_out (leaf_assign O lt kv) = Ok v).
    { intros n Hin' kv (a & ki & lt & d & yt & kf & v & j & Ha & Hs & Hx & Hens & He & Ej & Hv).
      destruct (Hty n Hin') as (a' & ki' & lt' & d' & yt' & kf' & v' & Hs' & Hp' & Hx' & Hyt).
      pose proof (kid_index_nth cs (proj1 (proj1 Hn)) _ _ Hs') as Ha'. cbn [s_info] in Ha'. rewrite Hp', Ha in Ha'. injection Ha' as <-. rewrite Hs in Hs'. injection Hs' as <- <- <- <- <-.
      assert (kf = true) as ->. { apply (Hmark _ (nth_error_In _ _ Hs)). cbn. now rewrite Hp'. }
      destruct (Hc a _ _ (qualified (Some (e_ns i)) ki) (Serialise.ILeaf ki lt yt v) Hs Hx eq_refl) as (j0 & Hj0 & Ej0). cbn [enc_itree] in Ej0. rewrite He in Ej0. injection Ej0 as <-.
      cbn [s_info] in Hj0. unfold qualified in Hj0. rewrite Hens, str_eqb_refl in Hj0.
      exists a, ki, lt, d, yt, j, v. split; [exact Hs|]. split; [exact Hp'|]. split; [exact Hx|]. split; [exact Hj0|]. split; [exact (enc_scalar _ _ _ _ _ He Hyt)|]. auto. }
    clear - Hall Hkv. induction Hkv as [|n kv ks kvs0 Hh HF IH]; constructor; [apply Hall; [now left|exact Hh]|apply IH; intros n' Hn'; apply Hall; now right]. }
  assert (Huniq : forall kd, i_key_values cs keys (JObj ms) kd <-> kd = combine keys kvs).
  { intros kd. split.
    - intros (ms0 & E & HF). injection E as <-. clear - HF Hdoc Hn Hd. revert kd HF. induction Hdoc as [|n kv ks kvs0 (a & ki & lt & d & yt & j & v & Hs & Hp & _ & Hj & _ & Ej & _) HD IH]; intros kd HF; inversion HF as [|? [k0 v0] ? kd0 (E0 & b & s & j' & Hs' & Hp' & Hj' & Ev) HF']; subst; [reflexivity|].
      cbn [combine]. rewrite (IH _ HF'). cbn [fst snd] in *. subst k0 v0.
      destruct (Accept_proofs.spelt_one cs (e_yang ki) a (SLeaf ki lt d yt true) b s (proj1 (proj1 Hn))) as [<- <-].
      { now apply (spelt_own cs a (SLeaf ki lt d yt true) (proj1 Hn)). }
      { split; [exact Hs'|]. rewrite Hp'. destruct Hn as [[_ Hnn] _]. rewrite Forall_forall in Hnn. exact (proj1 (Hnn _ (nth_error_In _ _ Hs))). }
      cbn [s_info] in Hj'. assert (j = j') as <-; [|reflexivity].
      clear - Hd Hj Hj'. assert (NoDup (map fst ms)) as N. { apply (NoDup_map_inv (fun k => safe_name (local_name k))). now rewrite map_map. }
      clear Hd. induction ms as [|[k0 j0] ms IH]; [contradiction|]. cbn [map fst] in N. inversion N as [|? ? Hni N']; subst.
      destruct Hj as [Hj|Hj], Hj' as [Hj'|Hj']; [congruence| | |auto]; exfalso; apply Hni; [injection Hj as -> ->; apply in_map_iff; exists (e_yang ki, j'); auto|injection Hj' as -> ->; apply in_map_iff; exists (e_yang ki, j); auto].
    - intros ->. exists ms. split; [reflexivity|]. clear - Hdoc. induction Hdoc as [|n kv ks kvs0 (a & ki & lt & d & yt & j & v & Hs & Hp & _ & Hj & _ & Ej & _) HD IH]; constructor; [|exact IH]. split; [reflexivity|]. exists a, (SLeaf ki lt d yt true), j. auto. }
  assert (Hlen : length keys = length kvs) by (clear - Hdoc; induction Hdoc; cbn; congruence).
  assert (Hkey : k = match combine keys kvs with [(_, v)] => v | _ => VStr (key_text O (combine keys kvs)) end).
  { assert (Hkt : forall ks vs, length ks = length vs -> key_text O (combine ks vs) = join [32%N] (map (py_str O) vs)).
    { intros ks vs Hl. unfold key_text. f_equal. revert vs Hl. induction ks as [|a ks IH]; intros [|v vs] Hl; try discriminate; [reflexivity|]. cbn. rewrite IH by (cbn in Hl; lia). reflexivity. }
    destruct keys as [|n0 [|n1 ks]]; [congruence| |].
    - cbn in Hmade. destruct Hmade as [-> _]. reflexivity.
    - destruct kvs as [|v0 [|v1 vs]]; try discriminate. destruct Hmade as [-> _]. rewrite <- (Hkt (n0 :: n1 :: ks)) by exact Hlen. reflexivity. }
  assert (Hek : forall k', entry_key O cs keys (JObj ms) k' <-> k' = k).
  { intros k'. split; [intros (kd & H1 & ->); apply Huniq in H1; subst kd; now symmetry|]. intros ->. exists (combine keys kvs). split; [now apply Huniq|exact Hkey]. }
  split; [exact Hek|]. split.
  - exists ms. split; [reflexivity|]. split.
    + apply Forall_forall. intros n Hi'. destruct (F2_in_l _ _ _ Hdoc _ Hi') as (kv & _ & a & ki & lt & d & yt & j & v & Hs & Hp & _ & Hj & Hsc & Ej & Hv). exists a, ki, lt, d, yt, j, v. rewrite Ej. auto.
    + intros k' Hk'. apply Hek in Hk'. subst k'. destruct keys as [|n0 [|n1 ks]]; [congruence| |].
      * destruct Hmade as (_ & _ & H1 & _). split; [exact H1|]. intros t _ Hl. cbn in Hl. lia.
      * destruct Hmade as [Ek Hr]. split; [|intros t Et _; rewrite Ek in Et; injection Et as <-; exact Hr]. rewrite Ek. destruct kvs as [|v0 [|v1 vs]]; try discriminate. cbn [map join]. intros E. injection E as E. destruct (py_str O v0); discriminate.
  - destruct keys as [|n0 ks]; [congruence|]. inversion Hdoc as [|? kv ? ? (a & ki & lt & d & yt & j & v & Hs & _ & Hx & _) _]; subst.
    apply (data_above [Kid a] (entry_schema cs) _ (SLeaf ki lt d yt true) (OLeaf true v)); [cbn; now rewrite Hs|cbn; now rewrite Hx|left; discriminate].
Qed.

Lemma list_fine i keys od cs : Forall fine cs -> fine (SList i keys od cs).
Proof.
  intros IH q x ns nm g j Hq Hend Hsu Hst _ Hg He. inversion Hst as [| | |? ? ? ? ch es Hne Hdis Hes]; subst. inversion Hsu as [| | |? ? ? ? _ Hkn Hsk Hmark]; subst. rewrite gen_list in Hg.
  assert (Hgg : g = Serialise.IList (map (entry_itree true WNone i cs) es) /\ es <> []) by (destruct es; [discriminate|split; congruence]). destruct Hgg as [-> Hnil]. clear Hg.
  cbn [enc_itree] in He. destruct (map_res (enc_itree O im) (map (entry_itree true WNone i cs) es)) as [docs|] eqn:E; [|discriminate]. cbn in He. injection He as <-.
  pose proof (map_res_all _ _ _ E) as F. clear E.
  pose proof (schema_entry top q i keys od cs VNone Hq) as Hq'. pose proof (names_here _ _ _ _ Hq') as Hn.
  assert (Hdist : kdist es) by now apply all_distinct_iff.
  assert (Hkm : Forall (fun s => (is_key s = true -> In (e_py (s_info s)) keys) /\ (In (e_py (s_info s)) keys -> e_ns (s_info s) = e_ns i)) cs) by (eapply Hkl; exact Hq).
  rewrite Forall_forall in Hkm.
  (* each entry and its document *)
  assert (G : Forall2 (fun e j => exists c ps kids, snd e = OCont c ps kids /\ (forall k', entry_key O cs keys j k' <-> k' = fst e) /\ good_key O cs keys j /\ has_data (entry_schema cs) (snd e) /\ shown (entry_schema cs) (snd e) j) es docs).
  { clear Hdist Hdis Hst Hnil. revert docs F. induction es as [|[k x] es IHe]; intros docs F; inversion F as [|? j ? docs1 Hj F1]; subst; constructor; inversion Hes as [|? ? He Hes']; subst; [|now apply IHe].
    destruct He as (c & ps & kids & Ex & Hst0 & Hpk). cbn [fst snd] in *. subst x. unfold entry_itree in Hj. cbn [snd] in Hj. rewrite enc_dict in Hj.
    destruct (map_res (member_enc O im) (gen_kids (Some (e_ns i)) cs kids)) as [ms|] eqn:Em; [|discriminate]. cbn in Hj. injection Hj as <-.
    destruct (entry_keys i keys cs kids k ms Hn Hne) as (H1 & H2 & H3); auto.
    { apply Forall_forall. intros s Hs. apply (Hkm s Hs). }
    exists c, ps, kids. split; [reflexivity|]. split; [exact H1|]. split; [exact H2|]. split; [exact H3|].
    apply (kids_fine (Some (e_ns i)) plain false cs Hn IH (kid_places _ _ _ _ Hq') Hsk c ps kids ms Hst0); [|exact Em|discriminate].
    intros s Hs Hks. destruct (key_types keys cs kids k Hpk Hne _ (proj1 (Hkm s Hs) Hks)) as (a & ki & lt & d & yt & kf & v & Ha & Hp & _ & Hyt).
    apply In_nth_error in Hs. destruct Hs as (b & Hb). pose proof (kid_index_nth cs (proj1 (proj1 Hn)) _ _ Hb) as K1. pose proof (kid_index_nth cs (proj1 (proj1 Hn)) _ _ Ha) as K2. cbn [s_info] in K2. rewrite Hp, K1 in K2. injection K2 as ->.
    rewrite Ha in Hb. injection Hb as <-. exact Hyt. }
  split; [|split].
  - apply VList; [exact Hne|exact Hkn| |].
    + intros e Hi. destruct (F2_in_r _ _ _ G _ Hi) as (e0 & _ & c & ps & kids & _ & _ & Hgk & _ & Hsh). split; [exact Hgk|exact (proj1 Hsh)].
    + intros l1 e1 l2 e2 l3 k1 k2 El Hk1 Hk2. subst docs.
      apply Forall2_app_inv_r in G. destruct G as (es1 & es' & _ & G & ->). inversion G as [|[a1 x1] ? es2 ? H1 G2]; subst. apply Forall2_app_inv_r in G2. destruct G2 as (es3 & es4 & _ & G3 & ->). inversion G3 as [|[a2 x2] ? es5 ? H2 _]; subst.
      destruct H1 as (_ & _ & _ & _ & H1 & _). destruct H2 as (_ & _ & _ & _ & H2 & _). apply H1 in Hk1. apply H2 in Hk2. cbn [fst] in *. subst k1 k2.
      unfold kdist in Hdist. rewrite map_app in Hdist. cbn [map fst] in Hdist. apply dist_app in Hdist. destruct Hdist as (_ & Hdist & _). inversion Hdist as [|? ? Hf _]; subst. rewrite Forall_forall in Hf. apply Hf. rewrite map_app. apply in_or_app. right. now left.
  - intros r w Ht. inversion Ht as [| | | |? ? ? ? ? e k Hi Hk|? ? ? ? ? e k r' ? Hi Hk Ht']; subst; destruct (F2_in_r _ _ _ G _ Hi) as ([k0 e0] & He0 & c & ps & kids & Ee & Hek & _ & Hd & Hsh); apply Hek in Hk; cbn [fst snd] in *; subst k0; cbn [sub node]; rewrite (kdist_mget es Hdist _ _ He0).
    + exists (entry_schema cs), e0. auto.
    + exact (proj1 (proj2 Hsh) r' w Ht').
  - intros r t y w Hsub Hnode Hw. destruct r as [|[a|k] r]; [|discriminate|].
    + cbn in Hsub, Hnode. injection Hsub as <-. injection Hnode as <-. destruct Hw as [Hw|[Hw _]]; [inversion Hw|discriminate].
    + cbn [sub node] in Hsub, Hnode. destruct (mget k es) as [e0|] eqn:Em; [|discriminate]. apply (mget_in es k e0 Hdist) in Em. destruct Em as (k' & Hi & Hkk).
      destruct (F2_in_l _ _ _ G _ Hi) as (j & Hj & c & ps & kids & Ee & Hek & _ & Hd & Hsh). cbn [fst snd] in *.
      assert (Hse : step_eq (Ent k') (Ent k)) by (constructor; now rewrite py_eq_sym).
      destruct r as [|b r].
      * destruct Hw as [Hw|[_ ->]].
        { cbn in Hsub, Hnode. injection Hsub as <-. injection Hnode as <-. inversion Hw. }
        exists [Ent k']. split; [constructor; [exact Hse|constructor]|]. apply SaysEntry with j; [exact Hj|now apply Hek].
      * destruct (proj2 (proj2 Hsh) (b :: r) t y w Hsub Hnode) as (r' & H1 & H2); [destruct Hw as [Hw|[Hw ->]]; [now left|right; split; [exact Hw|reflexivity]]|].
        exists (Ent k' :: r'). split; [now constructor|]. apply SaysInEntry with j; [exact Hj|now apply Hek|exact H2].
Qed.
Lemma all_fine s : fine s.
Proof. induction s using schema_ind'; auto using leaf_fine, leaf_list_fine, cont_fine, list_fine. Qed.

Theorem ietf_doc kids j : Forall suited top -> Forall2 (storable O Ietf) top kids -> dumps_ietf O im true WNone top kids = Ok j ->
  exists ms, j = JObj ms /\ shown (entry_schema top) (OCont false false kids) (JObj ms).
Proof.
  intros Hsu Hst Hd. unfold dumps_ietf in Hd. rewrite enc_dict in Hd.
  destruct (map_res (member_enc O im) (gen_kids None top kids)) as [ms|] eqn:E; [|discriminate]. cbn in Hd. injection Hd as <-. exists ms. split; [reflexivity|].
  assert (Hq : schema_at top [] = Some (SCont plain false top)) by reflexivity.
  apply (kids_fine None plain false top (names_here _ _ _ _ Hq) ltac:(apply Forall_forall; intros; apply all_fine) (kid_places [] _ _ _ Hq) Hsu false false kids ms Hst); [|exact E|discriminate].
  intros s Hs Hks. destruct Hkl as (F & _). rewrite Forall_forall in F. rewrite (F s Hs) in Hks. discriminate.
Qed.
End I.

Theorem ietf_merged O im ft uid cs l skip kids : (forall i s m, im i s = Some m -> no_colon m) ->
  uniform cs -> even_keys cs -> python_names cs -> ietf_names cs -> key_leaves cs -> plain_deeds O ft uid cs l ->
  Forall suited cs -> unrivalled cs kids -> Forall2 (storable O Ietf) cs kids ->
  exists j m', dumps_ietf O im true WNone cs kids = Ok j /\ load_ietf_json O uid cs false skip j (after O ft uid cs l) = (m', Ok tt) /\
    forall q s x w, schema_at cs q = Some s -> at_path kids q = Some x -> holds_ietf s x w \/ is_entry q = true /\ w = WThere ->
    exists y, at_path m' q = Some y /\ meets w y.
Proof.
  intros Him Hu Hk Hn Hin Hkl Hl Hsu Hun Hst.
  assert (Hpk : plain_keys cs) by (intros p i keys od cs' n s Hp Hn' Hi; right; exact (Hk p i keys od cs' n s Hp Hn' Hi)).
  destruct (ietf_round_trip O im Him (fun _ => []) cs kids Hpk Hun Hn Hin Hkl Hst) as (j & _ & Hd & _). destruct (ietf_doc O im skip cs Him Hn Hin Hkl kids j Hsu Hst Hd) as (ms & -> & Hv & Hb & Hh).
  destruct (AcceptChoice_proofs.ietf_choice O ft uid cs l Hu Hk Hn Hl skip ms Hv) as (m' & Hm & Ht).
  { apply (data_consistent cs kids); [exact Hun|]. intros q (w & Hw) _. exact (Hb q w Hw). }
  exists (JObj ms), m'. split; [exact Hd|]. split; [exact Hm|]. intros q s x w Hs Hx Hw. destruct (Hh q s x w Hs Hx Hw) as (r & Hr & Hw').
  destruct (Ht r w Hw') as (y & Hy & Hyw). exists y. split; [|exact Hyw]. unfold at_path in *. now rewrite <- (node_steps r q Hr).
Qed.
