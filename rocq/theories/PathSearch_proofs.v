(** Searches: paths that leave keys out, relative paths. *)
From Coq Require Import Lia Permutation Sorted.
From Verif Require Import PyStr PyStr_facts PyVal PathHelper Spec_Path PathText_proofs PathHelper_proofs PathSim_proofs PathInv_proofs.

(* ------------------------------------------------------------------ texts *)
Lemma prefixed_step prefix text n : xml_name prefix -> name_ok n -> spells text n -> part_step (prefix ++ lit ":" ++ text) = Ok (Node (fst n) (snd n)).
Proof.
  intros Hp Hn Hs. pose proof Hn as (Ht & Hd & Hk). set (tag := prefix ++ lit ":" ++ fst n).
  assert (Htag : tag_ok tag).
  { assert (N91 : forall c, In c [91; 124]%N -> ~ In c tag).
    { unfold tag. intros c Hc Hi. apply in_app_or in Hi as [Hi|[Hi|Hi]]; [apply (xml_name_not prefix c); [assumption|cbn in *; tauto|assumption]| |apply (xml_name_not (fst n) c); [assumption|cbn in *; tauto|assumption]].
      destruct Hc as [<-|[<-|[]]]; discriminate. }
    split; [unfold tag; destruct Hp as (c & r & -> & _); discriminate|]. split; [apply N91; cbn; tauto|]. assert (N124 : ~ In 124%N tag) by (apply N91; cbn; tauto). split; [now apply free_no|now apply no_end]. }
  assert (Hloc : local_name tag = fst n).
  { unfold local_name. assert (E : ch_in 58 tag = true) by (apply ch_in_In; unfold tag; apply in_or_app; right; now left). rewrite E. unfold tag. change (lit ":" ++ fst n) with (58%N :: fst n).
    rewrite split_on_app by (apply xml_name_not; [assumption|cbn; tauto]). rewrite split_on_no by (apply xml_name_not; [assumption|cbn; tauto]). reflexivity. }
  assert (Etag : tag_attrs (prefix ++ lit ":" ++ text) = Ok (tag, match snd n with [] => None | d => Some d end)).
  { destruct Hs as [[E ->]|(gs & Hne & -> & E & Hok)].
    - rewrite E. apply tag_attrs_plain. apply Htag.
    - unfold element_text. rewrite !app_assoc, <- (app_assoc prefix). fold tag. change (tag ++ concat (map group_text gs)) with (element_text tag gs). rewrite tag_attrs_exact; [|assumption..|].
      + rewrite E. destruct gs as [|[p l] gs]; [congruence|]. unfold pairs in E. cbn in E. now rewrite <- E.
      + assert (Em : map p_key (flat_map group_preds gs) = map fst (pairs gs)) by (unfold pairs; now rewrite map_map). rewrite Em, E. exact Hd. }
  unfold part_step. rewrite Etag. cbn [bind fst snd]. rewrite Hloc. pose proof (spells_step (fst n) (fst n, []) (conj Ht (conj (NoDup_nil _) (Forall_nil _))) (or_introl (conj eq_refl eq_refl))) as Hplain.
  unfold part_step in Hplain. rewrite tag_attrs_plain in Hplain by (apply xml_name_not; [assumption|cbn; tauto]). cbn [bind fst snd] in Hplain. rewrite local_xml in Hplain by assumption.
  destruct (snd n) as [|kv d] eqn:Es; [exact Hplain|]. rewrite (xml_name_ncname _ Ht). cbn [andb].
  assert (F : forallb (fun kv => ncname (fst kv) && forallb xml_char (snd kv) && negb (has_sub (lit "current()") (snd kv))) (kv :: d) = true).
  { apply forallb_forall. intros x Hx. rewrite Forall_forall in Hk. destruct (Hk x Hx) as (H1 & _ & H3 & H4). rewrite xml_name_ncname, xml_text_chars, has_sub_false by assumption. reflexivity. }
  now rewrite F.
Qed.
Lemma names_step part n : name_ok n -> names part n -> part_step part = Ok (Node (fst n) (snd n)) /\ part <> [] /\ startswith (lit ".") part = false.
Proof.
  intros Hn (text & Hs & [->|(prefix & Hp & ->)]).
  - split; [now apply spells_step|]. now destruct (spells_tag text n Hn Hs) as (_ & H1 & H2 & _).
  - split; [now apply prefixed_step|]. destruct Hp as (c & r & -> & Hc & _). split; [discriminate|]. change (lit ".") with [46%N]. cbn [app startswith]. rewrite andb_true_r. apply N.eqb_neq. unfold letter in Hc. lia.
Qed.
Lemma named_steps path pat : Forall2 names path pat -> Forall name_ok pat -> map_r part_step path = Ok (steps pat) /\ Forall (fun p : str => p <> []) path.
Proof.
  induction 1 as [|p n path q Hs H IH]; intros Hq; [split; [reflexivity|constructor]|]. inversion Hq as [|? ? Hn Hq']; subst. destruct (IH Hq') as [I1 I2]. destruct (names_step p n Hn Hs) as (E & Hne & _).
  cbn [map_r]. rewrite E. cbn [bind]. rewrite I1. split; [reflexivity|]. now constructor.
Qed.

(* ------------------------------------------------------------------ addresses and places *)
Lemma nth_idx i ks c : NoDup (map name_of ks) -> nth_error ks i = Some c -> idx (name_of c) ks = Some i /\ find_kid (name_of c) ks = Some c.
Proof.
  revert i. induction ks as [|d ks IH]; intros i Hd Hc; [destruct i; discriminate|]. cbn [map] in Hd. inversion Hd as [|? ? H1 H2]; subst. cbn [idx find_kid]. destruct i as [|i].
  - injection Hc as ->. now rewrite name_eqb_refl.
  - cbn [nth_error] in Hc. destruct (IH i H2 Hc) as [I1 I2]. assert (E : name_eqb (name_of d) (name_of c) = false). { apply name_eqb_neq. intros E. apply H1. rewrite E. apply in_map. now apply nth_error_In in Hc. }
    rewrite E, I1. now split.
Qed.
Lemma faddr_snoc q n e : faddr (q ++ [n]) e = match faddr q e, fnode q e with Some a, Some x => option_map (fun i => a ++ [i]) (idx n (x_kids x)) | _, _ => None end.
Proof.
  revert e. induction q as [|m q IH]; intros e; cbn [app faddr fnode].
  - pose proof (idx_find n (x_kids e)) as H. destruct (idx n (x_kids e)), (find_kid n (x_kids e)); cbn [option_map]; try contradiction; reflexivity.
  - pose proof (idx_find m (x_kids e)) as H. destruct (idx m (x_kids e)) as [i|], (find_kid m (x_kids e)) as [c|]; try contradiction; [|reflexivity]. rewrite IH.
    destruct (faddr q c) as [a|]; [|reflexivity]. cbn [option_map]. destruct (fnode q c) as [x|]; [|reflexivity]. destruct (idx n (x_kids x)); reflexivity.
Qed.
Lemma faddr_inj q : forall q' e a, faddr q e = Some a -> faddr q' e = Some a -> q = q'.
Proof.
  induction q as [|n q IH]; intros [|n' q'] e a H H'; cbn [faddr] in H, H'.
  - reflexivity.
  - injection H as <-. destruct (idx n' (x_kids e)), (find_kid n' (x_kids e)) as [c|]; try discriminate. destruct (faddr q' c); discriminate.
  - injection H' as <-. destruct (idx n (x_kids e)), (find_kid n (x_kids e)) as [c|]; try discriminate. destruct (faddr q c); discriminate.
  - pose proof (idx_find n (x_kids e)) as H1. pose proof (idx_find n' (x_kids e)) as H2. destruct (idx n (x_kids e)) as [i|], (find_kid n (x_kids e)) as [c|]; try discriminate. destruct (idx n' (x_kids e)) as [i'|], (find_kid n' (x_kids e)) as [c'|]; try discriminate.
    destruct (faddr q c) as [b|] eqn:Eb; [|discriminate]. destruct (faddr q' c') as [b'|] eqn:Eb'; [|discriminate]. cbn [option_map] in H, H'. injection H as <-. injection H' as -> ->. destruct H1 as [H1 N1], H2 as [H2 N2].
    rewrite H1 in H2. injection H2 as <-. f_equal; [congruence|]. now apply (IH q' c b).
Qed.

Section Search.
Context (keys : list str -> list str) (root : xelem) (Hw : wt keys [] root).
(** The addresses are those of the places that are wanted. *)
Definition hit (as_ : list (list nat)) (P : place -> Prop) : Prop := forall a, In a as_ <-> exists q, P q /\ faddr q root = Some a.
Lemma hits_in t ats ks i : forall j, In i (child_hits j t ats ks) <-> exists c, nth_error ks (i - j) = Some c /\ (j <= i)%nat /\ matches t ats c = true.
Proof.
  induction ks as [|c ks IH]; intros j; cbn [child_hits].
  - split; [intros []|]. intros (c & H & _). destruct (i - j)%nat; discriminate.
  - assert (R : In i (child_hits (S j) t ats ks) <-> exists c0, nth_error (c :: ks) (i - j) = Some c0 /\ (j < i)%nat /\ matches t ats c0 = true).
    { rewrite (IH (S j)). split; intros (c0 & H1 & H2 & H3); exists c0; (split; [|split; [lia|assumption]]).
      - replace (i - j)%nat with (S (i - S j)) by lia. exact H1.
      - replace (i - j)%nat with (S (i - S j)) in H1 by lia. exact H1. }
    destruct (matches t ats c) eqn:E; [cbn [In]|]; rewrite R; split.
    + intros [<-|(c0 & H1 & H2 & H3)]; [exists c; rewrite Nat.sub_diag; auto|exists c0; split; [assumption|]; split; [lia|assumption]].
    + intros (c0 & H1 & H2 & H3). destruct (Nat.eq_dec j i) as [->|Hne]; [now left|right]. exists c0. split; [assumption|]. split; [lia|assumption].
    + intros (c0 & H1 & H2 & H3). exists c0. split; [assumption|]. split; [lia|assumption].
    + intros (c0 & H1 & H2 & H3). exists c0. split; [assumption|]. split; [|assumption]. destruct (Nat.eq_dec j i) as [->|Hne]; [|lia]. rewrite Nat.sub_diag in H1. cbn in H1. congruence.
Qed.
Lemma look_in (k : str) v (d : list (str * str)) : NoDup (map fst d) -> look k d = Some v <-> In (k, v) d.
Proof.
  induction d as [|[k' v'] d IH]; intros Hd; cbn [look]; [split; [discriminate|intros []]|]. cbn [map fst] in Hd. inversion Hd as [|? ? H1 H2]; subst. destruct (str_eqb k k') eqn:E.
  - apply str_eqb_eq in E. subst k'. split; [intros H; injection H as ->; now left|]. intros [H|H]; [congruence|]. exfalso. apply H1. change k with (fst (k, v)). now apply in_map.
  - apply str_eqb_neq in E. rewrite (IH H2). split; [now right|]. intros [H|H]; [congruence|assumption].
Qed.
Lemma matches_incl tags t ats ks c n : wt keys tags (El t ats ks) -> In c ks -> name_ok n -> matches (fst n) (snd n) c = true <-> fst n = fst (name_of c) /\ incl (snd n) (snd (name_of c)).
Proof.
  intros Hwt Hc (_ & _ & Hk). inversion Hwt as [? ? ? _ Ha _]; subst. rewrite Forall_forall in Ha. destruct (Ha c Hc) as (id & r & Er & _ & Hrd & Hno). unfold matches, name_of. rewrite Er. cbn [fst snd tl].
  rewrite andb_true_iff, str_eqb_eq, forallb_forall. apply and_iff_compat_l. unfold incl. split; intros H [k v] Hi; specialize (H (k, v) Hi); cbn [fst snd] in *.
  - rewrite Forall_forall in Hk. destruct (Hk (k, v) Hi) as (_ & Hp & _). cbn [fst] in Hp. cbn [look] in H. apply str_eqb_neq in Hp. rewrite Hp in H. destruct (look k r) as [v'|] eqn:El; [|discriminate]. apply str_eqb_eq in H. subst v'. now apply look_in.
  - rewrite Forall_forall in Hk. destruct (Hk (k, v) Hi) as (_ & Hp & _). cbn [fst] in Hp. cbn [look]. apply str_eqb_neq in Hp. rewrite Hp. apply look_in in H; [|assumption]. rewrite H. apply str_eqb_refl.
Qed.
Lemma hit_node as_ P n : name_ok n -> hit as_ P ->
  hit (step_from root (Node (fst n) (snd n)) as_) (fun q => exists q0 m, q = q0 ++ [m] /\ P q0 /\ fst n = fst m /\ incl (snd n) (snd m)).
Proof.
  intros Hn Hh a. cbn [step_from]. rewrite in_flat_map. split.
  - intros (a0 & Ha0 & Hi). apply Hh in Ha0 as (q0 & Hq0 & Ea0). destruct (faddr_fptr q0 root a0 Ea0) as (x & Hx & Hnx). rewrite Hnx in Hi. apply in_map_iff in Hi as (i & <- & Hi).
    apply hits_in in Hi as (c & Hc & _ & Hm). rewrite Nat.sub_0_r in Hc. pose proof (wt_node keys q0 [] root x Hw Hx) as Hwx. destruct x as [t ats ks]. cbn [x_kids] in *.
    apply (matches_incl _ t ats ks c n Hwx (nth_error_In _ _ Hc) Hn) in Hm. exists (q0 ++ [name_of c]). split; [exists q0, (name_of c); auto|]. rewrite faddr_snoc, Ea0, Hx. cbn [x_kids].
    inversion Hwx as [? ? ? Hd _ _]; subst. destruct (nth_idx i ks c Hd Hc) as [-> _]. reflexivity.
  - intros (q & (q0 & m & -> & Hq0 & Hf & Hinc) & Ea). rewrite faddr_snoc in Ea. destruct (faddr q0 root) as [a0|] eqn:Ea0; [|discriminate]. destruct (faddr_fptr q0 root a0 Ea0) as (x & Hx & Hnx). rewrite Hx in Ea.
    destruct (idx m (x_kids x)) as [i|] eqn:Ei; [|discriminate]. cbn [option_map] in Ea. injection Ea as <-. exists a0. split; [apply Hh; now exists q0|]. rewrite Hnx. apply (in_map (fun i => a0 ++ [i])). apply hits_in. rewrite Nat.sub_0_r.
    pose proof (idx_find m (x_kids x)) as Hf0. rewrite Ei in Hf0. destruct (find_kid m (x_kids x)) as [c|]; [|contradiction]. destruct Hf0 as [Hc Hcm]. exists c. split; [assumption|]. split; [lia|].
    pose proof (wt_node keys q0 [] root x Hw Hx) as Hwx. destruct x as [t ats ks]. cbn [x_kids] in *. apply (matches_incl _ t ats ks c n Hwx (nth_error_In _ _ Hc) Hn). now rewrite Hcm.
Qed.
Lemma hit_eq as_ (P Q : place -> Prop) : (forall q, P q <-> Q q) -> hit as_ P -> hit as_ Q.
Proof. intros H Hh a. rewrite (Hh a). split; intros (q & Hq & E); exists q; split; try assumption; now apply H. Qed.
Lemma hit_nodes pat : Forall name_ok pat -> forall as_ P, hit as_ P ->
  hit (fold_left (fun as_ s => step_from root s as_) (steps pat) as_) (fun q => exists q0 q1, q = q0 ++ q1 /\ P q0 /\ matching pat q1).
Proof.
  induction 1 as [|n pat Hn Hpat IH]; intros as_ P Hh.
  - cbn. apply (hit_eq as_ P); [|assumption]. intros q. split; [intros H; exists q, []; rewrite app_nil_r; split; [reflexivity|]; split; [assumption|constructor]|]. intros (q0 & q1 & -> & H & Hm). inversion Hm; subst. now rewrite app_nil_r.
  - cbn [steps map fold_left]. fold (steps pat). eapply hit_eq; [|apply (IH _ _ (hit_node as_ P n Hn Hh))]. intros q. cbv beta. split.
    + intros (q0 & q1 & -> & (p & m & -> & Hp & Hf & Hi) & Hm). exists p, (m :: q1). rewrite <- app_assoc. split; [reflexivity|]. split; [assumption|]. constructor; [now split|assumption].
    + intros (q0 & q1 & -> & Hp & Hm). inversion Hm as [|? m ? q2 [Hf Hi] Hm']; subst. exists (q0 ++ [m]), q2. rewrite <- app_assoc. split; [reflexivity|]. split; [|assumption]. exists q0, m. auto.
Qed.
Lemma in_dedup l a : In a (dedup l) <-> In a l.
Proof.
  split; [apply dedup_in|]. induction l as [|b l IH]; cbn [dedup In]; [tauto|]. intros [->|H]; [now left|]. destruct (addr_eqb b a) eqn:E; [left; now apply addr_eqb_eq|right]. apply filter_In. split; [now apply IH|]. now rewrite E.
Qed.
Lemma hit_up as_ P : hit as_ P -> hit (step_from root Up as_) (fun q => exists n, P (q ++ [n]) /\ faddr (q ++ [n]) root <> None).
Proof.
  intros Hh a. cbn [step_from]. rewrite in_dedup, in_flat_map. split.
  - intros (b & Hb & Hi). apply Hh in Hb as (q & Hq & Eb). destruct q as [|m q] using rev_ind; [injection Eb as <-; contradiction|]. clear IHq. destruct (faddr_last q m root b Eb) as (a0 & i & x & -> & Ea0 & _).
    assert (Ea : a = a0). { destruct (a0 ++ [i]) as [|? ?] eqn:E; [contradiction|]. rewrite <- E in Hi. destruct Hi as [<-|[]]. now rewrite removelast_last. } subst a. exists q. split; [|assumption]. exists m. split; [assumption|congruence].
  - intros (q & (m & Hq & Hne) & Ea). destruct (faddr (q ++ [m]) root) as [b|] eqn:Eb; [|congruence]. exists b. split; [apply Hh; now exists (q ++ [m])|]. destruct (faddr_last q m root b Eb) as (a0 & i & x & -> & Ea0 & _).
    destruct (a0 ++ [i]) as [|? ?] eqn:E; [destruct a0; discriminate|]. rewrite <- E, removelast_last. left. congruence.
Qed.
Lemma hit_ups k : forall as_ P, hit as_ P -> (0 < k)%nat -> hit (fold_left (fun as_ s => step_from root s as_) (repeat Up k) as_) (fun q => exists r, length r = k /\ P (q ++ r) /\ faddr (q ++ r) root <> None).
Proof.
  assert (Pre : forall q r, faddr (q ++ r) root <> None -> faddr q root <> None).
  { intros q r. induction r as [|m r IH] using rev_ind; [now rewrite app_nil_r|]. intros H. apply IH. rewrite app_assoc in H. destruct (faddr ((q ++ r) ++ [m]) root) as [b|] eqn:Eb; [|congruence]. destruct (faddr_last (q ++ r) m root b Eb) as (a0 & i & x & _ & -> & _). discriminate. }
  induction k as [|k IH]; intros as_ P Hh Hk; [lia|]. cbn [repeat fold_left]. destruct k as [|k].
  - cbn [repeat fold_left]. eapply hit_eq; [|apply (hit_up as_ P Hh)]. intros q. split; [intros (m & H); now exists [m]|]. intros (r & Hl & H). destruct r as [|m [|? ?]]; try discriminate. now exists m.
  - eapply hit_eq; [|apply (IH _ _ (hit_up as_ P Hh)); lia]. intros q. cbv beta. split.
    + intros (r & Hl & (m & H1 & H2) & _). exists (r ++ [m]). rewrite app_length, Hl. cbn [length]. split; [lia|]. rewrite app_assoc. now split.
    + intros (r & Hl & H1 & H2). destruct (exists_last (l := r)) as (r0 & m & ->); [destruct r; discriminate|]. rewrite app_length in Hl. cbn [length] in Hl. exists r0. split; [lia|]. rewrite app_assoc in H1, H2. split; [now exists m|]. now apply (Pre (q ++ r0) [m]).
Qed.
Lemma hit_root : hit [[]] (fun q => q = []).
Proof. intros a. split; [intros [<-|[]]; now exists []|]. intros (q & -> & E). injection E as <-. now left. Qed.
Lemma hit_place c : keyed keys [] c -> Forall name_ok c -> hit (eval_steps root (steps c)) (fun q => q = c).
Proof.
  intros Hk Hn a. rewrite (eval_place keys c root Hw Hk Hn). split.
  - destruct (faddr c root) as [b|] eqn:E; intros H; [|contradiction]. destruct H as [<-|[]]. now exists c.
  - intros (q & -> & ->). now left.
Qed.
(** From addresses to places. *)
Lemma hit_places as_ P : hit as_ P -> NoDup as_ -> exists qs, NoDup qs /\ (forall q, In q qs <-> P q /\ faddr q root <> None) /\ Forall2 (fun a q => faddr q root = Some a) as_ qs.
Proof.
  intros Hh Hd. assert (E : exists qs, Forall2 (fun a q => P q /\ faddr q root = Some a) as_ qs).
  { assert (Hs : forall a, In a as_ -> exists q, P q /\ faddr q root = Some a) by (intros a Ha; now apply Hh). clear Hh Hd. induction as_ as [|a as_ IH]; [exists []; constructor|]. destruct (Hs a (or_introl eq_refl)) as (q & Hq).
    destruct IH as (qs & Hqs); [intros b Hb; apply Hs; now right|]. exists (q :: qs). now constructor. }
  destruct E as (qs & F). exists qs. split; [|split].
  - clear Hh. revert Hd. induction F as [|a q as_ qs [_ Ha] F IH]; intros Hd; [constructor|]. inversion Hd as [|? ? H1 H2]; subst. constructor; [|now apply IH]. intros Hi. apply H1. clear -F Hi Ha. induction F as [|b p as_ qs [_ Hb] F IH]; [contradiction|]. destruct Hi as [->|Hi]; [left; congruence|right; now apply IH].
  - intros q. split.
    + clear Hh Hd. induction F as [|b p as_ qs [Hp Hb] F IH]; [intros []|]. intros [->|Hi]; [split; [assumption|congruence]|now apply IH].
    + intros [HP Hne]. destruct (faddr q root) as [a|] eqn:Ea; [|congruence]. assert (Ha : In a as_) by (apply Hh; now exists q). clear Hh Hd. induction F as [|b p as_ qs [Hp Hb] F IH]; [contradiction|].
      destruct Ha as [->|Ha]; [left; now apply (faddr_inj p q root a)|right; now apply IH].
  - clear -F. induction F as [|a q as_ qs [_ Ha] F IH]; constructor; assumption.
Qed.
End Search.
Lemma sorted_nodup as_ : StronglySorted lexlt as_ -> NoDup as_.
Proof. induction 1 as [|a l H IH Ha]; constructor; [|assumption]. intros Hi. rewrite Forall_forall in Ha. now apply (lexlt_neq a a (Ha a Hi)). Qed.
Lemma eval_nodup root ss : NoDup (eval_steps root ss).
Proof. apply sorted_nodup. apply (eval_proper root ss). Qed.

(* ------------------------------------------------------------------ the helper *)
Section Get.
Context {A : Type} (uid : nat -> str) (keys : list str -> list str).
Lemma found_hit (st : helper A) M as_ P : inv uid keys st M -> hit (h_root st) as_ P -> NoDup as_ -> ~ P [] -> found M P (map_r (object_at st) as_).
Proof.
  intros I Hh Hd Hnil. destruct (hit_places (h_root st) as_ P Hh Hd) as (qs & Hnd & Hin & F).
  assert (Hq0 : forall q, In q qs -> q <> []) by (intros q Hq ->; apply Hin in Hq; tauto).
  exists qs. split; [assumption|]. split.
  - intros q. rewrite (Hin q). split; intros [H1 H2].
    + split; [|assumption]. destruct (faddr q (h_root st)) as [a|] eqn:Ea; [|congruence]. destruct (object_ptr uid keys st M q a I Ea ltac:(intros ->; contradiction)) as (o & p & _ & E & _). congruence.
    + split; [assumption|]. intros E. apply H1. apply (absent uid keys st M q I E). intros ->. contradiction.
  - clear Hh Hd Hnd Hin. induction F as [|a q as_ qs Ha F IH]; [reflexivity|]. cbn [map_r map]. destruct (object_ptr uid keys st M q a I Ha (Hq0 q (or_introl eq_refl))) as (o & p & -> & E & _). cbn [bind].
    rewrite IH by (intros q' Hq'; apply Hq0; now right). cbn [bind]. now rewrite E.
Qed.
Lemma matching_nil pat : pat <> [] -> ~ matching pat [].
Proof. intros H Hm. inversion Hm. subst. now apply H. Qed.
(** Absolute paths, with or without "/" in front; the caller does not matter. *)
Theorem search_sim (st : helper A) M path pat caller : inv uid keys st M -> Forall2 names path pat -> Forall name_ok pat -> pat <> [] ->
  found M (matching pat) (get caller path st) /\ found M (matching pat) (get caller ([] :: path) st).
Proof.
  intros I Hp Hn Hne. destruct (named_steps path pat Hp Hn) as [Es Hparts].
  assert (Eg : get_etree caller path (h_root st) = Ok (eval_steps (h_root st) (steps pat)) /\ get_etree caller ([] :: path) (h_root st) = Ok (eval_steps (h_root st) (steps pat))).
  { inversion Hp as [|p n path' q' Hs Ht Ep Eq]; [congruence|]. subst. inversion Hn as [|? ? Hn1 Hn2]; subst. destruct (names_step p n Hn1 Hs) as (_ & Hpn & Hdot). unfold get_etree, relative. rewrite Hdot.
    split.
    - unfold encode_path. destruct p as [|c p]; [congruence|]. rewrite no_empty_id by assumption. now rewrite Es.
    - change (startswith (lit ".") []) with false. unfold encode_path. rewrite no_empty_id by assumption. now rewrite Es. }
  assert (Hh : hit (h_root st) (eval_steps (h_root st) (steps pat)) (matching pat)).
  { eapply hit_eq; [|apply (hit_nodes keys (h_root st) (i_wt _ _ _ _ I) pat Hn _ _ (hit_root (h_root st)))]. intros q. cbv beta. split; [intros (q0 & q1 & -> & -> & H); exact H|intros H; now exists [], q]. }
  unfold get. destruct Eg as [-> ->]. cbn [bind]. split; (apply found_hit; [assumption|assumption|apply eval_nodup|now apply matching_nil]).
Qed.
(** Relative paths: "../../a/b". *)
Theorem relative_sim (st : helper A) M cpath c k path pat : inv uid keys st M -> Forall2 spells cpath c -> place_ok keys c -> (0 < k <= length c)%nat -> Forall2 names path pat -> Forall name_ok pat -> pat <> [] ->
  found M (fun q => M c <> None /\ exists r, q = firstn (length c - k) c ++ r /\ matching pat r) (get cpath (repeat (lit "..") k ++ path) st).
Proof.
  intros I Hc (Hcne & Hcn & Hck) Hk Hp Hn Hne. destruct (named_steps path pat Hp Hn) as [Es Hparts]. destruct (spelled cpath c Hc Hcn) as [Ec Hcparts].
  assert (Eup : part_step (lit "..") = Ok Up) by (vm_compute; reflexivity).
  assert (Eups : forall k, map_r part_step (repeat (lit "..") k ++ path) = Ok (repeat Up k ++ steps pat)).
  { induction k0 as [|k0 IH]; [exact Es|]. cbn [repeat app map_r]. rewrite Eup. cbn [bind]. rewrite IH. reflexivity. }
  assert (Eg : get_etree cpath (repeat (lit "..") k ++ path) (h_root st) = Ok (eval_steps (h_root st) (steps c ++ repeat Up k ++ steps pat))).
  { unfold get_etree. assert (Er : relative (repeat (lit "..") k ++ path) = true) by (destruct k; [lia|reflexivity]). rewrite Er.
    inversion Hc as [|p n path' q' Hs Ht Ep Eq]; [congruence|]. subst. unfold encode_path at 1. destruct p as [|ch p]; [inversion Hcparts; congruence|]. rewrite no_empty_id by assumption. rewrite Ec. cbn [bind].
    unfold encode_path. assert (Hall : Forall (fun p : str => p <> []) (repeat (lit "..") k ++ path)). { apply Forall_app. split; [|assumption]. apply Forall_forall. intros x Hx. apply repeat_spec in Hx. subst x. discriminate. }
    destruct k as [|k]; [lia|]. cbn [repeat app]. change (lit "..") with [46%N; 46%N] at 1. cbv iota beta. change [46%N; 46%N] with (lit ".."). change (lit ".." :: repeat (lit "..") k ++ path) with (repeat (lit "..") (S k) ++ path).
    rewrite no_empty_id by assumption. rewrite Eups. reflexivity. }
  unfold get. rewrite Eg. cbn [bind]. apply found_hit; [assumption| |apply eval_nodup|].
  - unfold eval_steps. rewrite !fold_left_app. fold (eval_steps (h_root st) (steps c)). pose proof (hit_place keys (h_root st) (i_wt _ _ _ _ I) c Hck Hcn) as H0. pose proof (hit_ups (h_root st) k _ _ H0 ltac:(lia)) as H1.
    eapply hit_eq; [|apply (hit_nodes keys (h_root st) (i_wt _ _ _ _ I) pat Hn _ _ H1)]. intros q. cbv beta. split.
    + intros (q0 & q1 & -> & (r & Hl & E & Hf) & Hm). rewrite E in Hf. split.
      * destruct (faddr c (h_root st)) as [a|] eqn:Ea; [|congruence]. destruct (object_ptr uid keys st M c a I Ea Hcne) as (o & p & _ & EM & _). congruence.
      * exists q1. split; [|assumption]. f_equal. rewrite <- E, app_length, Hl, firstn_app. replace (length q0 + k - k - length q0)%nat with 0%nat by lia. replace (length q0 + k - k)%nat with (length q0) by lia. now rewrite firstn_all, app_nil_r.
    + intros [HM (r & -> & Hm)]. exists (firstn (length c - k) c), r. split; [reflexivity|]. split; [|assumption]. exists (skipn (length c - k) c). rewrite firstn_skipn, skipn_length. split; [lia|]. split; [reflexivity|].
      intros E. apply HM. now apply (absent uid keys st M c I E).
  - intros [_ (r & E & Hm)]. symmetry in E. apply app_eq_nil in E as [_ ->]. now apply (matching_nil pat Hne).
Qed.
End Get.
Theorem search_run {A} (oeq : A -> A -> bool) uid keys (cs : list (call (A := A))) path pat caller : fresh uid -> Forall (call_ok keys) cs -> Forall2 names path pat -> Forall name_ok pat -> pat <> [] ->
  let M := fst (map_run oeq cs (fun _ => None)) in let st := fst (helper_run oeq uid cs helper_new) in
  found M (matching pat) (get caller path st) /\ found M (matching pat) (get caller ([] :: path) st).
Proof. intros Hu Hc Hp Hn Hne M st. destruct (run_sim oeq uid Hu keys cs helper_new (fun _ => None) Hc (inv_new uid keys)) as [I _]. now apply (search_sim uid keys). Qed.
Theorem relative_run {A} (oeq : A -> A -> bool) uid keys (cs : list (call (A := A))) cpath c k path pat : fresh uid -> Forall (call_ok keys) cs -> Forall2 spells cpath c -> place_ok keys c -> (0 < k <= length c)%nat ->
  Forall2 names path pat -> Forall name_ok pat -> pat <> [] ->
  let M := fst (map_run oeq cs (fun _ => None)) in
  found M (fun q => M c <> None /\ exists r, q = firstn (length c - k) c ++ r /\ matching pat r) (get cpath (repeat (lit "..") k ++ path) (fst (helper_run oeq uid cs helper_new))).
Proof. intros Hu Hc. destruct (run_sim oeq uid Hu keys cs helper_new (fun _ => None) Hc (inv_new uid keys)) as [I _]. intros. now apply (relative_sim uid keys). Qed.
