(** Which trees can be written as XML. *)
From Coq Require Import Lia Permutation.
From Verif Require Import PyStr PyStr_facts PyVal Restricted Spec_Types IntTypes StrTypes Spec_Lists TypedList MemberTypes YList SafeName
  Bits Bits_proofs Tree Spec_Tree Tree_proofs Tree_dump Serialise Spec_Serialise Load_proofs Serialise_proofs Json_proofs Ietf_proofs IetfRound_proofs
  Xml Spec_Xml Xml_proofs XmlRound_proofs XmlDoc_proofs Spec_Parts Spec_XmlText.
Import ListNotations.
Local Open Scope Z_scope.

Lemma char_letter c : xml_char c = true -> xml_letter c.
Proof. unfold xml_letter, xml_char. rewrite !Bool.orb_true_iff, !Bool.andb_true_iff, !N.eqb_eq, !N.leb_le. lia. Qed.
Lemma legal_xml s t : legal_text s = Ok t -> xml_text t.
Proof.
  unfold legal_text. destruct (forallb xml_char s) eqn:E; [|discriminate]. intros H. injection H as <-. apply Forall_forall. intros c Hc. apply char_letter. exact (proj1 (forallb_forall _ _) E c Hc).
Qed.
Lemma legal_cases s : (legal_text s = Ok s /\ xml_text s) \/ (legal_text s = Raise ValueError /\ ~ xml_text s).
Proof.
  unfold legal_text. destruct (forallb xml_char s) eqn:E; [left|right]; (split; [reflexivity|]).
  - apply Forall_forall. intros c Hc. apply char_letter. exact (proj1 (forallb_forall _ _) E c Hc).
  - intros H. apply legal_ok in H. unfold legal_text in H. rewrite E in H. discriminate H.
Qed.

(* ------------------------------------------------------------------ what is written is legal *)
Definition legal_deep (e : xml) : Prop := xml_text (x_text e) /\ forall e', inside e' e -> xml_text (x_text e').
Lemma legal_node ns n d t ks : xml_text t -> Forall legal_deep ks -> legal_deep (XElem ns n d t ks).
Proof.
  intros Ht Hk. split; [exact Ht|]. intros e' H. inversion H as [? Hin|k ? Hin Hd]; subst; cbn [x_kids] in Hin; pose proof (proj1 (Forall_forall _ _) Hk _ Hin) as [H1 H2]; [exact H1|exact (H2 _ Hd)].
Qed.
Section L.
Context (O : oracle) (im : einfo -> str -> option str).
Fixpoint size (t : xtree) : nat :=
  match t with
  | XtDict l => S (fold_right (fun m n => match m with (_, _, t') => size t' + n end)%nat 0%nat l)
  | XtList l => S (fold_right (fun t' n => size t' + n)%nat 0%nat l)
  | _ => 1%nat
  end.
Lemma elements_legal : forall n t i d els, (size t <= n)%nat -> elements O im i d t = Ok els -> Forall legal_deep els.
Proof.
  induction n as [|n IH]; intros t i d els Hn E; [destruct t; cbn in Hn; lia|]. destruct t as [li lt yt v|ts l|l|l].
  - cbn [elements] in E. destruct (leaf_text O im li lt yt v) as [s|] eqn:Es; [|discriminate]. cbn [bind] in E. injection E as <-. constructor; [|constructor]. apply legal_node; [|constructor].
    unfold leaf_text in Es. destruct (str_eqb yt (lit "empty")); [injection Es as <-; constructor|]. destruct (enc_leaf O im true li lt yt v); [|discriminate]. cbn [bind] in Es. exact (legal_xml _ _ Es).
  - cbn [elements] in E. revert els E. induction l as [|v l IHl]; intros els E; [injection E as <-; constructor|]. rewrite map_res_cons in E.
    destruct (member_text O ts v) as [s|] eqn:Es; [|discriminate]. cbn [bind] in E. destruct (map_res _ l) as [r|] eqn:Er; [|discriminate]. cbn [bind] in E. injection E as <-. constructor; [|apply IHl; [cbn; lia|reflexivity]].
    apply legal_node; [|constructor]. unfold member_text in Es. destruct (enc_member O true ts v); [|discriminate]. cbn [bind] in Es. exact (legal_xml _ _ Es).
  - rewrite elements_dict in E. destruct (map_res (member_els O im) l) as [ks|] eqn:Ek; [|discriminate]. cbn [bind] in E. injection E as <-. constructor; [|constructor]. apply legal_node; [constructor|].
    cbn [size] in Hn. revert ks Ek. induction l as [|m l IHl]; intros ks Ek; [injection Ek as <-; constructor|]. rewrite map_res_cons in Ek. destruct m as [[i' d'] t']. cbn [fold_right] in Hn.
    destruct (member_els O im (i', d', t')) as [g|] eqn:Eg; [|discriminate]. cbn [bind] in Ek. destruct (map_res (member_els O im) l) as [r|] eqn:Er; [|discriminate]. cbn [bind] in Ek. injection Ek as <-. cbn [concat]. apply Forall_app. split.
    + apply (IH t' i' d'); [lia|exact Eg].
    + apply IHl; [lia|reflexivity].
  - rewrite elements_list in E. destruct (map_res (elements O im i d) l) as [ks|] eqn:Ek; [|discriminate]. cbn [bind] in E. injection E as <-.
    cbn [size] in Hn. revert ks Ek. induction l as [|t' l IHl]; intros ks Ek; [injection Ek as <-; constructor|]. rewrite map_res_cons in Ek. cbn [fold_right] in Hn.
    destruct (elements O im i d t') as [g|] eqn:Eg; [|discriminate]. cbn [bind] in Ek. destruct (map_res (elements O im i d) l) as [r|] eqn:Er; [|discriminate]. cbn [bind] in Ek. injection Ek as <-. cbn [concat]. apply Forall_app. split.
    + apply (IH t' i d); [lia|exact Eg].
    + apply IHl; [lia|reflexivity].
Qed.
End L.
Lemma encode_legal O im ins flt ns name cs kids e : encode O im ins flt ns name cs kids = Ok e -> forall e', e' = e \/ inside e' e -> xml_text (x_text e').
Proof.
  rewrite encode_els. unfold kids_els. destruct (xgen_kids O im ins flt cs kids) as [l|]; [|discriminate]. cbn [bind]. destruct (map_res (member_els O im) l) as [ks|] eqn:Ek; [|discriminate]. cbn [bind]. intros E. injection E as <-.
  assert (H : legal_deep (XElem ns name [] [] (concat ks))).
  { apply legal_node; [constructor|]. revert ks Ek. induction l as [|[[i d] t] l IHl]; intros ks Ek; [injection Ek as <-; constructor|]. rewrite map_res_cons in Ek.
    destruct (member_els O im (i, d, t)) as [g|] eqn:Eg; [|discriminate]. cbn [bind] in Ek. destruct (map_res (member_els O im) l) as [r|]; [|discriminate]. cbn [bind] in Ek. injection Ek as <-. cbn [concat]. apply Forall_app. split; [exact (elements_legal O im (size t) t i d g (le_n _) Eg)|now apply IHl]. }
  destruct H as [H1 H2]. intros e' [->|H]; [exact H1|exact (H2 _ H)].
Qed.

(* ------------------------------------------------------------------ which trees are written *)
Lemma text_det t t' v w w' : text_of t v w -> text_of t' v w' -> w = w'.
Proof. destruct t, t', v; cbn [text_of]; intros H H'; try contradiction; congruence. Qed.
Lemma plain_det O s v w w' : plain_text O s v w -> plain_text O s v w' -> w = w'.
Proof.
  destruct s; cbn [plain_text]; try contradiction.
  - intros [[E ->]|[N H]] [[E' ->]|[N' H']]; try reflexivity; try contradiction.
    destruct H as [(t & _ & _ & _ & H)|[(a & l & _ & _ & -> & ->)|[(_ & _ & ->)|(ts & t & _ & _ & _ & H)]]],
      H' as [(t' & _ & _ & _ & H')|[(a' & l' & _ & _ & E' & ->)|[(_ & _ & E')|(ts' & t' & _ & _ & _ & H')]]]; try exact (text_det _ _ _ _ _ H H');
      try discriminate E'; try (subst v; destruct t; cbn [text_of] in H; contradiction); try (destruct t'; cbn [text_of] in H'; contradiction).
    + subst v. destruct t; cbn [text_of] in H; (exact H || contradiction).
    + now injection E' as ->.
    + destruct t'; cbn [text_of] in H'; (now symmetry) || contradiction.
    + now injection E'.
    + destruct t'; cbn [text_of] in H'; (now symmetry) || contradiction.
    + subst v. destruct t; cbn [text_of] in H; (exact H || contradiction).
  - intros (t & _ & _ & _ & _ & H) (t' & _ & _ & _ & _ & H'). destruct v; try exact (text_det _ _ _ _ _ H H'). destruct H as [_ ->], H' as [_ ->]. reflexivity.
Qed.
Lemma plain_not_identity O i lt d yt k v w : plain_text O (SLeaf i lt d yt k) v w -> yt <> lit "identityref".
Proof.
  intros [[-> _]|[_ [(t & _ & _ & H & _)|[(a & l & _ & H & _)|[(_ & H & _)|(ts & t & _ & H & _)]]]]].
  - vm_compute. congruence.
  - exact H.
  - apply bits_name in H. now apply unknown_ordinary in H as [_ H].
  - destruct H as [H|H]; [cbn in H; destruct H as [<-|[]]; vm_compute; congruence|now apply unknown_ordinary in H as [_ H]].
  - apply union_name in H. now apply unknown_ordinary in H as [_ H].
Qed.
Lemma app_xml a b : xml_text (a ++ b) -> xml_text a /\ xml_text b.
Proof. unfold xml_text. apply Forall_app. Qed.
Lemma xml_join l : xml_text (join [32%N] l) -> Forall xml_text l.
Proof.
  induction l as [|x l IH]; [constructor|]. destruct l as [|y l]; [intros H; constructor; [exact H|constructor]|]. rewrite join_cons2. intros H.
  apply app_xml in H as [H1 H]. apply app_xml in H as [_ H2]. constructor; [exact H1|]. now apply IH.
Qed.
Lemma join_perm l l' : Permutation l l' -> xml_text (join [32%N] l) -> xml_text (join [32%N] l').
Proof. intros Hp H. apply join_xml. apply xml_join in H. exact (Permutation_Forall Hp H). Qed.
(** What is written is tested like the text. *)
Lemma leaf_written O im i lt d yt k v w : plain_text O (SLeaf i lt d yt k) v w ->
  exists w', leaf_text O im i lt yt v = legal_text w' /\ (xml_text w' <-> xml_text w).
Proof.
  intros [[-> ->]|[Hem H]]. { exists []. split; reflexivity. }
  unfold leaf_text. rewrite (str_eqb_neq _ _ Hem). destruct H as [(t & -> & Hty & Hid & Ht)|[(a & l & -> & Hn & -> & ->)|[(-> & Hn & ->)|(ts & t & -> & Hn & Hp & Ht)]]].
  - destruct (leaf_doc O im i t yt v w Hty Ht Hid Hem) as (j & -> & Hj). cbn [bind]. rewrite Hj. exists w. split; reflexivity.
  - apply bits_name in Hn. rewrite enc_unknown by assumption. exists (bits_str a l). split; [reflexivity|].
    unfold bits_str. split; apply join_perm; [|apply Permutation_sym]; apply sort_by_perm.
  - exists w. split; [|reflexivity]. destruct Hn as [Hn|Hn]; [cbn in Hn; destruct Hn as [<-|[]]; reflexivity|]. rewrite enc_unknown by assumption. reflexivity.
  - apply union_name in Hn. destruct (class_text O t v w Ht) as (j & Hj & Hjs). rewrite enc_unknown by assumption. cbn [leaf_class]. rewrite Hp, Hj. cbn [bind].
    rewrite Hjs. exists w. split; reflexivity.
Qed.
Section W.
Context (O : oracle) (im ins : einfo -> str -> option str) (flt : bool).
Notation plain_tree := (plain_tree O flt).
Notation member_els := (member_els O im).
Definition bad_in (P : schema -> pyval -> Prop) : Prop := exists s v w, P s v /\ plain_text O s v w /\ ~ xml_text w.
Definition verdict {A} (r : res A) (P : schema -> pyval -> Prop) : Prop := (exists a, r = Ok a /\ ~ bad_in P) \/ (r = Raise ValueError /\ bad_in P).
Lemma bad_mono (P Q : schema -> pyval -> Prop) : (forall s v, P s v -> Q s v) -> bad_in P -> bad_in Q.
Proof. intros H (s & v & w & H1 & H2). exists s, v, w. split; [now apply H|exact H2]. Qed.
Lemma verdict_iff {A} (r : res A) (P Q : schema -> pyval -> Prop) : (forall s v, P s v <-> Q s v) -> verdict r P -> verdict r Q.
Proof.
  intros H [(a & E & Hb)|[E Hb]]; [left|right].
  - exists a. split; [exact E|]. intros K. apply Hb. revert K. apply bad_mono. intros s v. now apply H.
  - split; [exact E|]. revert Hb. apply bad_mono. intros s v. now apply H.
Qed.
Lemma verdict_map {A B} (f : A -> res B) (P : A -> schema -> pyval -> Prop) l : Forall (fun a => verdict (f a) (P a)) l ->
  verdict (map_res f l) (fun s v => exists a, In a l /\ P a s v).
Proof.
  induction 1 as [|a l Ha _ IH]. { left. exists []. split; [reflexivity|]. intros (s & v & w & (a & [] & _) & _). }
  rewrite map_res_cons. destruct Ha as [(b & E & Hb)|[E Hb]]; rewrite E; cbn [bind].
  - destruct IH as [(r & Er & Hr)|[Er Hr]]; rewrite Er; cbn [bind].
    + left. exists (b :: r). split; [reflexivity|]. intros (s & v & w & (x & [<-|Hx] & HP) & K); [apply Hb; exists s, v, w; auto|]. apply Hr. exists s, v, w. split; [now exists x|exact K].
    + right. split; [reflexivity|]. revert Hr. apply bad_mono. intros s v (x & Hx & HP). exists x. split; [now right|exact HP].
  - right. split; [reflexivity|]. revert Hb. apply bad_mono. intros s v HP. exists a. split; [now left|exact HP].
Qed.
Lemma verdict_bind {A B} (r : res A) (g : A -> B) P : verdict r P -> verdict (a <- r ;; Ok (g a)) P.
Proof. intros [(a & -> & Hb)|[-> Hb]]; [left; exists (g a); now split|right; now split]. Qed.

Lemma leaf_verdict i lt d yt k v w : plain_text O (SLeaf i lt d yt k) v w -> verdict (leaf_text O im i lt yt v) (fun s' v' => s' = SLeaf i lt d yt k /\ v' = v).
Proof.
  intros Hw. destruct (leaf_written O im i lt d yt k v w Hw) as (w' & -> & Hi).
  destruct (legal_cases w') as [[-> Hx]|[-> Hx]]; [left|right].
  - exists w'. split; [reflexivity|]. intros (s & v' & w2 & [-> ->] & Hp & Hn). rewrite (plain_det O _ _ _ _ Hp Hw) in Hn. now apply Hn, Hi.
  - split; [reflexivity|]. exists (SLeaf i lt d yt k), v, w. rewrite Hi in Hx. auto.
Qed.
Lemma member_verdict i ts yt v w : plain_text O (SLeafList i ts yt) v w -> verdict (member_text O ts v) (fun s' v' => s' = SLeafList i ts yt /\ v' = v).
Proof.
  intros Hw. pose proof Hw as (t & -> & Hwf & Hok & Hbin & Ht). assert (E : member_text O [pty_of t] v = legal_text w).
  { destruct Hok as [Hval Hok]. unfold member_text, enc_member. cbn [member_class].
    assert (Hd : match t, v with MDec n, VDec q _ => Z.abs q < 10 ^ 28 | _, _ => True end) by (destruct t; try exact I; destruct v; try exact I; apply Hok).
    destruct t as [levels|levels| | |names| |n], v; cbn [text_of] in Ht; try contradiction; try congruence; try (match type of Ht with _ /\ _ => destruct Ht as [E0 ->]; try discriminate E0 end); try subst w.
    - rewrite (try_own O (MInt levels)) by (assumption || discriminate). unfold enc_class. cbn [pty_of]. rewrite base_int. destruct (int64_class (int_chain levels)); reflexivity.
    - rewrite (try_own O (MStr levels)) by (assumption || discriminate). unfold enc_class. cbn [pty_of]. rewrite base_str. reflexivity.
    - rewrite (try_own O MText) by (assumption || discriminate). reflexivity.
    - destruct b; reflexivity.
    - rewrite (try_own O (MEnum names)) by (assumption || discriminate). reflexivity.
    - rewrite (try_own O (MDec n)) by (assumption || discriminate). reflexivity. }
  rewrite E. destruct (legal_cases w) as [[-> Hx]|[-> Hx]]; [left|right].
  - exists w. split; [reflexivity|]. intros (s & v' & w' & [-> ->] & Hp & Hn). now rewrite (plain_det O _ _ _ _ Hp Hw) in Hn.
  - split; [reflexivity|]. exists (SLeafList i [pty_of t] yt), v, w. auto.
Qed.
Definition judged (s : schema) : Prop := forall x, plain_tree s x -> exists o, xgen_kid O im ins flt s x = Ok o /\
  verdict (match o with Some m => member_els m | None => Ok [] end) (held_value flt s x).
Lemma kids_judged cs : Forall judged cs -> forall kids, Forall2 plain_tree cs kids -> exists l, xgen_kids O im ins flt cs kids = Ok l /\
  verdict (map_res member_els l) (held_in flt cs kids).
Proof.
  intros HP kids H. revert HP. induction H as [|s x cs kids Hs H IH]; intros HP.
  - exists []. split; [reflexivity|]. left. exists []. split; [reflexivity|]. intros (s & v & w & ([|n] & ? & ? & E & _) & _); discriminate E.
  - inversion HP as [|? ? H1 H2]; subst. destruct (H1 x Hs) as (o & Eo & Vo). destruct (IH H2) as (l & El & Vl). cbn [Xml.xgen_kids]. rewrite Eo, El. cbn [bind]. eexists. split; [reflexivity|].
    assert (Split : forall s' v', held_in flt (s :: cs) (x :: kids) s' v' <-> held_value flt s x s' v' \/ held_in flt cs kids s' v').
    { intros s' v'. split.
      - intros ([|n] & s0 & x0 & E1 & E2 & Hh); cbn [nth_error] in E1, E2; [injection E1 as <-; injection E2 as <-; now left|right; now exists n, s0, x0].
      - intros [Hh|(n & s0 & x0 & E1 & E2 & Hh)]; [now exists 0%nat, s, x|now exists (S n), s0, x0]. }
    assert (Ho : forall (r : res (list (list xml))), verdict (match o with Some m => member_els m | None => Ok [] end) (held_value flt s x) -> verdict r (held_in flt cs kids) ->
      verdict (match o with Some m => (b <- member_els m ;; r0 <- r ;; Ok (b :: r0)) | None => r end) (held_in flt (s :: cs) (x :: kids))).
    { clear - Split. intros r Vo Vl. apply (verdict_iff _ (fun s' v' => held_value flt s x s' v' \/ held_in flt cs kids s' v')); [intros; symmetry; apply Split|].
      destruct Vl as [(b & -> & Hl)|[-> Hl]].
      - destruct o as [m|].
        + destruct Vo as [(g & -> & Hg)|[-> Hg]]; cbn [bind]; [left; eexists; split; [reflexivity|]|right; split; [reflexivity|]].
          * intros (s' & v & w & [K|K] & K2); [apply Hg|apply Hl]; exists s', v, w; auto.
          * revert Hg. apply bad_mono. now left.
        + destruct Vo as [(g & _ & Hg)|[E _]]; [|discriminate E]. left. exists b. split; [reflexivity|]. intros (s' & v & w & [K|K] & K2); [apply Hg|apply Hl]; exists s', v, w; auto.
      - right. destruct o as [m|].
        + destruct Vo as [(g & -> & Hg)|[-> Hg]]; cbn [bind]; (split; [reflexivity|]); [revert Hl|revert Hg]; apply bad_mono; auto.
        + split; [reflexivity|]. revert Hl. apply bad_mono. auto. }
    specialize (Ho _ Vo Vl). destruct o; exact Ho.
Qed.
Lemma all_judged s : judged s.
Proof.
  induction s as [i lt d yt k|i ts yt|i pr cs IH|i keys od cs IH] using schema_ind'; intros x Hx; inversion Hx as [? ? ? ? ? ch v Hp|? ? ? ch l Hid Hp|? ? ? ch pres kids Hp|? ? ? ? ch es Hp]; subst.
  - cbn [xgen_kid]. assert (Epr : prefixes O im ins (SLeaf i lt d yt k) (OLeaf ch v) = Ok []).
    { cbn [prefixes]. destruct ch; [|now rewrite Bool.andb_false_r]. destruct (Hp (or_intror eq_refl)) as (w & Hw). pose proof (plain_not_identity _ _ _ _ _ _ _ _ Hw) as Hid. now rewrite (str_eqb_neq _ _ Hid). }
    rewrite Epr. cbn [bind]. eexists. split; [reflexivity|]. destruct (negb flt || ch)%bool eqn:Ef.
    + assert (Hsel : flt = false \/ ch = true) by (destruct flt, ch; auto; discriminate). destruct (Hp Hsel) as (w & Hw). cbn [Xml_proofs.member_els elements]. apply verdict_bind.
      apply (verdict_iff _ (fun s' v' => s' = SLeaf i lt d yt k /\ v' = v)); [|exact (leaf_verdict i lt d yt k v w Hw)].
      intros s' v'. split; [intros [-> ->]; now constructor|]. intros Hh. inversion Hh; subst. now split.
    + left. exists []. split; [reflexivity|]. intros (s' & v' & w & Hh & _). inversion Hh as [? ? ? ? ? ? ? Hsel| | |]; subst. destruct flt, ch; try discriminate Ef; destruct Hsel; discriminate.
  - cbn [xgen_kid]. assert (Epr : prefixes O im ins (SLeafList i ts yt) (OLeafList ch l) = Ok []).
    { cbn [prefixes]. destruct ch; [|now rewrite Bool.andb_false_r]. now rewrite (str_eqb_neq _ _ (Hid eq_refl)). }
    rewrite Epr. cbn [bind]. eexists. split; [reflexivity|]. destruct (negb flt || ch)%bool eqn:Ef.
    + assert (Hsel : flt = false \/ ch = true) by (destruct flt, ch; auto; discriminate). specialize (Hp Hsel). cbn [Xml_proofs.member_els elements].
      apply (verdict_iff _ (fun s' v' => exists a, In a l /\ s' = SLeafList i ts yt /\ v' = a)).
      { intros s' v'. split; [intros (a & Ha & -> & ->); now constructor|]. intros Hh. inversion Hh; subst. now exists v'. }
      apply (verdict_map (fun v => s <- member_text O ts v ;; Ok (XElem (e_ns i) (e_yang i) [] s [])) (fun a s' v' => s' = SLeafList i ts yt /\ v' = a)). eapply Forall_impl; [|exact Hp]. intros v (w & Hw). cbn beta. apply verdict_bind. exact (member_verdict i ts yt v w Hw).
    + left. exists []. split; [reflexivity|]. intros (s' & v' & w & Hh & _). inversion Hh as [|? ? ? ? ? ? Hsel _| |]; subst. destruct flt, ch; try discriminate Ef; destruct Hsel; discriminate.
  - destruct (kids_judged cs IH kids Hp) as (l & El & Vl). rewrite xgen_cont, El. cbn [bind]. eexists. split; [reflexivity|].
    apply (verdict_iff _ (held_in flt cs kids)). { intros s' v'. split; [intros (n & s & x & E1 & E2 & Hh); econstructor; eassumption|]. intros Hh. inversion Hh; subst. now exists n, s, x. }
    destruct l as [|a l].
    + destruct Vl as [(b & _ & Hb)|[E _]]; [|discriminate E]. left. destruct pres; eexists; (split; [reflexivity|exact Hb]).
    + cbn [Xml_proofs.member_els]. rewrite elements_dict. now apply verdict_bind.
  - rewrite xgen_list.
    assert (G : exists ls, map_res (entry_xtree O im ins flt cs) es = Ok ls /\ verdict (map_res (elements O im i []) ls) (fun s' v' => exists e, In e es /\ exists ch' pres kids, snd e = OCont ch' pres kids /\ held_in flt cs kids s' v')).
    { clear Hx. induction Hp as [|e es (ch' & pres & kids & Ee & He) _ IHes]. { exists []. split; [reflexivity|]. left. exists []. split; [reflexivity|]. intros (s' & v & w & (e & [] & _) & _). }
      destruct IHes as (ls & Els & Vls). destruct (kids_judged cs IH kids He) as (l & El & Vl). rewrite map_res_cons. unfold entry_xtree at 1. rewrite Ee, El. cbn [bind]. rewrite Els. cbn [bind]. eexists. split; [reflexivity|].
      rewrite map_res_cons, elements_dict. destruct Vl as [(b & -> & Hb)|[-> Hb]]; cbn [bind].
      - destruct Vls as [(r & -> & Hr)|[-> Hr]]; cbn [bind].
        + left. eexists. split; [reflexivity|]. intros (s' & v & w & (e' & [<-|Hin] & c & p & kk & E' & Hh) & K).
          * rewrite Ee in E'. injection E' as <- <- <-. apply Hb. exists s', v, w. auto.
          * apply Hr. exists s', v, w. split; [|exact K]. exists e'. split; [exact Hin|]. now exists c, p, kk.
        + right. split; [reflexivity|]. revert Hr. apply bad_mono. intros s' v (e' & Hin & R). exists e'. split; [now right|exact R].
      - right. split; [reflexivity|]. revert Hb. apply bad_mono. intros s' v Hh. exists e. split; [now left|]. now exists ch', pres, kids. }
    destruct G as (ls & Els & Vls). rewrite Els. cbn [bind]. eexists. split; [reflexivity|].
    apply (verdict_iff _ (fun s' v' => exists e, In e es /\ exists ch' pres kids, snd e = OCont ch' pres kids /\ held_in flt cs kids s' v')).
    { intros s' v'. split.
      - intros ([k e] & Hin & c & p & kk & E' & n & s & x & E1 & E2 & Hh). cbn [snd] in E'. subst e. econstructor; eassumption.
      - intros Hh. inversion Hh; subst. eexists. split; [eassumption|]. do 3 eexists. split; [reflexivity|]. now exists n, s, x. }
    destruct ls as [|t ls].
    + destruct Vls as [(b & _ & Hb)|[E _]]; [|discriminate E]. left. eexists. split; [reflexivity|exact Hb].
    + cbn [Xml_proofs.member_els]. rewrite elements_list. now apply verdict_bind.
Qed.
Lemma encode_verdict ns name cs kids : Forall2 plain_tree cs kids -> verdict (encode O im ins flt ns name cs kids) (held_in flt cs kids).
Proof.
  intros H. destruct (kids_judged cs ltac:(apply Forall_forall; intros s _; apply all_judged) kids H) as (l & El & Vl). rewrite encode_els. unfold kids_els. rewrite El. cbn [bind]. apply verdict_bind. now apply verdict_bind.
Qed.
Lemma written_thm ns name cs kids : Forall2 plain_tree cs kids ->
  ((forall s v w, held_in flt cs kids s v -> plain_text O s v w -> xml_text w) -> exists e, encode O im ins flt ns name cs kids = Ok e) /\
  ((exists s v w, held_in flt cs kids s v /\ plain_text O s v w /\ ~ xml_text w) -> encode O im ins flt ns name cs kids = Raise ValueError).
Proof.
  intros H. destruct (encode_verdict ns name cs kids H) as [(e & E & Hb)|[E Hb]]; split; intros K.
  - now exists e.
  - now destruct Hb.
  - destruct Hb as (s & v & w & H1 & H2 & H3). destruct (H3 (K s v w H1 H2)).
  - exact E.
Qed.
End W.
From Verif Require Import Parts_proofs.
Lemma map_res_in {A B} (f : A -> res B) l r a : map_res f l = Ok r -> In a l -> exists b, f a = Ok b.
Proof.
  revert r. induction l as [|x l IH]; intros r E Ha; [destruct Ha|]. rewrite map_res_cons in E. destruct (f x) as [b|] eqn:Eb; [|discriminate]. cbn [bind] in E. destruct Ha as [<-|Ha].
  - now exists b.
  - destruct (map_res f l) as [r'|] eqn:Er; [|discriminate]. exact (IH r' eq_refl Ha).
Qed.
Lemma not_written O im ins flt s x s' v w : held_value flt s x s' v -> plain_text O s' v w -> ~ xml_text w -> forall g, kid_els O im ins flt s x <> Ok g.
Proof.
  intros H Hp Hn. induction H as [i lt d yt k ch v Hsel|i ts yt ch l v Hsel Hin|i pr cs ch pres kids n s x s' v E1 E2 H IH|i keys od cs ch es k ch' pres kids n s x s' v Hin E1 E2 H IH]; intros g E.
  - unfold kid_els in E. cbn [xgen_kid] in E. destruct (prefixes O im ins (SLeaf i lt d yt k) (OLeaf ch v)) as [ds|]; [|discriminate]. cbn [bind] in E.
    assert (Ef : (negb flt || ch)%bool = true) by (destruct flt, ch; auto; destruct Hsel; discriminate). rewrite Ef in E. cbn [member_els elements] in E.
    destruct (leaf_verdict O im i lt d yt k v w Hp) as [(a & _ & Hb)|[Er _]]; [|rewrite Er in E; discriminate E]. apply Hb. exists (SLeaf i lt d yt k), v, w. auto.
  - unfold kid_els in E. cbn [xgen_kid] in E. destruct (prefixes O im ins (SLeafList i ts yt) (OLeafList ch l)) as [ds|]; [|discriminate]. cbn [bind] in E.
    assert (Ef : (negb flt || ch)%bool = true) by (destruct flt, ch; auto; destruct Hsel; discriminate). rewrite Ef in E. cbn [member_els elements] in E.
    destruct (map_res_in _ _ _ _ E Hin) as (b & Eb). destruct (member_verdict O i ts yt v w Hp) as [(a & _ & Hb)|[Er _]]; [|rewrite Er in Eb; discriminate Eb]. apply Hb. exists (SLeafList i ts yt), v, w. auto.
  - apply kid_els_cont in E. destruct E as (l & ks & El & Ek & _). assert (K : kids_els O im ins flt cs kids = Ok (concat ks)) by (unfold kids_els; rewrite El; cbn [bind]; rewrite Ek; reflexivity).
    destruct (kids_els_nth _ _ _ _ _ _ _ _ _ _ K E1 E2) as (g' & Eg & _). exact (IH Hp g' Eg).
  - apply kid_els_list in E. destruct (map_res_in _ _ _ _ E Hin) as (e & Ee). unfold entry_els in Ee. cbn [snd] in Ee. destruct (kids_els O im ins flt cs kids) as [els|] eqn:K; [|discriminate].
    destruct (kids_els_nth _ _ _ _ _ _ _ _ _ _ K E1 E2) as (g' & Eg & _). exact (IH Hp g' Eg).
Qed.
Lemma refused_thm O im ins flt ns name cs kids s v w e : held_in flt cs kids s v -> plain_text O s v w -> ~ xml_text w -> encode O im ins flt ns name cs kids <> Ok e.
Proof.
  intros (n & s0 & x0 & E1 & E2 & H) Hp Hn E. rewrite encode_els in E. destruct (kids_els O im ins flt cs kids) as [els|] eqn:K; [|discriminate].
  destruct (kids_els_nth _ _ _ _ _ _ _ _ _ _ K E1 E2) as (g & Eg & _). exact (not_written O im ins flt s0 x0 s v w H Hp Hn g Eg).
Qed.
Lemma formless O im ins flt s x s' x' : node_in s x s' x' -> no_form im ins s' x' -> forall g, kid_els O im ins flt s x <> Ok g.
Proof.
  intros H Hn. induction H as [s x|i pr cs ch pres kids n s x s' x' E1 E2 H IH|i keys od cs ch es k ch' pres kids n s x s' x' Hin E1 E2 H IH]; intros g E.
  - destruct s as [i lt d yt k|i ts yt|i pr cs|i keys od cs], x as [[|] v|[|] l|ch pres kids|ch es]; cbn [no_form] in Hn; try contradiction.
    + destruct v; try contradiction. destruct Hn as [-> Hn]. unfold kid_els in E. cbn [xgen_kid prefixes] in E. rewrite str_eqb_refl in E. cbn [andb py_str] in E.
      destruct (im i s) as [m|], (ins i s) as [n|]; try discriminate E. destruct Hn as [Hn|Hn]; discriminate Hn.
    + destruct (str_eqb yt (lit "identityref")) eqn:Ey; [unfold kid_els in E; cbn [xgen_kid prefixes] in E; rewrite Ey in E; discriminate E|].
      destruct Hn as [->|(-> & Hl & Hb)]; [rewrite str_eqb_refl in Ey; discriminate Ey|].
      unfold kid_els in E. cbn [xgen_kid prefixes] in E. rewrite Ey in E. cbn [andb bind] in E. rewrite Bool.orb_true_r in E. cbn [member_els elements] in E.
      destruct l as [|v l]; [now apply Hl|]. inversion Hb as [|? ? (b & ->) _]; subst. destruct (map_res_in _ _ _ _ E (or_introl eq_refl)) as (e & Ee). discriminate Ee.
  - apply kid_els_cont in E. destruct E as (l & ks & El & Ek & _). assert (K : kids_els O im ins flt cs kids = Ok (concat ks)) by (unfold kids_els; rewrite El; cbn [bind]; rewrite Ek; reflexivity).
    destruct (kids_els_nth _ _ _ _ _ _ _ _ _ _ K E1 E2) as (g' & Eg & _). exact (IH Hn g' Eg).
  - apply kid_els_list in E. destruct (map_res_in _ _ _ _ E Hin) as (e & Ee). unfold entry_els in Ee. cbn [snd] in Ee. destruct (kids_els O im ins flt cs kids) as [els|] eqn:K; [|discriminate].
    destruct (kids_els_nth _ _ _ _ _ _ _ _ _ _ K E1 E2) as (g' & Eg & _). exact (IH Hn g' Eg).
Qed.
Lemma formless_thm O im ins flt ns name cs kids s x e : node_of cs kids s x -> no_form im ins s x -> encode O im ins flt ns name cs kids <> Ok e.
Proof.
  intros (n & s0 & x0 & E1 & E2 & H) Hn E. rewrite encode_els in E. destruct (kids_els O im ins flt cs kids) as [els|] eqn:K; [|discriminate].
  destruct (kids_els_nth _ _ _ _ _ _ _ _ _ _ K E1 E2) as (g & Eg & _). exact (formless O im ins flt s0 x0 s x H Hn g Eg).
Qed.
