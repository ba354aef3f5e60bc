(** From typed values to round trips (XML). *)
From Coq Require Import Lia.
From Verif Require Import PyStr PyStr_facts PyVal Base64 Restricted Restricted_proofs Spec_Types IntTypes StrTypes StrTypes_proofs
  Scalars_proofs Bits Bits_proofs Spec_Lists TypedList TypedList_proofs MemberTypes Member_proofs YList YList_proofs SafeName
  Tree Spec_Tree Tree_proofs Tree_hist Tree_dump Serialise Spec_Serialise Decimal_proofs Load_proofs Serialise_proofs Json_proofs Ietf_proofs
  IetfRound_proofs Xml Spec_Xml Xml_proofs.
Local Open Scope Z_scope.

(* ------------------------------------------------------------------ texts *)
Lemma letter_char c : xml_letter c -> xml_char c = true.
Proof.
  unfold xml_letter, xml_char. intros H. rewrite !Bool.orb_true_iff, !Bool.andb_true_iff, !N.eqb_eq, !N.leb_le. lia.
Qed.
Lemma legal_ok s : xml_text s -> legal_text s = Ok s.
Proof.
  intros H. unfold legal_text. replace (forallb xml_char s) with true; [reflexivity|]. symmetry. apply forallb_forall.
  intros c Hc. apply letter_char. unfold xml_text in H. rewrite Forall_forall in H. auto.
Qed.
Lemma xml_app a b : xml_text a -> xml_text b -> xml_text (a ++ b).
Proof. intros H1 H2. now apply Forall_app. Qed.
Lemma digits_xml s : Forall digitN s -> xml_text s.
Proof. apply Forall_impl. unfold digitN, xml_letter. intros c H. lia. Qed.
Lemma printZ_xml z : xml_text (print_Z z).
Proof. eapply Forall_impl; [|apply print_Z_chars]. unfold digitN, xml_letter. intros c H. lia. Qed.
Lemma lit_xml s : forallb (fun c => (32 <=? c) && (c <=? 126))%N (lit s) = true -> xml_text (lit s).
Proof.
  intros H. apply Forall_forall. intros c Hc. rewrite forallb_forall in H. apply H in Hc.
  apply Bool.andb_true_iff in Hc. rewrite !N.leb_le in Hc. unfold xml_letter. lia.
Qed.
Lemma firstn_digits n s : Forall digitN s -> Forall digitN (firstn n s).
Proof. intros H. revert n. induction H; intros [|n]; constructor; auto. Qed.
Lemma skipn_digits n s : Forall digitN s -> Forall digitN (skipn n s).
Proof. intros H. revert n. induction H; intros [|n]; cbn; auto; constructor; auto. Qed.
Lemma printdec_xml c e : xml_text (print_dec c e).
Proof.
  unfold print_dec. destruct (print_N_spec (Z.to_N (Z.abs c))) as (_ & H & _). set (D := print_N (Z.to_N (Z.abs c))) in *. cbv zeta.
  apply xml_app; [destruct (c <? 0); [apply lit_xml; reflexivity|constructor]|]. apply xml_app.
  - match goal with |- xml_text (if ?b then _ else _) => destruct b end.
    + apply xml_app; [apply lit_xml; reflexivity|]. apply xml_app; apply digits_xml; [apply zeros_digits|assumption].
    + match goal with |- xml_text (if ?b then _ else _) => destruct b end.
      * apply xml_app; apply digits_xml; [assumption|apply zeros_digits].
      * apply xml_app; [apply digits_xml; now apply firstn_digits|]. apply xml_app; [apply lit_xml; reflexivity|].
        apply digits_xml. now apply skipn_digits.
  - match goal with |- xml_text (if ?b then _ else _) => destruct b end; [constructor|].
    apply xml_app; [apply lit_xml; reflexivity|]. apply xml_app; [|apply printZ_xml].
    match goal with |- xml_text (if ?b then _ else _) => destruct b end; [apply lit_xml; reflexivity|constructor].
Qed.
Lemma printdec_nonnil c e : print_dec c e <> [].
Proof.
  intros E. pose proof (parse_print_dec c e) as H. rewrite E in H. vm_compute in H. discriminate.
Qed.
Lemma b64_char_xml n : (n < 64)%N -> xml_letter (b64_char n).
Proof.
  intros H. unfold b64_char.
  assert (G : Forall xml_letter b64_alphabet) by (apply lit_xml; reflexivity).
  rewrite Forall_forall in G. apply G. apply nth_In. change (length b64_alphabet) with 64%nat. lia.
Qed.
Lemma b64_xml_ind n : forall l, (length l <= n)%nat -> Forall (fun b => (b < 256)%N) l -> xml_text (b64encode l).
Proof.
  assert (P : xml_letter 61%N) by (unfold xml_letter; lia).
  induction n as [|n IH]; intros l Hl Hb.
  - destruct l; [constructor|cbn in Hl; lia].
  - destruct l as [|a [|b [|c l]]]; [constructor| | |]; repeat match goal with H : Forall _ (_ :: _) |- _ => inversion H; clear H; subst end; cbn [b64encode].
    + assert (a / 4 < 64)%N by (apply N.div_lt_upper_bound; lia). pose proof (N.mod_lt a 4).
      repeat (constructor; [first [exact P|apply b64_char_xml; lia]|]); constructor.
    + assert (a / 4 < 64)%N by (apply N.div_lt_upper_bound; lia). pose proof (N.mod_lt a 4).
      assert (b / 16 < 16)%N by (apply N.div_lt_upper_bound; lia). pose proof (N.mod_lt b 16).
      repeat (constructor; [first [exact P|apply b64_char_xml; lia]|]); constructor.
    + assert (a / 4 < 64)%N by (apply N.div_lt_upper_bound; lia). pose proof (N.mod_lt a 4).
      assert (b / 16 < 16)%N by (apply N.div_lt_upper_bound; lia). pose proof (N.mod_lt b 16).
      assert (c / 64 < 4)%N by (apply N.div_lt_upper_bound; lia). pose proof (N.mod_lt c 64).
      repeat (constructor; [apply b64_char_xml; lia|]). apply IH; [cbn in Hl; lia|assumption].
Qed.
Lemma b64_xml l : Forall (fun b => (b < 256)%N) l -> xml_text (b64encode l).
Proof. now apply (b64_xml_ind (length l)). Qed.
Lemma b64_nonnil l : l <> [] -> b64encode l <> [].
Proof. destruct l as [|a [|b [|c l]]]; [congruence| | |]; cbn; discriminate. Qed.
Lemma join_xml l : Forall xml_text l -> xml_text (join [32%N] l).
Proof.
  intros H. induction H as [|x l Hx H IH]; [constructor|]. destruct l as [|y l]; [exact Hx|].
  rewrite join_cons2. apply xml_app; [assumption|]. apply xml_app; [|assumption]. constructor; [unfold xml_letter; lia|constructor].
Qed.

(* ------------------------------------------------------------------ what lxml sees in a text *)
Lemma printed_literal z : int_literal (print_Z z) = true.
Proof.
  assert (D : forall n, exists c s, print_N n = c :: s /\ digitN c /\ Forall digitN s).
  { intros n. destruct (print_N_spec n) as (H1 & H2 & _). destruct (print_N n) as [|c s]; [congruence|]. inversion H2; subst. eauto. }
  assert (F : forall s, Forall digitN s -> forallb is_digit s = true).
  { intros s H. apply forallb_forall. rewrite Forall_forall in H. intros c Hc. apply H in Hc. unfold digitN in Hc. unfold is_digit.
    rewrite Bool.andb_true_iff, !N.leb_le. lia. }
  unfold int_literal. destruct z as [|p|p]; cbn [print_Z]; [reflexivity| |].
  - destruct (D (Npos p)) as (c & s & -> & Hc & Hs). unfold digitN in Hc.
    destruct (N.eqb_spec c 45); [lia|]. destruct (N.eqb_spec c 43); [lia|]. cbn [orb]. apply F. now constructor.
  - destruct (D (Npos p)) as (c & s & -> & Hc & Hs). cbn [N.eqb orb Pos.eqb]. apply F. now constructor.
Qed.
Lemma objectified_int ft z : objectified ft (print_Z z) = VInt z.
Proof.
  unfold objectified. rewrite printed_literal, parse_print_Z. pose proof (print_Z_nonnil z). now destruct (print_Z z).
Qed.

Section P.
Context (O : oracle) (ft : str -> option pyval) (im ins : einfo -> str -> option str).

(* ------------------------------------------------------------------ the text of a value *)
Ltac each_name H := repeat (destruct H as [<-|H]; [|]); try contradiction.
Lemma class_text t v s : text_of t v s -> exists j, enc_class O true true (pty_of t) v = Ok j /\ scalar_text O j = s.
Proof.
  unfold enc_class. destruct t as [levels|levels| | |names| |n], v; cbn [text_of]; intros H; try contradiction; subst s; cbn [pty_of].
  - rewrite base_int. destruct (int64_class (int_chain levels)); [now exists (JStr (print_Z z))|now exists (JInt z)].
  - rewrite base_str. now eexists.
  - now eexists.
  - exists (JBool b). now destruct b.
  - now eexists.
  - now eexists.
  - now eexists.
Qed.
Lemma leaf_doc i t yt v s : type_name (WVal t) yt -> text_of t v s -> yt <> lit "identityref" -> yt <> lit "empty" ->
  exists j, enc_leaf O im true i (LOne (pty_of t)) yt v = Ok j /\ scalar_text O j = s.
Proof.
  intros [H|H] Ht Hid Hem; [|rewrite enc_unknown by assumption; now apply class_text].
  destruct t as [levels|levels| | |names| |n], v; cbn [text_of] in Ht; try contradiction; subst s; cbn [names_of] in H.
  - apply in_app_or in H as [H|H].
    + rewrite enc_wide by assumption. now eexists.
    + rewrite enc_narrow by assumption. now eexists.
  - cbn in H; each_name H. now eexists.
  - cbn in H; each_name H; now eexists.
  - cbn in H; each_name H.
  - cbn in H; each_name H; now eexists.
  - cbn in H; each_name H; now eexists.
  - cbn in H; each_name H; now eexists.
Qed.
Lemma leaf_text_doc i t yt v s : type_name (WVal t) yt -> text_of t v s -> xml_text s -> yt <> lit "identityref" -> yt <> lit "empty" ->
  leaf_text O im i (LOne (pty_of t)) yt v = Ok s.
Proof.
  intros H1 H2 H3 H4 H5. unfold leaf_text. rewrite (str_eqb_neq _ _ H5). destruct (leaf_doc i t yt v s H1 H2 H4 H5) as (j & -> & Hj).
  cbn [bind]. rewrite Hj. now apply legal_ok.
Qed.

(** Assigning the text gives the value. *)
Lemma text_assign t yt v s : mtype_wf t -> value_ok O Ietf t yt v -> text_of t v s -> d_out (dyn_leaf O (pty_of t) (VStr s)) = Ok v.
Proof.
  intros Hwf [Hval Hok] Ht.
  assert (Own : v = VStr s -> match t with MDec _ => False | _ => True end -> d_out (dyn_leaf O (pty_of t) (VStr s)) = Ok v).
  { intros -> Hd. rewrite (dyn_leaf_call O _ _ _ (call_own O t (VStr s) Hwf Hval ltac:(destruct t; try exact I; contradiction))). reflexivity. }
  destruct t as [levels|levels| | |names| |n], v; cbn [text_of] in Ht; try contradiction; subst s; try (now apply Own).
  - cbn [pty_of]. rewrite (dyn_leaf_call O _ _ _ (int_text O levels z Hwf Hval)). reflexivity.
  - destruct b; reflexivity.
  - cbn [pty_of]. unfold dyn_leaf. cbn [ty_new yang_binary]. rewrite b64_roundtrip by assumption. reflexivity.
  - destruct Hval as (q & E). injection E as -> ->. destruct Hok as [Hn Hq]. cbn [pty_of].
    rewrite (dyn_leaf_call O _ _ _ (dec_text O n q Hn Hq)). reflexivity.
Qed.
Lemma assign_dyn t v w : d_out (dyn_leaf O t v) = Ok w -> d_out (leaf_assign O (LOne t) v) = Ok w.
Proof. unfold leaf_assign. cbn [dyn_ltype]. intros H. now rewrite H. Qed.

Lemma value_has_text t yt v : value_ok O Ietf t yt v -> v <> VBytes [] -> (forall s, v = VStr s -> s <> [] /\ xml_text s) ->
  exists s, text_of t v s /\ xml_text s /\ s <> [].
Proof.
  intros [Hval Hok] Hb Hs. destruct t as [levels|levels| | |names| |n]; cbn [is_value] in Hval.
  - destruct Hval as (z & -> & _). exists (print_Z z). split; [reflexivity|]. split; [apply printZ_xml|apply print_Z_nonnil].
  - destruct Hval as (s & -> & _). exists s. split; [reflexivity|]. destruct (Hs s eq_refl). auto.
  - destruct Hval as (s & ->). exists s. split; [reflexivity|]. destruct (Hs s eq_refl). auto.
  - destruct Hval as (b & ->). exists (if b then lit "true" else lit "false"). split; [reflexivity|].
    split; [destruct b; apply lit_xml; reflexivity|destruct b; discriminate].
  - destruct Hval as (s & -> & _). exists s. split; [reflexivity|]. destruct (Hs s eq_refl). auto.
  - destruct Hval as (l & ->). exists (b64encode l). split; [reflexivity|]. split; [now apply b64_xml|apply b64_nonnil; congruence].
  - destruct Hval as (q & ->). exists (print_dec q (- n)). split; [reflexivity|]. split; [apply printdec_xml|apply printdec_nonnil].
Qed.

Lemma value_plain yt s : yt <> lit "empty" -> yt <> lit "identityref" -> s <> [] -> xml_value yt s = Ok (Some (VStr s)).
Proof. intros H1 H2 H3. unfold xml_value. rewrite (str_eqb_neq _ _ H1), (str_eqb_neq _ _ H2). now destruct s. Qed.
Lemma prefixes_plain i lt d yt k ch v : yt <> lit "identityref" -> prefixes O im ins (SLeaf i lt d yt k) (OLeaf ch v) = Ok [].
Proof. intros H. cbn [prefixes]. now rewrite (str_eqb_neq _ _ H). Qed.

Lemma union_name ts yt : type_name (WUnion ts) yt -> ~ In yt known_names.
Proof. now intros [[]|H]. Qed.
Lemma bits_name a yt : type_name (WBits a) yt -> ~ In yt known_names.
Proof. now intros [[]|H]. Qed.

Definition xcomes (i : einfo) (lt : ltype) (d : option pyval) (yt : str) (k : bool) (v : pyval) : Prop :=
  exists ds t, prefixes O im ins (SLeaf i lt d yt k) (OLeaf true v) = Ok ds /\ leaf_text O im i lt yt v = Ok t /\
    exists w, xml_value yt t = Ok (Some w) /\ d_out (leaf_assign O lt w) = Ok v.

Lemma xcomes_plain i lt d yt k v s j : ordinary yt -> enc_leaf O im true i lt yt v = Ok j -> scalar_text O j = s -> xml_text s -> s <> [] ->
  d_out (leaf_assign O lt (VStr s)) = Ok v -> xcomes i lt d yt k v.
Proof.
  intros [Hem Hid] Hj Hs Hx Hne Ha. exists [], s. split; [now apply prefixes_plain|]. split.
  - unfold leaf_text. rewrite (str_eqb_neq _ _ Hem), Hj. cbn [bind]. rewrite Hs. now apply legal_ok.
  - exists (VStr s). split; [now apply value_plain|assumption].
Qed.

Lemma xleaf_comes i w d yt k v : type_name w yt -> xleaf_ok O im ins i w yt v -> xcomes i (ltype_of w) d yt k v.
Proof.
  intros Hn Hv. destruct w as [t|a| |ts]; cbn [ltype_of xleaf_ok] in *.
  - destruct Hv as (Hwf & Hok & Hb & Hs & Hid).
    destruct (list_eq_dec N.eq_dec yt (lit "empty")) as [->|Hem].
    { assert (t = MBool) as ->.
      { destruct Hn as [Hn|Hn]; [|exfalso; apply Hn; cbn [known_names wide_names narrow_names map app In]; tauto].
        destruct t; cbn in Hn; try reflexivity; exfalso; repeat (destruct Hn as [Hn|Hn]; [vm_compute in Hn; discriminate|]); contradiction. }
      destruct Hok as [(b & ->) Hok]. rewrite (Hok eq_refl eq_refl). exists [], []. split; [reflexivity|]. split; [reflexivity|].
      exists (VBool true). split; reflexivity. }
    destruct (list_eq_dec N.eq_dec yt (lit "identityref")) as [->|Hne].
    { destruct (Hid eq_refl) as (s & m & n & -> & Hm & Hns & Hc & Hx). destruct (Hs s eq_refl) as [Hsn Hsx].
      assert (exists names, t = MEnum names) as [names ->].
      { destruct Hn as [Hn|Hn]; [|exfalso; apply Hn; cbn [known_names wide_names narrow_names map app In]; tauto].
        destruct t; cbn in Hn; try (now eexists); exfalso; repeat (destruct Hn as [Hn|Hn]; [vm_compute in Hn; discriminate|]); contradiction. }
      destruct Hok as [Hval Hok]. specialize (Hok eq_refl eq_refl). cbn beta iota in Hok.
      assert (Ha : d_out (leaf_assign O (LOne (pty_of (MEnum names))) (VStr s)) = Ok (VStr s)) by now apply assign_own.
      assert (Hread : exists t, enc_identity O im i (VStr s) = JStr t /\ (if has_char 58 t then after_first_colon t else t) = s /\ t <> [] /\ xml_text t).
      { unfold enc_identity. cbn [py_str]. rewrite Hm. destruct (negb (str_eqb m (e_mod i)) && negb (startswith m s))%bool.
        - exists (m ++ lit ":" ++ s). split; [reflexivity|]. rewrite has_prefix. split; [now apply after_prefix|].
          split; [destruct m; discriminate|]. apply xml_app; [assumption|]. apply xml_app; [apply lit_xml; reflexivity|assumption].
        - exists s. split; [reflexivity|]. now rewrite no_colon_has. }
      destruct Hread as (x & Ex & Er & Hxn & Hxx). exists [(m, n)], x. split; [cbn [prefixes]; rewrite str_eqb_refl; cbn [andb py_str]; now rewrite Hm, Hns|].
      split.
      - unfold leaf_text. change (str_eqb (lit "identityref") (lit "empty")) with false. cbv iota.
        assert (E : enc_leaf O im true i (LOne (pty_of (MEnum names))) (lit "identityref") (VStr s) = Ok (enc_identity O im i (VStr s))) by reflexivity.
        rewrite E, Ex. cbn [bind scalar_text jval py_str]. now apply legal_ok.
      - exists (VStr s). split; [|exact Ha]. unfold xml_value. change (str_eqb (lit "identityref") (lit "empty")) with false. rewrite str_eqb_refl.
        destruct x; [congruence|]. now rewrite Er. }
    destruct (value_has_text t yt v Hok Hb Hs) as (s & Ht & Hx & Hsn).
    destruct (leaf_doc i t yt v s Hn Ht Hne Hem) as (j & Hj & Hjs). eapply xcomes_plain; eauto; [now split|].
    apply assign_dyn. eapply text_assign; eassumption.
  - destruct Hv as (l & -> & Hl0 & Hl & Hw & Hs & Hx). apply bits_name in Hn.
    eapply xcomes_plain with (s := bits_str a l); [now apply unknown_ordinary|rewrite enc_unknown by assumption; reflexivity|reflexivity| | |].
    + unfold bits_str. rewrite Hs. apply join_xml. apply Forall_forall. intros b Hb. rewrite Forall_forall in Hx. apply Hx. now apply Hl.
    + unfold bits_str. rewrite Hs. destruct l as [|b l]; [congruence|]. assert (Hb : b <> []).
      { unfold words in Hw. rewrite Forall_forall in Hw. apply (Hw b). apply Hl. now left. }
      destruct l; [exact Hb|]. rewrite join_cons2. destruct b; [congruence|discriminate].
    + destruct (bits_reparse a l Hl Hw) as (l' & Hb & Hp).
      assert (l' = l) as ->.
      { revert Hb. unfold yang_bits, bits_str. rewrite split_ws_join.
        - rewrite Hs. rewrite add_all_fresh; [cbn; intros Hb; now injection Hb|cbn; apply Hl|apply Hl].
        - rewrite Hs. apply Forall_forall. intros b Hb. unfold words in Hw. rewrite Forall_forall in Hw. apply Hw. now apply Hl. }
      unfold leaf_assign. cbn [dyn_ltype]. unfold dyn_leaf. cbn [ty_new ty_init]. now rewrite Hb.
  - destruct Hv as (s & -> & Hsn & Hx).
    assert (Ho : ordinary yt). { destruct Hn as [Hn|Hn]; [cbn in Hn; each_name Hn; split; vm_compute; congruence|now apply unknown_ordinary]. }
    eapply xcomes_plain with (j := JStr s) (s := s); auto.
    destruct Hn as [Hn|Hn]; [cbn in Hn; each_name Hn; reflexivity|]. rewrite enc_unknown by assumption. reflexivity.
  - destruct Hv as (t & s & Ht & Hp & Hps & Hwf & Hok & Htx & Hsn & Hx). apply union_name in Hn.
    destruct (class_text t v s Htx) as (j & Hj & Hjs).
    eapply xcomes_plain with (j := j) (s := s); auto; [now apply unknown_ordinary|rewrite enc_unknown by assumption; cbn [leaf_class]; now rewrite Hp|].
    unfold leaf_assign. cbn [dyn_ltype]. rewrite Hps. cbn [d_out]. now rewrite (text_assign t [] v s Hwf Hok Htx).
Qed.

(* ------------------------------------------------------------------ members *)
Lemma enum_call names w s : py_str O w = s -> In s names -> ty_call O (enum_type names) w = Ok (VStr s).
Proof.
  intros E Hs. unfold ty_call, enum_type. cbn [ty_new build bind fst snd any_pass]. unfold dict_test. cbn [bind].
  rewrite E, (str_in_refl s names Hs). cbn [bind]. destruct (is_False w); cbn [bind ty_init is_restr ty_new build fst snd all_pass];
    unfold dict_test; cbn [bind py_str]; now rewrite E, (str_in_refl s names Hs).
Qed.
Lemma xmember t yt v l : mtype_wf t -> xmember_ok O ft t yt v -> (forall w, In w l -> is_value (o_match O) t w) ->
  exists x, member_text O [pty_of t] v = Ok x /\ xappends O ft [pty_of t] l x v.
Proof.
  intros Hwf (Hval & Hid & Hx & Hm) Hl. destruct Hval as [Hval Hok].
  assert (Ht : match t with MBin | MDec _ => False | _ => True end -> member_try O (pty_of t) v = Some v).
  { intros Hd. apply try_own; auto; destruct t; try contradiction; try discriminate; exact I. }
  unfold member_text, enc_member, xappends. cbn [member_class member_value].
  destruct t as [levels|levels| | |names| |n]; try contradiction; specialize (Ht I).
  - destruct Hval as (z & -> & Hz). exists (print_Z z). split.
    + rewrite Ht. unfold enc_class. cbn [pty_of]. rewrite base_int.
      destruct (int64_class (int_chain levels)); cbn [enc_long enc_int py_int bind jval py_str]; apply legal_ok; apply printZ_xml.
    + rewrite objectified_int. split; [auto|]. left. now rewrite Ht.
  - destruct Hm as (s & -> & Ho). exists s. split.
    + rewrite Ht. unfold enc_class. cbn [pty_of]. rewrite base_str. cbn [bind jval py_str]. apply legal_ok. auto.
    + rewrite Ho. split; [auto|]. left. now rewrite Ht.
  - destruct Hm as (s & -> & Ho). exists s. split.
    + rewrite Ht. cbn [pty_of enc_class base_of bind jval py_str]. apply legal_ok. auto.
    + cbn [pty_of member_try]. split.
      * intros z Hz Heq. destruct (Hl z Hz) as (s' & ->). destruct (objectified ft s) eqn:E; try discriminate Heq.
        cbn [py_str] in Ho. now subst.
      * destruct (objectified ft s) eqn:E; cbn [py_str] in Ho |- *; try (left; congruence);
          (right; split; [reflexivity|]; split; [now left|]; rewrite Ho; split; [reflexivity|auto]).
  - destruct Hval as (b & ->). exists (if b then lit "1" else lit "0"). split.
    + rewrite Ht. destruct b; vm_compute; reflexivity.
    + assert (E : objectified ft (if b then lit "1" else lit "0") = VInt (if b then 1 else 0)) by (destruct b; exact (objectified_int ft _) || reflexivity).
      rewrite E. split.
      * intros z Hz. destruct (Hl z Hz) as (b' & ->). destruct b, b'; cbn; congruence.
      * left. now destruct b.
  - destruct Hm as (s & -> & Ho). destruct Hval as (s' & E' & Hs). injection E' as <-. exists s. split.
    + rewrite Ht. cbn [pty_of enum_type enc_class base_of bind jval py_str]. apply legal_ok. auto.
    + split.
      * intros z Hz Heq. destruct (Hl z Hz) as (s' & -> & _). destruct (objectified ft s) eqn:E; try discriminate Heq.
        cbn [py_str] in Ho. now subst.
      * left. cbn [pty_of]. unfold member_try. pose proof (enum_call names _ _ Ho Hs) as Hc. unfold enum_type in *. now rewrite Hc.
Qed.

(* ------------------------------------------------------------------ keys *)
Lemma xkey_made cs kids i n p : NoDup (map (fun s => e_py (s_info s)) cs) ->
  Forall (fun s => In (e_py (s_info s)) [n] -> e_ns (s_info s) = e_ns i) cs ->
  (exists t yt v, key_leaf O Ietf cs kids n t yt v /\ type_name (WVal t) yt /\ yt <> lit "identityref" /\ xkey_part O ft t v p) ->
  exists kv, xkey_value O ft im cs kids i n kv /\ py_str O kv = p.
Proof.
  intros Hnd Hns (t & yt & v & (a & ki & d & key & Hs & Hn & Hx & Hwf & Hok) & Hty & Hid & Hxp & Hp).
  assert (Ha : kid_index n cs = Some a) by (subst n; exact (kid_index_nth cs Hnd a _ Hs)).
  assert (He : e_ns ki = e_ns i).
  { rewrite Forall_forall in Hns. apply (Hns _ (nth_error_In _ _ Hs)). left. now symmetry. }
  assert (Hem : yt <> lit "empty").
  { intros ->. destruct Hty as [H|H]; [|apply H; cbn [known_names wide_names narrow_names map app In]; tauto].
    destruct t; try contradiction; cbn in H; repeat (destruct H as [H|H]; [vm_compute in H; discriminate|]); contradiction. }
  assert (K : forall x kv, text_of t v x -> xml_text x -> objectified ft x = kv -> d_out (leaf_assign O (LOne (pty_of t)) kv) = Ok v -> py_str O kv = p ->
            exists kv, xkey_value O ft im cs kids i n kv /\ py_str O kv = p).
  { intros x kv H1 H2 H3 H4 H5. exists kv. split; [|assumption]. exists a, ki, (LOne (pty_of t)), d, yt, key, v, x.
    repeat (split; [assumption|]). split; [now apply leaf_text_doc|]. auto. }
  assert (Own : match t with MDec _ => False | _ => True end -> d_out (leaf_assign O (LOne (pty_of t)) v) = Ok v).
  { intros Hd. apply assign_own; auto; [apply Hok|]. destruct t; try contradiction; exact I. }
  destruct t as [levels|levels| | |names| |m]; cbn [xkey_part] in Hp; try contradiction; specialize (Own I).
  - destruct Hp as (z & -> & ->). apply (K (print_Z z) (VInt z)); auto; [reflexivity|apply objectified_int].
  - destruct Hp as (_ & -> & Ho). apply (K p (VStr p)); auto. reflexivity.
  - destruct Hp as (-> & Ho). apply (K p (objectified ft p)); auto; [reflexivity|].
    apply assign_call. cbn [pty_of]. unfold ty_call. cbn [ty_new ty_init]. now rewrite Ho.
  - destruct Hp as (-> & Ho). apply (K p (objectified ft p)); auto; [reflexivity|].
    apply assign_call. apply enum_call; [exact Ho|]. destruct Hok as [(s & E & Hin) _]. now injection E as <-.
Qed.
Lemma xkeys_made keys cs kids i k : NoDup (map (fun s => e_py (s_info s)) cs) ->
  Forall (fun s => In (e_py (s_info s)) keys -> e_ns (s_info s) = e_ns i) cs -> xml_key O ft keys cs kids k ->
  exists kvs, Forall2 (xkey_value O ft im cs kids i) keys kvs /\ k = VStr (join [32%N] (map (py_str O) kvs)).
Proof.
  intros Hnd Hns (parts & -> & Hall).
  assert (Hkv : exists kvs, Forall2 (xkey_value O ft im cs kids i) keys kvs /\ map (py_str O) kvs = parts).
  { induction Hall as [|n p keys parts Hp Hall IH]; [now exists []|].
    destruct IH as (kvs & H1 & H2). { eapply Forall_impl; [|exact Hns]. intros s H Hin. apply H. now right. }
    destruct (xkey_made cs kids i n p Hnd) as (kv & Hkv & E); auto.
    { eapply Forall_impl; [|exact Hns]. intros s H [Hin|[]]. apply H. now left. }
    exists (kv :: kvs). split; [now constructor|]. cbn [map]. now rewrite E, H2. }
  destruct Hkv as (kvs & H1 & <-). eauto.
Qed.

(* ------------------------------------------------------------------ trees *)
Lemma untouched_xgen s : forall x, untouched s x -> xgen_kid O im ins true s x = Ok None.
Proof.
  induction s as [i lt d yt k|i ts yt|i pr cs IH|i keys od cs IH] using schema_ind'; intros x Hx; destruct x as [ch v|ch l|ch pres kids|ch es];
    cbn [untouched] in Hx; try contradiction.
  - subst ch. cbn [xgen_kid prefixes]. now rewrite Bool.andb_false_r.
  - destruct Hx as [-> _]. cbn [xgen_kid prefixes]. now rewrite Bool.andb_false_r.
  - destruct Hx as [-> Hx]. rewrite xgen_cont.
    assert (E : xgen_kids O im ins true cs kids = Ok []); [|now rewrite E].
    revert kids Hx. induction IH as [|s cs Hs Hcs IH2]; intros [|x kids] Hx; try reflexivity; try contradiction.
    destruct Hx as [H1 H2]. cbn [xgen_kids]. rewrite (Hs x H1). cbn [bind]. now rewrite IH2.
  - subst es. reflexivity.
Qed.
Lemma untouched_xgens cs kids : Forall2 untouched cs kids -> xgen_kids O im ins true cs kids = Ok [].
Proof. induction 1 as [|s x cs kids Hs _ IH]; [reflexivity|]. cbn [xgen_kids]. rewrite untouched_xgen by assumption. cbn [bind]. now rewrite IH. Qed.

Lemma xstorable_xready top : python_names top -> key_leaves top -> forall s q, schema_at top q = Some s -> ends_kid q ->
  forall x, xstorable O ft im ins s x -> xready O ft im ins s x.
Proof.
  intros Hnm (_ & Hkc & Hkl). induction s as [i lt d yt k|i ts yt|i pr cs IH|i keys od cs IH] using schema_ind'; intros q Hq Hend x Hx.
  - inversion Hx as [? w ? ? ? ch v H| | |]; subst. constructor. intros Hc. destruct (H Hc) as [H1 H2]. destruct k.
    + destruct H2 as (t & s & -> & Ht & Hs & Hid & Hem). exists [], s. split; [now apply prefixes_plain|]. split; [now apply leaf_text_doc|discriminate].
    + destruct (xleaf_comes i w d yt false v H1 H2) as (ds & t & G1 & G2 & G3). exists ds, t. auto.
  - inversion Hx as [|? t ? ch l Hwf Hall Hd Hid Hempty| |]; subst.
    assert (Hval : forall w, In w l -> is_value (o_match O) t w).
    { intros w Hw. rewrite Forall_forall in Hall. apply Hall in Hw. apply Hw. }
    assert (Hjs : forall l2, Forall (xmember_ok O ft t yt) l2 ->
        exists txts, Forall2 (fun v x => member_text O [pty_of t] v = Ok x /\ xappends O ft [pty_of t] l x v) l2 txts).
    { intros l2 H2. induction H2 as [|v l2 Hv _ [js IH]]; [exists []; constructor|].
      destruct (xmember t yt v l Hwf Hv Hval) as (x & H1 & H2). exists (x :: js). constructor; auto. }
    destruct (Hjs l Hall) as [txts Htx]. apply (XrLeafList _ _ _ _ i [pty_of t] yt ch l txts); auto.
    now apply distinct_dist.
  - inversion Hx as [| |? ? ? ch pres kids Hk Hp|]; subst.
    assert (G : forall cs2 kids2 n0, (forall n s, nth_error cs2 n = Some s -> nth_error cs (n0 + n) = Some s) ->
              Forall2 (xstorable O ft im ins) cs2 kids2 -> Forall2 (xready O ft im ins) cs2 kids2).
    { intros cs2 kids2 n0 Hsub H. revert n0 Hsub. induction H as [|s y cs2 kids2 Hs Hr IH2]; intros n0 Hsub; constructor.
      - pose proof (Hsub 0%nat s eq_refl) as Hn. rewrite Nat.add_0_r in Hn. rewrite Forall_forall in IH.
        apply (IH s (nth_error_In _ _ Hn) (q ++ [Kid n0])); [now rewrite (schema_kid top q i pr cs)|apply ends_kid_app|assumption].
      - apply (IH2 (S n0)). intros n s' Hn. rewrite Nat.add_succ_comm. now apply Hsub. }
    constructor.
    + apply (G cs kids 0%nat); auto.
    + destruct Hend as (q' & n & ->). eapply Hkc. exact Hq.
    + intros Epr. destruct (Hp Epr) as [H|H]; [now left|right]. now apply untouched_xgens.
  - inversion Hx as [| | |? ? ? ? ch es Hne Hd Hes]; subst.
    pose proof (schema_entry top q i keys od cs VNone Hq) as Hq'.
    destruct (Hnm _ _ _ _ Hq') as [Hnd _]. pose proof (Hkl _ _ _ _ _ Hq) as Hmark.
    assert (G : forall cs2 kids2 n0, (forall n s, nth_error cs2 n = Some s -> nth_error cs (n0 + n) = Some s) ->
              Forall2 (xstorable O ft im ins) cs2 kids2 -> Forall2 (xready O ft im ins) cs2 kids2).
    { intros cs2 kids2 n0 Hsub H. revert n0 Hsub. induction H as [|s y cs2 kids2 Hs Hr IH2]; intros n0 Hsub; constructor.
      - pose proof (Hsub 0%nat s eq_refl) as Hn. rewrite Nat.add_0_r in Hn. rewrite Forall_forall in IH.
        apply (IH s (nth_error_In _ _ Hn) ((q ++ [Ent VNone]) ++ [Kid n0])); [now rewrite (schema_kid top _ plain false cs)|apply ends_kid_app|assumption].
      - apply (IH2 (S n0)). intros n s' Hn. rewrite Nat.add_succ_comm. now apply Hsub. }
    constructor; auto.
    + now apply all_distinct_iff.
    + eapply Forall_impl; [|exact Hmark]. now intros s [H _].
    + eapply Forall_impl; [|exact Hes]. intros e (c & ps & kids & He & Hk & Hkey).
      destruct (xkeys_made keys cs kids i (fst e) Hnd) as (kvs & H1 & H2); auto.
      { eapply Forall_impl; [|exact Hmark]. now intros s [_ H]. }
      exists c, ps, kids, kvs. split; [assumption|]. split; [|auto]. apply (G cs kids 0%nat); auto.
Qed.

Theorem xml_round_trip uid top ns name kids : plain_keys top -> unrivalled top kids -> python_names top -> key_leaves top ->
  Forall2 (xstorable O ft im ins) top kids ->
  exists e m', encode O im ins true ns name top kids = Ok e /\ decode O ft uid top e = (m', Ok tt) /\
    get_kids true top m' = get_kids true top kids.
Proof.
  intros Hpk Hun Hnm Hkl Hk.
  assert (Hr : Forall2 (xready O ft im ins) top kids).
  { assert (G : forall cs2 kids2 n0, (forall n s, nth_error cs2 n = Some s -> nth_error top (n0 + n) = Some s) ->
              Forall2 (xstorable O ft im ins) cs2 kids2 -> Forall2 (xready O ft im ins) cs2 kids2).
    { intros cs2 kids2 n0 Hsub H. revert n0 Hsub. induction H as [|s y cs2 kids2 Hs Hr IH2]; intros n0 Hsub; constructor.
      - apply (xstorable_xready top Hnm Hkl s [Kid n0]); [|now exists [], n0|assumption]. unfold schema_at. cbn.
        pose proof (Hsub 0%nat s eq_refl) as Hn. rewrite Nat.add_0_r in Hn. now rewrite Hn.
      - apply (IH2 (S n0)). intros n s' Hn. rewrite Nat.add_succ_comm. now apply Hsub. }
    apply (G top kids 0%nat); auto. }
  apply xready_round_trip; auto.
  - apply Hkl.
  - apply unrivalled_all; auto. eapply xreadys_shaped; eassumption.
Qed.
End P.
