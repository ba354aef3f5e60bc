(** From typed values to round trips (IETF format). *)
From Coq Require Import Lia.
From Verif Require Import PyStr PyStr_facts PyVal Base64 Restricted Restricted_proofs Spec_Types IntTypes StrTypes StrTypes_proofs
  Scalars_proofs Bits Bits_proofs Spec_Lists TypedList TypedList_proofs MemberTypes Member_proofs YList YList_proofs SafeName
  Tree Spec_Tree Tree_proofs Tree_hist Tree_dump Serialise Spec_Serialise Decimal_proofs Load_proofs Serialise_proofs Json_proofs Ietf_proofs.
Local Open Scope Z_scope.

Section P.
Context (O : oracle) (im : einfo -> str -> option str).
Context (Him : forall i s m, im i s = Some m -> no_colon m).

Lemma no_colon_has s : no_colon s -> has_char 58 s = false.
Proof.
  intros H. unfold has_char. apply Bool.not_true_is_false. intros E. apply existsb_exists in E as (x & Hx & Ex).
  apply N.eqb_eq in Ex. subst x. now apply H.
Qed.
Lemma after_prefix m s : no_colon m -> after_first_colon (m ++ lit ":" ++ s) = s.
Proof.
  change (lit ":" ++ s) with (58%N :: s). induction m as [|c m IH]; intros H; cbn; [reflexivity|].
  destruct (N.eqb_spec c 58) as [->|Hc]; [exfalso; apply H; now left|]. apply IH. intros H'. apply H. now right.
Qed.
Lemma has_prefix m s : has_char 58 (m ++ lit ":" ++ s) = true.
Proof. unfold has_char. rewrite existsb_app. change (lit ":" ++ s) with (58%N :: s). cbn. apply Bool.orb_true_r. Qed.

(** Neither "empty" nor "identityref". *)
Definition ordinary (yt : str) : Prop := yt <> lit "empty" /\ yt <> lit "identityref".
Lemma value_ordinary s j : ordinary (s_ytype s) -> ietf_value s j = Ok j.
Proof. intros [H1 H2]. unfold ietf_value. now rewrite (str_eqb_neq _ _ H1), (str_eqb_neq _ _ H2). Qed.
Lemma unknown_ordinary yt : ~ In yt known_names -> ordinary yt.
Proof. intros H. split; intros ->; apply H; cbn [known_names wide_names narrow_names map app In]; tauto. Qed.
Lemma narrow_ordinary yt : In yt narrow_names -> ordinary yt.
Proof. intros H. cbn in H. repeat (destruct H as [<-|H]; [split; vm_compute; congruence|]). contradiction. Qed.
Lemma wide_ordinary yt : In yt wide_names -> ordinary yt.
Proof. intros H. cbn in H. repeat (destruct H as [<-|H]; [split; vm_compute; congruence|]). contradiction. Qed.

Lemma comes_ordinary i lt yt d k v j : ordinary yt -> enc_leaf O im true i lt yt v = Ok j -> to_set j -> j <> JNull ->
  d_out (leaf_assign O lt (jval j)) = Ok v -> comes_back O im i lt yt d k v.
Proof. intros Ho H1 H2 H3 H4. exists j, j. repeat (split; [assumption|]). split; [now apply value_ordinary|auto]. Qed.

Lemma dec_text n q : 0 <= n -> Z.abs q < 10 ^ 28 -> ty_call O (TDecPrec n) (VStr (print_dec q (- n))) = Ok (VDec q (- n)).
Proof.
  intros Hn Hq. unfold ty_call. cbn [ty_new ty_init]. unfold yang_decprec. cbn [py_decimal]. rewrite parse_print_dec. cbn [bind fst snd].
  rewrite quantize_coef. unfold coef. rewrite Z.leb_refl. replace (- n + n) with 0 by lia. rewrite Z.pow_0_r, Z.mul_1_r.
  assert (Hnd : (ndigits q <= 28)%nat) by (apply ndigits_le; [lia|exact Hq]).
  destruct (Z.ltb_spec 28 (Z.of_nat (ndigits q))); [lia|reflexivity].
Qed.
Lemma int_text levels z : mtype_wf (MInt levels) -> is_value (o_match O) (MInt levels) (VInt z) ->
  ty_call O (int_chain levels) (VStr (print_Z z)) = Ok (VInt z).
Proof.
  intros [_ Hwf] (z' & E & Hz). injection E as <-. apply chain_call_ok; auto.
  - apply py_int_print.
  - left. apply truthy_print.
Qed.
Lemma assign_call t v w : ty_call O t v = Ok w -> d_out (leaf_assign O (LOne t) v) = Ok w.
Proof. intros H. unfold leaf_assign. cbn [dyn_ltype]. now rewrite (dyn_leaf_call O _ _ _ H). Qed.

Lemma ienc_as_is elem t v : as_is Ietf t -> is_value (o_match O) t v -> (elem = false -> t <> MBool) ->
  exists j, enc_class O true elem (pty_of t) v = Ok j /\ jval j = v /\ to_set j /\ j <> JNull.
Proof.
  intros Ha Hv He. unfold enc_class. destruct t as [levels|levels| | |names| |n]; cbn [is_value pty_of as_is] in *.
  - destruct Hv as (z & -> & _). destruct Ha as [Ha|Ha]; [discriminate|]. rewrite base_int, (narrow_class _ Ha). now exists (JInt z).
  - destruct Hv as (s & -> & _). rewrite base_str. now exists (JStr s).
  - destruct Hv as (s & ->). now exists (JStr s).
  - destruct Hv as (b & ->). destruct elem; [|exfalso; now apply He]. cbn [base_of orb]. exists (JBool b). now destruct b.
  - destruct Hv as (s & -> & _). now exists (JStr s).
  - contradiction.
  - contradiction.
Qed.

Ltac each_name H := repeat (destruct H as [<-|H]; [|]); try contradiction.
Ltac ord := split; vm_compute; congruence.

(** What is written for an integer leaf. *)
Lemma int_doc i levels yt z : type_name (WVal (MInt levels)) yt ->
  exists j, enc_leaf O im true i (LOne (int_chain levels)) yt (VInt z) = Ok j /\ (j = JInt z \/ j = JStr (print_Z z)) /\
    (In yt narrow_names \/ ~ In yt known_names /\ narrow levels -> j = JInt z) /\ (In yt wide_names -> j = JStr (print_Z z)).
Proof.
  intros [H|H].
  - cbn [names_of] in H. apply in_app_or in H as [H|H].
    + exists (JStr (print_Z z)). rewrite enc_wide by assumption. repeat split; auto. intros [H'|[H' _]].
      * exfalso. eapply wide_not_narrow; eassumption.
      * exfalso. apply H'. now apply wide_known.
    + exists (JInt z). rewrite enc_narrow by assumption. repeat split; auto. intros H'. exfalso. eapply wide_not_narrow; eassumption.
  - rewrite enc_unknown by assumption. unfold enc_class. cbn [leaf_class]. rewrite base_int.
    destruct (int64_class (int_chain levels)) eqn:E.
    + exists (JStr (print_Z z)). repeat split; auto. intros [H'|[_ H']].
      * exfalso. apply H. now apply narrow_known.
      * apply narrow_class in H'. congruence.
    + exists (JInt z). repeat split; auto. intros H'. exfalso. apply H. now apply wide_known.
Qed.
Lemma type_ordinary t yt : type_name (WVal t) yt -> match t with MBool => yt <> lit "empty" | MEnum _ => yt <> lit "identityref" | _ => True end ->
  ordinary yt.
Proof.
  intros [H|H] Hx; [|now apply unknown_ordinary].
  destruct t; cbn [names_of] in H; cbn in H; each_name H; (ord || congruence).
Qed.

(** What is written for a text. *)
Lemma text_doc i t yt s : match t with MStr _ | MText | MEnum _ => True | _ => False end -> type_name (WVal t) yt -> yt <> lit "identityref" ->
  enc_leaf O im true i (LOne (pty_of t)) yt (VStr s) = Ok (JStr s).
Proof.
  intros Ht [H|H] Hid.
  - destruct t; try contradiction; cbn [names_of] in H; cbn in H; each_name H; try reflexivity; congruence.
  - rewrite enc_unknown by assumption. unfold enc_class. cbn [leaf_class]. destruct t; try contradiction; cbn [pty_of].
    + now rewrite base_str.
    + reflexivity.
    + reflexivity.
Qed.

Lemma ietf_leaf i w d yt k v : type_name w yt -> leaf_ok O Ietf w yt v -> comes_back O im i (ltype_of w) yt d k v.
Proof.
  intros Hn Hv. destruct w as [t|a| |ts]; cbn [ltype_of leaf_ok] in *.
  - destruct Hv as [Hwf [Hval Hok]]. destruct t as [levels|levels| | |names| |n].
    + pose proof Hval as Hval'. destruct Hval' as (z & -> & Hz). destruct (int_doc i levels yt z Hn) as (j & Hj & Hjj & _).
      eapply comes_ordinary with (j := j); auto.
      * eapply type_ordinary; [exact Hn|exact I].
      * destruct Hjj as [->| ->]; exact I.
      * destruct Hjj as [->| ->]; discriminate.
      * destruct Hjj as [->| ->]; cbn [jval pty_of].
        { apply (assign_own O (MInt levels)); auto. }
        { apply assign_call. now apply int_text. }
    + pose proof Hval as Hval'. destruct Hval' as (s & -> & Hs). assert (Ho : ordinary yt) by (eapply type_ordinary; [exact Hn|exact I]).
      eapply comes_ordinary with (j := JStr s); [exact Ho|apply text_doc; auto; apply Ho|exact I|discriminate|].
      now apply (assign_own O (MStr levels)).
    + pose proof Hval as Hval'. destruct Hval' as (s & ->). assert (Ho : ordinary yt) by (eapply type_ordinary; [exact Hn|exact I]).
      eapply comes_ordinary with (j := JStr s); [exact Ho|apply text_doc; auto; apply Ho|exact I|discriminate|].
      now apply (assign_own O MText).
    + pose proof Hval as Hval'. destruct Hval' as (b & ->). destruct (list_eq_dec N.eq_dec yt (lit "empty")) as [->|Hne].
      * rewrite (Hok eq_refl eq_refl). exists (JArr [JNull]), (JBool true). split; [reflexivity|]. split; [exact I|].
        split; [reflexivity|]. split; [discriminate|reflexivity].
      * assert (Ho : ordinary yt) by (eapply type_ordinary; [exact Hn|exact Hne]).
        eapply comes_ordinary with (j := JBool b); [exact Ho| |exact I|discriminate|now apply (assign_own O MBool)].
        destruct Hn as [Hn|Hn]; [cbn in Hn; each_name Hn; try congruence; now destruct b|]. rewrite enc_unknown by assumption. now destruct b.
    + pose proof Hval as Hval'. destruct Hval' as (s & -> & Hs). destruct (list_eq_dec N.eq_dec yt (lit "identityref")) as [->|Hne].
      * specialize (Hok eq_refl eq_refl).
        assert (E : enc_leaf O im true i (LOne (pty_of (MEnum names))) (lit "identityref") (VStr s) = Ok (enc_identity O im i (VStr s))) by reflexivity.
        assert (Ha : d_out (leaf_assign O (LOne (pty_of (MEnum names))) (VStr s)) = Ok (VStr s)) by now apply assign_own.
        assert (Hread : exists t, enc_identity O im i (VStr s) = JStr t /\ (if has_char 58 t then after_first_colon t else t) = s).
        { unfold enc_identity. cbn [py_str]. destruct (im i s) as [em|] eqn:Em.
          - destruct (negb (str_eqb em (e_mod i)) && negb (startswith em s))%bool.
            + exists (em ++ lit ":" ++ s). split; [reflexivity|]. rewrite has_prefix. apply after_prefix. eapply Him; eassumption.
            + exists s. split; [reflexivity|]. now rewrite no_colon_has.
          - exists s. split; [reflexivity|]. now rewrite no_colon_has. }
        destruct Hread as (t & Et & Er). exists (JStr t), (JStr s). rewrite E, Et. split; [reflexivity|]. split; [exact I|].
        split; [|split; [discriminate|exact Ha]]. unfold ietf_value. cbn [s_ytype].
        change (str_eqb (lit "identityref") (lit "empty")) with false. rewrite str_eqb_refl. cbn [bind]. now rewrite Er.
      * assert (Ho : ordinary yt) by (eapply type_ordinary; [exact Hn|exact Hne]).
        eapply comes_ordinary with (j := JStr s); [exact Ho|apply text_doc; auto|exact I|discriminate|]. now apply (assign_own O (MEnum names)).
    + destruct Hval as (l & ->). assert (Ho : ordinary yt) by (eapply type_ordinary; [exact Hn|exact I]).
      eapply comes_ordinary with (j := JStr (b64encode l)); [exact Ho| |exact I|discriminate|].
      * destruct Hn as [Hn|Hn]; [cbn in Hn; each_name Hn; reflexivity|]. now rewrite enc_unknown by assumption.
      * cbn [jval pty_of]. now rewrite (binary_assign_text O l Hok).
    + destruct Hval as (q & ->). destruct Hok as [Hn0 Hq]. assert (Ho : ordinary yt) by (eapply type_ordinary; [exact Hn|exact I]).
      eapply comes_ordinary with (j := JStr (print_dec q (- n))); [exact Ho| |exact I|discriminate|].
      * destruct Hn as [Hn|Hn]; [cbn in Hn; each_name Hn; reflexivity|]. now rewrite enc_unknown by assumption.
      * cbn [jval pty_of]. apply assign_call. now apply dec_text.
  - destruct Hv as (l & -> & Hl & Hw & Hs). destruct Hn as [Hn|Hn]; [destruct Hn|].
    eapply comes_ordinary with (j := JStr (bits_str a l)); [now apply unknown_ordinary| |exact I|discriminate|].
    + now rewrite enc_unknown by assumption.
    + cbn [jval]. destruct (bits_reparse a l Hl Hw) as (l' & Hb & Hp).
      assert (l' = l) as ->.
      { revert Hb. unfold yang_bits, bits_str. rewrite split_ws_join.
        - rewrite Hs. rewrite add_all_fresh; [cbn; intros Hb; now injection Hb|cbn; apply Hl|apply Hl].
        - rewrite Hs. apply Forall_forall. intros b Hb. unfold words in Hw. rewrite Forall_forall in Hw. apply Hw. now apply Hl. }
      unfold leaf_assign. cbn [dyn_ltype]. unfold dyn_leaf. cbn [ty_new ty_init]. now rewrite Hb.
  - destruct Hv as (s & Hv).
    assert (Ho : ordinary yt). { destruct Hn as [Hn|Hn]; [cbn in Hn; each_name Hn; ord|now apply unknown_ordinary]. }
    assert (Hj : exists j, enc_native O true v = Ok j /\ jval j = v /\ to_set j /\ j <> JNull).
    { destruct Hv as [->|(z & ->)]; [now exists (JStr s)|now exists (JInt z)]. }
    destruct Hj as (j & Hj & Ev & H1 & H2). eapply comes_ordinary with (j := j); auto.
    + destruct Hn as [Hn|Hn]; [cbn in Hn; each_name Hn; exact Hj|]. rewrite enc_unknown by assumption. exact Hj.
    + rewrite Ev. destruct Hv as [->|(z & ->)]; reflexivity.
  - destruct Hv as (t & Ht & Hp & Hwf & Hval & Ha). destruct Hn as [Hn|Hn]; [destruct Hn|].
    destruct (ienc_as_is true t v Ha Hval ltac:(discriminate)) as (j & Hj & Ev & H1 & H2).
    eapply comes_ordinary with (j := j); [now apply unknown_ordinary| |exact H1|exact H2|].
    + rewrite enc_unknown by assumption. cbn [leaf_class]. now rewrite Hp.
    + rewrite Ev. unfold leaf_assign. cbn [dyn_ltype].
      rewrite Hp, (dyn_leaf_call O _ _ _ (call_own O t v Hwf Hval ltac:(destruct t; cbn in Ha; try exact I; contradiction))).
      reflexivity.
Qed.

(* ------------------------------------------------------------------ leaf-lists *)
Lemma forall2_impl {A B} (P Q : A -> B -> Prop) l1 l2 : (forall a b, P a b -> Q a b) -> Forall2 P l1 l2 -> Forall2 Q l1 l2.
Proof. intros H. induction 1; constructor; auto. Qed.
Lemma try_call t v w : t <> TStr -> (forall a, t <> TBits a) -> ty_call O t v = Ok w -> member_try O t v = Some w.
Proof. intros H1 H2 H. unfold member_try. destruct t; try rewrite H; try reflexivity; [congruence|exfalso; eapply H2; reflexivity]. Qed.
Lemma chain_not_str levels : levels <> [] -> int_chain levels <> TStr /\ (forall a, int_chain levels <> TBits a).
Proof. destruct levels as [|l ls]; [congruence|]. intros _. split; discriminate. Qed.

Lemma ietf_member t yt v : mtype_wf t -> member_ok O Ietf t yt v ->
  exists j, enc_member O true [pty_of t] v = Ok j /\ member_value O [pty_of t] (jval j) = Some v /\
    (forall w, is_value (o_match O) t w -> py_eq w (jval j) = true -> py_eq w v = true) /\
    (yt = lit "identityref" -> exists s, j = JStr s /\ no_colon s).
Proof.
  intros Hwf [[Hval Hok] Hm].
  assert (Hd : match t, v with MDec n, VDec q _ => Z.abs q < 10 ^ 28 | _, _ => True end).
  { destruct t; try exact I. destruct v; try exact I. apply Hok. }
  assert (Ht : member_try O (pty_of t) v = Some v) by (apply try_own; auto; destruct t; congruence || contradiction).
  unfold enc_member. cbn [member_class member_value]. rewrite Ht.
  destruct t as [levels|levels| | |names| |n].
  - pose proof Hval as Hval'. destruct Hval' as (z & -> & Hz). unfold enc_class. cbn [pty_of]. rewrite base_int.
    destruct (int64_class (int_chain levels)).
    + exists (JStr (print_Z z)). split; [reflexivity|]. destruct (chain_not_str levels) as [N1 N2]; [apply Hwf|].
      rewrite (try_call _ (jval (JStr (print_Z z))) (VInt z) N1 N2) by now apply int_text.
      split; [reflexivity|]. split; [intros w (z' & -> & _) E; discriminate E|]. intros E. now apply Hm in E.
    + exists (JInt z). cbn [pty_of] in Ht. split; [reflexivity|]. cbn [jval]. rewrite Ht. split; [reflexivity|]. split; [auto|].
      intros E. now apply Hm in E.
  - destruct (ienc_as_is false (MStr levels) v I Hval ltac:(discriminate)) as (j & Hj & Ev & _). exists j. rewrite Ev, Ht.
    split; [assumption|]. split; [reflexivity|]. split; [auto|]. intros E. now apply Hm in E.
  - destruct (ienc_as_is false MText v I Hval ltac:(discriminate)) as (j & Hj & Ev & _). exists j. rewrite Ev, Ht.
    split; [assumption|]. split; [reflexivity|]. split; [auto|]. intros E. now apply Hm in E.
  - destruct Hval as (b & ->). exists (JInt (if b then 1 else 0)). split; [now destruct b|]. split; [now destruct b|]. split.
    + intros w (b' & ->). destruct b, b'; cbn; congruence.
    + intros E. now apply Hm in E.
  - destruct (ienc_as_is false (MEnum names) v I Hval ltac:(discriminate)) as (j & Hj & Ev & _). exists j. rewrite Ev, Ht.
    split; [assumption|]. split; [reflexivity|]. split; [auto|]. intros E. destruct Hval as (s & -> & _). exists s.
    destruct j; try discriminate. cbn in Ev. injection Ev as ->. split; [reflexivity|]. now apply Hok.
  - contradiction.
  - destruct Hval as (q & ->). destruct Hok as [Hn0 Hq]. exists (JStr (print_dec q (- n))). split; [reflexivity|].
    cbn [pty_of jval]. rewrite (try_call (TDecPrec n) (VStr (print_dec q (- n))) (VDec q (- n))); try discriminate; [|now apply dec_text].
    split; [reflexivity|]. split; [intros w (q' & ->) E; discriminate E|].
    intros E. now apply (proj2 Hm) in E.
Qed.

(* ------------------------------------------------------------------ keys *)
Lemma skip_sp_last s : last s 0%N <> 32%N -> rstrip_sp s = s.
Proof.
  intros H. unfold rstrip_sp. destruct (rev s) as [|c t] eqn:E.
  - cbn. rewrite <- (rev_involutive s), E. reflexivity.
  - assert (Es : s = rev t ++ [c]) by (rewrite <- (rev_involutive s), E; reflexivity).
    rewrite Es, last_last in H. unfold skip_sp. rewrite (proj2 (N.eqb_neq _ _) H). rewrite <- E. apply rev_involutive.
Qed.

Lemma ietf_key_value cs kids i n t yt v : NoDup (map (fun s => e_py (s_info s)) cs) ->
  Forall (fun s => In (e_py (s_info s)) [n] -> e_ns (s_info s) = e_ns i) cs -> key_leaf O Ietf cs kids n t yt v -> type_name (WVal t) yt ->
  (forall k, ietf_single t yt v k -> key_value O im cs kids i n k /\ hashable k = true /\ k <> VStr [] /\ k <> VNone) /\
  (forall p, ietf_text t yt v p -> exists kv, key_value O im cs kids i n kv /\ py_str O kv = p).
Proof.
  intros Hnd Hns (a & ki & d & key & Hs & Hn & Hx & Hwf & Hok) Hty.
  assert (Ha : kid_index n cs = Some a) by (subst n; exact (kid_index_nth cs Hnd a _ Hs)).
  assert (He : e_ns ki = e_ns i).
  { rewrite Forall_forall in Hns. apply (Hns _ (nth_error_In _ _ Hs)). left. now symmetry. }
  assert (K : forall j kv, enc_leaf O im true ki (LOne (pty_of t)) yt v = Ok j -> jval j = kv -> d_out (leaf_assign O (LOne (pty_of t)) kv) = Ok v ->
            key_value O im cs kids i n kv).
  { intros j kv H1 H2 H3. exists a, ki, (LOne (pty_of t)), d, yt, key, v, j. auto 10. }
  assert (T : forall s, match t with MStr _ | MText | MEnum _ => True | _ => False end -> yt <> lit "identityref" -> v = VStr s ->
            key_value O im cs kids i n (VStr s)).
  { intros s Ht Hid ->. apply (K (JStr s)); [now apply text_doc|reflexivity|].
    apply (assign_own O t); auto; [apply Hok|destruct t; contradiction || exact I]. }
  assert (Z' : forall levels, t = MInt levels -> forall z, v = VInt z -> d_out (leaf_assign O (LOne (pty_of t)) (VInt z)) = Ok v /\
            d_out (leaf_assign O (LOne (pty_of t)) (VStr (print_Z z))) = Ok v).
  { intros levels -> z ->. split.
    - apply (assign_own O (MInt levels)); auto. apply Hok.
    - apply assign_call. apply int_text; auto. apply Hok. }
  split.
  - intros k Hk. destruct t as [levels|levels| | |names| |m]; cbn [ietf_single] in Hk; try contradiction.
    + destruct Hk as (z & -> & Hk). destruct (int_doc ki levels yt z Hty) as (j & Hj & _ & H1 & H2).
      destruct (Z' levels eq_refl z eq_refl) as [Z1 Z2]. destruct Hk as [[Hk ->]|[Hk ->]].
      * rewrite (H1 Hk) in Hj. split; [eapply K; [exact Hj|reflexivity|assumption]|]. repeat split; discriminate.
      * rewrite (H2 Hk) in Hj. split; [eapply K; [exact Hj|reflexivity|assumption]|]. repeat split; try discriminate.
        intros E. injection E as E. pose proof (truthy_print z) as Ht. rewrite E in Ht. discriminate.
    + destruct Hk as (Hid & -> & Hne). destruct Hok as [(s & -> & _) _]. split; [now apply T|]. repeat split; try discriminate. assumption.
    + destruct Hk as (Hid & -> & Hne). destruct Hok as [(s & ->) _]. split; [now apply T|]. repeat split; try discriminate. assumption.
    + destruct Hk as (Hid & -> & Hne). destruct Hok as [(s & -> & _) _]. split; [now apply T|]. repeat split; try discriminate. assumption.
  - intros p Hp. destruct t as [levels|levels| | |names| |m]; cbn [ietf_text] in Hp; try contradiction.
    + destruct Hp as (z & -> & ->). destruct (int_doc ki levels yt z Hty) as (j & Hj & Hjj & _).
      destruct (Z' levels eq_refl z eq_refl) as [Z1 Z2]. destruct Hjj as [->| ->].
      * exists (VInt z). split; [|reflexivity]. eapply K; [exact Hj|reflexivity|assumption].
      * exists (VStr (print_Z z)). split; [|reflexivity]. eapply K; [exact Hj|reflexivity|assumption].
    + destruct Hp as [Hid ->]. exists (VStr p). split; [now apply T|reflexivity].
    + destruct Hp as [Hid ->]. exists (VStr p). split; [now apply T|reflexivity].
    + destruct Hp as [Hid ->]. exists (VStr p). split; [now apply T|reflexivity].
Qed.

Lemma ietf_key_made keys cs kids i k : NoDup (map (fun s => e_py (s_info s)) cs) -> keys <> [] ->
  Forall (fun s => In (e_py (s_info s)) keys -> e_ns (s_info s) = e_ns i) cs -> ietf_key O keys cs kids k ->
  exists kvs, Forall2 (key_value O im cs kids i) keys kvs /\ key_made O keys kvs k.
Proof.
  intros Hnd Hne Hns Hk.
  assert (Hns1 : forall n, In n keys -> Forall (fun s => In (e_py (s_info s)) [n] -> e_ns (s_info s) = e_ns i) cs).
  { intros n Hn. eapply Forall_impl; [|exact Hns]. intros s H [E|[]]. apply H. now rewrite <- E. }
  destruct keys as [|n [|n' ns]]; [congruence| |].
  - destruct Hk as (t & yt & v & Hl & Hty & Hs). destruct (ietf_key_value cs kids i n t yt v Hnd (Hns1 n (or_introl eq_refl)) Hl Hty) as [H _].
    destruct (H k Hs) as (H1 & H2). exists [k]. split; [now repeat constructor|]. now split.
  - set (keys := n :: n' :: ns) in *. cbn [ietf_key] in Hk. destruct Hk as (parts & -> & Hl & Hall).
    assert (Hkv : exists kvs, Forall2 (key_value O im cs kids i) keys kvs /\ map (py_str O) kvs = parts).
    { clearbody keys. clear -Hall Hns1 Hnd Him. induction Hall as [|m p keys parts (t & yt & v & Hl & Hty & Hs) Hall IH]; [now exists []|].
      destruct IH as (kvs & H1 & H2); [intros m' Hm'; apply Hns1; now right|].
      destruct (ietf_key_value cs kids i m t yt v Hnd (Hns1 m (or_introl eq_refl)) Hl Hty) as [_ H].
      destruct (H p Hs) as (kv & Hkv & E). exists (kv :: kvs). split; [now constructor|]. cbn [map]. now rewrite E, H2. }
    destruct Hkv as (kvs & H1 & H2). exists kvs. split; [exact H1|]. unfold keys, key_made. rewrite H2. split; [reflexivity|]. now apply skip_sp_last.
Qed.

(* ------------------------------------------------------------------ trees *)
Lemma untouched_gen s : forall x ns, untouched s x -> gen_kid true WNone ns s x = None.
Proof.
  induction s as [i lt d yt k|i ts yt|i pr cs IH|i keys od cs IH] using schema_ind'; intros x ns Hx; destruct x as [ch v|ch l|ch pres kids|ch es];
    cbn [untouched] in Hx; try contradiction.
  - subst ch. reflexivity.
  - destruct Hx as [-> _]. reflexivity.
  - destruct Hx as [-> Hx]. rewrite gen_cont.
    assert (E : gen_kids true WNone (Some (e_ns i)) cs kids = []); [|now rewrite E].
    revert kids Hx. induction IH as [|s cs Hs Hcs IH2]; intros [|x kids] Hx; try reflexivity; try contradiction.
    destruct Hx as [H1 H2]. cbn [gen_kids]. rewrite (Hs x _ H1). now apply IH2.
  - subst es. reflexivity.
Qed.
Lemma untouched_gens cs kids ns : Forall2 untouched cs kids -> gen_kids true WNone ns cs kids = [].
Proof. induction 1 as [|s x cs kids Hs _ IH]; [reflexivity|]. cbn [gen_kids]. now rewrite untouched_gen. Qed.

Lemma storable_iready top : python_names top -> key_leaves top -> forall s q, schema_at top q = Some s -> ends_kid q ->
  forall x, storable O Ietf s x -> iready O im s x.
Proof.
  intros Hnm (_ & Hkc & Hkl). induction s as [i lt d yt k|i ts yt|i pr cs IH|i keys od cs IH] using schema_ind'; intros q Hq Hend x Hx.
  - inversion Hx as [? w ? ? ? ch v H| | |]; subst. constructor. intros Hc. destruct (H Hc) as [H1 H2]. now apply ietf_leaf.
  - inversion Hx as [|? t ? ch l Hwf Hyt Hall Hd Hempty| |]; subst.
    assert (Hjs : exists js, Forall2 (fun v j => enc_member O true [pty_of t] v = Ok j /\ member_value O [pty_of t] (jval j) = Some v /\
        (forall w, is_value (o_match O) t w -> py_eq w (jval j) = true -> py_eq w v = true) /\
        (yt = lit "identityref" -> exists s, j = JStr s /\ no_colon s)) l js).
    { clear -Hwf Hall. induction Hall as [|v l Hv Hl [js IH]]; [exists []; constructor|].
      destruct (ietf_member t yt v Hwf Hv) as (j & Hj). exists (j :: js). now constructor. }
    destruct Hjs as [js Hjs]. apply (IrLeafList _ _ i [pty_of t] yt ch l js).
    + assert (Hval : forall w, In w l -> is_value (o_match O) t w).
      { intros w Hw. rewrite Forall_forall in Hall. apply Hall in Hw. apply Hw. }
      eapply forall2_impl; [|exact Hjs]. cbn. intros v j (H1 & H2 & H3 & _). auto.
    + now apply distinct_dist.
    + now apply Hempty.
    + unfold ietf_value. cbn [s_ytype]. rewrite (str_eqb_neq _ _ Hyt). cbn [bind].
      destruct (str_eqb yt (lit "identityref")) eqn:E; [|reflexivity]. apply str_eqb_eq in E.
      assert (N : existsb (fun e => match e with JStr [58%N] => true | _ => false end) js = false); [|now rewrite N].
      clear -Hjs E. induction Hjs as [|v j l js (_ & _ & _ & H) _ IH]; [reflexivity|]. cbn [existsb]. rewrite IH, Bool.orb_false_r.
      destruct (H E) as (s & -> & Hs). destruct s as [|c [|? ?]]; try reflexivity; (destruct (N.eq_dec c 58) as [->|Hc]; [exfalso; apply Hs; now left|]);
      repeat (match goal with |- context [match ?p with _ => _ end] => destruct p end; try reflexivity; try congruence).
  - inversion Hx as [| |? ? ? ch pres kids Hk Hp|]; subst.
    assert (G : forall cs2 kids2 n0, (forall n s, nth_error cs2 n = Some s -> nth_error cs (n0 + n) = Some s) ->
              Forall2 (storable O Ietf) cs2 kids2 -> Forall2 (iready O im) cs2 kids2).
    { intros cs2 kids2 n0 Hsub H. revert n0 Hsub. induction H as [|s y cs2 kids2 Hs Hr IH2]; intros n0 Hsub; constructor.
      - pose proof (Hsub 0%nat s eq_refl) as Hn. rewrite Nat.add_0_r in Hn. rewrite Forall_forall in IH.
        apply (IH s (nth_error_In _ _ Hn) (q ++ [Kid n0])); [now rewrite (schema_kid top q i pr cs)|apply ends_kid_app|assumption].
      - apply (IH2 (S n0)). intros n s' Hn. rewrite Nat.add_succ_comm. now apply Hsub. }
    constructor.
    + apply (G cs kids 0%nat); auto.
    + destruct Hend as (q' & n & ->). eapply Hkc. exact Hq.
    + intros Epr. destruct (Hp eq_refl Epr) as [H|H]; [now left|right]. now apply untouched_gens.
  - inversion Hx as [| | |? ? ? ? ch es Hne Hd Hes]; subst.
    pose proof (schema_entry top q i keys od cs VNone Hq) as Hq'.
    destruct (Hnm _ _ _ _ Hq') as [Hnd _]. pose proof (Hkl _ _ _ _ _ Hq) as Hmark.
    assert (G : forall cs2 kids2 n0, (forall n s, nth_error cs2 n = Some s -> nth_error cs (n0 + n) = Some s) ->
              Forall2 (storable O Ietf) cs2 kids2 -> Forall2 (iready O im) cs2 kids2).
    { intros cs2 kids2 n0 Hsub H. revert n0 Hsub. induction H as [|s y cs2 kids2 Hs Hr IH2]; intros n0 Hsub; constructor.
      - pose proof (Hsub 0%nat s eq_refl) as Hn. rewrite Nat.add_0_r in Hn. rewrite Forall_forall in IH.
        apply (IH s (nth_error_In _ _ Hn) ((q ++ [Ent VNone]) ++ [Kid n0])); [now rewrite (schema_kid top _ plain false cs)|apply ends_kid_app|assumption].
      - apply (IH2 (S n0)). intros n s' Hn. rewrite Nat.add_succ_comm. now apply Hsub. }
    constructor; auto.
    + now apply all_distinct_iff.
    + eapply Forall_impl; [|exact Hmark]. now intros s [H _].
    + eapply Forall_impl; [|exact Hes]. intros e (c & ps & kids & He & Hk & Hkey). cbn in Hkey.
      destruct (ietf_key_made keys cs kids i (fst e) Hnd Hne) as (kvs & H1 & H2); auto.
      { eapply Forall_impl; [|exact Hmark]. now intros s [_ H]. }
      exists c, ps, kids, kvs. split; [assumption|]. split; [|auto]. apply (G cs kids 0%nat); auto.
Qed.

Theorem ietf_round_trip uid top kids : plain_keys top -> unrivalled top kids -> python_names top -> ietf_names top -> key_leaves top -> Forall2 (storable O Ietf) top kids ->
  exists j m', dumps_ietf O im true WNone top kids = Ok j /\ loads_ietf O uid top j = (m', Ok tt) /\
    get_kids true top m' = get_kids true top kids.
Proof.
  intros Hpk Hun Hnm Hin Hkl Hk.
  assert (Hr : Forall2 (iready O im) top kids).
  { assert (G : forall cs2 kids2 n0, (forall n s, nth_error cs2 n = Some s -> nth_error top (n0 + n) = Some s) ->
              Forall2 (storable O Ietf) cs2 kids2 -> Forall2 (iready O im) cs2 kids2).
    { intros cs2 kids2 n0 Hsub H. revert n0 Hsub. induction H as [|s y cs2 kids2 Hs Hr IH2]; intros n0 Hsub; constructor.
      - apply (storable_iready top Hnm Hkl s [Kid n0]); [|now exists [], n0|assumption]. unfold schema_at. cbn.
        pose proof (Hsub 0%nat s eq_refl) as Hn. rewrite Nat.add_0_r in Hn. now rewrite Hn.
      - apply (IH2 (S n0)). intros n s' Hn. rewrite Nat.add_succ_comm. now apply Hsub. }
    apply (G top kids 0%nat); auto. }
  apply iready_round_trip; auto.
  - intros p i pr cs H. split; [|eapply Hin; eassumption]. exact (Hnm _ _ _ _ H).
  - apply Hkl.
  - apply unrivalled_all; auto. eapply ireadys_shaped; eassumption.
Qed.
End P.
