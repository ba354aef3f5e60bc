(** From typed values to round trips (default format). *)
From Coq Require Import Lia.
From Verif Require Import PyStr PyStr_facts PyVal Base64 Restricted Restricted_proofs Spec_Types IntTypes StrTypes StrTypes_proofs
  Scalars_proofs Bits Bits_proofs Spec_Lists TypedList TypedList_proofs MemberTypes Member_proofs YList YList_proofs SafeName
  Tree Spec_Tree Tree_proofs Tree_frame Tree_main Tree_hist Tree_dump Serialise Spec_Serialise Float_proofs Load_proofs.
Local Open Scope Z_scope.

Section P.
Context (O : oracle) (im : einfo -> str -> option str).

(* ------------------------------------------------------------------ types take their own values *)
Lemma str_accepts levels s : mtype_wf (MStr levels) -> Forall (Forall (fun r => sat (o_match O) wrap_anchors r s)) levels ->
  accepted O levels s = true.
Proof.
  intros (Hn & Hwf & _) H. apply accepted_iff. split.
  - revert H. clear Hn. induction levels as [|l ls IH]; intros H; constructor.
    + inversion H as [|? ? H1 H2]; subst. inversion Hwf as [|? ? [Hl _] Hwf']; subst. destruct l as [|r l]; [congruence|].
      constructor. now inversion H1.
    + inversion Hwf; subst. inversion H; subst. now apply IH.
  - rewrite Forall_forall in H. apply H. destruct levels as [|l ls]; [congruence|].
    clear. generalize l. induction ls as [|x ls IH]; intros y; [now left|]. right. apply (IH x).
Qed.

Lemma call_own t v : mtype_wf t -> is_value (o_match O) t v ->
  match t, v with MDec n, VDec q _ => Z.abs q < 10 ^ 28 | _, _ => True end ->
  ty_call O (pty_of t) v = Ok v.
Proof.
  destruct t as [levels|levels| | |names| |n]; cbn [mtype_wf is_value pty_of]; intros Hwf Hv Hd.
  - destruct Hwf as [Hn Hwf]. destruct Hv as (z & -> & Hz). apply chain_call_ok; try assumption; [reflexivity|].
    destruct (Z.eq_dec z 0) as [->|]; [now right|left]. cbn. destruct (Z.eqb_spec z 0); [congruence|reflexivity].
  - destruct Hv as (s & -> & Hs). rewrite str_call by apply Hwf. now rewrite (str_accepts levels s Hwf Hs).
  - destruct Hv as (s & ->). reflexivity.
  - destruct Hv as (b & ->). destruct b; reflexivity.
  - destruct Hv as (s & -> & Hs). unfold ty_call, enum_type.
    cbn [ty_new build bind fst snd any_pass]. unfold dict_test. cbn [py_str is_False bind]. rewrite (str_in_refl s names Hs).
    cbn [bind ty_init is_restr ty_new]. cbn [build bind fst snd all_pass]. unfold dict_test. cbn [py_str bind].
    now rewrite (str_in_refl s names Hs).
  - destruct Hv as (l & ->). reflexivity.
  - destruct Hv as (q & ->). unfold ty_call. cbn [ty_new ty_init]. unfold yang_decprec. cbn [py_decimal bind fst snd].
    rewrite quantize_coef. unfold coef. rewrite Z.leb_refl. replace (- n + n) with 0 by lia. rewrite Z.pow_0_r, Z.mul_1_r.
    assert (Hnd : (ndigits q <= 28)%nat) by (apply ndigits_le; [lia|exact Hd]).
    destruct (Z.ltb_spec 28 (Z.of_nat (ndigits q))); [lia|reflexivity].
Qed.

Lemma assign_own t v : mtype_wf t -> is_value (o_match O) t v ->
  match t, v with MDec n, VDec q _ => Z.abs q < 10 ^ 28 | _, _ => True end ->
  d_out (leaf_assign O (LOne (pty_of t)) v) = Ok v.
Proof.
  intros H1 H2 H3. unfold leaf_assign. cbn [dyn_ltype]. now rewrite (dyn_leaf_call O _ _ _ (call_own t v H1 H2 H3)).
Qed.

(* ------------------------------------------------------------------ encoding *)
Lemma base_int levels : base_of (int_chain levels) = TInt.
Proof. induction levels; cbn; auto. Qed.
Lemma base_str levels : base_of (str_chain levels) = TStr.
Proof. induction levels; cbn; auto. Qed.

Lemma not_known yt n : ~ In yt known_names -> In n known_names -> str_eqb yt n = false.
Proof. intros H1 H2. apply str_eqb_neq. intros ->. now apply H1. Qed.

Lemma enc_unknown ietf i lt yt v : ~ In yt known_names ->
  enc_leaf O im ietf i lt yt v = enc_class O ietf true (leaf_class O lt v) v.
Proof.
  intros H. unfold enc_leaf.
  rewrite !(not_known yt) by (assumption || (cbn [known_names wide_names narrow_names map app In]; tauto)).
  reflexivity.
Qed.

(** The document of a value of a type that JSON has as it is. *)
Lemma enc_as_is elem t v : as_is Plain t -> is_value (o_match O) t v -> (elem = false -> t <> MBool) ->
  exists j, enc_class O false elem (pty_of t) v = Ok j /\ jval j = v.
Proof.
  intros Ha Hv He. unfold enc_class. destruct t as [levels|levels| | |names| |n]; cbn [is_value pty_of as_is] in *.
  - destruct Hv as (z & -> & _). rewrite base_int. exists (JInt z). split; [|reflexivity].
    now destruct (int64_class (int_chain levels)).
  - destruct Hv as (s & -> & _). rewrite base_str. now exists (JStr s).
  - destruct Hv as (s & ->). now exists (JStr s).
  - destruct Hv as (b & ->). destruct elem; [|exfalso; now apply He]. cbn [base_of orb]. exists (JBool b). now destruct b.
  - destruct Hv as (s & -> & _). now exists (JStr s).
  - contradiction.
  - contradiction.
Qed.

Ltac each_name H :=
  repeat (destruct H as [<-|H]; [|]); try contradiction.

Lemma plain_leaf i w yt v : type_name w yt -> leaf_ok O Plain w yt v ->
  exists j, enc_leaf O im false i (ltype_of w) yt v = Ok j /\ d_out (leaf_assign O (ltype_of w) (jval j)) = Ok v.
Proof.
  intros Hn Hv. destruct w as [t|a| |ts]; cbn [ltype_of leaf_ok] in *.
  - destruct Hv as [Hwf [Hval Hok]].
    assert (Hasis : forall j, as_is Plain t -> jval j = v -> d_out (leaf_assign O (LOne (pty_of t)) (jval j)) = Ok v).
    { intros j Ha ->. apply assign_own; auto. destruct t; cbn in Ha; try exact I; contradiction. }
    destruct t as [levels|levels| | |names| |n]; cbn [is_value type_name names_of] in *.
    + destruct Hval as (z & -> & Hz). exists (JInt z). split; [|apply Hasis; cbn; auto].
      destruct Hn as [Hn|Hn].
      * cbn [names_of] in Hn. apply in_app_or in Hn. destruct Hn as [Hn|Hn]; cbn in Hn; each_name Hn; reflexivity.
      * rewrite enc_unknown by assumption. unfold enc_class. cbn [leaf_class pty_of]. rewrite base_int.
        now destruct (int64_class (int_chain levels)).
    + destruct Hval as (s & -> & Hs). exists (JStr s). split; [|apply Hasis; cbn; auto].
      destruct Hn as [Hn|Hn]; [cbn in Hn; each_name Hn; reflexivity|].
      rewrite enc_unknown by assumption. unfold enc_class. cbn [leaf_class pty_of]. now rewrite base_str.
    + destruct Hval as (s & ->). exists (JStr s). split; [|apply Hasis; cbn; auto].
      destruct Hn as [Hn|Hn]; [cbn in Hn; each_name Hn; reflexivity|]. now rewrite enc_unknown by assumption.
    + destruct Hval as (b & ->). exists (JBool b). split; [|apply Hasis; cbn; auto].
      destruct Hn as [Hn|Hn]; [cbn in Hn; each_name Hn; now destruct b|]. rewrite enc_unknown by assumption. now destruct b.
    + destruct Hval as (s & -> & Hs). exists (JStr s). split; [|apply Hasis; cbn; auto].
      destruct Hn as [Hn|Hn]; [cbn in Hn; each_name Hn; reflexivity|]. now rewrite enc_unknown by assumption.
    + destruct Hval as (l & ->). exists (JStr (b64encode l)). split.
      * destruct Hn as [Hn|Hn]; [cbn in Hn; each_name Hn; reflexivity|]. now rewrite enc_unknown by assumption.
      * cbn [jval pty_of]. now rewrite (binary_assign_text O l Hok).
    + destruct Hval as (q & ->). destruct Hok as [Hn0 Hq].
      destruct (dec_via_float n q Hn0 Hq) as (m & e & c & x & Hf & Hd & Hz). exists (JFloat m e). split.
      * destruct Hn as [Hn|Hn].
        { cbn in Hn. each_name Hn. unfold enc_leaf. cbn -[py_float enc_decimal]. unfold enc_decimal. now rewrite Hf. }
        rewrite enc_unknown by assumption. unfold enc_class. cbn [leaf_class pty_of base_of]. unfold enc_decimal. now rewrite Hf.
      * cbn [jval pty_of]. rewrite (decprec_assign O n (VFloat m e) c x Hd), Hz. reflexivity.
  - destruct Hv as (l & -> & Hl & Hw & Hs). exists (JStr (bits_str a l)). split.
    + destruct Hn as [Hn|Hn]; [destruct Hn|]. now rewrite enc_unknown by assumption.
    + cbn [jval]. destruct (bits_reparse a l Hl Hw) as (l' & Hb & Hp).
      assert (l' = l) as ->.
      { (* both are the sorted list *)
        revert Hb. unfold yang_bits, bits_str. rewrite split_ws_join.
        - rewrite Hs. rewrite add_all_fresh; [cbn; intros Hb; now injection Hb|cbn; apply Hl|apply Hl].
        - rewrite Hs. apply Forall_forall. intros b Hb. unfold words in Hw. rewrite Forall_forall in Hw. apply Hw. now apply Hl. }
      unfold leaf_assign. cbn [dyn_ltype]. unfold dyn_leaf. cbn [ty_new ty_init]. now rewrite Hb.
  - destruct Hv as (s & Hv).
    assert (Hj : exists j, enc_native O false v = Ok j /\ jval j = v).
    { destruct Hv as [->|(z & ->)]; [now exists (JStr s)|now exists (JInt z)]. }
    destruct Hj as (j & Hj & Ev). exists j. split.
    + destruct Hn as [Hn|Hn].
      * cbn in Hn. each_name Hn. exact Hj.
      * rewrite enc_unknown by assumption. exact Hj.
    + rewrite Ev. destruct Hv as [->|(z & ->)]; reflexivity.
  - destruct Hv as (t & Ht & Hp & Hwf & Hval & Ha).
    destruct Hn as [Hn|Hn]; [destruct Hn|].
    destruct (enc_as_is true t v Ha Hval ltac:(discriminate)) as (j & Hj & Ev). exists j. split.
    + rewrite enc_unknown by assumption. cbn [leaf_class]. now rewrite Hp.
    + rewrite Ev. unfold leaf_assign. cbn [dyn_ltype]. rewrite Hp, (dyn_leaf_call O _ _ _ (call_own t v Hwf Hval ltac:(destruct t; cbn in Ha; try exact I; contradiction))).
      reflexivity.
Qed.

(* ------------------------------------------------------------------ leaf-lists *)
Lemma try_own t v : mtype_wf t -> is_value (o_match O) t v -> t <> MBin ->
  match t, v with MDec n, VDec q _ => Z.abs q < 10 ^ 28 | _, _ => True end ->
  member_try O (pty_of t) v = Some v.
Proof.
  intros Hwf Hv Hb Hd. pose proof (call_own t v Hwf Hv Hd) as H. unfold member_try.
  destruct t as [levels|levels| | |names| |n]; cbn [pty_of] in *.
  - destruct levels as [|l ls]; [now destruct Hwf|]. cbn [int_chain] in *. now rewrite H.
  - destruct levels as [|l ls]; [now destruct Hwf|]. cbn [str_chain] in *. now rewrite H.
  - cbn in Hv. now destruct Hv as (s & ->).
  - now rewrite H.
  - unfold enum_type in *. now rewrite H.
  - congruence.
  - now rewrite H.
Qed.

Lemma plain_member t yt v : mtype_wf t -> member_ok O Plain t yt v ->
  exists j, enc_member O false [pty_of t] v = Ok j /\ member_value O [pty_of t] (jval j) = Some v /\ py_eq v (jval j) = true.
Proof.
  intros Hwf [[Hval _] Hm].
  assert (Ha : as_is Plain t) by (destruct t; cbn; auto; destruct Hm; congruence).
  assert (Ht : member_try O (pty_of t) v = Some v).
  { apply try_own; auto; destruct t; cbn in Ha; try exact I; congruence || contradiction. }
  unfold enc_member. cbn [member_class member_value]. rewrite Ht.
  assert (Hb : t = MBool \/ t <> MBool) by (destruct t; (now left) || (right; discriminate)).
  destruct Hb as [->|Hb].
  - cbn in Hval. destruct Hval as (b & ->). exists (JInt (if b then 1 else 0)). now destruct b.
  - destruct (enc_as_is false t v Ha Hval (fun _ => Hb)) as (j & Hj & Ev). exists j. rewrite Ev, Ht.
    split; [assumption|]. split; [reflexivity|apply py_eq_refl].
Qed.

(* ------------------------------------------------------------------ keys *)
Lemma part_assign t yt v p : mtype_wf t -> value_ok O Plain t yt v -> key_part t v p ->
  exists w, d_out (leaf_assign O (LOne (pty_of t)) (VStr p)) = Ok w.
Proof.
  intros Hwf [Hval _] Hp. destruct t as [levels|levels| | |names| |n]; cbn [key_part] in Hp; try contradiction.
  - destruct Hp as (z & -> & ->). exists (VInt z). cbn in Hval. destruct Hval as (z' & E & Hz). injection E as <-.
    unfold leaf_assign. cbn [dyn_ltype pty_of]. destruct Hwf as [_ Hwf].
    rewrite (dyn_leaf_call O _ _ (VInt z)); [reflexivity|]. apply chain_call_ok; auto.
    + apply py_int_print.
    + left. apply truthy_print.
  - subst v. exists (VStr p). now apply assign_own.
  - subst v. exists (VStr p). now apply assign_own.
  - destruct Hp as (b & -> & Hb). exists (VBool b). cbn [pty_of]. rewrite bool_assign.
    cbn in Hb. destruct b; repeat (destruct Hb as [<-|Hb]; [reflexivity|]); contradiction.
  - subst v. exists (VStr p). now apply assign_own.
Qed.

Lemma fill_ok cs kd : Forall (fun nv => exists j i lt d yt k w, kid_index (fst nv) cs = Some j /\
    nth_error cs j = Some (SLeaf i lt d yt k) /\ d_out (leaf_assign O lt (snd nv)) = Ok w) kd ->
  forall kids, snd (fill_keys O cs kids kd) = Ok tt.
Proof.
  induction 1 as [|[n v] kd (j & i & lt & d & yt & k & w & Hj & Hs & Hw) Hkd IH]; intros kids; [reflexivity|].
  cbn [fst snd] in *. cbn [fill_keys]. rewrite Hj, Hs. cbn [set_any]. unfold set_leaf. rewrite Hw. cbn [bind setter f_out].
  destruct (fill_keys O cs _ kd) as [[k1 e1] r1] eqn:E.
  specialize (IH (absorb O true cs kids j {| f_pre := if d_notified (leaf_assign O lt v) then [e_choice i] else [];
    f_new := Some (OLeaf true w); f_post := [None]; f_out := Ok tt |})).
  rewrite E in IH. cbn [snd] in *. exact IH.
Qed.

Lemma forall_combine {A B} (P : A -> B -> Prop) l1 l2 : Forall2 P l1 l2 -> Forall (fun p => P (fst p) (snd p)) (combine l1 l2).
Proof. induction 1; cbn; constructor; auto. Qed.

Lemma plain_key_adds keys cs kids k : NoDup (map (fun s => e_py (s_info s)) cs) -> keys <> [] -> plain_key O keys cs kids k ->
  exists t, k = VStr t /\ snd (list_op O keys cs [] [] (YAdd (VStr t))) = Ok tt /\ Forall (set_leaf_kid cs kids) keys.
Proof.
  intros Hnd Hne (parts & -> & Hsp & Hall). exists (join [32%N] parts). split; [reflexivity|].
  assert (Hlen : length parts = length keys) by (clear -Hall; induction Hall; cbn; congruence).
  split.
  - assert (Hkd : key_dict keys (VStr (join [32%N] parts)) = Ok (combine keys (map VStr parts))).
    { destruct keys as [|n [|n' ns]]; [congruence| |].
      - destruct parts as [|p [|? ?]]; try discriminate. cbn. destruct p; [congruence|reflexivity].
      - destruct parts as [|p [|p' ps]]; try discriminate. unfold key_dict.
        rewrite split_join; [|discriminate|exact Hsp]. now rewrite Hlen, Nat.eqb_refl. }
    unfold list_op, yl_op, yl_add. cbn [hashable negb mhas mget].
    destruct keys as [|n ns] eqn:Ek; [congruence|]. rewrite <- Ek in *. rewrite Hkd.
    unfold mk_entry. destruct (fill_keys O cs (map (fresh O) cs) _) as [[k1 e1] r1] eqn:E.
    assert (Hf : r1 = Ok tt); [|now subst r1].
    change r1 with (snd (k1, e1, r1)). rewrite <- E. apply fill_ok.
    assert (Hf : Forall2 (fun n v => exists j i lt d yt k w, kid_index n cs = Some j /\
      nth_error cs j = Some (SLeaf i lt d yt k) /\ d_out (leaf_assign O lt v) = Ok w) keys (map VStr parts)).
    { clear -Hall Hnd. induction Hall as [|n p keys parts (t & yt & v & (j & i & d & kk & Hs & Hn & Hx & Hwf & Hok) & Hp) Hall IH];
        cbn [map]; constructor; auto.
      destruct (part_assign t yt v p Hwf Hok Hp) as (w & Hw). exists j, i, (LOne (pty_of t)), d, yt, kk, w.
      split; [|auto]. subst n. exact (kid_index_nth cs Hnd j _ Hs). }
    exact (forall_combine _ _ _ Hf).
  - clear -Hall Hnd. induction Hall as [|n p keys parts (t & yt & v & (j & i & d & kk & Hs & Hn & Hx & Hwf & Hok) & Hp) Hall IH];
      constructor; auto.
    exists j, i, (LOne (pty_of t)), d, yt, kk, v. split; [|auto]. subst n. exact (kid_index_nth cs Hnd j _ Hs).
Qed.

(* ------------------------------------------------------------------ trees *)
Lemma storable_ready top : python_names top -> forall s q x, schema_at top q = Some s -> storable O Plain s x -> ready O im s x.
Proof.
  intros Hnm. induction s as [i lt d yt k|i ts yt|i pr cs IH|i keys od cs IH] using schema_ind'; intros q x Hq Hx.
  - inversion Hx as [? w ? ? ? ch v H| | |]; subst. constructor. intros Hc. destruct (H Hc) as [H1 H2]. now apply plain_leaf.
  - inversion Hx as [|? t ? ch l Hwf Hyt Hall Hd _| |]; subst.
    assert (Hjs : exists js, Forall2 (fun v j => enc_member O false [pty_of t] v = Ok j /\
        member_value O [pty_of t] (jval j) = Some v /\ py_eq v (jval j) = true) l js).
    { clear -Hwf Hall. induction Hall as [|v l Hv Hl [js IH]]; [exists []; constructor|].
      destruct (plain_member t yt v Hwf Hv) as (j & Hj). exists (j :: js). now constructor. }
    destruct Hjs as [js Hjs]. eapply RyLeafList; [exact Hjs|]. now apply distinct_dist.
  - inversion Hx as [| |? ? ? ch pres kids Hk _|]; subst. constructor.
    assert (G : forall cs2 kids2 n0, (forall n s, nth_error cs2 n = Some s -> nth_error cs (n0 + n) = Some s) ->
              Forall2 (storable O Plain) cs2 kids2 -> Forall2 (ready O im) cs2 kids2).
    { intros cs2 kids2 n0 Hsub H. revert n0 Hsub. induction H as [|s y cs2 kids2 Hs Hr IH2]; intros n0 Hsub; constructor.
      - pose proof (Hsub 0%nat s eq_refl) as Hn. rewrite Nat.add_0_r in Hn. rewrite Forall_forall in IH.
        apply (IH s (nth_error_In _ _ Hn) (q ++ [Kid n0])); [now rewrite (schema_kid top q i pr cs)|assumption].
      - apply (IH2 (S n0)). intros n s' Hn. rewrite Nat.add_succ_comm. now apply Hsub. }
    apply (G cs kids 0%nat); auto.
  - inversion Hx as [| | |? ? ? ? ch es Hne Hd Hes]; subst.
    pose proof (schema_entry top q i keys od cs VNone Hq) as Hq'.
    destruct (Hnm _ _ _ _ Hq') as [Hnd _].
    assert (G : forall cs2 kids2 n0, (forall n s, nth_error cs2 n = Some s -> nth_error cs (n0 + n) = Some s) ->
              Forall2 (storable O Plain) cs2 kids2 -> Forall2 (ready O im) cs2 kids2).
    { intros cs2 kids2 n0 Hsub H. revert n0 Hsub. induction H as [|s y cs2 kids2 Hs Hr IH2]; intros n0 Hsub; constructor.
      - pose proof (Hsub 0%nat s eq_refl) as Hn. rewrite Nat.add_0_r in Hn. rewrite Forall_forall in IH.
        apply (IH s (nth_error_In _ _ Hn) ((q ++ [Ent VNone]) ++ [Kid n0])); [now rewrite (schema_kid top _ plain false cs)|assumption].
      - apply (IH2 (S n0)). intros n s' Hn. rewrite Nat.add_succ_comm. now apply Hsub. }
    constructor; auto.
    + now apply all_distinct_iff.
    + eapply Forall_impl; [|exact Hes]. intros e (c & ps & kids & He & Hk & Hkey). cbn in Hkey.
      destruct (plain_key_adds keys cs kids (fst e) Hnd Hne Hkey) as (t & Ht & Ha & _). now exists t.
    + eapply Forall_impl; [|exact Hes]. intros e (c & ps & kids & He & Hk & Hkey). cbn in Hkey.
      destruct (plain_key_adds keys cs kids (fst e) Hnd Hne Hkey) as (t & Ht & Ha & Hs). exists c, ps, kids.
      split; [assumption|]. split; [|assumption]. apply (G cs kids 0%nat); auto.
Qed.

Theorem plain_round_trip uid top kids : plain_keys top -> unrivalled top kids -> python_names top -> Forall2 (storable O Plain) top kids ->
  exists j m', dumps O im top kids = Ok j /\ loads O uid top j = (m', Ok tt) /\
    get_kids true top m' = get_kids true top kids.
Proof.
  intros Hpk Hun Hnm Hk.
  assert (Hr : Forall2 (ready O im) top kids).
  2:{ apply ready_round_trip; auto. apply unrivalled_all; auto. eapply readys_shaped; eassumption. }
  assert (G : forall cs2 kids2 n0, (forall n s, nth_error cs2 n = Some s -> nth_error top (n0 + n) = Some s) ->
              Forall2 (storable O Plain) cs2 kids2 -> Forall2 (ready O im) cs2 kids2).
  { intros cs2 kids2 n0 Hsub H. revert n0 Hsub. induction H as [|s y cs2 kids2 Hs Hr IH2]; intros n0 Hsub; constructor.
    - apply (storable_ready top Hnm s [Kid n0]); [|assumption]. unfold schema_at. cbn.
      pose proof (Hsub 0%nat s eq_refl) as Hn. rewrite Nat.add_0_r in Hn. now rewrite Hn.
    - apply (IH2 (S n0)). intros n s' Hn. rewrite Nat.add_succ_comm. now apply Hsub. }
  apply (G top kids 0%nat); auto.
Qed.
End P.

Lemma storable_conf O f s : forall x, storable O f s x -> conf s x.
Proof.
  induction s as [i lt d yt k|i ts yt|i pr cs IH|i keys od cs IH] using schema_ind'; intros x H; inversion H; subst; constructor.
  - match goal with H : Forall2 (storable O f) _ _ |- _ => rename H into Hk end. clear -IH Hk.
    revert IH; induction Hk as [|a b la lb Hab Hl IHl]; intros IH; constructor; inversion IH; subst; auto.
  - match goal with H : Forall (fun e => exists c ps kids, _) _ |- _ => rename H into Hf end.
    eapply Forall_impl; [|exact Hf]. intros e (c & ps & kids & -> & Hk & _). constructor.
    clear - IH Hk. revert IH. induction Hk as [|a b la lb Hab Hl IHl]; intros IH; constructor; inversion IH; subst; auto.
Qed.
Lemma storables_shaped O f cs kids : Forall2 (storable O f) cs kids -> shaped cs kids.
Proof. intros H. unfold shaped. induction H; constructor; eauto using storable_conf. Qed.
