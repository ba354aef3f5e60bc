(** Final forms of the scalar-type lemmas and the counterexamples. *)
From Verif Require Import PyStr PyStr_facts PyVal Base64 Restricted Spec_Types Range_proofs IntTypes
  Restricted_proofs StrTypes StrTypes_proofs Scalars_proofs Ints_proofs Enum Enum_proofs Bits Bits_proofs.
From Coq Require Import Lia ZifyBool ZifyN ZifyNat Permutation Sorted QArith.
Local Open Scope Z_scope.

Lemma range_main O k b own z :
  class_map_int (kind_name k) = Some b -> Forall small_single own ->
  Forall (fun p => Forall (kind_ok k) (part_bounds p)) own ->
  (in_parts z own /\ kind_ok k z -> d_out (leaf_assign O (leaf_of b own) (VInt z)) = Ok (VInt z)) /\
  (~ (in_parts z own /\ kind_ok k z) -> d_out (leaf_assign O (leaf_of b own) (VInt z)) = Raise ValueError).
Proof.
  intros Hb Hs Hbd. rewrite class_map_chain in Hb. injection Hb as <-.
  destruct (own_range_int O k own z Hs Hbd) as [H1 H2]. split; [|exact H2].
  intros H. exact (f_equal d_out (H1 H)).
Qed.

Lemma width_main O k b z v :
  class_map_int (kind_name k) = Some b -> v = VInt z \/ v = VStr (print_Z z) ->
  (kind_ok k z -> leaf_assign O (LOne b) v = {| d_notified := true; d_out := Ok (VInt z) |}) /\
  (~ kind_ok k z -> leaf_assign O (LOne b) v = {| d_notified := false; d_out := Raise ValueError |}).
Proof.
  intros Hb Hv. rewrite class_map_chain in Hb. injection Hb as <-.
  destruct Hv as [-> | ->]; [apply builtin_int|apply builtin_str].
Qed.

Lemma single_main O k b n z :
  class_map_int (kind_name k) = Some b -> kind_ok k n -> Z.abs n <= 2 ^ 53 ->
  (z = n -> d_out (leaf_assign O (leaf_of b [Exactly n]) (VInt z)) = Ok (VInt z)) /\
  (z <> n -> d_out (leaf_assign O (leaf_of b [Exactly n]) (VInt z)) = Raise ValueError).
Proof.
  intros Hb Hk Hn.
  assert (Hs : Forall small_single [Exactly n]) by (repeat constructor; exact Hn).
  assert (Hbd : Forall (fun p => Forall (kind_ok k) (part_bounds p)) [Exactly n]) by (repeat constructor; exact Hk).
  destruct (range_main O k b [Exactly n] z Hb Hs Hbd) as [H1 H2]. split.
  - intros ->. apply H1. split; [constructor; reflexivity|exact Hk].
  - intros Hne. apply H2. intros [H _]. inversion H as [? ? H'|? ? H']; subst; [exact (Hne H')|inversion H'].
Qed.

Lemma single_refuted O :
  exists b n z, class_map_int "uint64" = Some b /\ kind_ok U64 n /\ z <> n /\
    d_out (leaf_assign O (leaf_of b [Exactly n]) (VInt n)) = Raise ValueError /\
    d_out (leaf_assign O (leaf_of b [Exactly n]) (VInt z)) = Ok (VInt z).
Proof.
  eexists. exists 9007199254740993, 9007199254740992. split; [reflexivity|].
  split; [cbn; lia|]. split; [lia|]. split; vm_compute; reflexivity.
Qed.

(** Chains of typedefs. *)
Lemma chain_main O l ls v : levels_wf (l :: ls) -> truthy v = true ->
  leaf_assign O (LOne (int_chain (l :: ls))) v =
  match py_int v with
  | Ok z =>
      if in_levelsb z (l :: ls) then {| d_notified := true; d_out := Ok (VInt z) |}
      else if in_levelsb z ls then {| d_notified := false; d_out := Raise ValueError |}
      else if in_levelsb z (tl ls) then {| d_notified := true; d_out := Raise ValueError |}
      else {| d_notified := true; d_out := Ok (VInt 0) |}
  | Raise ValueError =>
      match ls with
      | [] => {| d_notified := true; d_out := Raise ValueError |}
      | _ :: _ => {| d_notified := true; d_out := Ok (VInt 0) |}
      end
  | Raise _ => {| d_notified := true; d_out := Ok (VInt 0) |}
  end.
Proof. exact (int_assign_exact O l ls v). Qed.

Lemma three_levels_wf : levels_wf [[rng 5 50]; [rng 1 100]; [rng 0 255]].
Proof.
  assert (H : forall z, 0 <= z <= 255 -> in_levels z [[rng 0 255]]).
  { intros z Hz. repeat constructor; cbn; lia. }
  assert (H2 : forall z, 1 <= z <= 100 -> in_levels z [[rng 1 100]; [rng 0 255]]).
  { intros z Hz. constructor; [repeat constructor; cbn; lia|apply H; lia]. }
  cbn [levels_wf]. split; [repeat constructor|]. split.
  { constructor; [|constructor]. cbn [part_bounds rng app]. constructor; [|constructor; [|constructor]]; apply H2; lia. }
  split; [repeat constructor|]. split.
  { constructor; [|constructor]. cbn [part_bounds rng app]. constructor; [|constructor; [|constructor]]; apply H; lia. }
  split; [repeat constructor|]. split; [repeat constructor|exact I].
Qed.

Lemma chain_refuted O : exists levels z, levels_wf levels /\ ~ in_levels z levels /\ ~ in_levels 0 levels /\
  d_out (leaf_assign O (LOne (int_chain levels)) (VInt z)) = Ok (VInt 0).
Proof.
  exists [[rng 5 50]; [rng 1 100]; [rng 0 255]], 300. split; [exact three_levels_wf|].
  split; [intros H; apply in_levelsb_iff in H; discriminate|].
  split; [intros H; apply in_levelsb_iff in H; discriminate|].
  rewrite int_assign_exact by (exact three_levels_wf || reflexivity). reflexivity.
Qed.

Lemma no_invalid_refuted O :
  exists k b own v w, class_map_int (kind_name k) = Some b /\
    d_out (leaf_assign O (leaf_of b own) v) = Ok (VInt w) /\ ~ in_parts w own.
Proof.
  exists U8. eexists. exists [rng 5 50], (VStr (lit "abc")), 0. split; [reflexivity|]. split; [vm_compute; reflexivity|].
  intros H. apply in_partsb_iff in H. discriminate.
Qed.

(** Strings. *)
Lemma str_single_main O l s : l <> [] -> Forall srestr_wf l ->
  (Forall (fun r => sat (o_match O) wrap_anchors r s) l ->
     leaf_assign O (LOne (str_chain [l])) (VStr s) = {| d_notified := true; d_out := Ok (VStr s) |}) /\
  (~ Forall (fun r => sat (o_match O) wrap_anchors r s) l ->
     d_out (leaf_assign O (LOne (str_chain [l])) (VStr s)) = Raise ValueError).
Proof.
  intros Hne Hwf. assert (Hw : slevels_wf [l]) by (constructor; [split; assumption|constructor]).
  rewrite (str_assign O [l] s Hw). pose proof (accepted_iff O [l] s) as Ha. cbn [last] in Ha. split.
  - intros H. assert (E : accepted O [l] s = true).
    { apply Ha. split; [|exact H]. constructor; [|constructor]. destruct l as [|r l]; [contradiction|].
      inversion H; subst. now constructor. }
    rewrite E. unfold accepted in E. apply andb_prop in E. now destruct E as [-> _].
  - intros H. cbn [d_out]. destruct (accepted O [l] s) eqn:E; [|reflexivity]. exfalso. apply H. now apply Ha.
Qed.

Lemma str_chain_main O levels s : slevels_wf levels ->
  let ok := Forall (Exists (fun r => sat (o_match O) wrap_anchors r s)) levels /\
            Forall (fun r => sat (o_match O) wrap_anchors r s) (last levels []) in
  (ok -> leaf_assign O (LOne (str_chain levels)) (VStr s) = {| d_notified := true; d_out := Ok (VStr s) |}) /\
  (~ ok -> d_out (leaf_assign O (LOne (str_chain levels)) (VStr s)) = Raise ValueError).
Proof.
  intros Hw ok. rewrite (str_assign O levels s Hw). pose proof (accepted_iff O levels s) as Ha. fold ok in Ha. split.
  - intros H. apply Ha in H. rewrite H. unfold accepted in H. apply andb_prop in H. now destruct H as [-> _].
  - intros H. cbn [d_out]. destruct (accepted O levels s) eqn:E; [|reflexivity]. exfalso. apply H. now apply Ha.
Qed.

Lemma one_per_level_main O levels s : slevels_wf levels -> Forall (fun l => length l = 1%nat) levels ->
  let ok := Forall (Forall (fun r => sat (o_match O) wrap_anchors r s)) levels in
  (ok -> leaf_assign O (LOne (str_chain levels)) (VStr s) = {| d_notified := true; d_out := Ok (VStr s) |}) /\
  (~ ok -> d_out (leaf_assign O (LOne (str_chain levels)) (VStr s)) = Raise ValueError).
Proof.
  intros Hw H1 ok. destruct (str_chain_main O levels s Hw) as [Ha Hb].
  assert (E : ok <-> Forall (Exists (fun r => sat (o_match O) wrap_anchors r s)) levels /\
            Forall (fun r => sat (o_match O) wrap_anchors r s) (last levels [])).
  { unfold ok. split.
    - intros H. split.
      + rewrite Forall_forall in *. intros l Hl. specialize (H l Hl). specialize (H1 l Hl).
        destruct l as [|r [|]]; try discriminate. inversion H; subst. now constructor.
      + clear -H. induction levels as [|l ls IH]; [constructor|]. inversion H; subst.
        destruct ls; [assumption|]. now apply IH.
    - intros [H _]. rewrite Forall_forall in *. intros l Hl. specialize (H l Hl). specialize (H1 l Hl).
      destruct l as [|r [|]]; try discriminate. inversion H as [? ? H'|? ? H']; subst; [now repeat constructor|inversion H']. }
  split; intros H.
  - apply Ha, E, H.
  - apply Hb. intros H'. apply H, E, H'.
Qed.

Lemma str_refuted O : o_match O (lit "^x$") (lit "ab") = false ->
  exists levels s, slevels_wf levels /\
    ~ Forall (Forall (fun r => sat (o_match O) wrap_anchors r s)) levels /\
    d_out (leaf_assign O (LOne (str_chain levels)) (VStr s)) = Ok (VStr s).
Proof.
  intros HO. exists [[SPattern (lit "x"); SLength [rng 1 2]]; [SLength [rng 0 10]]], (lit "ab").
  assert (Hw : slevels_wf [[SPattern (lit "x"); SLength [rng 1 2]]; [SLength [rng 0 10]]]).
  { repeat constructor; cbn; intros H; repeat (destruct H as [H|H]; try discriminate); try discriminate; contradiction. }
  split; [exact Hw|]. split.
  - intros H. inversion H as [|? ? H1 _]; subst. inversion H1 as [|? ? H2 _]; subst. cbn [sat] in H2.
    change (wrap_anchors (lit "x")) with (lit "^x$") in H2. congruence.
  - rewrite (str_assign O _ _ Hw). unfold accepted, some_each, all_last.
    cbn [forallb existsb satb last]. change (wrap_anchors (lit "x")) with (lit "^x$"). rewrite HO. reflexivity.
Qed.

(** Length-restricted string, integer argument. *)
Lemma str_len_int_refuted O : exists ps v w, d_out (leaf_assign O (LOne (str_chain [[SLength ps]])) v) = Ok (VStr w) /\
  ~ in_parts (Z.of_nat (length w)) ps.
Proof.
  exists [rng 3 10], (VInt 12345), []. split; [vm_compute; reflexivity|].
  intros H. apply in_partsb_iff in H. discriminate.
Qed.

(** Enumerations. *)
Lemma enum_main O names v :
  (In (py_str O v) names -> leaf_assign O (LOne (enum_type names)) v = {| d_notified := true; d_out := Ok (VStr (py_str O v)) |}) /\
  (~ In (py_str O v) names -> d_out (leaf_assign O (LOne (enum_type names)) v) = Raise ValueError).
Proof.
  rewrite enum_assign. split; intros H.
  - apply str_in_In in H. rewrite H, orb_true_r. reflexivity.
  - apply str_in_false in H. cbn [d_out]. now rewrite H.
Qed.

Lemma filter_no_at l : no_at l -> filter (fun p => negb (startswith (lit "@") (fst p))) l = l.
Proof. induction 1 as [|p l H Hl IH]; [reflexivity|]. cbn [filter]. rewrite H. cbn [negb]. now rewrite IH. Qed.

Lemma enum_numbers l : no_at l -> NoDup (map fst l) -> NoDup (used_values l) ->
  exists num, (forall n ov, In (n, ov) l -> get_value l n = Ok (num n)) /\
    (forall n v, In (n, Some v) l -> num n = v) /\
    (forall n m, In n (map fst l) -> In m (map fst l) -> num n = num m -> n = m) /\
    (forall n, ~ In n (map fst l) -> get_value l n = Raise KeyError).
Proof.
  intros Hat Hnd Hu. unfold get_value, enum_values. rewrite filter_no_at by assumption.
  destruct (number_from_spec (used_values l) l 0 (fun v H => H)) as (r & Hr & Hm & H2 & Hd). rewrite Hr. cbn [bind].
  assert (Hndr : NoDup (map fst r)) by now rewrite Hm.
  exists (fun n => match lookup_val n r with Some v => v | None => 0 end).
  assert (Hlk : forall n, In n (map fst l) -> exists v, In (n, v) r /\ lookup_val n r = Some v).
  { intros n Hn. rewrite <- Hm in Hn. apply in_map_iff in Hn. destruct Hn as ([n' v] & <- & Hin).
    exists v. split; [assumption|]. now apply lookup_val_In. }
  split; [|split; [|split]].
  4: { intros n Hn. rewrite <- Hm in Hn. replace (lookup_val n r) with (@None Z); [reflexivity|]. clear -Hn. symmetry. induction r as [|[m v] r IH]; [reflexivity|].
       cbn in Hn |- *. destruct (str_eqb_spec m n) as [->|_]; [destruct Hn; now left|]. apply IH. intros Hi. apply Hn. now right. }
  - intros n ov Hin. destruct (Hlk n) as (v & _ & ->); [apply in_map_iff; now exists (n, ov)|reflexivity].
  - intros n v Hin.
    assert (Hex : In (n, v) r).
    { clear -H2 Hin Hm. revert H2. generalize (used_values l). intros used H2. revert r H2 Hm.
      induction l as [|p l IH]; intros r H2 Hm; [contradiction|].
      inversion H2 as [|? q ? r' Hpq H2']; subst. injection Hm as Hq Hm'. destruct Hin as [->|Hin].
      - cbn in Hpq, Hq. left. destruct q; cbn in *; congruence.
      - right. now apply IH. }
    rewrite (lookup_val_In n v r Hndr Hex). reflexivity.
  - intros n m Hn Hm'. destruct (Hlk n Hn) as (v & Hv & ->). destruct (Hlk m Hm') as (w & Hw & ->). intros ->.
    specialize (Hd Hu). clear -Hd Hv Hw. induction r as [|[a b] r IH]; [contradiction|].
    cbn [map] in Hd. inversion Hd as [|? ? Hni Hd']; subst. destruct Hv as [E|Hv], Hw as [E'|Hw].
    + congruence.
    + injection E as -> ->. exfalso. apply Hni. apply in_map_iff. now exists (m, w).
    + injection E' as -> ->. exfalso. apply Hni. apply in_map_iff. now exists (n, w).
    + now apply IH.
Qed.

Lemma rfc_plain l : forall c, (forall p, In p l -> snd p = None) ->
  rfc_numbers c l = combine (map fst l) (map (fun k => c + Z.of_nat k) (seq 0 (length l))).
Proof.
  induction l as [|[n ov] l IH]; intros c H; [reflexivity|].
  assert (ov = None) as -> by (apply (H (n, ov)); now left).
  cbn [rfc_numbers]. rewrite Z.max_r by lia. rewrite (IH (c + 1)) by (intros p Hp; apply H; now right).
  cbn [length seq map combine fst].
  assert (E : map (fun k => c + 1 + Z.of_nat k) (seq 0 (length l)) = map (fun k => c + Z.of_nat k) (seq 1 (length l))).
  { rewrite <- seq_shift, map_map. apply map_ext. intros k. lia. }
  rewrite E. change (Z.of_nat 0) with 0. now rewrite Z.add_0_r.
Qed.

Lemma rfc_partial l : no_at l -> (forall p, In p l -> snd p = None) -> enum_values l = Ok (rfc_numbers 0 l).
Proof.
  intros Hat H. unfold enum_values. rewrite filter_no_at by assumption. rewrite used_none by assumption.
  now rewrite number_from_plain, rfc_plain by assumption.
Qed.

Lemma rfc_refuted : exists l, no_at l /\ NoDup (map fst l) /\ exists r, enum_values l = Ok r /\ r <> rfc_numbers 0 l.
Proof.
  exists [(lit "a", Some 5); (lit "b", None)]. split; [repeat constructor|]. split.
  - repeat constructor; cbn; intuition discriminate.
  - eexists. split; [reflexivity|]. discriminate.
Qed.

(** Bits. *)
Lemma bits_canonical_refuted : exists d l, NoDup (map fst d) /\ NoDup (map snd d) /\ legal (decl d) l /\
  ~ StronglySorted (fun a b => (declared_pos d a <= declared_pos d b)%N) (split_ws (bits_str (decl d) l)).
Proof.
  exists [(lit "x", 2%N); (lit "y", 10%N)], [lit "x"; lit "y"].
  split; [repeat constructor; cbn; intuition discriminate|].
  split; [repeat constructor; cbn; intuition discriminate|].
  split. { split; [repeat constructor; cbn; intuition discriminate|]. intros b H. exact H. }
  intros H. change (StronglySorted (fun a b => (declared_pos [(lit "x", 2%N); (lit "y", 10%N)] a <= declared_pos [(lit "x", 2%N); (lit "y", 10%N)] b)%N) [lit "y"; lit "x"]) in H.
  inversion H as [|? ? _ Hf]; subst. inversion Hf as [|? ? Hle _]; subst. cbn in Hle. lia.
Qed.

Lemma bits_str_words allowed l : legal allowed l -> words (map fst allowed) ->
  split_ws (bits_str allowed l) = sort_by (pos_of allowed) l.
Proof.
  intros [Hnd Hall] Hw. unfold bits_str. apply split_ws_join. unfold words in Hw. rewrite Forall_forall in *.
  intros b Hb. apply Hw. apply Hall. exact (Permutation_in _ (sort_by_perm (pos_of allowed) l) Hb).
Qed.

Lemma bits_main d l ops : words (map fst d) -> legal (decl d) l ->
  let l' := bits_run (decl d) l ops in
  legal (decl d) l' /\
  Permutation (split_ws (bits_str (decl d) l')) l' /\
  (exists l2, yang_bits (decl d) (VStr (bits_str (decl d) l')) = Ok (VBits l2) /\ Permutation l2 l').
Proof.
  intros Hw Hl l'. assert (Hl' : legal (decl d) l') by now apply run_legal.
  assert (Hw' : words (map fst (decl d))) by now rewrite decl_names.
  split; [assumption|]. split.
  - rewrite bits_str_words by assumption. apply sort_by_perm.
  - now apply bits_reparse.
Qed.

Lemma bits_order_partial d w l : words (map fst d) -> legal (decl d) l ->
  (forall n p, In (n, p) d -> length (print_N p) = w) ->
  StronglySorted (fun a b => (declared_pos d a <= declared_pos d b)%N) (split_ws (bits_str (decl d) l)).
Proof.
  intros Hw Hl Hwid. rewrite bits_str_words; [|assumption|now rewrite decl_names].
  apply (sorted_same_width d w); [assumption|]. intros b Hb. destruct Hl as [_ Hl]. specialize (Hl b Hb).
  now rewrite decl_names in Hl.
Qed.

(** Booleans. *)
Lemma bool_spells_meaning v b : bool_spells v b <-> bool_meaning v = Some b.
Proof.
  assert (Hnum : forall w, (forall s, w <> VStr s) ->
    (bool_spells w b <-> match num_of w with
         | Some q => if Qeq_bool q 0 then Some false else if Qeq_bool q 1 then Some true else None
         | None => None end = Some b)).
  { intros w Hw. assert (E : bool_spells w b <-> exists q, num_of w = Some q /\ (q == (if b then 1 else 0))%Q).
    { destruct w; try reflexivity. exfalso. now apply (Hw s). }
    rewrite E. destruct (num_of w) as [q|].
    - split.
      + intros (q' & Eq & Hq). injection Eq as <-. destruct b.
        * apply Qeq_bool_iff in Hq as Hq'. rewrite Hq'.
          destruct (Qeq_bool q 0) eqn:E0; [|reflexivity]. apply Qeq_bool_iff in E0. rewrite E0 in Hq. discriminate.
        * apply Qeq_bool_iff in Hq. now rewrite Hq.
      + destruct (Qeq_bool q 0) eqn:E0.
        * intros H. injection H as <-. exists q. split; [reflexivity|now apply Qeq_bool_iff].
        * destruct (Qeq_bool q 1) eqn:E1; [|discriminate]. intros H. injection H as <-.
          exists q. split; [reflexivity|now apply Qeq_bool_iff].
    - split; [intros (q & Eq & _); discriminate|discriminate]. }
  destruct v; try (apply Hnum; discriminate).
  cbn [bool_spells bool_meaning]. rewrite <- str_in_In.
  destruct b.
  - destruct (str_in s [lit "false"; lit "False"; lit "0"]) eqn:E.
    + split; [|discriminate]. intros H. apply str_in_In in E, H. cbn in E, H.
      repeat destruct E as [E|E]; subst; repeat destruct H as [H|H]; try discriminate; contradiction.
    + destruct (str_in s [lit "true"; lit "True"; lit "1"]); split; congruence.
  - destruct (str_in s [lit "false"; lit "False"; lit "0"]); [split; congruence|].
    split; [discriminate|]. destruct (str_in s [lit "true"; lit "True"; lit "1"]); discriminate.
Qed.

Lemma bool_main O v :
  (forall b, bool_spells v b -> leaf_assign O (LOne TBool) v = {| d_notified := true; d_out := Ok (VBool b) |}) /\
  ((forall b, ~ bool_spells v b) -> leaf_assign O (LOne TBool) v = {| d_notified := false; d_out := Raise ValueError |}) /\
  (forall b, leaf_assign O (LOne TBool) (VStr (py_str O (VBool b))) = {| d_notified := true; d_out := Ok (VBool b) |}).
Proof.
  split; [|split].
  - intros b H. apply bool_spells_meaning in H. now rewrite bool_assign, H.
  - intros H. rewrite bool_assign. destruct (bool_meaning v) as [b|] eqn:E; [|reflexivity].
    exfalso. apply (H b). now apply bool_spells_meaning.
  - intros []; reflexivity.
Qed.

(** Binary. *)
Lemma bin_len_refuted O : exists ps l, Forall (fun b => (b < 256)%N) l /\ Forall small_single ps /\
  in_parts (Z.of_nat (length l)) ps /\
  d_out (leaf_assign O (LOne (bin_len ps)) (VStr (b64encode l))) = Raise ValueError.
Proof.
  exists [rng 2 3], [1; 2; 3]%N. split; [repeat constructor|]. split; [repeat constructor|].
  split; [repeat constructor; cbn; lia|]. vm_compute. reflexivity.
Qed.

Lemma bin_text_main O ps l : Forall (fun b => (b < 256)%N) l -> Forall small_single ps ->
  let text := Z.of_nat (length (b64encode l)) in
  let bytes := Z.of_nat (length l) in
  (in_parts text ps /\ in_parts bytes ps ->
     d_out (leaf_assign O (LOne (bin_len ps)) (VStr (b64encode l))) = Ok (VBytes l)) /\
  (~ (in_parts text ps /\ in_parts bytes ps) ->
     d_out (leaf_assign O (LOne (bin_len ps)) (VStr (b64encode l))) = Raise ValueError) /\
  (in_parts bytes ps -> d_out (leaf_assign O (LOne (bin_len ps)) (VBytes l)) = Ok (VBytes l)) /\
  (~ in_parts bytes ps -> d_out (leaf_assign O (LOne (bin_len ps)) (VBytes l)) = Raise ValueError).
Proof.
  intros Hl Hs text bytes.
  assert (Hb : yang_binary (VStr (b64encode l)) = Ok (VBytes l)) by (cbn; now rewrite b64_roundtrip).
  rewrite (bin_assign O ps (VStr (b64encode l)) text l Hs eq_refl Hb).
  rewrite (bin_assign O ps (VBytes l) bytes l Hs eq_refl eq_refl).
  cbn [d_out]. fold bytes. rewrite <- !in_partsb_iff.
  destruct (in_partsb text ps), (in_partsb bytes ps); cbn; repeat split; intros; try reflexivity; exfalso; intuition congruence.
Qed.

(** Decimals. *)
Lemma dec_main O n v c e : py_decimal v = Ok (c, e) ->
  (forall w, d_out (leaf_assign O (LOne (TDecPrec n)) v) = Ok w ->
     exists q, w = VDec q (- n) /\
       (forall k, 0 <= k -> 0 <= e + n + k ->
          2 * Z.abs (q * 10 ^ k - c * 10 ^ (e + n + k)) <= 10 ^ k /\
          (2 * Z.abs (q * 10 ^ k - c * 10 ^ (e + n + k)) = 10 ^ k -> Z.even q = true) /\
          (forall x, x * 10 ^ k = c * 10 ^ (e + n + k) -> q = x)) /\
       d_out (leaf_assign O (LOne (TDecPrec n)) w) = Ok w) /\
  (forall k, 0 <= k -> 0 <= e + n + k -> Z.abs (c * 10 ^ (e + n + k)) <= 2 ^ 63 * 10 ^ k ->
     exists w, d_out (leaf_assign O (LOne (TDecPrec n)) v) = Ok w).
Proof.
  intros Hv. rewrite (decprec_assign O n v c e Hv). split.
  - intros w Hw. destruct (quantize c e n) as [[q m]|e'] eqn:E; [|discriminate].
    cbn [d_out] in Hw. injection Hw as <-. destruct (quantize_near c e n q m E) as [-> Hn].
    exists q. split; [reflexivity|]. split.
    + intros k H1 H2. destruct (Hn k H1 H2) as [Ha Hb]. split; [assumption|]. split; [assumption|].
      intros x Hx. exact (quantize_exact c e n q (- n) x k E H1 H2 Hx).
    + rewrite (decprec_assign O n (VDec q (- n)) q (- n) eq_refl), (quantize_idem c e n q (- n) E). reflexivity.
  - intros k H1 H2 H3. destruct (quantize_in_range c e n k H1 H2 H3) as [q ->]. eexists. reflexivity.
Qed.
