(** Lemmas about the values of defaults. *)
From Coq Require Import Lia ZArith Znumtheory Zpow_facts.
From Verif Require Import PyStr PyStr_facts PyVal PathHelper Identity Spec_Types Restricted IntTypes Typedefs Spec_Typedefs TypedefMap_proofs TypedefDefault_proofs Base64 Defaults Spec_Defaults.
From Verif Require Bits_proofs Scalars_proofs Float_proofs Ints_proofs Restricted_proofs.
Import ListNotations.
Local Open Scope Z_scope.

(* ------------------------------------------------------------------ digits *)
Lemma digit_char d : 0 <= d < 10 -> is_digit (Z.to_N (d + 48)) = true /\ digit_val (Z.to_N (d + 48)) = d.
Proof. intros H. unfold is_digit, digit_val. split; [apply andb_true_iff; split; apply N.leb_le; lia|lia]. Qed.
Lemma digits_read ds : forall prev acc, all_below 10 ds -> ds <> [] -> parse_digits (digits ds) prev acc = Some (fold_left (fun a d => a * 10 + d) ds acc).
Proof.
  induction ds as [|d ds IH]; intros prev acc H N; [contradiction|]. inversion H as [|? ? Hd Hds]; subst. cbn [digits map parse_digits fold_left]. destruct (digit_char d Hd) as [-> ->].
  destruct ds as [|d' ds']; [reflexivity|]. apply (IH true (acc * 10 + d)); [exact Hds|discriminate].
Qed.
Lemma digits_head ds : all_below 10 ds -> ds <> [] -> exists c s, digits ds = c :: s /\ c = Z.to_N (hd 0 ds + 48) /\ c <> 45%N /\ c <> 43%N.
Proof. intros H N. destruct ds as [|d ds]; [contradiction|]. inversion H; subst. eexists _, _. split; [reflexivity|]. cbn [hd]. split; [reflexivity|]. split; lia. Qed.
Lemma magnitude_pos b ds : 0 < b -> forall acc, 0 <= acc -> all_below b ds -> 0 <= fold_left (fun a d => a * b + d) ds acc /\ (fold_left (fun a d => a * b + d) ds acc = 0 <-> acc = 0 /\ Forall (fun d => d = 0) ds).
Proof.
  intros Hb. induction ds as [|d ds IH]; intros acc Ha H; [cbn; split; [lia|]; split; [intros ->; auto|tauto]|]. inversion H as [|? ? Hd Hds]; subst. cbn [fold_left].
  assert (H0 : 0 <= acc * b + d) by nia. destruct (IH _ H0 Hds) as [H1 H2]. split; [exact H1|]. rewrite H2. split.
  - intros [E F]. assert (acc = 0 /\ d = 0) by nia. destruct H3 as [-> ->]. split; [reflexivity|]. now constructor.
  - intros [-> F]. inversion F; subst. split; [lia|assumption].
Qed.
Lemma magnitude_zero b ds : 0 < b -> all_below b ds -> magnitude b ds = 0 <-> Forall (fun d => d = 0) ds.
Proof. intros Hb H. destruct (magnitude_pos b ds Hb 0 ltac:(lia) H) as [_ E]. unfold magnitude. rewrite E. tauto. Qed.
Lemma all_below_le a b ds : a <= b -> all_below a ds -> all_below b ds.
Proof. intros L. apply Forall_impl. intros d H. lia. Qed.

Lemma unsigned_digits ds : all_below 10 ds -> ds <> [] -> unsigned (digits ds) = if (hd 0 ds =? 0) && negb (magnitude 10 ds =? 0) then SBad else SVal (VInt (magnitude 10 ds)).
Proof.
  intros H N. unfold unsigned. rewrite digits_read by assumption. fold (magnitude 10 ds). destruct (digits_head ds H N) as (c & s & E & Ec & _). rewrite E.
  assert (Eb : N.eqb c 48 = (hd 0 ds =? 0)). { destruct ds as [|d ds]; [contradiction|]. inversion H; subst. cbn [hd] in *. destruct (Z.eqb_spec d 0) as [->|Nd]; [reflexivity|]. apply N.eqb_neq. lia. }
  now rewrite Eb.
Qed.
Lemma hex_digit c d : hex_char c d -> digit_in 16 c = Some d /\ c <> 95%N.
Proof.
  intros H. unfold digit_in. destruct H as [d H|d H|d H].
  - unfold is_digit. replace (N.leb 48 (Z.to_N (d + 48)) && N.leb (Z.to_N (d + 48)) 57)%bool with true by (symmetry; apply andb_true_iff; split; apply N.leb_le; lia).
    replace (Z.of_N (Z.to_N (d + 48)) - 48) with d by lia. destruct (Z.ltb_spec d 16); [split; [reflexivity|lia]|lia].
  - unfold is_digit. replace (N.leb 48 (Z.to_N (d + 87)) && N.leb (Z.to_N (d + 87)) 57)%bool with false by (symmetry; apply andb_false_iff; right; apply N.leb_gt; lia).
    replace (N.leb 97 (Z.to_N (d + 87)) && N.leb (Z.to_N (d + 87)) 122)%bool with true by (symmetry; apply andb_true_iff; split; apply N.leb_le; lia).
    replace (Z.of_N (Z.to_N (d + 87)) - 87) with d by lia. destruct (Z.ltb_spec d 16); [split; [reflexivity|lia]|lia].
  - unfold is_digit. replace (N.leb 48 (Z.to_N (d + 55)) && N.leb (Z.to_N (d + 55)) 57)%bool with false by (symmetry; apply andb_false_iff; right; apply N.leb_gt; lia).
    replace (N.leb 97 (Z.to_N (d + 55)) && N.leb (Z.to_N (d + 55)) 122)%bool with false by (symmetry; apply andb_false_iff; left; apply N.leb_gt; lia).
    replace (N.leb 65 (Z.to_N (d + 55)) && N.leb (Z.to_N (d + 55)) 90)%bool with true by (symmetry; apply andb_true_iff; split; apply N.leb_le; lia).
    replace (Z.of_N (Z.to_N (d + 55)) - 55) with d by lia. destruct (Z.ltb_spec d 16); [split; [reflexivity|lia]|lia].
Qed.
Lemma hex_read cs ds : Forall2 hex_char cs ds -> forall prev acc, cs <> [] -> based 16 cs prev acc = Some (fold_left (fun a d => a * 16 + d) ds acc).
Proof.
  induction 1 as [|c d cs ds Hc H IH]; intros prev acc N; [contradiction|]. cbn [based fold_left]. destruct (hex_digit c d Hc) as [-> _]. destruct cs as [|c' cs']; [inversion H; subst; reflexivity|].
  apply IH. discriminate.
Qed.
Lemma unsigned_hex cs ds : Forall2 hex_char cs ds -> cs <> [] -> unsigned (lit "0x" ++ cs) = SVal (VInt (magnitude 16 ds)).
Proof.
  intros H N. replace (lit "0x" ++ cs) with (48%N :: 120%N :: cs) by reflexivity. unfold unsigned. assert (E : parse_digits (48%N :: 120%N :: cs) false 0 = None) by reflexivity. rewrite E. clear E.
  assert (Eb : base_of_letter 120%N = Some 16) by reflexivity. rewrite Eb. assert (E8 : N.eqb 48 48 = true) by reflexivity. rewrite E8.
  destruct cs as [|c cs]; [contradiction|]. inversion H as [|? d ? ds' Hc Hcs]; subst. destruct (hex_digit c d Hc) as [_ Nc]. apply N.eqb_neq in Nc. rewrite Nc. rewrite (hex_read _ _ H) by discriminate. reflexivity.
Qed.
Lemma number_signed sg s c s' : s = c :: s' -> c <> 45%N -> c <> 43%N -> number (sign_text sg ++ s) =
  match sg with Minus => match unsigned s with SVal (VInt z) => SVal (VInt (- z)) | SVal (VFloat m e) => SVal (VFloat (- m) e) | SBad => SBad | _ => SCode end | _ => unsigned s end.
Proof.
  intros -> N1 N2. destruct sg; cbn [sign_text app].
  - unfold number. apply N.eqb_neq in N1, N2. now rewrite N1, N2.
  - change (lit "+") with [43%N]. cbn [app]. unfold number. change (N.eqb 43 45) with false. change (N.eqb 43 43) with true. cbv iota. now destruct (unsigned (c :: s')).
  - reflexivity.
Qed.
Definition is_oct (n : numeral) : bool := match n with Oct => true | _ => false end.
Lemma number_int n d z : int_text n d z -> number d = if is_oct n && negb (z =? 0) then SBad else SVal (VInt z).
Proof.
  intros [sg ds H Hf|sg cs ds N H|sg ds N H]; cbn [is_oct andb].
  - assert (N : ds <> []) by (destruct Hf as [->|(d0 & ds' & -> & _)]; discriminate). destruct (digits_head ds H N) as (c & s & E & _ & N1 & N2).
    rewrite (number_signed sg (digits ds) c s E N1 N2), (unsigned_digits ds H N). assert (Eb : (hd 0 ds =? 0) && negb (magnitude 10 ds =? 0) = false).
    { destruct Hf as [->|(d0 & ds' & -> & Nd)]; [reflexivity|]. cbn [hd]. apply Z.eqb_neq in Nd. now rewrite Nd. }
    rewrite Eb. now destruct sg.
  - change (lit "0x" ++ cs) with (48%N :: 120%N :: cs). rewrite (number_signed sg _ 48%N (120%N :: cs) eq_refl) by discriminate. change (48%N :: 120%N :: cs) with (lit "0x" ++ cs).
    rewrite (unsigned_hex cs ds H N). now destruct sg.
  - assert (H10 : all_below 10 (0 :: ds)) by (constructor; [lia|apply (all_below_le 8); [lia|exact H]]). change (lit "0" ++ digits ds) with (digits (0 :: ds)).
    destruct (digits_head (0 :: ds) H10 ltac:(discriminate)) as (c & s & E & _ & N1 & N2). rewrite (number_signed sg _ c s E N1 N2), (unsigned_digits _ H10) by discriminate. cbn [hd]. change (0 =? 0) with true. cbn [andb].
    assert (Ez : (magnitude 10 (0 :: ds) =? 0) = (signed sg (magnitude 8 ds) =? 0)).
    { assert (A : magnitude 10 (0 :: ds) = 0 <-> magnitude 8 ds = 0).
      { rewrite (magnitude_zero 10 _ ltac:(lia) H10), (magnitude_zero 8 _ ltac:(lia) H). split; [intros F; now inversion F|intros F; now constructor]. }
      destruct (Z.eqb_spec (magnitude 10 (0 :: ds)) 0) as [E1|E1]; destruct (Z.eqb_spec (signed sg (magnitude 8 ds)) 0) as [E2|E2]; try reflexivity; exfalso.
      - apply A in E1. apply E2. rewrite E1. now destruct sg.
      - apply E1, A. destruct sg; cbn [signed] in E2; lia. }
    rewrite Ez. destruct (Z.eqb_spec (signed sg (magnitude 8 ds)) 0) as [E2|E2]; cbn [negb].
    + assert (E1 : magnitude 10 (0 :: ds) = 0) by (apply Z.eqb_eq; rewrite Ez; reflexivity). rewrite E1, E2. now destruct sg.
    + now destruct sg.
Qed.

(* ------------------------------------------------------------------ strings *)
Lemma quoted_clean s : clean s -> forall fuel acc, (length s < fuel)%nat -> quoted fuel s acc = SVal (VStr (rev acc ++ s)).
Proof.
  induction 1 as [|c s Hc H IH]; intros fuel acc L; (destruct fuel as [|f]; [cbn in L; lia|]); cbn [quoted]; [now rewrite app_nil_r|].
  assert (E : N.eqb c 34 = false /\ N.eqb c 10 = false /\ N.eqb c 13 = false /\ N.eqb c 0 = false /\ N.eqb c 92 = false).
  { repeat split; apply N.eqb_neq; intros ->; apply Hc; cbn; tauto. }
  destruct E as (-> & -> & -> & -> & ->). cbn [orb negb]. rewrite IH by (cbn in L; lia). cbn [rev]. now rewrite <- app_assoc.
Qed.
Lemma source_clean b d : ce_quote b = true -> clean d -> default_source b d = SVal (VStr d).
Proof. intros Q H. unfold default_source. rewrite Q. rewrite (quoted_clean d H) by lia. reflexivity. Qed.

(* ------------------------------------------------------------------ leaves *)
Lemma leaf_found xp cm0 tds cm ty l own r d O fuel : default_of xp cm0 tds cm ty l own r d -> (length l < fuel)%nat -> base_key (end_of ty l) <> lit "bits" ->
  exists b, look (base_key (end_of ty l)) builtin_map = Some b /\ leaf_default O fuel cm r own = Ok (Some (d, b)).
Proof.
  intros (Hi & Hs & Ht & Hp & Hc & Hb & Hn & Ho & Hd) F N. destruct (default_nearest xp cm0 cm tds O ty l fuel own r Hi Hs Ht Hp Hc Hb F Hn Ho) as (x & E1 & E2 & E3). rewrite Hd in E2.
  destruct x as [[d' b]|]; [|discriminate]. cbn [option_map fst] in E2. injection E2 as ->. exists b. destruct (E3 d b eq_refl) as [L|[K _]]; [|contradiction]. split; [exact L|exact E1].
Qed.
Lemma not_reference xp cm0 tds cm ty l own r d : default_of xp cm0 tds cm ty l own r d -> (xp = true -> ty_arg (end_of ty l) <> lit "leafref") -> is_reference r = false.
Proof.
  intros (Hi & Hs & Ht & Hp & Hc & Hb & _) N. pose proof (process_made xp cm0 tds cm Hs Hp) as M. destruct (chain_ref xp cm0 cm tds Hi Ht M ty l Hc r Hb) as (e & -> & E). cbn [is_reference].
  now rewrite (E N).
Qed.
Lemma key_not_ref ty : base_key ty <> lit "string" -> ty_arg ty <> lit "leafref".
Proof. intros H E. apply H. unfold base_key. rewrite E. vm_compute. reflexivity. Qed.

Theorem integers xp cm0 tds cm ty l own r d O fuel k n z : default_of xp cm0 tds cm ty l own r d -> (length l < fuel)%nat -> base_key (end_of ty l) = lit (kind_name k) -> int_text n d z -> kind_ok k z ->
  leaf_value O fuel cm r own = match n with Oct => if z =? 0 then Made (Some (VInt z)) else Unreadable | _ => Made (Some (VInt z)) end.
Proof.
  intros D F K T Z. assert (Nb : base_key (end_of ty l) <> lit "bits") by (rewrite K; destruct k; vm_compute; discriminate).
  assert (Ns : base_key (end_of ty l) <> lit "string") by (rewrite K; destruct k; vm_compute; discriminate).
  destruct (leaf_found _ _ _ _ _ _ _ _ _ O fuel D F Nb) as (b & L & E). unfold leaf_value. rewrite E, (not_reference _ _ _ _ _ _ _ _ _ D) by (intros _; apply key_not_ref, Ns).
  assert (Eb : b = builtin (int_chain [[Ints_proofs.kind_part k]]) false).
  { rewrite K in L. destruct k; vm_compute in L; injection L as <-; reflexivity. }
  subst b. unfold default_source. cbn [ce_quote ce_native builtin]. rewrite (number_int n d z T).
  assert (Call : ty_call O (int_chain [[Ints_proofs.kind_part k]]) (VInt z) = Ok (VInt z)).
  { apply Restricted_proofs.chain_call_ok; [apply Ints_proofs.kind_wf|reflexivity| |apply Ints_proofs.kind_levels, Z]. destruct (Z.eq_dec z 0) as [->|N]; [now right|left; cbn; lia]. }
  destruct n; cbn [is_oct andb]; try (now rewrite Call). destruct (z =? 0); cbn [negb]; [now rewrite Call|reflexivity].
Qed.
Theorem strings xp cm0 tds cm ty l own r d O fuel : default_of xp cm0 tds cm ty l own r d -> (length l < fuel)%nat -> base_key (end_of ty l) = lit "string" ->
  (xp = true -> ty_arg (end_of ty l) <> lit "leafref") -> clean d -> leaf_value O fuel cm r own = Made (Some (VStr d)).
Proof.
  intros D F K N C. assert (Nb : base_key (end_of ty l) <> lit "bits") by (rewrite K; vm_compute; discriminate).
  destruct (leaf_found _ _ _ _ _ _ _ _ _ O fuel D F Nb) as (b & L & E). unfold leaf_value. rewrite E, (not_reference _ _ _ _ _ _ _ _ _ D N).
  rewrite K in L. vm_compute in L. injection L as <-. rewrite source_clean by (reflexivity || exact C). reflexivity.
Qed.
Theorem booleans xp cm0 tds cm ty l own r O fuel v : default_of xp cm0 tds cm ty l own r (lit (if v : bool then "true" else "false")) -> (length l < fuel)%nat -> base_key (end_of ty l) = lit "boolean" ->
  leaf_value O fuel cm r own = Made (Some (VBool v)).
Proof.
  intros D F K. assert (Nb : base_key (end_of ty l) <> lit "bits") by (rewrite K; vm_compute; discriminate). assert (Ns : base_key (end_of ty l) <> lit "string") by (rewrite K; vm_compute; discriminate).
  destruct (leaf_found _ _ _ _ _ _ _ _ _ O fuel D F Nb) as (b & L & E). unfold leaf_value. rewrite E, (not_reference _ _ _ _ _ _ _ _ _ D) by (intros _; apply key_not_ref, Ns).
  rewrite K in L. vm_compute in L. injection L as <-. destruct v; vm_compute; reflexivity.
Qed.
Definition is_clean (c : N) : bool := negb (existsb (N.eqb c) [34; 92; 10; 13; 0]%N).
Lemma is_clean_spec c : is_clean c = true -> ~ In c [34; 92; 10; 13; 0]%N.
Proof. unfold is_clean. intros H C. apply negb_true_iff in H. assert (X : existsb (N.eqb c) [34; 92; 10; 13; 0]%N = true) by (apply existsb_exists; exists c; split; [exact C|apply N.eqb_refl]). congruence. Qed.
Lemma char_clean n : (n < 64)%N -> ~ In (b64_char n) [34; 92; 10; 13; 0]%N.
Proof.
  intros H. apply is_clean_spec. assert (E : forallb (fun k => is_clean (b64_char (N.of_nat k))) (seq 0 64) = true) by (vm_compute; reflexivity).
  rewrite forallb_forall in E. specialize (E (N.to_nat n)). rewrite N2Nat.id in E. apply E, in_seq. lia.
Qed.
Lemma b64_clean l : Forall (fun b => (b < 256)%N) l -> clean (b64encode l).
Proof.
  assert (Eq : ~ In 61%N [34; 92; 10; 13; 0]%N) by (apply is_clean_spec; reflexivity).
  induction l as [|a|a b|a b c l IH] using Scalars_proofs.triple_ind; intros H; cbn [b64encode]; [constructor| | |].
  - inversion H; subst. repeat (constructor; [first [exact Eq|apply char_clean; Scalars_proofs.nsolve]|]). constructor.
  - inversion H as [|? ? ? H']; inversion H'; subst. repeat (constructor; [first [exact Eq|apply char_clean; Scalars_proofs.nsolve]|]). constructor.
  - inversion H as [|? ? ? H']; inversion H' as [|? ? ? H'']; inversion H''; subst. repeat (constructor; [first [exact Eq|apply char_clean; Scalars_proofs.nsolve]|]). apply IH. assumption.
Qed.
Theorem binaries xp cm0 tds cm ty l own r O fuel bs : Forall (fun b => (b < 256)%N) bs -> default_of xp cm0 tds cm ty l own r (b64encode bs) -> (length l < fuel)%nat -> base_key (end_of ty l) = lit "binary" ->
  leaf_value O fuel cm r own = Made (Some (VBytes bs)).
Proof.
  intros B D F K. assert (Nb : base_key (end_of ty l) <> lit "bits") by (rewrite K; vm_compute; discriminate). assert (Ns : base_key (end_of ty l) <> lit "string") by (rewrite K; vm_compute; discriminate).
  destruct (leaf_found _ _ _ _ _ _ _ _ _ O fuel D F Nb) as (b & L & E). unfold leaf_value. rewrite E, (not_reference _ _ _ _ _ _ _ _ _ D) by (intros _; apply key_not_ref, Ns).
  rewrite K in L. vm_compute in L. injection L as <-. rewrite source_clean; [|reflexivity|apply b64_clean, B]. cbn [ce_native]. unfold ty_call. cbn [ty_new ty_init yang_binary]. rewrite Scalars_proofs.b64_roundtrip by exact B. reflexivity.
Qed.

(* ------------------------------------------------------------------ bits *)
Lemma positions bs : forall allowed a, bit_positions allowed bs = Ok a -> forall w, In w (map fst a) <-> In w (map fst allowed) \/ In w (map fst bs).
Proof.
  induction bs as [|[b [p|]] bs IH]; intros allowed a H w; cbn [bit_positions] in H.
  - injection H as <-. cbn. tauto.
  - rewrite (IH _ _ H w). cbn [map fst In]. assert (K : In w (map fst (dict_set b p allowed)) <-> b = w \/ In w (map fst allowed)).
    { clear. induction allowed as [|[m x] al IH]; cbn [dict_set map fst In]; [tauto|]. destruct (str_eqb_spec b m) as [->|N]; cbn [map fst In]; [tauto|]. rewrite IH. tauto. }
    rewrite K. tauto.
  - discriminate.
Qed.
Theorem bits xp cm0 tds cm ty own r O fuel ws : default_of xp cm0 tds cm ty [] own r (join [32%N] ws) -> (0 < fuel)%nat -> ty_arg ty = lit "bits" -> plain ty ->
  words ws -> NoDup ws -> incl ws (map fst (ty_bits ty)) -> clean (join [32%N] ws) -> leaf_value O fuel cm r own = Made (Some (VBits ws)).
Proof.
  intros D F K P W N I C. pose proof D as (Hi & Hs & Ht & Hp & Hc & Hb & Hn & Ho & Hd). cbn [map nearest] in Hd. destruct own as [d'|]; [|discriminate]. injection Hd as ->. clear Ho Hn Hc.
  assert (R : restrictions ty = []) by (apply restrictions_plain, P). destruct ty as [a ps ln rg en dg pt rq bs bi subs]. cbn [ty_arg ty_bits end_of] in *. subst a.
  cbn [build_elemtype ty_arg ty_enums ty_digits ty_path ty_require ty_bases ty_bits ty_subs] in Hb. rewrite R in Hb.
  assert (T1 : str_eqb (lit "bits") (lit "enumeration") = false) by reflexivity. assert (T2 : str_eqb (lit "bits") (lit "decimal64") = false) by reflexivity.
  assert (T3 : str_eqb (lit "bits") (lit "union") = false) by reflexivity. assert (T4 : str_eqb (lit "bits") (lit "leafref") = false) by reflexivity.
  assert (T5 : str_eqb (lit "bits") (lit "identityref") = false) by reflexivity. rewrite T1, T2, T3, T4, T5, str_eqb_refl in Hb. clear T1 T2 T3 T4 T5.
  destruct (bit_positions [] bi) as [al|] eqn:Ea; cbn [bind] in Hb; [|discriminate]. injection Hb as <-. unfold leaf_value, leaf_default, choose_default. cbn [ce_default ce_base bind default_base is_reference ce_ref].
  rewrite source_clean by (reflexivity || exact C). cbn [ce_native]. unfold ty_call. cbn [ty_new ty_init yang_bits]. rewrite Bits_proofs.split_ws_join by exact W.
  rewrite Bits_proofs.add_all_fresh; [reflexivity|exact N|]. intros w Hw. apply (positions bi [] al Ea w). right. apply I, Hw.
Qed.

(* ------------------------------------------------------------------ decimals *)
Lemma digits_then_point ds x rest : all_below 10 ds -> is_digit x = false -> x <> 95%N -> forall prev acc, parse_digits (digits ds ++ x :: rest) prev acc = None.
Proof.
  intros H Nx Nu. apply N.eqb_neq in Nu. induction ds as [|d ds IH]; intros prev acc; cbn [digits map app parse_digits]; [rewrite Nx, Nu; reflexivity|]. inversion H; subst. destruct (digit_char d) as [-> ->]; [assumption|].
  change (map (fun d => Z.to_N (d + 48)) ds) with (digits ds). apply IH. assumption.
Qed.
Lemma take_digits_read ds rest : all_below 10 ds -> (match rest with x :: _ => is_digit x = false | [] => True end) -> forall acc n,
  take_digits (digits ds ++ rest) acc n = (fold_left (fun a d => a * 10 + d) ds acc, (length ds + n)%nat, rest).
Proof.
  intros H Hr. induction ds as [|d ds IH]; intros acc n; cbn [digits map app fold_left length].
  - destruct rest as [|x rest]; cbn [take_digits]; [reflexivity|]. rewrite Hr. reflexivity.
  - inversion H; subst. cbn [take_digits]. destruct (digit_char d) as [-> ->]; [assumption|]. change (map (fun d => Z.to_N (d + 48)) ds) with (digits ds). rewrite IH by assumption. replace (S (length ds) + n)%nat with (length ds + S n)%nat by lia. reflexivity.
Qed.
Lemma digit_no_base d : 0 <= d < 10 -> base_of_letter (Z.to_N (d + 48)) = None.
Proof. intros H. unfold base_of_letter. repeat match goal with |- context [N.eqb ?a ?b] => let E := fresh in assert (E : N.eqb a b = false) by (apply N.eqb_neq; lia); rewrite E; clear E end. reflexivity. Qed.
Lemma unsigned_point ds fs : ds <> [] -> fs <> [] -> all_below 10 ds -> all_below 10 fs ->
  unsigned (digits ds ++ 46%N :: digits fs) = let '(m, e) := round53 (magnitude 10 (ds ++ fs)) (10 ^ Z.of_nat (length fs)) in SVal (VFloat m e).
Proof.
  intros N1 N2 H1 H2. unfold unsigned. rewrite digits_then_point by (assumption || reflexivity || discriminate).
  assert (Eb : match digits ds ++ 46%N :: digits fs with c :: x :: s' => base_of_letter x | _ => None end = None).
  { destruct ds as [|d [|d' ds]]; [contradiction|reflexivity|]. inversion H1 as [|? ? ? H1']; inversion H1'; subst. cbn [digits map app]. apply digit_no_base. assumption. }
  assert (Ef : float_parts (digits ds ++ 46%N :: digits fs) = Some (magnitude 10 (ds ++ fs), - Z.of_nat (length fs))).
  { unfold float_parts. rewrite take_digits_read by (assumption || reflexivity). change (N.eqb 46 46) with true. cbv iota. rewrite <- (app_nil_r (digits fs)), take_digits_read by (assumption || exact I).
    destruct ds as [|d ds]; [contradiction|]. destruct fs as [|f fs]; [contradiction|]. cbn [length Nat.add parse_exp option_map]. rewrite !Nat.add_0_r. unfold magnitude. rewrite fold_left_app. reflexivity. }
  assert (Fv : forall c, float_value c (- Z.of_nat (length fs)) = round53 c (10 ^ Z.of_nat (length fs))).
  { intros c. unfold float_value. destruct (Z.leb_spec 0 (- Z.of_nat (length fs))) as [L|L]; [destruct fs; [contradiction|cbn [length] in L; lia]|]. rewrite Z.opp_involutive. reflexivity. }
  destruct (digits ds ++ 46%N :: digits fs) as [|c [|x s']] eqn:E.
  - destruct ds; discriminate.
  - rewrite Ef, Fv. reflexivity.
  - rewrite Eb, Ef, Fv. reflexivity.
Qed.
Lemma round53_opp n d : round53 (- n) d = let '(m, e) := round53 n d in (- m, e).
Proof.
  unfold round53. destruct (Z.eqb_spec n 0) as [->|N]; [reflexivity|]. destruct (Z.eqb_spec (- n) 0); [lia|]. destruct (Z.ltb_spec 0 n); destruct (Z.ltb_spec 0 (- n)); try lia.
  - rewrite Z.opp_involutive. destruct (round53_pos n d). reflexivity.
  - destruct (round53_pos (- n) d). now rewrite Z.opp_involutive.
Qed.
Lemma number_point sg ds fs : ds <> [] -> fs <> [] -> all_below 10 ds -> all_below 10 fs ->
  number (sign_text sg ++ digits ds ++ lit "." ++ digits fs) = let '(m, e) := round53 (signed sg (magnitude 10 (ds ++ fs))) (10 ^ Z.of_nat (length fs)) in SVal (VFloat m e).
Proof.
  intros N1 N2 H1 H2. replace (lit "." ++ digits fs) with (46%N :: digits fs) by reflexivity. destruct (digits_head ds H1 N1) as (c & s & E & _ & Nc & Nc').
  rewrite (number_signed sg (digits ds ++ 46%N :: digits fs) c (s ++ 46%N :: digits fs)); [|rewrite E; reflexivity|exact Nc|exact Nc']. rewrite unsigned_point by assumption.
  destruct sg; cbn [signed]; [reflexivity|reflexivity|]. rewrite round53_opp. destruct (round53 _ _); reflexivity.
Qed.

(** The nearest float, quantised to at most 52 bits in all. *)
Lemma scaled_coef n s q m e : 0 <= n -> 0 <= s -> 0 < q -> q * 10 ^ s < 2 ^ 52 -> round53_pos q (10 ^ n) = (m, e) ->
  e < 0 /\ 2 * Z.abs (q * 10 ^ s * 10 ^ (- e) - m * 5 ^ (- e) * 10 ^ (n + s)) < 10 ^ (- e).
Proof.
  intros Hn Hs Hq Hb H. pose proof (Z.pow_pos_nonneg 10 n ltac:(lia) Hn) as HD. pose proof (Z.pow_pos_nonneg 10 s ltac:(lia) Hs) as HS. assert (Hq2 : 0 < q < 2 ^ 52) by nia.
  pose proof (Float_proofs.round53_pos_neg _ _ _ _ Hq2 HD H) as He. split; [assumption|]. destruct (Float_proofs.round53_pos_near q (10 ^ n) m e ltac:(lia) HD H He) as [H1 H2].
  rewrite Z.pow_add_r by lia. replace (10 ^ (- e)) with (2 ^ (- e) * 5 ^ (- e)) by (rewrite <- Z.pow_mul_l; reflexivity). set (D := 10 ^ n) in *. set (S := 10 ^ s) in *.
  pose proof (Z.pow_pos_nonneg 2 (- e) ltac:(lia) ltac:(lia)) as HP2. pose proof (Z.pow_pos_nonneg 5 (- e) ltac:(lia) ltac:(lia)) as HP5. set (P2 := 2 ^ (- e)) in *. set (P5 := 5 ^ (- e)) in *.
  replace (q * S * (P2 * P5) - m * P5 * (D * S)) with (- ((m * D - q * P2) * (S * P5))) by ring. rewrite Z.abs_opp, Z.abs_mul, (Z.abs_eq (S * P5)) by nia.
  set (A := Z.abs (m * D - q * P2)) in *. assert (DS : D * S < P2).
  { assert (2 ^ 52 * D * S <= q * P2 * S) by nia. assert (q * P2 * S < 2 ^ 52 * P2) by nia. nia. }
  assert (2 * (A * S) < P2) by nia. nia.
Qed.
Lemma dec_near n s q : 0 <= n -> 0 <= s -> Z.abs q * 10 ^ s < 2 ^ 52 -> let '(m, e) := round53 q (10 ^ n) in
  exists c x, py_decimal (VFloat m e) = Ok (c, x) /\ quantize c x (n + s) = Ok (q * 10 ^ s, - (n + s)).
Proof.
  intros Hn Hs Hq. pose proof (Z.pow_pos_nonneg 10 s ltac:(lia) Hs) as HS.
  assert (Core : forall m e, e < 0 -> 2 * Z.abs (q * 10 ^ s * 10 ^ (- e) - m * 5 ^ (- e) * 10 ^ (n + s)) < 10 ^ (- e) ->
            exists c x, py_decimal (VFloat m e) = Ok (c, x) /\ quantize c x (n + s) = Ok (q * 10 ^ s, - (n + s))).
  { intros m e He Hm. exists (m * 5 ^ (- e)), e. split.
    { unfold py_decimal. destruct (Z.leb_spec 0 e); [lia|reflexivity]. }
    pose proof (Z.pow_pos_nonneg 10 (- e) ltac:(lia) ltac:(lia)) as HP. assert (Hk : 0 <= - e) by lia. assert (Hk2 : 0 <= e + (n + s) + - e) by lia. set (Q := q * 10 ^ s) in *.
    assert (HQ : Z.abs Q < 2 ^ 52) by (unfold Q; rewrite Z.abs_mul, (Z.abs_eq (10 ^ s)) by lia; exact Hq).
    destruct (Scalars_proofs.quantize_in_range (m * 5 ^ (- e)) e (n + s) (- e) Hk Hk2) as [q' Hq'].
    { replace (e + (n + s) + - e) with (n + s) by lia. set (X := m * 5 ^ (- e) * 10 ^ (n + s)) in *. set (P := 10 ^ (- e)) in *.
      assert (Z.abs (Q * P) = Z.abs Q * P) by (rewrite Z.abs_mul, (Z.abs_eq P) by lia; reflexivity).
      assert (Z.abs Q * P <= 2 ^ 52 * P) by nia. assert (2 ^ 52 * P + P <= 2 ^ 63 * P) by nia. lia. }
    rewrite Hq'. destruct (Scalars_proofs.quantize_near _ _ _ _ _ Hq') as [_ Hnear]. destruct (Hnear (- e) Hk Hk2) as [H1 _]. replace (e + (n + s) + - e) with (n + s) in H1 by lia.
    set (X := m * 5 ^ (- e) * 10 ^ (n + s)) in *. set (P := 10 ^ (- e)) in *.
    assert (Hd : 2 * Z.abs ((q' - Q) * P) < 2 * P) by (replace ((q' - Q) * P) with ((q' * P - X) - (Q * P - X)) by ring; lia).
    rewrite Z.abs_mul, (Z.abs_eq P) in Hd by lia. assert (q' = Q) by nia. congruence. }
  unfold round53. destruct (Z.eqb_spec q 0) as [->|Hq0].
  { exists 0, 0. split; [reflexivity|]. rewrite Scalars_proofs.quantize_coef. unfold Scalars_proofs.coef. destruct (Z.leb_spec (- (n + s)) 0); [|lia]. rewrite Z.mul_0_l. reflexivity. }
  destruct (Z.ltb_spec 0 q) as [Hp|Hp].
  - destruct (round53_pos q (10 ^ n)) as [m e] eqn:E. rewrite Z.abs_eq in Hq by lia. destruct (scaled_coef n s q m e Hn Hs Hp Hq E) as [He Hm]. exact (Core m e He Hm).
  - destruct (round53_pos (- q) (10 ^ n)) as [m e] eqn:E. rewrite Z.abs_neq in Hq by lia. destruct (scaled_coef n s (- q) m e Hn Hs ltac:(lia) Hq E) as [He Hm].
    apply (Core (- m) e He). set (P := 10 ^ (- e)) in *. set (F := 5 ^ (- e)) in *. set (D := 10 ^ (n + s)) in *. set (S := 10 ^ s) in *.
    replace (q * S * P - - m * F * D) with (- (- q * S * P - m * F * D)) by ring. now rewrite Z.abs_opp.
Qed.
(** What is written for a decimal: an integer, or the nearest float. *)
Lemma decimal_read xp cm0 tds cm ty l own r d O fuel : default_of xp cm0 tds cm ty l own r d -> (length l < fuel)%nat -> base_key (end_of ty l) = lit "decimal64" ->
  leaf_value O fuel cm r own = match number d with SVal v => match ty_call O TDecimal v with Ok w => Made (Some w) | Raise e => Failed e end | SBad => Unreadable | SCode => Code end.
Proof.
  intros D F K. assert (Nb : base_key (end_of ty l) <> lit "bits") by (rewrite K; vm_compute; discriminate). assert (Ns : base_key (end_of ty l) <> lit "string") by (rewrite K; vm_compute; discriminate).
  destruct (leaf_found _ _ _ _ _ _ _ _ _ O fuel D F Nb) as (b & L & E). unfold leaf_value. rewrite E, (not_reference _ _ _ _ _ _ _ _ _ D) by (intros _; apply key_not_ref, Ns).
  rewrite K in L. vm_compute in L. injection L as <-. reflexivity.
Qed.
Lemma dec_call O v : ty_call O TDecimal v = match py_decimal v with Ok (c, x) => Ok (VDec c x) | Raise e => Raise e end.
Proof. unfold ty_call. cbn [ty_new ty_init]. destruct (py_decimal v) as [[c x]|e]; reflexivity. Qed.

Lemma decimal_value n q d O : (0 < n)%nat /\ dec_text d q n \/ n = 0%nat /\ int_text Dec d q -> exists c x, (match number d with SVal v => ty_call O TDecimal v | _ => Raise OutOfFuel end = Ok (VDec c x)) /\
  (exists v, number d = SVal v) /\ x <= 0 /\ (n = 0%nat -> c = q /\ x = 0) /\ ((0 < n)%nat -> let '(m, e) := round53 q (10 ^ Z.of_nat n) in py_decimal (VFloat m e) = Ok (c, x)).
Proof.
  intros [[Hn T]|[-> T]].
  - destruct T as [sg ds N H|sg ds fs N1 N2 H1 H2]; [lia|]. rewrite number_point by assumption. destruct (round53 _ _) as [m e]. rewrite dec_call. cbn [py_decimal]. destruct (Z.leb_spec 0 e) as [L|L].
    + exists (m * 2 ^ e), 0. split; [reflexivity|]. split; [eexists; reflexivity|]. split; [lia|]. split; [lia|]. reflexivity.
    + exists (m * 5 ^ (- e)), e. split; [reflexivity|]. split; [eexists; reflexivity|]. split; [lia|]. split; [lia|]. reflexivity.
  - rewrite (number_int Dec d q T). cbn [is_oct andb]. exists q, 0. split; [reflexivity|]. split; [eexists; reflexivity|]. split; [lia|]. split; [auto|lia].
Qed.
Theorem decimals xp cm0 tds cm ty l own r d O fuel q n f : default_of xp cm0 tds cm ty l own r d -> (length l < fuel)%nat -> base_key (end_of ty l) = lit "decimal64" ->
  (0 < n)%nat /\ dec_text d q n \/ n = 0%nat /\ int_text Dec d q -> Z.of_nat n <= f -> Z.abs q * 10 ^ (f - Z.of_nat n) < 2 ^ 52 ->
  exists c x, leaf_value O fuel cm r own = Made (Some (VDec c x)) /\ quantize c x f = Ok (q * 10 ^ (f - Z.of_nat n), - f).
Proof.
  intros D F K T Hf Hq. rewrite (decimal_read _ _ _ _ _ _ _ _ _ O fuel D F K). destruct (decimal_value n q d O T) as (c & x & E1 & (v & Ev) & Hx & Z0 & Zn). rewrite Ev in *. exists c, x. rewrite E1. split; [reflexivity|].
  destruct (Nat.eq_dec n 0) as [->|Nn].
  - destruct (Z0 eq_refl) as [-> ->]. cbn [Z.of_nat] in *. rewrite Z.sub_0_r in *. pose proof (Z.pow_pos_nonneg 10 f ltac:(lia) Hf) as HP.
    assert (A : Z.abs (q * 10 ^ f) = Z.abs q * 10 ^ f) by (rewrite Z.abs_mul, (Z.abs_eq (10 ^ f)) by lia; reflexivity).
    destruct (Scalars_proofs.quantize_in_range q 0 f 0) as [q' Hq']; [lia|lia|rewrite Z.add_0_r, Z.add_0_l, A, Z.pow_0_r; lia|].
    rewrite Hq'. rewrite Scalars_proofs.quantize_coef in Hq'. unfold Scalars_proofs.coef in Hq'. destruct (Z.leb_spec (- f) 0); [|lia]. rewrite Z.add_0_l in Hq'.
    destruct (28 <? _); [discriminate|]. injection Hq' as <-. reflexivity.
  - pose proof (dec_near (Z.of_nat n) (f - Z.of_nat n) q ltac:(lia) ltac:(lia) Hq) as N. specialize (Zn ltac:(lia)). destruct (round53 q (10 ^ Z.of_nat n)) as [m e]. destruct N as (c' & x' & P & Q).
    rewrite Zn in P. injection P as -> ->. replace (Z.of_nat n + (f - Z.of_nat n)) with f in Q by lia. exact Q.
Qed.
(** A float is exactly the decimal only if that is a fraction of a power of two. *)
Lemma round_exact n a m e : 1 <= n -> 0 < a < 2 ^ 53 -> round53_pos (a * 5 ^ n) (10 ^ n) = (m, e) -> e < 0 /\ m * 10 ^ n = a * 5 ^ n * 2 ^ (- e).
Proof.
  intros Hn Ha H. pose proof (Z.pow_pos_nonneg 5 n ltac:(lia) ltac:(lia)) as H5. pose proof (Z.pow_pos_nonneg 2 n ltac:(lia) ltac:(lia)) as H2.
  assert (E10 : 10 ^ n = 5 ^ n * 2 ^ n) by (rewrite <- Z.pow_mul_l; reflexivity). set (q := a * 5 ^ n) in *. assert (Hq : 0 < q) by (unfold q; nia). assert (HD : 0 < 10 ^ n) by nia.
  assert (T2 : 2 <= 2 ^ n) by (replace n with (1 + (n - 1)) by lia; rewrite Z.pow_add_r by lia; pose proof (Z.pow_pos_nonneg 2 (n - 1) ltac:(lia) ltac:(lia)); lia).
  assert (Lt : q < 2 ^ 52 * 10 ^ n) by (unfold q; rewrite E10; change (2 ^ 53) with (2 * 2 ^ 52) in Ha; nia).
  assert (He : e < 0).
  { unfold round53_pos in H. injection H as _ Hk. set (k := Z.log2 q - Z.log2 (10 ^ n) - 52) in *. destruct (Z.leb_spec 0 k) as [L|L].
    - assert (K0 : k <= 0). { pose proof (Z.log2_spec q Hq) as [Q1 _]. pose proof (Z.log2_spec _ HD) as [_ D1]. destruct (Z.le_gt_cases k 0) as [|G]; [assumption|exfalso].
        assert (2 ^ (Z.succ (Z.log2 (10 ^ n)) + 52) <= 2 ^ Z.log2 q) by (apply Z.pow_le_mono_r; [lia|unfold k in G; lia]). pose proof (Z.log2_nonneg (10 ^ n)). rewrite Z.pow_add_r in H by lia. nia. }
      replace k with 0 in Hk by lia. rewrite Z.pow_0_r, Z.mul_1_r in Hk. change (0 <=? 0) with true in Hk. cbv iota in Hk. match type of Hk with (if ?c then _ else _) = _ => assert (Ec : c = false) by (apply Z.leb_gt; exact Lt); rewrite Ec in Hk end. lia.
    - match type of Hk with (if ?c then _ else _) = _ => destruct c end; lia. }
  split; [exact He|]. destruct (Float_proofs.round53_pos_near q (10 ^ n) m e Hq HD H He) as [H1 H3].
  assert (Le : n <= - e). { destruct (Z.le_gt_cases n (- e)) as [|G]; [assumption|exfalso]. assert (P : 2 ^ (- e) * 2 <= 2 ^ n) by (replace n with ((- e) + 1 + (n + e - 1)) by lia; rewrite !Z.pow_add_r by lia; pose proof (Z.pow_pos_nonneg 2 (n + e - 1) ltac:(lia) ltac:(lia)); pose proof (Z.pow_pos_nonneg 2 (- e) ltac:(lia) ltac:(lia)); change (2 ^ 1) with 2; nia).
    pose proof (Z.pow_pos_nonneg 2 (- e) ltac:(lia) ltac:(lia)) as Pe. set (P2 := 2 ^ (- e)) in *. unfold q in H1. rewrite E10 in H1. assert (2 ^ 52 * 2 ^ n <= a * P2) by nia. change (2 ^ 53) with (2 * 2 ^ 52) in Ha. nia. }
  assert (X : q * 2 ^ (- e) = a * 2 ^ (- e - n) * 10 ^ n). { unfold q. rewrite E10. replace (2 ^ (- e)) with (2 ^ (- e - n) * 2 ^ n) by (rewrite <- Z.pow_add_r by lia; f_equal; lia). ring. }
  rewrite X in *. set (y := a * 2 ^ (- e - n)) in *. assert (m = y) by nia. nia.
Qed.
Lemma exact_iff n q : (0 < n)%nat -> Z.abs q < 2 ^ 53 * 5 ^ Z.of_nat n -> forall m e c x, round53 q (10 ^ Z.of_nat n) = (m, e) -> py_decimal (VFloat m e) = Ok (c, x) -> x <= 0 ->
  (c * 10 ^ Z.of_nat n = q * 10 ^ (- x) <-> (5 ^ Z.of_nat n | q)).
Proof.
  intros Hn Hq m e c x Hr Hp Hx. set (N := Z.of_nat n) in *. assert (HN : 1 <= N) by lia. pose proof (Z.pow_pos_nonneg 5 N ltac:(lia) ltac:(lia)) as H5.
  assert (E10 : forall k, 0 <= k -> 10 ^ k = 5 ^ k * 2 ^ k) by (intros k _; rewrite <- Z.pow_mul_l; reflexivity).
  split.
  - intros E. cbn [py_decimal] in Hp. assert (Y : exists p, 0 <= p /\ exists b, b * 10 ^ N = q * 2 ^ p).
    { destruct (Z.leb_spec 0 e) as [L|L]; injection Hp as <- <-; [exists 0; split; [lia|]; exists (m * 2 ^ e); rewrite E; reflexivity|]. exists (- e). split; [lia|]. exists m.
      rewrite (E10 (- e)) in E by lia. pose proof (Z.pow_pos_nonneg 5 (- e) ltac:(lia) ltac:(lia)). nia. }
    destruct Y as (p & P & b & Eb). rewrite (E10 N) in Eb by lia. assert (Dv : (5 ^ N | 2 ^ p * q)) by (exists (b * 2 ^ N); rewrite (Z.mul_comm (2 ^ p) q), <- Eb; ring).
    apply Z.gauss in Dv; [exact Dv|]. apply Zgcd_1_rel_prime. apply rel_prime_Zpower; [lia|exact P|]. apply Zgcd_1_rel_prime. reflexivity.
  - intros [a Ea]. assert (Core : forall a m e, 0 < a -> a < 2 ^ 53 -> round53_pos (a * 5 ^ N) (10 ^ N) = (m, e) -> e < 0 /\ m * 5 ^ (- e) * 10 ^ N = a * 5 ^ N * 10 ^ (- e)).
    { intros a' m' e' A1 A2 R. destruct (round_exact N a' m' e' HN (conj A1 A2) R) as [He X]. split; [exact He|]. rewrite (E10 (- e')) by lia. replace (m' * 5 ^ (- e') * 10 ^ N) with (m' * 10 ^ N * 5 ^ (- e')) by ring. rewrite X. ring. }
    subst q. rewrite Z.abs_mul, (Z.abs_eq (5 ^ N)) in Hq by lia. assert (Ha : Z.abs a < 2 ^ 53) by nia. unfold round53 in Hr. destruct (Z.eqb_spec (a * 5 ^ N) 0) as [Z0|Z0].
    + injection Hr as <- <-. cbn in Hp. injection Hp as <- <-. rewrite Z0. reflexivity.
    + destruct (Z.ltb_spec 0 (a * 5 ^ N)) as [Ps|Ps].
      * destruct (Core a m e) as [He X]; [nia|lia|exact Hr|]. cbn [py_decimal] in Hp. destruct (Z.leb_spec 0 e); [lia|]. injection Hp as <- <-. exact X.
      * destruct (round53_pos (- (a * 5 ^ N)) (10 ^ N)) as [m' e'] eqn:R. injection Hr as <- <-. replace (- (a * 5 ^ N)) with ((- a) * 5 ^ N) in R by ring.
        destruct (Core (- a) m' e') as [He X]; [nia|lia|exact R|]. cbn [py_decimal] in Hp. destruct (Z.leb_spec 0 e'); [lia|]. injection Hp as <- <-. nia.
Qed.
Theorem decimals_exact xp cm0 tds cm ty l own r d O fuel q n : default_of xp cm0 tds cm ty l own r d -> (length l < fuel)%nat -> base_key (end_of ty l) = lit "decimal64" ->
  (0 < n)%nat -> dec_text d q n -> Z.abs q < 2 ^ 53 * 5 ^ Z.of_nat n ->
  exists c x, leaf_value O fuel cm r own = Made (Some (VDec c x)) /\ x <= 0 /\ (c * 10 ^ Z.of_nat n = q * 10 ^ (- x) <-> (5 ^ Z.of_nat n | q)).
Proof.
  intros D F K Hn T Hq. rewrite (decimal_read _ _ _ _ _ _ _ _ _ O fuel D F K). destruct (decimal_value n q d O (or_introl (conj Hn T))) as (c & x & E1 & (v & Ev) & Hx & _ & Zn). rewrite Ev in *. exists c, x. rewrite E1. split; [reflexivity|].
  split; [exact Hx|]. specialize (Zn Hn). destruct (round53 q (10 ^ Z.of_nat n)) as [m e] eqn:R. exact (exact_iff n q Hn Hq m e c x R Zn Hx).
Qed.
Theorem decimals_zero xp cm0 tds cm ty l own r d O fuel q : default_of xp cm0 tds cm ty l own r d -> (length l < fuel)%nat -> base_key (end_of ty l) = lit "decimal64" ->
  dec_text d q 0 -> ~ int_text Dec d q -> leaf_value O fuel cm r own = if q =? 0 then Made (Some (VDec 0 0)) else Unreadable.
Proof.
  intros D F K T N. rewrite (decimal_read _ _ _ _ _ _ _ _ _ O fuel D F K). remember 0%nat as n eqn:En. destruct T as [sg ds Nd H|sg ds fs N1 N2 H1 H2]; [|destruct fs; [contradiction|discriminate]].
  destruct (digits_head ds H Nd) as (c & s & E & _ & Nc1 & Nc2). rewrite (number_signed sg (digits ds) c s E Nc1 Nc2), (unsigned_digits ds H Nd).
  assert (Hz : hd 0 ds = 0). { destruct ds as [|d0 ds]; [contradiction|]. cbn [hd]. destruct (Z.eq_dec d0 0) as [|N0]; [assumption|]. exfalso. apply N, ItDec; [exact H|right; eauto]. }
  rewrite Hz. change (0 =? 0) with true. cbn [andb]. assert (Sg : (signed sg (magnitude 10 ds) =? 0) = (magnitude 10 ds =? 0)) by (destruct sg; cbn [signed]; [reflexivity|reflexivity|]; destruct (Z.eqb_spec (magnitude 10 ds) 0); destruct (Z.eqb_spec (- magnitude 10 ds) 0); lia || reflexivity).
  rewrite Sg. destruct (Z.eqb_spec (magnitude 10 ds) 0) as [E0|E0]; cbn [negb]; [rewrite E0; destruct sg; reflexivity|destruct sg; reflexivity].
Qed.

Lemma quoted_stop s : clean s -> forall fuel acc rest, (length s < fuel)%nat -> quoted fuel (s ++ 34%N :: rest) acc = SCode.
Proof.
  induction 1 as [|c s Hc H IH]; intros fuel acc rest L; (destruct fuel as [|f]; [cbn in L; lia|]); cbn [quoted app]; [reflexivity|].
  assert (E : N.eqb c 34 = false /\ N.eqb c 10 = false /\ N.eqb c 13 = false /\ N.eqb c 0 = false /\ N.eqb c 92 = false).
  { repeat split; apply N.eqb_neq; intros ->; apply Hc; cbn; tauto. }
  destruct E as (-> & -> & -> & -> & ->). cbn [orb negb]. apply IH. cbn in L. lia.
Qed.
Lemma after_quote O s : clean s -> leaf_value O 1 builtin_map (EOne (builtin TStr true)) (Some (s ++ lit """")) = Code.
Proof.
  intros C. unfold leaf_value, leaf_default, choose_default. cbn [builtin ce_default bind default_base ce_base is_reference ce_ref]. unfold default_source. cbn [ce_quote builtin].
  replace (lit """") with [34%N] by reflexivity. rewrite (quoted_stop s C) by (rewrite app_length; lia). reflexivity.
Qed.
