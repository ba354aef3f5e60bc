(** Lemmas about numbers given as text. *)
From Coq Require Import Lia ZArith.
From Verif Require Import PyStr PyStr_facts PyVal Restricted IntTypes Spec_Types Spec_Defaults Spec_Lexical.
From Verif Require Range_proofs Defaults_proofs Decimal_proofs Restricted_proofs Ints_proofs Scalars_proofs.
Import ListNotations.
Local Open Scope Z_scope.

(* ------------------------------------------------------------------ white space *)
Definition spaces (s : str) : Prop := Forall (fun c => In c [9; 10; 11; 12; 13; 28; 29; 30; 31; 32]%N) s.
Lemma space_in c : is_space c = true <-> In c [9; 10; 11; 12; 13; 28; 29; 30; 31; 32]%N.
Proof.
  unfold is_space. split.
  - intros H. assert (E : (c = 32 \/ 9 <= c <= 13 \/ 28 <= c <= 31)%N) by lia. cbn [In]. lia.
  - cbn [In]. intros H. repeat (destruct H as [<-|H]; [reflexivity|]). destruct H.
Qed.
Lemma spaces_space s : spaces s <-> Forall (fun c => is_space c = true) s.
Proof. unfold spaces. split; apply Forall_impl; intros c; apply space_in. Qed.
Lemma spaces_rev s : spaces s -> spaces (rev s).
Proof. intros H. apply Forall_forall. intros c Hc. apply in_rev in Hc. unfold spaces in H. rewrite Forall_forall in H. apply H, Hc. Qed.
Definition starts (t : str) : Prop := forall c, hd_error t = Some c -> is_space c = false.
Lemma lstrip_split s : exists a, spaces a /\ s = a ++ lstrip s /\ starts (lstrip s).
Proof.
  induction s as [|x s (a & W & E & N)]; [exists []; split; [constructor|split; [reflexivity|discriminate]]|]. cbn [lstrip]. destruct (is_space x) eqn:X.
  - exists (x :: a). split; [constructor; [apply space_in, X|exact W]|]. split; [cbn [app]; rewrite <- E; reflexivity|exact N].
  - exists []. split; [constructor|]. split; [reflexivity|]. intros c H. injection H as <-. exact X.
Qed.
Lemma lstrip_spaces a t : spaces a -> starts t -> lstrip (a ++ t) = t.
Proof.
  intros W N. induction W as [|c a Hc W IH]; cbn [app].
  - destruct t as [|x t]; [reflexivity|]. apply lstrip_id, N. reflexivity.
  - cbn [lstrip]. apply space_in in Hc. rewrite Hc. exact IH.
Qed.
Lemma strip_split s : exists a b, spaces a /\ spaces b /\ s = a ++ strip s ++ b /\ starts (strip s) /\ starts (rev (strip s)).
Proof.
  destruct (lstrip_split s) as (a & W & E & N). destruct (lstrip_split (rev (lstrip s))) as (b & Wb & Eb & Nb). exists a, (rev b). split; [exact W|]. split; [apply spaces_rev, Wb|].
  assert (U : lstrip s = strip s ++ rev b). { unfold strip, rstrip. rewrite <- rev_app_distr, <- Eb, rev_involutive. reflexivity. }
  split; [rewrite <- U; exact E|]. split.
  - intros c H. apply N. rewrite U. destruct (strip s); [discriminate|exact H].
  - unfold strip, rstrip. rewrite rev_involutive. exact Nb.
Qed.
Lemma strip_between a t b : spaces a -> spaces b -> starts t -> starts (rev t) -> strip (a ++ t ++ b) = t.
Proof.
  intros Wa Wb N1 N2. unfold strip, rstrip. destruct t as [|x t].
  - cbn [app]. assert (E : lstrip (a ++ b) = []). { rewrite <- (app_nil_r (a ++ b)). apply lstrip_spaces; [apply Forall_app; split; assumption|discriminate]. } rewrite E. reflexivity.
  - rewrite lstrip_spaces; [|exact Wa|intros c H; apply N1; exact H]. rewrite rev_app_distr, lstrip_spaces; [apply rev_involutive|apply spaces_rev, Wb|exact N2].
Qed.

Lemma white_is s : white s -> spaces s.
Proof. apply Forall_impl. intros c H. cbn [In] in *. tauto. Qed.
Lemma ordinary_white s : ordinary s -> spaces s -> white s.
Proof. intros H W. unfold white. apply Forall_forall. intros c Hc. unfold ordinary, spaces in *. rewrite Forall_forall in H, W. specialize (H c Hc). specialize (W c Hc). cbn [In] in *. lia. Qed.
Lemma ordinary_ends a t b : ordinary (a ++ t ++ b) -> spaces a -> spaces b -> white a /\ white b.
Proof. intros H Wa Wb. apply Forall_app in H. destruct H as [Ha H]. apply Forall_app in H. destruct H as [_ Hb]. split; apply ordinary_white; assumption. Qed.

(* ------------------------------------------------------------------ integers *)
Lemma grouped_cons g gs : grouped g gs = digits g ++ flat_map (fun g => 95%N :: digits g) gs.
Proof. reflexivity. Qed.
Lemma digit_of x : is_digit x = true -> exists d, 0 <= d < 10 /\ x = Z.to_N (d + 48) /\ digit_val x = d.
Proof. intros H. apply is_digit_iff in H. unfold digitN in H. exists (Z.of_N x - 48). unfold digit_val. lia. Qed.
Lemma digits_parsed s : forall prev acc z, parse_digits s prev acc = Some z ->
  exists g gs, s = grouped g gs /\ (prev = false -> g <> []) /\ (forall h, In h gs -> h <> []) /\ all_below 10 (g ++ concat gs) /\ z = fold_left (fun a d => a * 10 + d) (g ++ concat gs) acc.
Proof.
  induction s as [|x s IH]; intros prev acc z H; cbn [parse_digits] in H.
  - destruct prev; [|discriminate]. injection H as <-. exists [], []. split; [reflexivity|]. split; [discriminate|]. split; [intros h []|]. split; [constructor|reflexivity].
  - destruct (is_digit x) eqn:X.
    + destruct (digit_of x X) as (d & Hd & Ex & Ed). destruct (IH _ _ _ H) as (g & gs & -> & _ & Hg & Hb & Ez). exists (d :: g), gs. split; [rewrite !grouped_cons; cbn [digits map app]; rewrite <- Ex; reflexivity|].
      split; [discriminate|]. split; [exact Hg|]. split; [constructor; assumption|]. cbn [app fold_left]. rewrite Ez, Ed. reflexivity.
    + destruct (N.eqb_spec x 95) as [->|]; [|discriminate]. destruct prev; [|discriminate]. destruct (IH _ _ _ H) as (g & gs & -> & Hp & Hg & Hb & Ez). exists [], (g :: gs).
      split; [reflexivity|]. split; [discriminate|]. split; [intros h [<-|Hh]; [apply Hp; reflexivity|apply Hg, Hh]|]. split; [exact Hb|exact Ez].
Qed.
Lemma digits_run g : forall rest acc prev, all_below 10 g -> g <> [] -> parse_digits (digits g ++ rest) prev acc = parse_digits rest true (fold_left (fun a d => a * 10 + d) g acc).
Proof.
  induction g as [|d g IH]; intros rest acc prev H N; [contradiction|]. inversion H as [|? ? Hd Hg]; subst. cbn [digits map app parse_digits fold_left]. destruct (Defaults_proofs.digit_char d Hd) as [-> ->].
  destruct g as [|d' g]; [reflexivity|]. apply (IH rest _ true Hg). discriminate.
Qed.
Lemma grouped_run gs : forall acc, (forall h, In h gs -> h <> []) -> all_below 10 (concat gs) ->
  parse_digits (flat_map (fun g => 95%N :: digits g) gs) true acc = Some (fold_left (fun a d => a * 10 + d) (concat gs) acc).
Proof.
  induction gs as [|g gs IH]; intros acc Hg Hb; [reflexivity|]. cbn [flat_map concat] in *. apply Forall_app in Hb. destruct Hb as [Hb1 Hb2]. rewrite <- app_comm_cons. cbn [parse_digits].
  change (is_digit 95) with false. change (N.eqb 95 95) with true. cbv iota. rewrite digits_run; [|exact Hb1|apply Hg; left; reflexivity]. rewrite IH; [rewrite fold_left_app; reflexivity|intros h Hh; apply Hg; right; exact Hh|exact Hb2].
Qed.
Lemma grouped_parsed g gs : g <> [] -> (forall h, In h gs -> h <> []) -> all_below 10 (g ++ concat gs) -> parse_digits (grouped g gs) false 0 = Some (magnitude 10 (g ++ concat gs)).
Proof.
  intros N Hg Hb. apply Forall_app in Hb. destruct Hb as [H1 H2]. rewrite grouped_cons, digits_run by assumption. rewrite grouped_run by assumption. unfold magnitude. rewrite fold_left_app. reflexivity.
Qed.
Lemma digit_head d : 0 <= d < 10 -> is_space (Z.to_N (d + 48)) = false /\ Z.to_N (d + 48) <> 45%N /\ Z.to_N (d + 48) <> 43%N.
Proof. intros H. split; [|lia]. apply digit_not_space. unfold digitN. lia. Qed.
Lemma grouped_nospace g gs : all_below 10 (g ++ concat gs) -> Forall (fun c => is_space c = false) (grouped g gs).
Proof.
  intros H. assert (D : forall g, all_below 10 g -> Forall (fun c => is_space c = false) (digits g)).
  { clear. intros g H. induction H as [|d g Hd Hg IH]; cbn [digits map]; [constructor|]. constructor; [apply digit_head, Hd|exact IH]. }
  apply Forall_app in H. destruct H as [H1 H2]. rewrite grouped_cons. apply Forall_app. split; [apply D, H1|]. induction gs as [|h gs IH]; cbn [flat_map]; [constructor|]. cbn [concat] in H2. apply Forall_app in H2. destruct H2 as [H2 H3].
  constructor; [reflexivity|]. apply Forall_app. split; [apply D, H2|apply IH, H3].
Qed.
Lemma nospace_starts s : Forall (fun c => is_space c = false) s -> starts s /\ starts (rev s).
Proof.
  intros H. split.
  - intros c Hc. destruct s; [discriminate|]. injection Hc as ->. inversion H; assumption.
  - intros c Hc. rewrite Forall_forall in H. apply H. apply in_rev. destruct (rev s); [discriminate|]. injection Hc as ->. left. reflexivity.
Qed.
Lemma sign_nospace sg : Forall (fun c => is_space c = false) (sign_text sg).
Proof. destruct sg; repeat constructor. Qed.
Lemma int_read s z : ordinary s -> parse_int s = Some z -> python_int s z.
Proof.
  - intros Od H. destruct (strip_split s) as (a & b & Wa' & Wb' & E & _). assert (W : white a /\ white b) by (rewrite E in Od; apply (ordinary_ends _ _ _ Od Wa' Wb')). destruct W as [Wa Wb]. clear Od. unfold parse_int in H. destruct (strip s) as [|x t] eqn:S; [discriminate|]. rewrite E.
    assert (M : forall sg u, x :: t = sign_text sg ++ u -> (exists w, parse_digits u false 0 = Some w /\ z = signed sg w) -> python_int (a ++ (x :: t) ++ b) z).
    { intros sg u Eu (w & Hw & ->). destruct (digits_parsed u _ _ _ Hw) as (g & gs & -> & Hp & Hg & Hb & ->). rewrite Eu, <- app_assoc. apply PythonInt; auto. }
    destruct (N.eqb_spec x 45) as [->|N1]; [|destruct (N.eqb_spec x 43) as [->|N2]].
    + apply (M Minus t eq_refl). destruct (parse_digits t false 0) as [w|]; [|discriminate]. injection H as <-. exists w. split; reflexivity.
    + apply (M Plus t eq_refl). exists z. split; [exact H|reflexivity].
    + apply (M NoSign (x :: t) eq_refl). exists z. split; [exact H|reflexivity].
Qed.
Lemma int_given s z : python_int s z -> parse_int s = Some z.
Proof.
  - intros [a b sg g gs Wa Wb Hg Hgs Hb]. apply white_is in Wa, Wb. unfold parse_int. replace (a ++ sign_text sg ++ grouped g gs ++ b) with (a ++ (sign_text sg ++ grouped g gs) ++ b) by (rewrite <- app_assoc; reflexivity).
    destruct (nospace_starts (sign_text sg ++ grouped g gs)) as [S1 S2]; [apply Forall_app; split; [apply sign_nospace|apply grouped_nospace, Hb]|].
    rewrite strip_between by assumption. pose proof (grouped_parsed g gs Hg Hgs Hb) as P. destruct sg; cbn [sign_text app signed].
    + destruct g as [|d g]; [contradiction|]. inversion Hb as [|? ? Hd ?]; subst. destruct (digit_head d Hd) as (_ & N1 & N2). apply N.eqb_neq in N1, N2.
      rewrite grouped_cons in *. cbn [digits map app] in *. rewrite N1, N2. exact P.
    + exact P.
    + change (option_map Z.opp (parse_digits (grouped g gs) false 0) = Some (- magnitude 10 (g ++ concat gs))). rewrite P. reflexivity.
Qed.
Lemma yang_python s z : yang_int s z -> python_int s z.
Proof. intros [sg ds N H]. rewrite <- (app_nil_r ds) at 2. pose proof (PythonInt [] [] sg ds []) as X. cbn [app concat] in X. rewrite grouped_cons in X. cbn [flat_map] in X. rewrite !app_nil_r in *. apply X; [constructor|constructor|exact N|intros h []|exact H]. Qed.

(* ------------------------------------------------------------------ decimals *)
Definition no_digit (s : str) : Prop := match s with x :: _ => is_digit x = false | [] => True end.
Lemma take_split s : forall acc n v m rest, take_digits s acc n = (v, m, rest) ->
  exists ds, all_below 10 ds /\ s = digits ds ++ rest /\ v = fold_left (fun a d => a * 10 + d) ds acc /\ m = (length ds + n)%nat /\ no_digit rest.
Proof.
  induction s as [|x s IH]; intros acc n v m rest H; cbn [take_digits] in H.
  - injection H as <- <- <-. exists []. split; [constructor|]. split; [reflexivity|]. split; [reflexivity|]. split; [reflexivity|exact I].
  - destruct (is_digit x) eqn:X.
    + destruct (digit_of x X) as (d & Hd & Ex & Ed). destruct (IH _ _ _ _ _ H) as (ds & Hb & -> & -> & -> & Hr). exists (d :: ds). split; [constructor; assumption|]. split; [cbn [digits map app]; rewrite <- Ex; reflexivity|].
      split; [cbn [fold_left]; rewrite Ed; reflexivity|]. split; [cbn [length]; lia|exact Hr].
    + injection H as <- <- <-. exists []. split; [constructor|]. split; [reflexivity|]. split; [reflexivity|]. split; [reflexivity|exact X].
Qed.
Lemma take_read ds rest acc n : all_below 10 ds -> no_digit rest -> take_digits (digits ds ++ rest) acc n = (fold_left (fun a d => a * 10 + d) ds acc, (length ds + n)%nat, rest).
Proof. intros H N. apply Defaults_proofs.take_digits_read; assumption. Qed.
Lemma exp_exact s e : parse_exp s = Some e <-> exponent s e.
Proof.
  split.
  - destruct s as [|x s]; cbn [parse_exp]; [intros H; injection H as <-; constructor|]. destruct (N.eqb x 69 || N.eqb x 101)%bool eqn:X; [|discriminate].
    assert (Hx : In x [69; 101]%N) by (apply orb_true_iff in X; destruct X as [X|X]; apply N.eqb_eq in X; subst; cbn; auto). clear X.
    assert (M : forall sg u, s = sign_text sg ++ u -> match take_digits u 0 0 with (v, S _, []) => Some (signed sg v) | _ => None end = Some e -> exponent (x :: s) e).
    { intros sg u -> H. destruct (take_digits u 0 0) as [[v m] rest] eqn:T. destruct (take_split _ _ _ _ _ _ T) as (ds & Hb & -> & -> & -> & _). rewrite Nat.add_0_r in H.
      destruct ds as [|d ds]; [discriminate|]. cbn [length] in H. destruct rest; [|discriminate]. injection H as <-. rewrite app_nil_r. apply Exp; [exact Hx|discriminate|exact Hb]. }
    destruct s as [|y s]; [discriminate|]. destruct (N.eqb_spec y 45) as [->|N1]; [|destruct (N.eqb_spec y 43) as [->|N2]].
    + intros H. apply (M Minus s eq_refl). destruct (take_digits s 0 0) as [[v [|m]] [|r rest]]; try discriminate. rewrite <- H. cbn [signed]. replace (-1 * v) with (- v) by lia. reflexivity.
    + intros H. apply (M Plus s eq_refl). destruct (take_digits s 0 0) as [[v [|m]] [|r rest]]; try discriminate. rewrite <- H. cbn [signed]. replace (1 * v) with v by lia. reflexivity.
    + intros H. apply (M NoSign (y :: s) eq_refl). destruct (take_digits (y :: s) 0 0) as [[v [|m]] [|r rest]]; try discriminate. rewrite <- H. cbn [signed]. replace (1 * v) with v by lia. reflexivity.
  - intros [|x sg ds Hx Hn Hb]; [reflexivity|]. cbn [parse_exp]. assert (X : (N.eqb x 69 || N.eqb x 101)%bool = true) by (destruct Hx as [<-|[<-|[]]]; reflexivity). rewrite X.
    pose proof (take_read ds [] 0 0 Hb I) as T. rewrite app_nil_r, Nat.add_0_r in T. destruct ds as [|d ds]; [contradiction|]. inversion Hb as [|? ? Hd ?]; subst. destruct (digit_head d Hd) as (_ & N1 & N2). apply N.eqb_neq in N1, N2.
    cbn [length] in T. unfold magnitude. destruct sg; cbn [sign_text app signed].
    + cbn [digits map] in *. rewrite N1, N2, T. match goal with |- Some ?a = Some ?b => replace a with b by lia end. reflexivity.
    + change (lit "+") with [43%N]. cbn [app]. change (N.eqb 43 45) with false. change (N.eqb 43 43) with true. cbv iota. rewrite T. match goal with |- Some ?a = Some ?b => replace a with b by lia end. reflexivity.
    + change (lit "-") with [45%N]. cbn [app]. change (N.eqb 45 45) with true. cbv iota. rewrite T. match goal with |- Some ?a = Some ?b => replace a with b by lia end. reflexivity.
Qed.
Lemma exp_no_digit s e : exponent s e -> no_digit s /\ forall x t, s = x :: t -> x <> 46%N.
Proof. intros [|x sg ds Hx]; [split; [exact I|discriminate]|]. split; [destruct Hx as [<-|[<-|[]]]; reflexivity|]. intros y t Hy. injection Hy as <- _. destruct Hx as [<-|[<-|[]]]; discriminate. Qed.
Lemma body_exact sgn s c' e' : Decimal_proofs.parse_body sgn s = Some (c', e') <-> exists m ex c n e, s = m ++ ex /\ mantissa m c n /\ exponent ex e /\ c' = sgn * c /\ e' = e - Z.of_nat n.
Proof.
  unfold Decimal_proofs.parse_body. split.
  - destruct (take_digits s 0 0) as [[iv ni] s2] eqn:T. destruct (take_split _ _ _ _ _ _ T) as (ds & Hb & -> & -> & -> & Nd). rewrite Nat.add_0_r.
    assert (W : match length ds, 0%nat with 0%nat, 0%nat => None | _, _ => match parse_exp s2 with Some e => Some (sgn * fold_left (fun a d => a * 10 + d) ds 0, e - Z.of_nat 0) | None => None end end = Some (c', e') ->
      exists m ex c n e, digits ds ++ s2 = m ++ ex /\ mantissa m c n /\ exponent ex e /\ c' = sgn * c /\ e' = e - Z.of_nat n).
    { intros H. destruct ds as [|d ds]; [discriminate|]. cbn [length] in H. destruct (parse_exp s2) as [e|] eqn:P; [|discriminate]. injection H as <- <-. apply exp_exact in P.
      eexists _, _, _, _, _. split; [reflexivity|]. split; [apply Whole; [discriminate|exact Hb]|]. split; [exact P|]. split; reflexivity. }
    destruct s2 as [|x s2]; [exact W|]. destruct (N.eqb_spec x 46) as [->|Nx]; [|exact W]. clear W.
    destruct (take_digits s2 _ 0) as [[cv nf] s3] eqn:T2. destruct (take_split _ _ _ _ _ _ T2) as (fs & Hf & -> & -> & -> & _). rewrite Nat.add_0_r. intros H.
    assert (P : exists e, parse_exp s3 = Some e /\ c' = sgn * magnitude 10 (ds ++ fs) /\ e' = e - Z.of_nat (length fs) /\ ds ++ fs <> []).
    { unfold magnitude. rewrite fold_left_app. destruct ds as [|d ds]; destruct fs as [|f fs]; cbn [length] in H; try discriminate; (destruct (parse_exp s3) as [e|]; [|discriminate]); injection H as <- <-; (exists e; split; [reflexivity|]; split; [reflexivity|]; split; [reflexivity|discriminate]). }
    destruct P as (e & P & -> & -> & Hne). apply exp_exact in P. exists (digits ds ++ lit "." ++ digits fs), s3, (magnitude 10 (ds ++ fs)), (length fs), e.
    split; [rewrite <- !app_assoc; reflexivity|]. split; [apply Pointed; [exact Hne|apply Forall_app; split; assumption]|]. split; [exact P|]. split; reflexivity.
  - intros (m & ex & c & n & e & -> & Hm & He & -> & ->). destruct (exp_no_digit _ _ He) as [Nd Np]. apply exp_exact in He. destruct Hm as [ds Hn Hb|ds fs Hn Hb].
    + rewrite (take_read ds ex 0 0 Hb Nd), Nat.add_0_r. destruct ds as [|d ds]; [contradiction|]. cbn [length].
      destruct ex as [|x t]; [|specialize (Np x t eq_refl); apply N.eqb_neq in Np; rewrite Np]; rewrite He; reflexivity.
    + apply Forall_app in Hb. destruct Hb as [Hb1 Hb2]. replace ((digits ds ++ lit "." ++ digits fs) ++ ex) with (digits ds ++ 46%N :: digits fs ++ ex) by (rewrite <- !app_assoc; reflexivity).
      rewrite (take_read ds (46%N :: digits fs ++ ex) 0 0 Hb1 eq_refl), Nat.add_0_r. change (N.eqb 46 46) with true. cbv iota. rewrite (take_read fs ex _ 0 Hb2 Nd), Nat.add_0_r, He. unfold magnitude. rewrite fold_left_app.
      destruct ds as [|d ds]; destruct fs as [|f fs]; [contradiction| | |]; reflexivity.
Qed.
Lemma mantissa_head m c n : mantissa m c n -> exists x t, m = x :: t /\ x <> 45%N /\ x <> 43%N.
Proof.
  intros [ds Hn Hb|ds fs Hn Hb].
  - destruct ds as [|d ds]; [contradiction|]. inversion Hb; subst. eexists _, _. split; [reflexivity|]. apply digit_head. assumption.
  - destruct ds as [|d ds]; [eexists _, _; split; [reflexivity|split; discriminate]|]. inversion Hb; subst. eexists _, _. split; [reflexivity|]. apply digit_head. assumption.
Qed.
Lemma not_spaces c : ~ spaces [c] <-> is_space c = false.
Proof. rewrite spaces_space. destruct (is_space c) eqn:E; split; intros H; try reflexivity; try discriminate; [destruct H; constructor; [exact E|constructor]|]. intros X. inversion X. congruence. Qed.
Lemma dec_body s : parse_dec s = let u := without_underscores (strip s) in let '(sgn, s1) := match u with x :: s' => if N.eqb x 45 then (-1, s') else if N.eqb x 43 then (1, s') else (1, u) | [] => (1, u) end in Decimal_proofs.parse_body sgn s1.
Proof. reflexivity. Qed.
Lemma dec_read s c e : ordinary s -> parse_dec s = Some (c, e) -> python_dec s c e.
Proof.
  intros Od H. rewrite dec_body in H. cbv zeta in H. destruct (strip_split s) as (a & b & Wa' & Wb' & E & S1 & S2). assert (W : white a /\ white b) by (rewrite E in Od; apply (ordinary_ends _ _ _ Od Wa' Wb')). destruct W as [Wa Wb]. rewrite E. set (t := strip s) in *. clearbody t.
  assert (M : forall sg u, without_underscores t = sign_text sg ++ u -> Decimal_proofs.parse_body (signed sg 1) u = Some (c, e) -> python_dec (a ++ t ++ b) c e).
  { intros sg u Eu Hp. apply body_exact in Hp. destruct Hp as (m & ex & c0 & n & e0 & -> & Hm & He & -> & ->). replace (signed sg 1 * c0) with (signed sg c0) by (destruct sg; cbn [signed]; lia).
    apply (PythonDec a b t sg m ex c0 n e0 Wa Wb); [|exact Eu|exact Hm|exact He]. intros x Hx. assert (Sx : is_space x = false) by (destruct Hx as [Hx|Hx]; [apply S1, Hx|apply S2, Hx]). intros Wx. apply white_is in Wx. apply not_spaces in Sx. exact (Sx Wx). }
  destruct (without_underscores t) as [|x u] eqn:U; [apply (M NoSign []); [reflexivity|exact H]|]. destruct (N.eqb_spec x 45) as [->|N1]; [apply (M Minus u); [reflexivity|exact H]|].
  destruct (N.eqb_spec x 43) as [->|N2]; [apply (M Plus u); [reflexivity|exact H]|]. apply (M NoSign (x :: u)); [reflexivity|exact H].
Qed.
Lemma dec_given s c e : ordinary s -> python_dec s c e -> parse_dec s = Some (c, e).
Proof.
  intros Od H. destruct H as [a b t sg m ex c0 n e0 Wa Wb Hw U Hm He]. apply white_is in Wa, Wb. apply Forall_app in Od. destruct Od as [_ Od]. apply Forall_app in Od. destruct Od as [Ot _].
  assert (St : forall x, In x t -> ~ white [x] -> is_space x = false).
  { intros x Hx Nx. apply not_spaces. intros Sx. apply Nx, ordinary_white; [|exact Sx]. constructor; [|constructor]. rewrite Forall_forall in Ot. apply Ot, Hx. }
  rewrite dec_body, strip_between; [|exact Wa|exact Wb| |].
  - cbv zeta. rewrite U. assert (B : Decimal_proofs.parse_body (signed sg 1) (m ++ ex) = Some (signed sg c0, e0 - Z.of_nat n)).
    { apply body_exact. exists m, ex, c0, n, e0. split; [reflexivity|]. split; [exact Hm|]. split; [exact He|]. split; [destruct sg; cbn [signed]; lia|reflexivity]. }
    destruct sg; cbn [sign_text app signed] in *; [|exact B|exact B]. destruct (mantissa_head _ _ _ Hm) as (x & u & -> & N1 & N2). apply N.eqb_neq in N1, N2. cbn [app] in *. rewrite N1, N2. exact B.
  - intros x Hx. apply St; [destruct t; [discriminate|]; injection Hx as ->; left; reflexivity|apply Hw; left; exact Hx].
  - intros x Hx. apply St; [apply in_rev; destruct (rev t); [discriminate|]; injection Hx as ->; left; reflexivity|apply Hw; right; exact Hx].
Qed.

(* ------------------------------------------------------------------ leaves *)
Theorem integer_leaf O k b s : class_map_int (kind_name k) = Some b ->
  (forall z, python_int s z -> kind_ok k z -> leaf_assign O (LOne b) (VStr s) = {| d_notified := true; d_out := Ok (VInt z) |}) /\
  (forall z, python_int s z -> ~ kind_ok k z -> leaf_assign O (LOne b) (VStr s) = {| d_notified := false; d_out := Raise ValueError |}) /\
  (ordinary s -> (forall z, ~ python_int s z) -> leaf_assign O (LOne b) (VStr s) = {| d_notified := true; d_out := Raise ValueError |}).
Proof.
  rewrite Ints_proofs.class_map_chain. intros E. injection E as <-. destruct s as [|x s0].
  { split; [|split]; [intros z H; apply int_given in H; discriminate|intros z H; apply int_given in H; discriminate|]. intros _ _. destruct k; vm_compute; reflexivity. }
  rewrite (Restricted_proofs.int_assign_exact O [Ints_proofs.kind_part k] []); [|apply Ints_proofs.kind_wf|reflexivity]. set (s := x :: s0). unfold Restricted_proofs.int_assign_spec. cbn [py_int].
  split; [|split].
  - intros z H K. apply int_given in H. rewrite H. apply Ints_proofs.kind_levels, Range_proofs.in_levelsb_iff in K. rewrite K. reflexivity.
  - intros z H K. apply int_given in H. rewrite H. destruct (Spec_Types.in_levelsb z [[Ints_proofs.kind_part k]]) eqn:L; [destruct K; apply Ints_proofs.kind_levels, Range_proofs.in_levelsb_iff, L|]. reflexivity.
  - intros Od N. destruct (parse_int s) as [z|] eqn:P; [apply int_read in P; [destruct (N z P)|exact Od]|]. reflexivity.
Qed.
Theorem decimal_leaf O f s : ordinary s ->
  (forall c e, python_dec s c e -> leaf_assign O (LOne (TDecPrec f)) (VStr s) = leaf_assign O (LOne (TDecPrec f)) (VDec c e)) /\
  ((forall c e, ~ python_dec s c e) -> leaf_assign O (LOne (TDecPrec f)) (VStr s) = {| d_notified := false; d_out := Raise InvalidOperation |}).
Proof.
  intros Od. unfold leaf_assign, dyn_ltype, dyn_leaf. cbn [ty_new ty_init]. unfold yang_decprec. cbn [py_decimal]. split.
  - intros c e H. apply (dec_given s c e Od) in H. rewrite H. reflexivity.
  - intros N. destruct (parse_dec s) as [[c e]|] eqn:P; [apply (dec_read s c e Od) in P; destruct (N c e P)|]. reflexivity.
Qed.
Lemma yang_ordinary d q n : dec_text d q n -> ordinary d.
Proof.
  assert (D : forall ds, all_below 10 ds -> ordinary (digits ds)) by (intros ds H; induction H as [|d0 ds Hd H IH]; cbn [digits map]; constructor; [lia|exact IH]).
  assert (Sg : forall sg, ordinary (sign_text sg)) by (intros sg; destruct sg; constructor; try constructor; vm_compute; intuition discriminate).
  intros [sg ds N H|sg ds fs N1 N2 H1 H2]; (apply Forall_app; split; [apply Sg|]); [apply D, H|]. apply Forall_app. split; [apply D, H1|]. apply Forall_app. split; [|apply D, H2]. constructor; [right; split; reflexivity|constructor].
Qed.
Lemma digits_quiet ds : all_below 10 ds -> Forall (fun c => is_space c = false /\ c <> 95%N) (digits ds).
Proof. intros H. induction H as [|d ds Hd H IH]; cbn [digits map]; constructor; [|exact IH]. split; [apply digit_head, Hd|lia]. Qed.
Lemma no_underscores s : Forall (fun c => is_space c = false /\ c <> 95%N) s -> without_underscores s = s.
Proof. induction 1 as [|c s [_ Hc] H IH]; [reflexivity|]. unfold without_underscores in *. cbn [filter]. apply N.eqb_neq in Hc. rewrite Hc. cbn [negb]. rewrite IH. reflexivity. Qed.
Theorem yang_dec_python d q n : dec_text d q n -> python_dec d q (- Z.of_nat n).
Proof.
  assert (M : forall sg m c n, mantissa m c n -> Forall (fun c => is_space c = false /\ c <> 95%N) m -> python_dec (sign_text sg ++ m) (signed sg c) (- Z.of_nat n)).
  { intros sg m c k Hm Hq. pose proof (PythonDec [] [] (sign_text sg ++ m) sg m [] c k 0) as X. cbn [app] in X. rewrite !app_nil_r in X. rewrite Z.sub_0_l in X.
    assert (A : Forall (fun c => is_space c = false /\ c <> 95%N) (sign_text sg ++ m)) by (apply Forall_app; split; [destruct sg; repeat constructor; discriminate|exact Hq]).
    apply X; [constructor|constructor| |apply no_underscores, A|exact Hm|constructor]. assert (B : Forall (fun c => is_space c = false) (sign_text sg ++ m)) by (eapply Forall_impl; [|exact A]; intros x [Hx _]; exact Hx).
    destruct (nospace_starts _ B) as [S1 S2]. intros x Hx Wx. assert (Sx : is_space x = false) by (destruct Hx as [Hx|Hx]; [apply S1, Hx|apply S2, Hx]). apply white_is in Wx. apply not_spaces in Sx. exact (Sx Wx). }
  intros [sg ds N H|sg ds fs N1 N2 H1 H2].
  - apply (M sg _ _ 0%nat); [apply Whole; assumption|apply digits_quiet, H].
  - apply (M sg _ _ (length fs)); [apply Pointed; [destruct ds; [contradiction|discriminate]|apply Forall_app; split; assumption]|]. apply Forall_app. split; [apply digits_quiet, H1|]. constructor; [split; [reflexivity|discriminate]|apply digits_quiet, H2].
Qed.
Theorem yang_decimal_leaf O f d q n : dec_text d q n -> Z.of_nat n <= f -> Z.abs q * 10 ^ (f - Z.of_nat n) <= 2 ^ 63 ->
  leaf_assign O (LOne (TDecPrec f)) (VStr d) = {| d_notified := true; d_out := Ok (VDec (q * 10 ^ (f - Z.of_nat n)) (- f)) |}.
Proof.
  intros T Hf Hq. rewrite (proj1 (decimal_leaf O f d (yang_ordinary d q n T)) _ _ (yang_dec_python d q n T)). unfold leaf_assign, dyn_ltype, dyn_leaf. cbn [ty_new ty_init]. unfold yang_decprec. cbn [py_decimal bind fst snd].
  pose proof (Z.pow_pos_nonneg 10 (f - Z.of_nat n) ltac:(lia) ltac:(lia)) as HP.
  destruct (Scalars_proofs.quantize_in_range q (- Z.of_nat n) f 0) as [q' Hq']; [lia|lia|replace (- Z.of_nat n + f + 0) with (f - Z.of_nat n) by lia; rewrite Z.abs_mul, (Z.abs_eq (10 ^ _)), Z.pow_0_r by lia; lia|].
  rewrite Hq'. rewrite Scalars_proofs.quantize_coef in Hq'. unfold Scalars_proofs.coef in Hq'. destruct (Z.leb_spec (- f) (- Z.of_nat n)); [|lia]. replace (- Z.of_nat n + f) with (f - Z.of_nat n) in Hq' by lia.
  destruct (28 <? _); [discriminate|]. injection Hq' as <-. reflexivity.
Qed.
