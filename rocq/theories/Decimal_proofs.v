(** Decimal(str(d)) = d. *)
From Coq Require Import Lia.
From Verif Require Import PyStr PyStr_facts PyVal.
Local Open Scope Z_scope.

Definition stops (s : str) : Prop := match s with [] => True | x :: _ => is_digit x = false end.
Lemma take_all D : Forall digitN D -> forall rest acc n, stops rest ->
  take_digits (D ++ rest) acc n = (dval D acc, (n + length D)%nat, rest).
Proof.
  induction 1 as [|x D Hx HD IH]; intros rest acc n Hr; cbn [app].
  - rewrite Nat.add_0_r. destruct rest as [|x rest]; [reflexivity|]. cbn in Hr |- *. now rewrite Hr.
  - cbn [take_digits dval length]. apply is_digit_iff in Hx. rewrite Hx, IH by assumption. f_equal. f_equal. lia.
Qed.
Lemma zeros_digits k : Forall digitN (zeros k).
Proof. induction k; cbn; constructor; auto. unfold digitN. lia. Qed.
Lemma zeros_val k : dval (zeros k) 0 = 0.
Proof. induction k; cbn [zeros dval]; auto. Qed.
Lemma zeros_length k : length (zeros k) = k.
Proof. induction k; cbn; auto. Qed.

Definition exs_of (ex : Z) : str := if ex =? 0 then [] else lit "E" ++ (if 0 <? ex then lit "+" else []) ++ print_Z ex.
Lemma exp_printed ex : parse_exp (exs_of ex) = Some ex.
Proof.
  unfold exs_of.
  destruct (Z.eqb_spec ex 0) as [->|Hn]; [reflexivity|]. change (lit "E") with [69%N]. cbn [app parse_exp N.eqb orb].
  change (N.eqb 69 69 || N.eqb 69 101)%bool with true. cbv iota.
  destruct ex as [|p|p]; [congruence| |]; cbn [Z.ltb Z.compare].
  - change (lit "+") with [43%N]. cbn [app print_Z]. change (N.eqb 43 45) with false. change (N.eqb 43 43) with true. cbv iota.
    destruct (print_N_spec (Npos p)) as (Hne & Hd & Hv & _).
    rewrite <- (app_nil_r (print_N (N.pos p))), take_all by (assumption || exact I).
    destruct (print_N (Npos p)) as [|x s] eqn:E; [congruence|]. cbn [length Nat.add]. rewrite Hv. reflexivity.
  - cbn [app print_Z]. rewrite N.eqb_refl.
    destruct (print_N_spec (Npos p)) as (Hne & Hd & Hv & _).
    rewrite <- (app_nil_r (print_N (N.pos p))), take_all by (assumption || exact I).
    destruct (print_N (Npos p)) as [|x s] eqn:E; [congruence|]. cbn [length Nat.add]. rewrite Hv. reflexivity.
Qed.
Lemma exp_stops (ex : Z) : stops (exs_of ex).
Proof. unfold exs_of. destruct (ex =? 0); [exact I|reflexivity]. Qed.

(** The part after the sign. *)
Definition parse_body (sgn : Z) (s1 : str) : option (Z * Z) :=
  let '(iv, ni, s2) := take_digits s1 0 0 in
  let '(cv, nf, s3) := match s2 with
                       | x :: s2' => if N.eqb x 46 then take_digits s2' iv 0 else (iv, 0%nat, s2)
                       | [] => (iv, 0%nat, s2) end in
  match ni, nf with
  | 0%nat, 0%nat => None
  | _, _ => match parse_exp s3 with
            | Some e => Some (sgn * cv, e - Z.of_nat nf)
            | None => None
            end
  end.
Lemma body_plain sgn D ex : D <> [] -> Forall digitN D ->
  parse_body sgn (D ++ (exs_of ex)) = Some (sgn * dval D 0, ex).
Proof.
  intros Hne Hd. unfold parse_body. rewrite take_all by (assumption || apply exp_stops). cbn [Nat.add].
  pose proof (exp_printed ex) as Hp. destruct D as [|x D]; [congruence|]. cbn [length].
  unfold exs_of in *. destruct (ex =? 0).
  - injection Hp as <-. reflexivity.
  - change (lit "E") with [69%N] in *. cbn [app] in *. change (N.eqb 69 46) with false. cbv iota. rewrite Hp. f_equal. f_equal. cbn [Z.of_nat]. lia.
Qed.
Lemma body_dot sgn D1 D2 ex : D1 <> [] -> Forall digitN D1 -> Forall digitN D2 ->
  parse_body sgn (D1 ++ [46%N] ++ D2 ++ (exs_of ex)) =
  Some (sgn * dval (D1 ++ D2) 0, ex - Z.of_nat (length D2)).
Proof.
  intros Hne H1 H2. unfold parse_body. rewrite take_all by (assumption || reflexivity). cbn [Nat.add app]. rewrite N.eqb_refl.
  rewrite take_all by (assumption || apply exp_stops). rewrite exp_printed. cbn [Nat.add].
  destruct D1 as [|x D1]; [congruence|]. cbn [length]. now rewrite dval_app.
Qed.

(** Characters that are kept. *)
Definition quiet (c : N) : bool := negb (is_space c) && negb (N.eqb c 95).
Lemma quiet_kept s : Forall (fun c => quiet c = true) s -> strip s = s /\ filter (fun c => negb (N.eqb c 95)) s = s.
Proof.
  intros H. split.
  - apply strip_nospace. eapply Forall_impl; [|exact H]. intros c Hc. unfold quiet in Hc. now destruct (is_space c).
  - induction H as [|c s Hc H IH]; [reflexivity|]. cbn [filter]. unfold quiet in Hc. apply andb_true_iff in Hc. destruct Hc as [_ ->]. now rewrite IH.
Qed.
Lemma digit_quiet c : digitN c -> quiet c = true.
Proof. intros H. unfold quiet. rewrite digit_not_space by exact H. unfold digitN in H. destruct (N.eqb_spec c 95); [lia|reflexivity]. Qed.
Lemma print_Z_quiet z : Forall (fun c => quiet c = true) (print_Z z).
Proof.
  destruct z as [|p|p]; cbn [print_Z]; [constructor; [reflexivity|constructor]| |constructor; [reflexivity|]]; destruct (print_N_spec (Npos p)) as (_ & H & _);
    (eapply Forall_impl; [|exact H]); intros; now apply digit_quiet.
Qed.

Lemma parse_body_sign s0 sgn s1 : Forall (fun c => quiet c = true) s0 ->
  s0 = (if sgn <? 0 then lit "-" else []) ++ s1 -> sgn = -1 \/ (sgn = 1 /\ exists x s, s1 = x :: s /\ digitN x) ->
  parse_dec s0 = parse_body sgn s1.
Proof.
  intros Hsp -> H. unfold parse_dec. destruct (quiet_kept _ Hsp) as [Hs1 Hs2]. rewrite Hs1, Hs2.
  destruct H as [->|[-> (x & s & -> & Hx)]]; cbn [Z.ltb Z.compare app].
  - change (lit "-") with [45%N]. cbn [app]. rewrite N.eqb_refl. reflexivity.
  - destruct (N.eqb_spec x 45); [unfold digitN in Hx; lia|]. destruct (N.eqb_spec x 43); [unfold digitN in Hx; lia|]. reflexivity.
Qed.

Lemma digits_nospace D : Forall digitN D -> Forall (fun c => quiet c = true) D.
Proof. intros H. eapply Forall_impl; [|exact H]. intros; now apply digit_quiet. Qed.
Lemma exs_nospace ex : Forall (fun c => quiet c = true) (exs_of ex).
Proof.
  unfold exs_of. destruct (ex =? 0); [constructor|]. apply Forall_app. split; [repeat constructor|]. apply Forall_app.
  split; [destruct (0 <? ex); repeat constructor|apply print_Z_quiet].
Qed.

Theorem parse_print_dec c e : parse_dec (print_dec c e) = Some (c, e).
Proof.
  unfold print_dec. set (D := print_N (Z.to_N (Z.abs c))).
  destruct (print_N_spec (Z.to_N (Z.abs c))) as (Hne & Hd & Hv & _). fold D in Hne, Hd, Hv.
  rewrite Z2N.id in Hv by lia.
  set (len := Z.of_nat (length D)). assert (Hlen : 0 < len) by (unfold len; destruct D; [congruence|cbn; lia]).
  set (dp := if ((e <=? 0) && (-6 <? e + len))%bool then e + len else 1). cbv zeta.
  set (sgn := if c <? 0 then -1 else 1).
  assert (Hsgn : sgn * Z.abs c = c) by (unfold sgn; destruct (Z.ltb_spec c 0); lia).
  match goal with |- parse_dec (?a ++ ?b ++ ?z) = _ =>
    replace a with (if sgn <? 0 then lit "-" else []) by (unfold sgn; destruct (c <? 0); reflexivity);
    change z with (exs_of (e + len - dp)) end.
  assert (Hdp : dp = e + len /\ e <= 0 \/ dp = 1 /\ (0 < e \/ e + len <= -6)).
  { unfold dp. destruct (Z.leb_spec e 0), (Z.ltb_spec (-6) (e + len)); cbn [andb]; lia. }
  assert (Hside : forall s1 x s, s1 = x :: s -> digitN x -> sgn = -1 \/ (sgn = 1 /\ exists x s, s1 = x :: s /\ digitN x)).
  { intros s1 x s -> Hx. unfold sgn. destruct (c <? 0); [now left|right]. eauto. }
  set (ex := e + len - dp). set (exs := exs_of ex).
  assert (Hnosp : forall s, Forall (fun c => quiet c = true) s -> Forall (fun c => quiet c = true) ((if sgn <? 0 then lit "-" else []) ++ s)).
  { intros s H. apply Forall_app. split; [destruct (sgn <? 0); repeat constructor|assumption]. }
  destruct (Z.leb_spec dp 0) as [H0|H0].
  - (* 0.000ddd *)
    assert (Hex : ex = 0 /\ dp = e + len) by (unfold ex; lia). destruct Hex as [Hex Hde].
    set (Z0 := zeros (Z.to_nat (- dp))).
    assert (Et : (lit "0." ++ Z0 ++ D) ++ exs = [48%N] ++ [46%N] ++ (Z0 ++ D) ++ exs) by (change (lit "0.") with [48%N; 46%N]; now rewrite <- !app_assoc).
    rewrite Et.
    assert (HD : Forall digitN (Z0 ++ D)) by (apply Forall_app; split; [apply zeros_digits|assumption]).
    rewrite (parse_body_sign _ sgn ([48%N] ++ [46%N] ++ (Z0 ++ D) ++ exs)); [|apply Hnosp|reflexivity|].
    + unfold exs. rewrite body_dot by (assumption || discriminate || (repeat constructor; unfold digitN; lia)).
      cbn [app]. rewrite app_length. unfold Z0. rewrite zeros_length.
      assert (Hval : dval (48%N :: zeros (Z.to_nat (- dp)) ++ D) 0 = Z.abs c).
      { change (48%N :: zeros (Z.to_nat (- dp)) ++ D) with (zeros (S (Z.to_nat (- dp))) ++ D). now rewrite dval_app, zeros_val, Hv. }
      rewrite Hval, Hsgn. f_equal. f_equal. unfold ex, len in *. lia.
    + apply Forall_app. split; [repeat constructor|]. apply Forall_app. split; [repeat constructor|].
      apply Forall_app. split; [now apply digits_nospace|apply exs_nospace].
    + eapply Hside; [reflexivity|]. unfold digitN. lia.
  - destruct (Z.leb_spec len dp) as [H1|H1].
    + assert (Hz : dp - len = 0 /\ ex = e) by (unfold ex; lia). destruct Hz as [Hz Hex]. rewrite Hz. cbn [Z.to_nat zeros]. rewrite app_nil_r.
      rewrite (parse_body_sign _ sgn (D ++ exs)); [|apply Hnosp|reflexivity|].
      * unfold exs. rewrite body_plain by assumption. now rewrite Hv, Hsgn, Hex.
      * apply Forall_app. split; [now apply digits_nospace|apply exs_nospace].
      * destruct D as [|x D']; [congruence|]. eapply Hside; [reflexivity|]. now inversion Hd.
    + set (k := Z.to_nat dp).
      assert (Et : (firstn k D ++ lit "." ++ skipn k D) ++ exs = firstn k D ++ [46%N] ++ skipn k D ++ exs) by now rewrite <- !app_assoc.
      rewrite Et.
      assert (Hfs : Forall digitN (firstn k D) /\ Forall digitN (skipn k D)) by (apply Forall_app; now rewrite firstn_skipn).
      destruct Hfs as [Hf Hsk].
      assert (Hfne : firstn k D <> []).
      { intros E. apply (f_equal (@length _)) in E. rewrite firstn_length in E. cbn [length] in E. clear -E H0 H1. clearbody dp. subst k len. lia. }
      rewrite (parse_body_sign _ sgn (firstn k D ++ [46%N] ++ skipn k D ++ exs)); [|apply Hnosp|reflexivity|].
      * unfold exs. rewrite body_dot by assumption. rewrite firstn_skipn, Hv, Hsgn, skipn_length.
        assert (Hk : Z.of_nat (length D - k) = len - dp). { clearbody dp. subst k len. lia. }
        rewrite Hk. f_equal. f_equal. unfold ex. lia.
      * apply Forall_app. split; [now apply digits_nospace|]. apply Forall_app. split; [repeat constructor|].
        apply Forall_app. split; [now apply digits_nospace|apply exs_nospace].
      * destruct (firstn k D) as [|x l] eqn:E; [congruence|]. eapply Hside; [reflexivity|]. now inversion Hf.
Qed.
