(** Defaults with escape sequences. *)
From Coq Require Import Lia.
From Verif Require Import PyStr PyStr_facts PyVal PathHelper Identity Restricted IntTypes Typedefs Spec_Typedefs Defaults Spec_Defaults Defaults_proofs Docs Spec_Docs Docs_proofs Spec_Escapes Escapes_proofs Spec_DefaultEscapes.
Import ListNotations.

Lemma quoted_piece f p rest acc : piece_ok p -> inline p -> apart p rest ->
  quoted (S f) (source p ++ rest) acc = quoted f rest (rev (shown p) ++ acc).
Proof.
  intros Hp Hi Ha. destruct p as [c| | |e r|s|ds|u ds|e]; cbn [source shown app rev inline] in *; try contradiction.
  - cbn [quoted]. cbn [piece_ok] in Hp. assert (E : N.eqb c 34 = false /\ N.eqb c 10 = false /\ N.eqb c 13 = false /\ N.eqb c 0 = false /\ N.eqb c 92 = false).
    { split; [|split; [|split; [|split]]]; apply N.eqb_neq; intros ->; first [apply Hp; cbn; tauto|apply Hi; cbn; tauto]. }
    destruct E as (-> & -> & -> & -> & ->). reflexivity.
  - cbn [quoted]. cbn [N.eqb Pos.eqb negb orb]. cbn [piece_ok] in Hp. assert (E : escape e = Some [r]).
    { repeat (destruct Hp as [Hp|Hp]; [injection Hp as <- <-; reflexivity|]). destruct Hp. }
    rewrite E. reflexivity.
  - subst s. reflexivity.
  - destruct Hp as (Hne & Hl & Hd). destruct ds as [|d ds]; [congruence|]. cbn [app] in *. cbn [quoted]. cbn [N.eqb Pos.eqb negb orb].
    inversion Hd as [|? ? Hd1 Hd2]; subst.
    assert (A : forallb (fun d => match escape d with None => negb (N.eqb d 0) && negb (N.eqb d 13) && negb (N.eqb d 78) | _ => false end)%bool octal_digits = true) by (vm_compute; reflexivity).
    pose proof (proj1 (forallb_forall _ _) A d Hd1) as E. cbn beta in E. destruct (escape d); [discriminate|]. apply andb_prop in E. destruct E as [E E3]. apply andb_prop in E. destruct E as [E1 E2].
    destruct (N.eqb d 0); [discriminate|]. destruct (N.eqb d 13); [discriminate|]. destruct (N.eqb d 78); [discriminate|]. cbn [orb]. rewrite (oct_value d Hd1).
    pose proof (digits_read 8 rest (d :: ds) 3 0 0 Hl) as R. cbn [app] in R. change (Z.of_N 8) with 8%Z in R. change (Z.of_N 0) with 0%Z in R. rewrite R.
    + rewrite to_N_of. reflexivity.
    + eapply Forall_impl; [|exact Hd]. intros c Hc. cbn beta. now apply oct_value.
    + intros L c t Et. apply not_oct. exact (Ha L c t Et).
  - destruct Hp as (Hu & Hd & Hv). cbn [quoted]. cbn [N.eqb Pos.eqb negb orb].
    assert (R : some_digits 16 (length ds) (ds ++ rest) 0 0 = (Z.of_N (number_of 16 ds), length ds, rest)).
    { pose proof (digits_read 16 rest ds (length ds) 0 0 (le_n _)) as R. change (Z.of_N 16) with 16%Z in R. change (Z.of_N 0) with 0%Z in R. rewrite R; [reflexivity| |intros; lia].
      eapply Forall_impl; [|exact Hd]. intros c Hc. cbn beta. now apply hex_value. }
    assert (V : (Z.of_N (number_of 16 ds) <=? 1114111)%Z = true) by (apply Z.leb_le; lia).
    destruct Hu as [Hu|[Hu|[Hu|[]]]]; injection Hu as <- Hu; cbn [escape find fst N.eqb Pos.eqb orb digit_in is_digit N.leb N.compare Pos.compare Pos.compare_cont andb Z.of_N Z.sub Z.add Z.opp Z.ltb Z.compare Z.pos_sub Pos.sub];
      rewrite <- Hu in R; rewrite R, V; cbn [Nat.eqb andb]; rewrite to_N_of; reflexivity.
  - cbn [piece_ok] in Hp. cbn [quoted]. cbn [N.eqb Pos.eqb negb orb].
    assert (Hin : forall x, In x ([92; 39; 34; 10; 13; 0]%N ++ lit "abfnrtvNxuU01234567") -> N.eqb e x = false) by (intros x Hx; destruct (N.eqb_spec e x) as [->|]; [contradiction|reflexivity]).
    destruct (escape e) as [r|] eqn:Ee. { exfalso. apply Hp. apply escape_in in Ee. apply in_b in Ee.
      assert (A : forallb (fun x => existsb (N.eqb x) ([92; 39; 34; 10; 13; 0]%N ++ lit "abfnrtvNxuU01234567")) [92; 39; 34; 97; 98; 102; 110; 114; 116; 118; 10]%N = true) by (vm_compute; reflexivity).
      apply existsb_exists in Ee. destruct Ee as (x & Hx & Ex). apply N.eqb_eq in Ex. subst x. pose proof (proj1 (forallb_forall _ _) A e Hx) as B. cbn beta in B. apply existsb_exists in B. destruct B as (y & Hy & By). apply N.eqb_eq in By. now subst y. }
    rewrite (Hin 0%N), (Hin 13%N), (Hin 78%N) by (apply existsb_eqb_in; vm_compute; reflexivity). cbn [orb]. rewrite not_oct; [|intros H; apply Hp; apply in_or_app; right; revert H; clear; intros H; apply in_b in H; apply existsb_exists in H; destruct H as (x & Hx & Ex); apply N.eqb_eq in Ex; subst x;
      assert (A : forallb (fun x => existsb (N.eqb x) (lit "abfnrtvNxuU01234567")) octal_digits = true) by (vm_compute; reflexivity); pose proof (proj1 (forallb_forall _ _) A e Hx) as B; cbn beta in B; apply existsb_exists in B; destruct B as (y & Hy & By); apply N.eqb_eq in By; now subst y].
    rewrite (Hin 120%N), (Hin 117%N), (Hin 85%N) by (apply existsb_eqb_in; vm_compute; reflexivity). reflexivity.
Qed.
Lemma quoted_pieces rest : forall ps f acc, fits ps rest -> Forall inline ps ->
  quoted (length ps + f) (sources ps ++ rest) acc = quoted f rest (rev (shows ps) ++ acc).
Proof.
  induction ps as [|p ps IH]; intros f acc Hf Hi; [reflexivity|]. destruct Hf as (Hp & Ha & Hf). inversion Hi; subst. cbn [length plus].
  rewrite sources_cons, <- app_assoc. rewrite (quoted_piece _ p _ _ Hp) by assumption. rewrite IH by assumption. rewrite shows_cons, rev_app_distr, <- app_assoc. reflexivity.
Qed.
Lemma text_fuel ps rest : fits ps rest -> exists f, S (length (sources ps ++ rest)) = length ps + S f.
Proof. intros H. pose proof (pieces_short ps rest H). exists (length (sources ps ++ rest) - length ps). rewrite app_length in *. lia. Qed.
Lemma refused_bad s f acc : refused s -> quoted (S f) s acc = SBad.
Proof.
  intros [(c & t & -> & Hc)|(u & n & ds & t & Hu & Hd & -> & H)]; [destruct Hc as [<-|[<-|[<-|[]]]]; reflexivity|].
  assert (Hd' : Forall (fun c => digit_in (Z.of_N 16) c = Some (Z.of_N (digit_value c))) ds) by (eapply Forall_impl; [|exact Hd]; intros c Hc; cbn beta; now apply hex_value).
  assert (R : some_digits 16 n (ds ++ t) 0 0 = (Z.of_N (number_of 16 ds), length ds, t)).
  { pose proof (digits_read 16 t ds n 0 0) as R. change (Z.of_N 16) with 16%Z in R. change (Z.of_N 0) with 0%Z in R. rewrite R; [reflexivity|destruct H as [[L _]|[L _]]; lia|exact Hd'|].
    intros L c t' E. destruct H as [[_ K]|[K _]]; [|lia]. apply not_hex. exact (K c t' E). }
  assert (V : (Nat.eqb (length ds) n && (Z.of_N (number_of 16 ds) <=? 1114111)%Z)%bool = false).
  { destruct H as [[L _]|[_ L]]; [destruct (Nat.eqb_spec (length ds) n); [lia|reflexivity]|]. destruct (Z.leb_spec (Z.of_N (number_of 16 ds)) 1114111); [lia|]. now rewrite Bool.andb_false_r. }
  cbn [quoted]. cbn [N.eqb Pos.eqb negb orb].
  destruct Hu as [Hu|[Hu|[Hu|[]]]]; injection Hu as <- <-; cbn [escape find fst N.eqb Pos.eqb orb digit_in is_digit N.leb N.compare Pos.compare Pos.compare_cont andb Z.of_N Z.sub Z.add Z.opp Z.ltb Z.compare Z.pos_sub Pos.sub];
    rewrite R, V; reflexivity.
Qed.
Lemma leaves_code s f acc : leaves s -> quoted (S f) s acc = SCode.
Proof. intros [(t & ->)|[->|(e & t & -> & He)]]; [reflexivity|reflexivity|]. destruct He as [<-|[<-|[<-|[]]]]; reflexivity. Qed.

Lemma string_source xp cm0 tds cm ty l own r d O fuel : default_of xp cm0 tds cm ty l own r d -> length l < fuel -> base_key (end_of ty l) = lit "string" ->
  (xp = true -> ty_arg (end_of ty l) <> lit "leafref") ->
  leaf_value O fuel cm r own = match quoted (S (length d)) d [] with SVal v => match ty_call O TStr v with Ok w => Made (Some w) | Raise e => Failed e end | SBad => Unreadable | SCode => Code end.
Proof.
  intros D F K N. assert (Nb : base_key (end_of ty l) <> lit "bits") by (rewrite K; vm_compute; discriminate).
  destruct (leaf_found _ _ _ _ _ _ _ _ _ O fuel D F Nb) as (b & L & E). unfold leaf_value. rewrite E, (not_reference _ _ _ _ _ _ _ _ _ D N).
  rewrite K in L. vm_compute in L. injection L as <-. reflexivity.
Qed.
Lemma escapes xp cm0 tds cm ty l own r d O fuel : default_of xp cm0 tds cm ty l own r d -> length l < fuel -> base_key (end_of ty l) = lit "string" ->
  (xp = true -> ty_arg (end_of ty l) <> lit "leafref") -> forall ps s, d = sources ps ++ s -> fits ps s -> Forall inline ps ->
  (s = [] -> leaf_value O fuel cm r own = Made (Some (VStr (shows ps)))) /\
  (refused s -> leaf_value O fuel cm r own = Unreadable) /\
  (leaves s -> leaf_value O fuel cm r own = Code).
Proof.
  intros D F K N ps s E Hf Hi. rewrite (string_source _ _ _ _ _ _ _ _ _ O fuel D F K N), E. destruct (text_fuel ps s Hf) as (f & ->). rewrite quoted_pieces by assumption.
  split; [|split].
  - intros ->. cbn [quoted]. rewrite app_nil_r, rev_involutive. reflexivity.
  - intros H. now rewrite refused_bad.
  - intros H. now rewrite leaves_code.
Qed.

Definition all_read (s : str) : Prop := exists ps r, s = sources ps ++ r /\ (r = [] \/ refused r \/ leaves r) /\ fits ps r /\ Forall inline ps.
Lemma all_ext p s : piece_ok p -> inline p -> apart p s -> all_read s -> all_read (source p ++ s).
Proof.
  intros Hp Hi Ha (ps & r & -> & Hr & Hf & Hc). exists (p :: ps), r. rewrite sources_cons, <- app_assoc. split; [reflexivity|]. split; [exact Hr|]. split; [cbn [fits]; auto|now constructor].
Qed.
Lemma all_here r : r = [] \/ refused r \/ leaves r -> all_read r.
Proof. intros H. exists [], r. split; [reflexivity|]. split; [exact H|]. split; [exact I|constructor]. Qed.
Lemma all_any : forall n s, length s <= n -> all_read s.
Proof.
  induction n as [|n IH]; intros s Hn. { destruct s; [|cbn in Hn; lia]. apply all_here. now left. }
  destruct s as [|c s]; [apply all_here; now left|]. cbn [length] in Hn.
  destruct (in_dec N.eq_dec c [10; 13; 0]%N) as [Hr|Hr]. { apply all_here. right. left. left. now exists c, s. }
  destruct (N.eqb_spec c 34) as [->|H34]. { apply all_here. right. right. left. now exists s. }
  destruct (N.eqb_spec c 92) as [->|H92].
  2: { apply (all_ext (Ch c) s); [|cbn [inline]|exact I|apply IH; lia]; cbn [In piece_ok] in *; intuition congruence. }
  destruct s as [|e s]. { apply all_here. right. right. right. now left. }
  cbn [length] in Hn.
  destruct (in_dec N.eq_dec e [13; 0; 78]%N) as [He|He]. { apply all_here. right. right. right. right. now exists e, s. }
  destruct (N.eqb_spec e 10) as [->|E10]. { apply (all_ext (Cont [10%N]) s); [now left|reflexivity|discriminate|apply IH; lia]. }
  destruct (in_dec N.eq_dec e octal_digits) as [Ho|Ho].
  { destruct (take_digits octal_digits 2 s) as (ds & t & -> & L & F & R). apply (all_ext (Oct (e :: ds)) t).
    - split; [discriminate|]. split; [cbn; lia|]. now constructor.
    - exact I.
    - cbn [apart length]. intros K x y E. destruct (R ltac:(lia)) as [->|(c' & t' & -> & Hc)]; [discriminate|injection E as <- _; exact Hc].
    - apply IH. rewrite app_length in Hn. lia. }
  assert (Hx : forall u k, In (u, k) [(120%N, 2); (117%N, 4); (85%N, 8)] -> all_read (92%N :: u :: s)).
  { intros u k Hu. destruct (take_digits hex_digits k s) as (ds & t & -> & L & F & R). destruct (Nat.eq_dec (length ds) k) as [Ek|Ek].
    - destruct (N.le_gt_cases (number_of 16 ds) 1114111) as [V|V].
      + apply (all_ext (Hex u ds) t); [|exact I|exact I|apply IH; rewrite app_length in Hn; lia]. split; [now rewrite Ek|]. now split.
      + apply all_here. right. left. right. exists u, k, ds, t. split; [exact Hu|]. split; [exact F|]. split; [reflexivity|]. right. now split.
    - apply all_here. right. left. right. exists u, k, ds, t. split; [exact Hu|]. split; [exact F|]. split; [reflexivity|]. left. split; [lia|].
      intros c' t' ->. destruct (R ltac:(lia)) as [E|(c2 & t2 & E & Hc)]; [discriminate|]. injection E as -> _. exact Hc. }
  destruct (N.eqb_spec e 120) as [->|X1]; [apply (Hx 120%N 2); now left|]. destruct (N.eqb_spec e 117) as [->|X2]; [apply (Hx 117%N 4); right; now left|]. destruct (N.eqb_spec e 85) as [->|X3]; [apply (Hx 85%N 8); right; right; now left|].
  destruct (esc_or e) as [(r & Hr')|Hk].
  - apply (all_ext (Esc e r) s); [exact Hr'|exact I|exact I|apply IH; lia].
  - apply (all_ext (Kept e) s); [|exact I|exact I|apply IH; lia]. cbn [piece_ok]. intros H.
    assert (A : forallb (fun x => existsb (N.eqb x) ([92; 39; 34; 97; 98; 102; 110; 114; 116; 118]%N ++ [0; 78; 10; 13; 120; 117; 85]%N ++ octal_digits)) ([92; 39; 34; 10; 13; 0]%N ++ lit "abfnrtvNxuU01234567") = true) by (vm_compute; reflexivity).
    pose proof (proj1 (forallb_forall _ _) A e H) as B. cbn beta in B. apply existsb_eqb_in in B. apply in_app_or in B. destruct B as [B|B]; [contradiction|]. apply in_app_or in B. destruct B as [B|B]; [|contradiction].
    cbn [In] in He, B. repeat (destruct B as [B|B]; [subst e; first [congruence|apply He; tauto]|]). destruct B.
Qed.
Lemma cover d : exists ps s, d = sources ps ++ s /\ (s = [] \/ refused s \/ leaves s) /\ fits ps s /\ Forall inline ps.
Proof. exact (all_any (length d) d (le_n _)). Qed.
