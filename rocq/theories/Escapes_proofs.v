(** Proofs about docstrings with escape sequences. *)
From Coq Require Import Lia.
From Verif Require Import PyStr PyStr_facts PyVal Restricted Defaults Docs Spec_Docs Docs_proofs Spec_Escapes.
Import ListNotations.

(* ------------------------------------------------------------------ digits *)
Lemma hex_value c : In c hex_digits -> digit_in 16 c = Some (Z.of_N (digit_value c)).
Proof.
  intros H. assert (A : forallb (fun c => match digit_in 16 c with Some z => Z.eqb z (Z.of_N (digit_value c)) | None => false end) hex_digits = true) by (vm_compute; reflexivity).
  pose proof (proj1 (forallb_forall _ _) A c H) as E. cbn beta in E. destruct (digit_in 16 c) as [z|]; [|discriminate]. apply Z.eqb_eq in E. now rewrite E.
Qed.
Lemma oct_value c : In c octal_digits -> digit_in 8 c = Some (Z.of_N (digit_value c)).
Proof.
  intros H. assert (A : forallb (fun c => match digit_in 8 c with Some z => Z.eqb z (Z.of_N (digit_value c)) | None => false end) octal_digits = true) by (vm_compute; reflexivity).
  pose proof (proj1 (forallb_forall _ _) A c H) as E. cbn beta in E. destruct (digit_in 8 c) as [z|]; [|discriminate]. apply Z.eqb_eq in E. now rewrite E.
Qed.
Lemma not_oct c : ~ In c octal_digits -> digit_in 8 c = None.
Proof.
  intros H. destruct (digit_in 8 c) as [z|] eqn:E; [|reflexivity]. exfalso. apply H. unfold digit_in, is_digit in E.
  assert (Hc : (48 <= c < 56)%N).
  { destruct ((N.leb 48 c && N.leb c 57)%bool) eqn:E1. { apply andb_prop in E1. destruct E1 as [A B]. apply N.leb_le in A, B. destruct (Z.ltb_spec (Z.of_N c - 48) 8); [lia|discriminate]. }
    destruct ((N.leb 97 c && N.leb c 122)%bool) eqn:E2. { apply andb_prop in E2. destruct E2 as [A B]. apply N.leb_le in A, B. destruct (Z.ltb_spec (Z.of_N c - 87) 8); [lia|discriminate]. }
    destruct ((N.leb 65 c && N.leb c 90)%bool) eqn:E3. { apply andb_prop in E3. destruct E3 as [A B]. apply N.leb_le in A, B. destruct (Z.ltb_spec (Z.of_N c - 55) 8); [lia|discriminate]. }
    discriminate E. }
  assert (E2 : c = (c - 48 + 48)%N) by lia. assert (K : (N.to_nat (c - 48) < 8)%nat) by lia. rewrite E2. replace (c - 48)%N with (N.of_nat (N.to_nat (c - 48))) by lia.
  generalize dependent (N.to_nat (c - 48)). clear. intros k K. unfold octal_digits. do 8 (destruct k as [|k]; [vm_compute; tauto|]). lia.
Qed.
Definition number_from (base : N) (v : N) (ds : str) : N := fold_left (fun v c => v * base + digit_value c)%N ds v.
Lemma digits_read base rest : forall ds n acc k, length ds <= n -> Forall (fun c => digit_in (Z.of_N base) c = Some (Z.of_N (digit_value c))) ds ->
  (length ds < n -> forall c t, rest = c :: t -> digit_in (Z.of_N base) c = None) ->
  some_digits (Z.of_N base) n (ds ++ rest) (Z.of_N acc) k = (Z.of_N (number_from base acc ds), (k + length ds)%nat, rest).
Proof.
  induction ds as [|d ds IH]; intros n acc k Hn Hd Hr.
  - cbn [app length number_from fold_left]. rewrite Nat.add_0_r. destruct n as [|n]; [reflexivity|]. destruct rest as [|c t]; [reflexivity|]. cbn [some_digits]. rewrite (Hr ltac:(cbn; lia) c t eq_refl). reflexivity.
  - destruct n as [|n]; [cbn in Hn; lia|]. inversion Hd as [|? ? E Hd']; subst. cbn [app some_digits]. rewrite E. rewrite <- N2Z.inj_mul, <- N2Z.inj_add. cbn [length] in *. rewrite IH; [|lia|exact Hd'|intros; apply (Hr ltac:(lia) c t); assumption].
    cbn [number_from fold_left]. unfold number_from. do 2 f_equal. lia.
Qed.

(* ------------------------------------------------------------------ one piece *)
Lemma existsb_eqb_in (c : N) s : existsb (N.eqb c) s = true -> In c s.
Proof. intros H. apply existsb_exists in H. destruct H as (x & Hx & E). apply N.eqb_eq in E. now subst x. Qed.
Lemma escape_in e r : escape e = Some r -> In e [92; 39; 34; 97; 98; 102; 110; 114; 116; 118; 10]%N.
Proof.
  unfold escape. destruct (find _ _) as [[x y]|] eqn:E; [|discriminate]. intros _. apply find_some in E. destruct E as [H E]. cbn [fst] in E. apply N.eqb_eq in E. subst x.
  apply (in_map fst) in H. exact H.
Qed.
Lemma to_N_of n : Z.to_N (Z.of_N n) = n. Proof. apply N2Z.id. Qed.
Lemma step_piece f p rest acc : piece_ok p -> apart p rest -> startswith q3 (source p ++ rest) = false ->
  long_string (S f) (source p ++ rest) acc = long_string f rest (rev (shown p) ++ acc).
Proof.
  intros Hp Ha Hs. destruct p as [c| | |e r|s|ds|u ds|e]; cbn [source shown app rev] in *.
  - cbn [long_string]. rewrite Hs. destruct (N.eqb_spec c 0) as [->|_]; [exfalso; apply Hp; cbn; tauto|]. destruct (N.eqb_spec c 13) as [->|_]; [exfalso; apply Hp; cbn; tauto|].
    destruct (N.eqb_spec c 92) as [->|_]; [exfalso; apply Hp; cbn; tauto|]. reflexivity.
  - cbn [long_string]. rewrite Hs. cbn [N.eqb Pos.eqb]. assert (E : skip_lf rest = rest). { destruct rest as [|x rest]; [reflexivity|]. cbn [skip_lf]. destruct (N.eqb_spec x 10) as [->|]; [now destruct (Ha rest)|reflexivity]. } now rewrite E.
  - cbn [long_string]. rewrite Hs. reflexivity.
  - cbn [long_string]. rewrite Hs. cbn [N.eqb Pos.eqb negb]. cbn [piece_ok] in Hp. assert (E : escape e = Some [r]).
    { repeat (destruct Hp as [Hp|Hp]; [injection Hp as <- <-; reflexivity|]). destruct Hp. }
    rewrite E. reflexivity.
  - cbn [long_string]. rewrite Hs. cbn [N.eqb Pos.eqb negb]. destruct Hp as [<-|[<-|[<-|[]]]]; cbn [app]; try reflexivity.
    change (escape 13) with (@None (list N)). cbn [N.eqb Pos.eqb]. assert (E : skip_lf rest = rest). { destruct rest as [|x rest]; [reflexivity|]. cbn [skip_lf]. destruct (N.eqb_spec x 10) as [->|]; [now destruct (Ha eq_refl rest)|reflexivity]. } now rewrite E.
  - destruct Hp as (Hne & Hl & Hd). destruct ds as [|d ds]; [congruence|]. cbn [app] in *. cbn [long_string]. rewrite Hs. cbn [N.eqb Pos.eqb negb].
    inversion Hd as [|? ? Hd1 Hd2]; subst.
    assert (A : forallb (fun d => match escape d with None => negb (N.eqb d 0) && negb (N.eqb d 13) && negb (N.eqb d 78) | _ => false end)%bool octal_digits = true) by (vm_compute; reflexivity).
    pose proof (proj1 (forallb_forall _ _) A d Hd1) as E. cbn beta in E. destruct (escape d); [discriminate|]. apply andb_prop in E. destruct E as [E E3]. apply andb_prop in E. destruct E as [E1 E2].
    destruct (N.eqb d 0); [discriminate|]. destruct (N.eqb d 13); [discriminate|]. destruct (N.eqb d 78); [discriminate|]. rewrite (oct_value d Hd1).
    pose proof (digits_read 8 rest (d :: ds) 3 0 0 Hl) as R. cbn [app] in R. change (Z.of_N 8) with 8%Z in R. change (Z.of_N 0) with 0%Z in R. rewrite R.
    + rewrite to_N_of. reflexivity.
    + eapply Forall_impl; [|exact Hd]. intros c Hc. cbn beta. now apply oct_value.
    + intros L c t Et. apply not_oct. exact (Ha L c t Et).
  - destruct Hp as (Hu & Hd & Hv). cbn [long_string]. rewrite Hs. cbn [N.eqb Pos.eqb negb].
    assert (R : some_digits 16 (length ds) (ds ++ rest) 0 0 = (Z.of_N (number_of 16 ds), length ds, rest)).
    { pose proof (digits_read 16 rest ds (length ds) 0 0 (le_n _)) as R. change (Z.of_N 16) with 16%Z in R. change (Z.of_N 0) with 0%Z in R. rewrite R; [reflexivity| |intros; lia].
      eapply Forall_impl; [|exact Hd]. intros c Hc. cbn beta. now apply hex_value. }
    assert (V : (Z.of_N (number_of 16 ds) <=? 1114111)%Z = true) by (apply Z.leb_le; lia).
    destruct Hu as [Hu|[Hu|[Hu|[]]]]; injection Hu as <- Hu; cbn [escape find fst N.eqb Pos.eqb digit_in is_digit N.leb N.compare Pos.compare Pos.compare_cont andb Z.of_N Z.sub Z.add Z.opp Z.ltb Z.compare Z.pos_sub Pos.sub];
      rewrite <- Hu in R; rewrite R, V; cbn [Nat.eqb andb]; rewrite to_N_of; reflexivity.
  - cbn [piece_ok] in Hp. cbn [long_string]. rewrite Hs. cbn [N.eqb Pos.eqb negb].
    assert (Hin : forall x, In x ([92; 39; 34; 10; 13; 0]%N ++ lit "abfnrtvNxuU01234567") -> N.eqb e x = false) by (intros x Hx; destruct (N.eqb_spec e x) as [->|]; [contradiction|reflexivity]).
    destruct (escape e) as [r|] eqn:Ee. { exfalso. apply Hp. apply escape_in in Ee. apply in_b in Ee.
      assert (A : forallb (fun x => existsb (N.eqb x) ([92; 39; 34; 10; 13; 0]%N ++ lit "abfnrtvNxuU01234567")) [92; 39; 34; 97; 98; 102; 110; 114; 116; 118; 10]%N = true) by (vm_compute; reflexivity).
      apply existsb_exists in Ee. destruct Ee as (x & Hx & Ex). apply N.eqb_eq in Ex. subst x. pose proof (proj1 (forallb_forall _ _) A e Hx) as B. cbn beta in B. apply existsb_exists in B. destruct B as (y & Hy & By). apply N.eqb_eq in By. now subst y. }
    rewrite (Hin 0%N), (Hin 13%N), (Hin 78%N) by (apply existsb_eqb_in; vm_compute; reflexivity). rewrite not_oct; [|intros H; apply Hp; apply in_or_app; right; revert H; clear; intros H; apply in_b in H; apply existsb_exists in H; destruct H as (x & Hx & Ex); apply N.eqb_eq in Ex; subst x;
      assert (A : forallb (fun x => existsb (N.eqb x) (lit "abfnrtvNxuU01234567")) octal_digits = true) by (vm_compute; reflexivity); pose proof (proj1 (forallb_forall _ _) A e Hx) as B; cbn beta in B; apply existsb_exists in B; destruct B as (y & Hy & By); apply N.eqb_eq in By; now subst y].
    rewrite (Hin 120%N), (Hin 117%N), (Hin 85%N) by (apply existsb_eqb_in; vm_compute; reflexivity). reflexivity.
Qed.

(* ------------------------------------------------------------------ texts *)
Lemma sources_cons p ps : sources (p :: ps) = source p ++ sources ps. Proof. reflexivity. Qed.
Lemma shows_cons p ps : shows (p :: ps) = shown p ++ shows ps. Proof. reflexivity. Qed.
Lemma pieces_read rest : forall ps f acc, fits ps rest -> (forall a b, ps = a ++ b -> b <> [] -> startswith q3 (sources b ++ rest) = false) ->
  long_string (length ps + f) (sources ps ++ rest) acc = long_string f rest (rev (shows ps) ++ acc).
Proof.
  induction ps as [|p ps IH]; intros f acc Hf Hs; [reflexivity|]. destruct Hf as (Hp & Ha & Hf). cbn [length plus]. pose proof (Hs [] (p :: ps) eq_refl ltac:(discriminate)) as H0.
  rewrite sources_cons, <- app_assoc in *. rewrite (step_piece _ p _ _ Hp Ha H0). rewrite IH; [|exact Hf|intros a b E; apply (Hs (p :: a)); now rewrite E]. rewrite shows_cons, rev_app_distr, <- app_assoc. reflexivity.
Qed.
Lemma bare_read rest : forall w f acc, bare w -> long_string (length w + f) (w ++ rest) acc = long_string f rest (rev w ++ acc).
Proof.
  intros w f acc [Hw H13]. revert f acc. induction Hw as [|c w (H92 & H0 & H34) _ IH]; intros f acc; [reflexivity|]. cbn [length plus app long_string q3 startswith].
  destruct (N.eqb_spec 34 c); [congruence|]. cbn [andb]. destruct (N.eqb_spec c 0); [congruence|]. destruct (N.eqb_spec c 13) as [->|_]; [destruct H13; now left|]. destruct (N.eqb_spec c 92); [congruence|]. cbn [negb].
  rewrite IH by (intros H; apply H13; now right). cbn [rev]. now rewrite <- app_assoc.
Qed.
Lemma head_quote q rest b : startswith (34%N :: q) (sources b ++ rest) = true -> b = [] \/ (exists s, b = Cont s :: tl b) \/ exists b', b = Ch 34 :: b' /\ startswith q (sources b' ++ rest) = true.
Proof.
  destruct b as [|p b]; [now left|]. intros E. right. rewrite sources_cons, <- app_assoc in E. destruct p as [c| | |e r|s|ds|u ds|e]; cbn [source app startswith] in E; try discriminate E.
  destruct (N.eqb_spec 34 c) as [<-|]; [|discriminate]. right. exists b. split; [reflexivity|exact E].
Qed.
Lemma head_quote' q rest b : startswith (34%N :: q) (sources b ++ rest) = true -> b = [] \/ exists b', b = Ch 34 :: b' /\ startswith q (sources b' ++ rest) = true.
Proof. intros E. destruct (head_quote q rest b E) as [H|[(s & H)|H]]; [now left| |now right]. rewrite H in E. rewrite sources_cons in E. cbn [source app startswith] in E. discriminate E. Qed.
Lemma clear_word ps c t : c <> 34%N -> ~ three_in ps -> forall a b, ps = a ++ b -> b <> [] -> startswith q3 (sources b ++ c :: t) = false.
Proof.
  intros Hc H3 a b -> Hb. destruct (startswith q3 (sources b ++ c :: t)) eqn:E; [|reflexivity]. exfalso.
  assert (Hn : forall q, startswith (34%N :: q) (c :: t) = true -> False) by (intros q Eq; cbn [startswith] in Eq; destruct (N.eqb_spec 34 c); [congruence|discriminate]).
  destruct (head_quote' _ _ _ E) as [->|(b1 & -> & E1)]; [congruence|]. destruct (head_quote' _ _ _ E1) as [->|(b2 & -> & E2)]; [exact (Hn _ E1)|]. destruct (head_quote' _ _ _ E2) as [->|(b3 & -> & E3)]; [exact (Hn _ E2)|].
  apply H3. now exists a, b3.
Qed.
Lemma clear_quotes ps t : ~ three_in (ps ++ [Ch 34; Ch 34]) -> forall a b, ps = a ++ b -> b <> [] -> startswith q3 (sources b ++ q3 ++ t) = false.
Proof.
  intros H3 a b -> Hb. destruct (startswith q3 (sources b ++ q3 ++ t)) eqn:E; [|reflexivity]. exfalso. apply H3.
  destruct (head_quote' _ _ _ E) as [->|(b1 & -> & E1)]; [congruence|]. destruct (head_quote' _ _ _ E1) as [->|(b2 & -> & E2)]; [exists a, []; now rewrite <- app_assoc|].
  destruct (head_quote' _ _ _ E2) as [->|(b3 & -> & E3)]; [exists a, [Ch 34]; now rewrite <- app_assoc|]. exists a, (b3 ++ [Ch 34; Ch 34]). now rewrite <- app_assoc.
Qed.
(** Pieces fit before another text that begins alike. *)
Lemma apart_first p c t t' : apart p (c :: t) -> apart p (c :: t').
Proof. destruct p as [| | | |s|ds| |]; cbn [apart]; auto. - intros H x E. injection E as -> _. exact (H t eq_refl). - intros H Es x E. injection E as -> _. exact (H Es t eq_refl). - intros H L d x E. injection E as -> _. exact (H L d t eq_refl). Qed.
Lemma fits_first ps c t t' : fits ps (c :: t) -> fits ps (c :: t').
Proof.
  induction ps as [|p ps IH]; [auto|]. intros (Hp & Ha & Hf). split; [exact Hp|]. split; [|exact (IH Hf)].
  destruct (sources ps) as [|x s]; cbn [app] in *; eapply apart_first; exact Ha.
Qed.
Lemma pieces_short ps rest : fits ps rest -> length ps <= length (sources ps).
Proof.
  induction ps as [|p ps IH]; [reflexivity|]. intros (Hp & _ & Hf). rewrite sources_cons, app_length. specialize (IH Hf). cbn [length]. destruct p; cbn [source length]; lia.
Qed.

Lemma doc_pieces h p ps c t code : word h -> bare p -> bare (c :: t) -> fits ps [c] -> ~ three_in ps ->
  docstring (h ++ q3 ++ (p ++ sources ps ++ c :: t) ++ q3 ++ code) [] = (h, Doc (p ++ shows ps ++ c :: t) code).
Proof.
  intros Hh Hp Ht Hf H3. rewrite docstring_head by (now apply word_quiet). cbn [rev app]. f_equal.
  pose proof (pieces_short ps _ Hf) as Hl. rewrite <- !app_assoc.
  assert (L : exists f, S (length (q3 ++ p ++ sources ps ++ (c :: t) ++ q3 ++ code)) = (length p + (length ps + (length (c :: t) + S f)))%nat).
  { exists (length (q3 ++ p ++ sources ps ++ (c :: t) ++ q3 ++ code) - length p - length ps - length (c :: t)). rewrite !app_length. cbn [q3 length]. lia. }
  destruct L as (f & ->). rewrite bare_read by exact Hp. rewrite pieces_read; [|exact (fits_first _ _ _ _ Hf)|].
  - rewrite bare_read by exact Ht. cbn [q3 app long_string startswith]. cbn [N.eqb Pos.eqb andb skipn]. f_equal.
    rewrite !rev_app_distr, !rev_involutive. cbn [rev app]. rewrite <- app_assoc. reflexivity.
  - cbn [app]. apply clear_word; [|exact H3]. destruct Ht as [Ht _]. inversion Ht as [|? ? (_ & _ & K) _]. exact K.
Qed.
Lemma doc_pieces_quotes h p ps code : word h -> bare p -> fits ps three_quotes -> ~ three_in (ps ++ [Ch 34; Ch 34]) ->
  docstring (h ++ q3 ++ p ++ sources ps ++ three_quotes ++ code) [] = (h, Doc (p ++ shows ps) code).
Proof.
  intros Hh Hp Hf H3. rewrite docstring_head by (now apply word_quiet). cbn [rev app]. f_equal.
  pose proof (pieces_short ps _ Hf) as Hl.
  assert (L : exists f, S (length (q3 ++ p ++ sources ps ++ three_quotes ++ code)) = (length p + (length ps + S f))%nat).
  { exists (length (q3 ++ p ++ sources ps ++ three_quotes ++ code) - length p - length ps). rewrite !app_length. cbn [q3 length]. lia. }
  destruct L as (f & ->). rewrite bare_read by exact Hp. rewrite pieces_read.
  - cbn [three_quotes app long_string q3 startswith]. cbn [N.eqb Pos.eqb andb skipn]. f_equal. rewrite !rev_app_distr, !rev_involutive. reflexivity.
  - exact (fits_first _ _ _ _ Hf).
  - apply (clear_quotes ps code H3).
Qed.
Lemma number_some base n ds t : Forall (fun c => digit_in (Z.of_N base) c = Some (Z.of_N (digit_value c))) ds -> length ds <= n -> (length ds < n -> exists c t', t = c :: t' /\ digit_in (Z.of_N base) c = None) ->
  some_digits (Z.of_N base) n (ds ++ t) 0 0 = (Z.of_N (number_of base ds), length ds, t).
Proof.
  intros Hd Hl Hr. pose proof (digits_read base t ds n 0 0 Hl Hd) as R. change (Z.of_N 0) with 0%Z in R. rewrite R; [reflexivity|]. intros L c t' ->. destruct (Hr L) as (c' & t'' & E & K). injection E as <- _. exact K.
Qed.
Lemma broken_bad s rest f acc : broken s -> long_string (S f) (s ++ rest) acc = DBad.
Proof.
  intros [(t & ->)|[(t & ->)|(u & n & ds & t & Hu & Hd & -> & H)]]; [reflexivity|reflexivity|]. cbn [app]. rewrite <- app_assoc.
  assert (Hd' : Forall (fun c => digit_in (Z.of_N 16) c = Some (Z.of_N (digit_value c))) ds) by (eapply Forall_impl; [|exact Hd]; intros c Hc; cbn beta; now apply hex_value).
  assert (R : some_digits 16 n (ds ++ t ++ rest) 0 0 = (Z.of_N (number_of 16 ds), length ds, t ++ rest)).
  { apply (number_some 16 n ds (t ++ rest) Hd'); [destruct H as [[L _]|[L _]]; lia|]. intros L. destruct H as [[_ (c & t' & -> & Hc)]|[L' _]]; [|lia]. exists c, (t' ++ rest). split; [reflexivity|]. now apply not_hex. }
  assert (V : (Nat.eqb (length ds) n && (Z.of_N (number_of 16 ds) <=? 1114111)%Z)%bool = false).
  { destruct H as [[L _]|[_ L]]; [destruct (Nat.eqb_spec (length ds) n); [lia|reflexivity]|]. destruct (Z.leb_spec (Z.of_N (number_of 16 ds)) 1114111); [lia|]. now rewrite Bool.andb_false_r. }
  cbn [long_string q3 startswith]. cbn [N.eqb Pos.eqb negb andb].
  destruct Hu as [Hu|[Hu|[Hu|[]]]]; injection Hu as <- <-; cbn [escape find fst N.eqb Pos.eqb digit_in is_digit N.leb N.compare Pos.compare Pos.compare_cont andb Z.of_N Z.sub Z.add Z.opp Z.ltb Z.compare Z.pos_sub Pos.sub];
    rewrite R, V; reflexivity.
Qed.
Lemma doc_pieces_broken h p ps s code : word h -> bare p -> broken s -> fits ps s -> ~ three_in ps ->
  docstring (h ++ q3 ++ p ++ (sources ps ++ s) ++ code) [] = (h, DBad).
Proof.
  intros Hh Hp Hb Hf H3. rewrite docstring_head by (now apply word_quiet). cbn [rev app]. f_equal. pose proof (pieces_short ps _ Hf) as Hl. rewrite <- app_assoc.
  assert (L : exists f, S (length (q3 ++ p ++ sources ps ++ s ++ code)) = (length p + (length ps + S f))%nat).
  { exists (length (q3 ++ p ++ sources ps ++ s ++ code) - length p - length ps). rewrite !app_length. cbn [q3 length]. lia. }
  destruct L as (f & ->). rewrite bare_read by exact Hp.
  assert (Hs : exists c t, s = c :: t /\ c <> 34%N) by (destruct Hb as [(t & ->)|[(t & ->)|(u & n & ds & t & _ & _ & -> & _)]]; eexists; eexists; (split; [reflexivity|discriminate])).
  destruct Hs as (c & t & -> & Hc). rewrite pieces_read.
  - apply (broken_bad (c :: t)). exact Hb.
  - exact (fits_first _ _ _ _ Hf).
  - cbn [app]. now apply clear_word.
Qed.

Lemma bare_word s : bare s -> word s. Proof. now intros [H _]. Qed.
Lemma bare_app a b : bare a -> bare b -> bare (a ++ b).
Proof. intros [A1 A2] [B1 B2]. split; [now apply word_app|]. intros H. apply in_app_or in H. tauto. Qed.
Definition bare_b (s : str) : bool := (plain_b s && forallb (fun c => negb (N.eqb c 13)) s)%bool.
Lemma bare_plain s : bare_b s = true -> bare s.
Proof. intros H. apply andb_prop in H. destruct H as [A B]. split; [now apply plain_word|]. intros K. pose proof (proj1 (forallb_forall _ _) B _ K) as E. discriminate E. Qed.
Ltac bares := repeat (apply bare_app; [first [assumption|apply bare_plain; vm_compute; reflexivity]|]); first [assumption|apply bare_plain; vm_compute; reflexivity].
Lemma getter_bare name path ty : bare name -> bare path -> bare ty -> bare (getter_doc name path ty []).
Proof. intros. unfold getter_doc, eol. bares. Qed.
Lemma setter_bare name path ty : bare name -> bare path -> bare ty -> bare (setter_doc name path ty []).
Proof. intros. unfold setter_doc, eol. bares. Qed.
Lemma class_bare module path : bare module -> bare path -> bare (class_doc module path []).
Proof. intros. unfold class_doc, eol. bares. Qed.

Lemma C95_escapes_thm name path ty module d ps : bare name -> bare path -> bare ty -> bare module -> d <> [] -> d ++ eol = sources ps -> fits ps (lit " ") -> ~ three_in ps ->
  docstring (getter_text name path ty (Some d)) [] = (getter_head name, Doc (getter_doc name path ty (shows ps) ++ lit "    ") (getter_body name)) /\
  docstring (setter_text name path ty (Some d)) [] = (setter_head name, Doc (setter_doc name path ty (shows ps) ++ lit "    ") []) /\
  docstring (class_text module path (Some d)) [] = (lit "  ", Doc (class_doc module path (shows ps) ++ lit "  ") eol).
Proof.
  intros Hn Hp Ht Hm Hne Es Hf H3. assert (Ed : exists c s, d = c :: s) by (destruct d; [congruence|eauto]).
  destruct (heads_word name (bare_word _ Hn)) as [Hg Hs]. destruct tail_word as (T4 & T2 & T0). destruct Ed as (x & s & Ed).
  rewrite Ed, getter_shape, setter_shape, class_shape, <- Ed, (getter_doc_app _ _ _ (shows ps)), (setter_doc_app _ _ _ (shows ps)), (class_doc_app _ _ (shows ps)).
  rewrite !(app_assoc d eol), Es.
  rewrite <- (app_assoc (getter_doc name path ty []) (shows ps)), <- (app_assoc (setter_doc name path ty []) (shows ps)), <- (app_assoc (class_doc module path []) (shows ps)).
  assert (B4 : bare (32%N :: lit "   ")) by (apply bare_plain; vm_compute; reflexivity). assert (B2 : bare (32%N :: lit " ")) by (apply bare_plain; vm_compute; reflexivity).
  split; [|split].
  - exact (doc_pieces _ _ ps _ _ _ Hg (getter_bare _ _ _ Hn Hp Ht) B4 Hf H3).
  - exact (doc_pieces _ _ ps _ _ _ Hs (setter_bare _ _ _ Hn Hp Ht) B4 Hf H3).
  - exact (doc_pieces _ _ ps _ _ _ T0 (class_bare _ _ Hm Hp) B2 Hf H3).
Qed.
Lemma C95_broken_thm name path ty module d ps s : bare name -> bare path -> bare ty -> bare module -> d <> [] -> d ++ eol = sources ps ++ s -> broken s -> fits ps s -> ~ three_in ps ->
  docstring (getter_text name path ty (Some d)) [] = (getter_head name, DBad) /\
  docstring (setter_text name path ty (Some d)) [] = (setter_head name, DBad) /\
  docstring (class_text module path (Some d)) [] = (lit "  ", DBad).
Proof.
  intros Hn Hp Ht Hm Hne Es Hb Hf H3. assert (Ed : exists c s, d = c :: s) by (destruct d; [congruence|eauto]).
  destruct (heads_word name (bare_word _ Hn)) as [Hg Hs]. destruct tail_word as (T4 & T2 & T0). destruct Ed as (x & s' & Ed).
  rewrite Ed, getter_shape, setter_shape, class_shape, <- Ed. rewrite !(app_assoc d eol), Es.
  rewrite <- !(app_assoc (getter_doc name path ty [])), <- !(app_assoc (setter_doc name path ty [])), <- !(app_assoc (class_doc module path [])), <- !(app_assoc (sources ps ++ s)).
  split; [|split].
  - exact (doc_pieces_broken _ _ ps s _ Hg (getter_bare _ _ _ Hn Hp Ht) Hb Hf H3).
  - exact (doc_pieces_broken _ _ ps s _ Hs (setter_bare _ _ _ Hn Hp Ht) Hb Hf H3).
  - exact (doc_pieces_broken _ _ ps s _ T0 (class_bare _ _ Hm Hp) Hb Hf H3).
Qed.
Lemma C95_escapes_quotes_thm name path ty module ps b : bare name -> bare path -> bare ty -> bare module -> fits ps three_quotes -> ~ three_in (ps ++ [Ch 34; Ch 34]) ->
  let d := sources ps ++ three_quotes ++ b in
  docstring (getter_text name path ty (Some d)) [] = (getter_head name, Doc (getter_doc name path ty (shows ps)) (b ++ (eol ++ lit "    ") ++ three_quotes ++ getter_body name)) /\
  docstring (setter_text name path ty (Some d)) [] = (setter_head name, Doc (setter_doc name path ty (shows ps)) (b ++ (eol ++ lit "    ") ++ three_quotes)) /\
  docstring (class_text module path (Some d)) [] = (lit "  ", Doc (class_doc module path (shows ps)) (b ++ (eol ++ lit "  ") ++ three_quotes ++ eol)).
Proof.
  intros Hn Hp Ht Hm Hf H3 d. assert (Ed : exists c s, d = c :: s) by (unfold d; destruct (sources ps); [exists 34%N, ([34; 34]%N ++ b)|eexists; eexists]; reflexivity).
  destruct (heads_word name (bare_word _ Hn)) as [Hg Hs]. destruct tail_word as (T4 & T2 & T0). destruct Ed as (x & s & Ed).
  rewrite Ed, getter_shape, setter_shape, class_shape, <- Ed, (getter_doc_app _ _ _ (shows ps)), (setter_doc_app _ _ _ (shows ps)), (class_doc_app _ _ (shows ps)). unfold d.
  rewrite <- (app_assoc (getter_doc name path ty [])), <- (app_assoc (setter_doc name path ty [])), <- (app_assoc (class_doc module path [])).
  rewrite <- !(app_assoc (sources ps)), <- !(app_assoc three_quotes), <- !(app_assoc b).
  split; [|split].
  - exact (doc_pieces_quotes _ _ ps _ Hg (getter_bare _ _ _ Hn Hp Ht) Hf H3).
  - pose proof (doc_pieces_quotes _ _ ps (b ++ (eol ++ lit "    ") ++ q3 ++ []) Hs (setter_bare _ _ _ Hn Hp Ht) Hf H3) as K. rewrite K. rewrite app_nil_r. reflexivity.
  - exact (doc_pieces_quotes _ _ ps _ T0 (class_bare _ _ Hm Hp) Hf H3).
Qed.

(* ------------------------------------------------------------------ all texts *)
Definition stop (r : str) : Prop :=
  r = [] \/ (exists b, r = three_quotes ++ b) \/ broken r \/ (exists b, r = 92%N :: 78%N :: b) \/
  (r = [92%N] \/ exists u ds, r = 92%N :: u :: ds /\ u <> 10%N /\ Forall (fun c => In c hex_digits) ds).
Definition read_all (s : str) : Prop := exists ps r, s = sources ps ++ r /\ stop r /\ fits ps (r ++ lit " ") /\
  forall a b, ps = a ++ b -> b <> [] -> startswith q3 (sources b ++ r) = false.
Lemma read_ext p s : piece_ok p -> apart p (s ++ lit " ") -> startswith q3 (source p ++ s) = false -> read_all s -> read_all (source p ++ s).
Proof.
  intros Hp Ha Hs (ps & r & -> & Hr & Hf & Hc). exists (p :: ps), r. rewrite sources_cons, <- app_assoc. split; [reflexivity|]. split; [exact Hr|]. split; [cbn [fits]; rewrite app_assoc; auto|].
  intros [|x a] b E Hb; [|injection E as _ E; exact (Hc a b E Hb)]. cbn [app] in E. subst b. now rewrite sources_cons, <- app_assoc.
Qed.
Lemma take_digits (set : str) : forall n s, exists ds t, s = ds ++ t /\ length ds <= n /\ Forall (fun c => In c set) ds /\ (length ds < n -> t = [] \/ exists c t', t = c :: t' /\ ~ In c set).
Proof.
  induction n as [|n IH]; intros s. { exists [], s. split; [reflexivity|]. split; [reflexivity|]. split; [constructor|]. cbn. lia. }
  destruct s as [|c s]. { exists [], []. split; [reflexivity|]. split; [cbn; lia|]. split; [constructor|]. now left. }
  destruct (in_dec N.eq_dec c set) as [H|H].
  - destruct (IH s) as (ds & t & -> & L & F & R). exists (c :: ds), t. split; [reflexivity|]. split; [cbn; lia|]. split; [now constructor|]. cbn [length]. intros K. apply R. lia.
  - exists [], (c :: s). split; [reflexivity|]. split; [cbn; lia|]. split; [constructor|]. intros _. right. now exists c, s.
Qed.
Lemma no_lead c s : c <> 34%N -> startswith q3 (c :: s) = false.
Proof. intros H. cbn [q3 startswith]. destruct (N.eqb_spec 34 c); [congruence|reflexivity]. Qed.
Lemma stop_here r : stop r -> read_all r.
Proof. intros H. exists [], r. split; [reflexivity|]. split; [exact H|]. split; [exact I|]. intros a b E Hb. symmetry in E. apply app_eq_nil in E. now destruct E. Qed.
Lemma esc_or e : (exists r, In (e, r) [(92, 92); (39, 39); (34, 34); (97, 7); (98, 8); (102, 12); (110, 10); (114, 13); (116, 9); (118, 11)]%N) \/ ~ In e [92; 39; 34; 97; 98; 102; 110; 114; 116; 118]%N.
Proof.
  destruct (in_dec N.eq_dec e [92; 39; 34; 97; 98; 102; 110; 114; 116; 118]%N) as [H|H]; [left|now right].
  assert (K : In e (map fst [(92, 92); (39, 39); (34, 34); (97, 7); (98, 8); (102, 12); (110, 10); (114, 13); (116, 9); (118, 11)]%N)) by exact H. apply in_map_iff in K. destruct K as ([x r] & <- & K). now exists r.
Qed.
Lemma read_any : forall n s, length s <= n -> read_all s.
Proof.
  induction n as [|n IH]; intros s Hn. { destruct s; [|cbn in Hn; lia]. apply stop_here. now left. }
  destruct s as [|c s]; [apply stop_here; now left|]. cbn [length] in Hn.
  destruct (startswith q3 (c :: s)) eqn:E3. { apply startswith_iff in E3. destruct E3 as (t & E3). apply stop_here. right. left. exists t. exact E3. }
  destruct (N.eqb_spec c 0) as [->|H0]. { apply stop_here. right. right. left. left. now exists s. }
  destruct (N.eqb_spec c 13) as [->|H13].
  { destruct s as [|x s]; [apply (read_ext Cr []); [exact I|intros t; discriminate|reflexivity|apply IH; cbn; lia]|]. destruct (N.eqb_spec x 10) as [->|Hx].
    - apply (read_ext CrLf s); [exact I|exact I|now apply no_lead|apply IH; cbn [length] in Hn; lia].
    - apply (read_ext Cr (x :: s)); [exact I| |now apply no_lead|apply IH; lia]. intros t E. injection E as E _. congruence. }
  destruct (N.eqb_spec c 92) as [->|H92].
  2: { apply (read_ext (Ch c) s); [|exact I|exact E3|apply IH; lia]. intros [H|[H|[H|[]]]]; congruence. }
  destruct s as [|e s]. { apply stop_here. right. right. right. right. now left. }
  cbn [length] in Hn.
  destruct (N.eqb_spec e 0) as [->|E0]. { apply stop_here. right. right. left. right. left. now exists s. }
  destruct (N.eqb_spec e 78) as [->|E78]. { apply stop_here. right. right. right. left. now exists s. }
  destruct (N.eqb_spec e 10) as [->|E10]. { apply (read_ext (Cont [10%N]) s); [now left|discriminate|now apply no_lead|apply IH; lia]. }
  destruct (N.eqb_spec e 13) as [->|E13].
  { destruct s as [|x s]; [apply (read_ext (Cont [13%N]) []); [right; now left|intros _ t; discriminate|reflexivity|apply IH; cbn; lia]|]. destruct (N.eqb_spec x 10) as [->|Hx].
    - apply (read_ext (Cont [13%N; 10%N]) s); [right; right; now left|discriminate|now apply no_lead|apply IH; cbn [length] in Hn; lia].
    - apply (read_ext (Cont [13%N]) (x :: s)); [right; now left| |now apply no_lead|apply IH; lia]. intros _ t E. injection E as E _. congruence. }
  destruct (in_dec N.eq_dec e octal_digits) as [Ho|Ho].
  { destruct (take_digits octal_digits 2 s) as (ds & t & -> & L & F & R). apply (read_ext (Oct (e :: ds)) t).
    - split; [discriminate|]. split; [cbn; lia|]. now constructor.
    - cbn [apart length]. intros K x y E. destruct (R ltac:(lia)) as [->|(c' & t' & -> & Hc)]; [|injection E as <- _; exact Hc]. cbn [app] in E. apply (f_equal (@hd_error _)) in E. injection E as <-. intros K2. apply in_b in K2. vm_compute in K2. discriminate K2.
    - now apply no_lead.
    - apply IH. rewrite app_length in Hn. lia. }
  assert (Hx : forall u k, In (u, k) [(120%N, 2); (117%N, 4); (85%N, 8)] -> u <> 10%N -> read_all (92%N :: u :: s)).
  { intros u k Hu Hu10. destruct (take_digits hex_digits k s) as (ds & t & -> & L & F & R). destruct (Nat.eq_dec (length ds) k) as [Ek|Ek].
    - destruct (N.le_gt_cases (number_of 16 ds) 1114111) as [V|V].
      + apply (read_ext (Hex u ds) t); [|exact I|now apply no_lead|apply IH; rewrite app_length in Hn; lia]. split; [now rewrite Ek|]. now split.
      + apply stop_here. right. right. left. right. right. exists u, k, ds, t. split; [exact Hu|]. split; [exact F|]. split; [reflexivity|]. right. now split.
    - destruct (R ltac:(lia)) as [->|(c' & t' & -> & Hc)].
      + apply stop_here. right. right. right. right. right. exists u, ds. rewrite app_nil_r. auto.
      + apply stop_here. right. right. left. right. right. exists u, k, ds, (c' :: t'). split; [exact Hu|]. split; [exact F|]. split; [reflexivity|]. left. split; [lia|]. now exists c', t'. }
  destruct (N.eqb_spec e 120) as [->|X1]; [apply (Hx 120%N 2); [now left|discriminate]|]. destruct (N.eqb_spec e 117) as [->|X2]; [apply (Hx 117%N 4); [right; now left|discriminate]|]. destruct (N.eqb_spec e 85) as [->|X3]; [apply (Hx 85%N 8); [right; right; now left|discriminate]|].
  destruct (esc_or e) as [(r & Hr)|Hk].
  - apply (read_ext (Esc e r) s); [exact Hr|exact I|now apply no_lead|apply IH; lia].
  - apply (read_ext (Kept e) s); [|exact I|now apply no_lead|apply IH; lia]. cbn [piece_ok]. intros H.
    assert (A : forallb (fun x => existsb (N.eqb x) ([92; 39; 34; 97; 98; 102; 110; 114; 116; 118]%N ++ [0; 78; 10; 13; 120; 117; 85]%N ++ octal_digits)) ([92; 39; 34; 10; 13; 0]%N ++ lit "abfnrtvNxuU01234567") = true) by (vm_compute; reflexivity).
    pose proof (proj1 (forallb_forall _ _) A e H) as B. cbn beta in B. apply existsb_eqb_in in B. apply in_app_or in B. destruct B as [B|B]; [contradiction|]. apply in_app_or in B. destruct B as [B|B]; [|contradiction].
    repeat (destruct B as [B|B]; [congruence|]). destruct B.
Qed.
Lemma not_three ps r : (forall a b, ps = a ++ b -> b <> [] -> startswith q3 (sources b ++ r) = false) -> ~ three_in ps.
Proof. intros H (a & b & E). pose proof (H a _ E ltac:(discriminate)) as K. cbn in K. discriminate K. Qed.
Lemma sources_app a b : sources (a ++ b) = sources a ++ sources b.
Proof. unfold sources. now rewrite map_app, concat_app. Qed.
Lemma not_three_quotes ps t : (forall a b, ps = a ++ b -> b <> [] -> startswith q3 (sources b ++ three_quotes ++ t) = false) -> ~ three_in (ps ++ [Ch 34; Ch 34]).
Proof.
  intros H (a & b & E). assert (L : length a < length ps) by (apply (f_equal (@length _)) in E; rewrite !app_length in E; cbn [length] in E; lia).
  assert (Ea : firstn (length a) ps = a). { apply (f_equal (firstn (length a))) in E. rewrite !firstn_app, Nat.sub_diag in E. replace (length a - length ps) with 0 in E by lia. cbn [firstn] in E. rewrite !app_nil_r in E. now rewrite firstn_all in E. }
  rewrite <- (firstn_skipn (length a) ps), Ea, <- app_assoc in E. apply app_inv_head in E.
  pose proof (H a (skipn (length a) ps)) as K. rewrite <- Ea in K at 1. specialize (K (eq_sym (firstn_skipn _ _))). assert (Hb : skipn (length a) ps <> []) by (intros Z; apply (f_equal (@length _)) in Z; rewrite skipn_length in Z; cbn in Z; lia).
  specialize (K Hb). apply (f_equal sources) in E. rewrite !sources_app in E. replace (sources (skipn (length a) ps) ++ three_quotes ++ t) with ((sources (skipn (length a) ps) ++ sources [Ch 34; Ch 34]) ++ 34%N :: t) in K by (rewrite <- app_assoc; reflexivity).
  rewrite E in K. cbn in K. discriminate K.
Qed.
Lemma cover_thm d :
  (exists ps, d ++ eol = sources ps /\ fits ps (lit " ") /\ ~ three_in ps) \/
  (exists ps b, d = sources ps ++ three_quotes ++ b /\ fits ps three_quotes /\ ~ three_in (ps ++ [Ch 34; Ch 34])) \/
  (exists ps s, d ++ eol = sources ps ++ s /\ broken s /\ fits ps s /\ ~ three_in ps) \/
  (exists ps b, d = sources ps ++ lit "\N" ++ b /\ fits ps (lit "\N") /\ ~ three_in ps).
Proof.
  destruct (read_any (length (d ++ eol)) (d ++ eol) (le_n _)) as (ps & r & E & Hr & Hf & Hc). pose proof (not_three ps r Hc) as H3.
  assert (Hl : forall x y, r = x ++ y -> y <> [] -> exists y', y = y' ++ eol /\ d = sources ps ++ x ++ y').
  { intros x y -> Hy. destruct (exists_last Hy) as (y' & z & ->). unfold eol in *. rewrite !app_assoc in E. apply app_inj_tail in E. destruct E as [-> ->]. exists y'. split; [reflexivity|]. now rewrite !app_assoc. }
  destruct Hr as [->|[(b & ->)|[Hb|[(b & ->)|[->|(u & ds & -> & Hu & Hd)]]]]].
  - left. exists ps. rewrite app_nil_r in E. auto.
  - right. left. destruct b as [|x b]. { exfalso. destruct (Hl [] three_quotes eq_refl ltac:(discriminate)) as (y' & Ey & _). apply (f_equal (@rev _)) in Ey. unfold eol in Ey. rewrite rev_app_distr in Ey. discriminate Ey. }
    destruct (Hl three_quotes (x :: b) eq_refl ltac:(discriminate)) as (y' & Ey & ->). exists ps, y'. split; [reflexivity|]. split; [exact (fits_first _ _ _ _ Hf)|]. exact (not_three_quotes _ _ Hc).
  - right. right. left. exists ps, r. split; [exact E|]. split; [exact Hb|]. split; [|exact H3]. destruct Hb as [(t & ->)|[(t & ->)|(u & n & ds & t & _ & _ & -> & _)]]; exact (fits_first _ _ _ _ Hf).
  - right. right. right. destruct b as [|x b]. { exfalso. destruct (Hl [92%N] [78%N] eq_refl ltac:(discriminate)) as (y' & Ey & _). unfold eol in Ey. destruct y' as [|? [|? ?]]; discriminate Ey. }
    destruct (Hl [92; 78]%N (x :: b) eq_refl ltac:(discriminate)) as (y' & Ey & ->). exists ps, y'. split; [reflexivity|]. split; [exact (fits_first _ _ _ _ Hf)|exact H3].
  - exfalso. destruct (Hl [] [92%N] eq_refl ltac:(discriminate)) as (y' & Ey & _). unfold eol in Ey. destruct y' as [|? [|? ?]]; discriminate Ey.
  - exfalso. destruct ds as [|d0 ds].
    + destruct (Hl [92%N] [u] eq_refl ltac:(discriminate)) as (y' & Ey & _). unfold eol in Ey. destruct y' as [|? [|? ?]]; [injection Ey as ->; congruence|discriminate|discriminate].
    + destruct (Hl [92%N; u] (d0 :: ds) eq_refl ltac:(discriminate)) as (y' & Ey & _). rewrite Ey in Hd. apply Forall_app in Hd. destruct Hd as [_ Hd]. inversion Hd as [|? ? Hx _]; subst. apply in_b in Hx. vm_compute in Hx. discriminate Hx.
Qed.
