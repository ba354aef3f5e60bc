(** Lemmas about brackets that are no predicates. *)
From Coq Require Import Lia.
From Verif Require Import PyStr PyStr_facts PyVal PathHelper Spec_Path Spec_Brackets PathText_proofs PathHelper_proofs PathSim_proofs PathSearch_proofs.

Lemma span_parts f s : s = fst (span f s) ++ snd (span f s) /\ forallb f (fst (span f s)) = true.
Proof.
  induction s as [|c s [E F]]; [now split|]. cbn [span]. destruct (f c) eqn:Ec; [|now split]. destruct (span f s) as [a r]. cbn [fst snd] in *. split; [now rewrite E|]. cbn [forallb]. now rewrite Ec, F.
Qed.
Lemma blanks_part s : exists b, s = b ++ drop_spaces s /\ blanks b.
Proof.
  exists (fst (span (N.eqb 32) s)). destruct (span_parts (N.eqb 32) s) as [E F]. split; [exact E|]. apply Forall_forall. intros c Hc. rewrite forallb_forall in F. specialize (F c Hc). apply N.eqb_eq in F. now symmetry.
Qed.
Lemma quote_part s : exists q, s = q ++ drop_quote s /\ In q [[]; lit "'"; lit """"].
Proof.
  destruct s as [|c s]; [exists []; split; [reflexivity|now left]|]. cbn [drop_quote]. destruct (N.eqb c 39) eqn:E1; cbn [orb].
  - apply N.eqb_eq in E1. subst c. exists (lit "'"). split; [reflexivity|right; now left].
  - destruct (N.eqb c 34) eqn:E2; cbn [orb]; [|exists []; split; [reflexivity|now left]]. apply N.eqb_eq in E2. subst c. exists (lit """"). split; [reflexivity|right; right; now left].
Qed.
Lemma sign_part s : exists g, s = g ++ drop_at_sign s /\ In g [[]; lit "@"].
Proof.
  destruct (N.eq_dec (match s with c :: _ => c | [] => 0%N end) 64) as [E|E].
  - destruct s as [|c s]; [discriminate|]. subst c. exists (lit "@"). split; [reflexivity|right; now left].
  - exists []. split; [|now left]. destruct s as [|c s]; [reflexivity|]. unfold drop_at_sign. destruct c as [|p]; [reflexivity|]. do 7 (destruct p as [p|p|]; try reflexivity). congruence.
Qed.
Lemma cmd_chars c : is_cmd c = true -> key_char c \/ c = 58%N.
Proof. unfold is_cmd, key_char. rewrite !orb_true_iff, !andb_true_iff, !N.leb_le, !N.eqb_eq. tauto. Qed.
Lemma arg_chars c : is_arg c = true -> value_char c.
Proof. unfold is_arg, value_char. rewrite Bool.negb_true_iff, !orb_false_iff, !N.eqb_neq. cbn. intuition congruence. Qed.
Lemma equals_part s : match s with 61%N :: s' => True | _ => False end -> exists s', s = lit "=" ++ s'.
Proof. destruct s as [|c s]; [intros []|]. destruct c as [|p]; [intros []|]. do 6 (destruct p as [p|p|]; try (intros []; fail)). intros _. now exists s. Qed.

Lemma tail_shape s c a r : arg_tail s = Some (c, a, r) ->
  (exists sign b1 b2 q rest m, s = sign ++ c ++ b1 ++ lit "=" ++ b2 ++ q ++ a ++ rest /\ rest = m ++ r /\ In sign [[]; lit "@"] /\ c <> [] /\ Forall (fun x => key_char x \/ x = 58%N) c /\ blanks b1 /\ blanks b2 /\
    In q [[]; lit "'"; lit """"] /\ a <> [] /\ Forall value_char a).
Proof.
  unfold arg_tail. destruct (sign_part s) as (g & Eg & Hg). set (s0 := drop_at_sign s) in *. destruct (span_parts is_cmd s0) as [E1 F1]. destruct (span is_cmd s0) as [cmd s1]. cbn [fst snd] in E1, F1.
  destruct (blanks_part s1) as (b1 & Eb1 & Hb1). set (s2 := drop_spaces s1) in *. intros H. destruct cmd as [|c0 cmd]; [discriminate|].
  assert (Heq : exists s3, s2 = 61%N :: s3 /\ (let (arg, s4) := span is_arg (drop_quote (drop_spaces s3)) in match arg with [] => None | _ => Some (c0 :: cmd, arg, drop_spaces (drop_quote s4)) end) = Some (c, a, r)).
  { clearbody s2. destruct s2 as [|x s3]; [discriminate|]. exists s3. destruct x as [|p]; [discriminate|]. do 6 (destruct p as [p|p|]; try discriminate H). split; [reflexivity|exact H]. }
  clear H. destruct Heq as (s3 & Es2 & H). destruct (blanks_part s3) as (b2 & Eb2 & Hb2). set (s4 := drop_spaces s3) in *. destruct (quote_part s4) as (q & Eq & Hq). set (s5 := drop_quote s4) in *.
  destruct (span_parts is_arg s5) as [E5 F5]. destruct (span is_arg s5) as [arg s6]. cbn [fst snd] in E5, F5. destruct arg as [|a0 arg]; [discriminate|]. injection H as <- <- <-.
  destruct (quote_part s6) as (q' & Eq' & _). destruct (blanks_part (drop_quote s6)) as (b3 & Eb3 & _).
  exists g, b1, b2, q, s6, (q' ++ b3). split; [|split; [|split; [exact Hg|split; [discriminate|split; [|split; [exact Hb1|split; [exact Hb2|split; [exact Hq|split; [discriminate|]]]]]]]]].
  - rewrite Eg, E1, Eb1, Es2, Eb2, Eq, E5. change (lit "=") with [61%N]. rewrite <- ?app_assoc. reflexivity.
  - rewrite <- app_assoc, <- Eb3. exact Eq'.
  - apply Forall_forall. intros x Hx. rewrite forallb_forall in F1. now apply cmd_chars, F1.
  - apply Forall_forall. intros x Hx. rewrite forallb_forall in F5. now apply arg_chars, F5.
Qed.
Lemma starts_skip (p s : str) : startswith p s = true -> s = p ++ skipn (length p) s.
Proof. revert s. induction p as [|c p IH]; intros [|d s] H; try discriminate; [reflexivity..|]. cbn [startswith] in H. apply andb_prop in H as [H1 H2]. apply N.eqb_eq in H1. subst d. cbn [length skipn app]. now rewrite <- (IH s H2). Qed.
Lemma match_shape s c a r : arg_match s = Some (c, a, r) -> begins_predicate s /\ exists m, s = m ++ r /\ m <> [] /\ (forall x, In x c \/ In x a -> In x s).
Proof.
  intros H. assert (D : exists word s', s = word ++ s' /\ In word [[]; lit "and "; lit "or "] /\ arg_tail s' = Some (c, a, r)).
  { unfold arg_match in H. destruct (startswith (lit "and ") s) eqn:E1; [|destruct (startswith (lit "or ") s) eqn:E2].
    - destruct (arg_tail (skipn 4 s)) as [x|] eqn:E; [injection H as ->; exists (lit "and "), (skipn 4 s); split; [now apply starts_skip in E1|split; [right; now left|assumption]]|]. exists [], s. split; [reflexivity|]. split; [now left|assumption].
    - destruct (arg_tail (skipn 3 s)) as [x|] eqn:E; [injection H as ->; exists (lit "or "), (skipn 3 s); split; [now apply starts_skip in E2|split; [right; right; now left|assumption]]|]. exists [], s. split; [reflexivity|]. split; [now left|assumption].
    - exists [], s. split; [reflexivity|]. split; [now left|assumption]. }
  destruct D as (word & s' & Es & Hw & Ht). destruct (tail_shape s' c a r Ht) as (sign & b1 & b2 & q & rest & m & E & Er & H1 & H2 & H3 & H4 & H5 & H6 & H7 & H8). split.
  - exists word, sign, c, b1, b2, q, a, rest. rewrite Es, E. now repeat (split; [first [reflexivity|assumption]|]).
  - exists (word ++ sign ++ c ++ b1 ++ lit "=" ++ b2 ++ q ++ a ++ m). split; [|split].
    + rewrite Es, E, Er. rewrite <- !app_assoc. reflexivity.
    + destruct c as [|x c]; [congruence|]. intros X. apply app_eq_nil in X as [_ X]. apply app_eq_nil in X as [_ X]. discriminate.
    + intros x Hx. rewrite Es, E. rewrite !in_app_iff. tauto.
Qed.
Lemma loop_plain : forall fuel s d, (length s <= fuel)%nat -> ~ In 124%N s ->
  ((exists d', arg_loop fuel s d = Ok d') /\ (s = [] \/ begins_predicate s)) \/ arg_loop fuel s d = Raise XPathError.
Proof.
  induction fuel as [|fuel IH]; intros s d Hl Hb.
  - destruct s as [|x s]; [left; split; [eexists; reflexivity|now left]|cbn [length] in Hl; lia].
  - destruct s as [|x s]; [left; split; [eexists; reflexivity|now left]|]. cbn [arg_loop]. destruct (arg_match (x :: s)) as [[[c a] r]|] eqn:E; [|now right].
    destruct (match_shape _ _ _ _ E) as [Hp (m & Em & Hm & Hin)].
    assert (Hc : ~ In 124%N c) by (intros Hi; apply Hb, Hin; now left). assert (Ha : ~ In 124%N a) by (intros Hi; apply Hb, Hin; now right).
    assert (Hr : ~ In 124%N r) by (intros Hi; apply Hb; rewrite Em; apply in_or_app; now right).
    rewrite bars_skip by (split; [now apply free_no|now apply no_end]). rewrite bars_skip by (split; [now apply free_no|now apply no_end]). rewrite bars_end by now apply free_no. cbn [app].
    assert (Hl' : (length r <= fuel)%nat). { apply (f_equal (@length N)) in Em. rewrite app_length in Em. destruct m; [congruence|]. cbn [length] in *. lia. }
    destruct (IH r (dict_set (local_name c) a d) Hl' Hr) as [[(d' & ->) _]| ->]; [left; split; [now exists d'|now right]|now right].
Qed.
Lemma loops_plain bodies : forall d, Forall body_ok bodies ->
  ((exists d', args_loop (bodies ++ [[]]) d = Ok d') /\ Forall begins_predicate bodies) \/ args_loop (bodies ++ [[]]) d = Raise XPathError.
Proof.
  induction bodies as [|b bodies IH]; intros d H; [left; split; [eexists; reflexivity|constructor]|]. inversion H as [|? ? [Hne Hc] Hs]; subst. cbn [app args_loop].
  assert (Hb : ~ In 124%N b) by (intros Hi; rewrite Forall_forall in Hc; apply (Hc _ Hi); cbn; tauto).
  destruct (loop_plain (length b) b d (le_n _) Hb) as [[(d' & ->) Hp]| ->]; cbn [bind]; [|now right]. destruct (IH d' Hs) as [[Hd Hf]|Hd]; [left; split; [assumption|]|now right]. constructor; [|assumption]. now destruct Hp.
Qed.
Lemma body_not b c : body_ok b -> In c (lit "[]|") -> ~ In c b.
Proof. intros [_ H] Hc Hi. rewrite Forall_forall in H. now apply (H c Hi). Qed.
Lemma strip_body b : body_ok b -> strip_open (lit "[" ++ b) = b.
Proof.
  intros Hb. pose proof (body_not b 91%N Hb ltac:(cbn; tauto)) as H91. destruct Hb as [Hne _]. unfold strip_open. change (lit "[" ++ b) with ([91%N] ++ b).
  assert (Hno : forall s, ~ In 91%N s -> span (N.eqb 91) s = ([], s)).
  { intros [|c s] Hs; [reflexivity|]. cbn [span]. assert (E : N.eqb 91 c = false) by (apply N.eqb_neq; intros <-; apply Hs; now left). now rewrite E. }
  rewrite (span_all (N.eqb 91) [91%N] b); [|reflexivity|destruct b as [|c b]; [reflexivity|]; apply Bool.negb_true_iff, N.eqb_neq; intros <-; apply H91; now left].
  cbn [snd]. rewrite Hno by (now rewrite <- in_rev). cbn [snd]. apply rev_involutive.
Qed.
Lemma bodies_split bodies : Forall body_ok bodies -> split_on 93 (concat (map (fun b => lit "[" ++ b ++ lit "]") bodies)) = map (fun b => lit "[" ++ b) bodies ++ [[]].
Proof.
  induction 1 as [|b bodies Hb H IH]; [reflexivity|]. cbn [map concat].
  replace ((lit "[" ++ b ++ lit "]") ++ concat (map (fun b0 => lit "[" ++ b0 ++ lit "]") bodies)) with ((lit "[" ++ b) ++ 93%N :: concat (map (fun b0 => lit "[" ++ b0 ++ lit "]") bodies)) by (rewrite <- !app_assoc; reflexivity).
  rewrite split_on_app; [now rewrite IH|]. intros Hi. apply in_app_or in Hi as [Hi|Hi]; [cbn in Hi; intuition discriminate|]. now apply (body_not b 93%N Hb ltac:(cbn; tauto)).
Qed.
Lemma bodies_match bodies : bodies <> [] -> Forall body_ok bodies -> exists r, concat (map (fun b => lit "[" ++ b ++ lit "]") bodies) = 91%N :: r /\ in_group false r = true.
Proof.
  intros Hne H. induction H as [|b bodies Hb H IH]; [congruence|]. exists (b ++ 93%N :: concat (map (fun b0 => lit "[" ++ b0 ++ lit "]") bodies)). split.
  - cbn [map concat]. change (lit "[") with [91%N]. cbn [app]. now rewrite <- !app_assoc.
  - rewrite in_group_text.
    + destruct bodies as [|b2 bodies]; [reflexivity|]. destruct IH as (r & -> & Hr); [discriminate|]. exact Hr.
    + intros c Hc ->. now apply (body_not b 93%N Hb ltac:(cbn; tauto)).
    + apply Hb.
Qed.
Lemma bodies_free bodies : Forall body_ok bodies -> ~ In 124%N (concat (map (fun b => lit "[" ++ b ++ lit "]") bodies)).
Proof.
  induction 1 as [|b bodies Hb H IH]; [intros []|]. cbn [map concat]. intros Hi. apply in_app_or in Hi as [Hi|Hi]; [|contradiction]. apply in_app_or in Hi as [Hi|Hi]; [cbn in Hi; intuition discriminate|].
  apply in_app_or in Hi as [Hi|Hi]; [now apply (body_not b 124%N Hb ltac:(cbn; tauto))|cbn in Hi; intuition discriminate].
Qed.
Theorem tag_malformed tag bodies : tag_ok tag -> Forall body_ok bodies -> (exists b, In b bodies /\ ~ begins_predicate b) -> tag_attrs (bracketed tag bodies) = Raise XPathError.
Proof.
  intros (Ht & H91 & Hb) H (b & Hin & Hno). assert (Hne : bodies <> []) by (intros ->; destruct Hin). destruct (bodies_match bodies Hne H) as (r & Er & Hr). unfold tag_attrs, attr_match, bracketed.
  rewrite (span_all _ tag (concat (map (fun b => lit "[" ++ b ++ lit "]") bodies))).
  - rewrite Er. destruct tag as [|c tag]; [congruence|]. rewrite Hr, <- Er. rewrite bars_skip by exact Hb. rewrite bars_end by (apply free_no; now apply bodies_free). cbn [app].
    rewrite bodies_split by assumption. rewrite map_app, map_map.
    assert (Ec : map (fun b => strip_open (lit "[" ++ b)) bodies = bodies). { rewrite <- (map_id bodies) at 2. apply map_ext_in. intros x Hx. apply strip_body. rewrite Forall_forall in H. now apply H. }
    rewrite Ec. change (map strip_open [[]]) with [@nil N]. destruct (loops_plain bodies [] H) as [[_ F]| ->]; [|reflexivity]. exfalso. rewrite Forall_forall in F. now apply Hno, F.
  - apply forallb_forall. intros c Hc. apply Bool.negb_true_iff, N.eqb_neq. intros ->. contradiction.
  - rewrite Er. reflexivity.
Qed.

Lemma malformed_part part : malformed part -> part_step part = Raise XPathError /\ part <> [] /\ startswith (lit ".") part = false.
Proof.
  intros (tag & bodies & -> & Ht & Hb & Hx). split; [|split].
  - unfold part_step. rewrite tag_malformed; [reflexivity| |assumption..]. split; [destruct Ht as (c & r & -> & _); discriminate|]. split; [apply xml_name_not; [assumption|cbn; tauto]|].
    assert (N124 : ~ In 124%N tag) by (apply xml_name_not; [assumption|cbn; tauto]). split; [now apply free_no|now apply no_end].
  - destruct Ht as (c & r & -> & _). discriminate.
  - destruct Ht as (c & r & -> & Hc & _). unfold bracketed. change (lit ".") with [46%N]. cbn [app startswith]. rewrite andb_true_r. apply N.eqb_neq. unfold letter in Hc. lia.
Qed.
Lemma refused_steps good pat bad more : Forall2 names good pat -> Forall name_ok pat -> malformed bad -> encode_path (good ++ bad :: more) = Raise XPathError /\ encode_path ([] :: good ++ bad :: more) = Raise XPathError /\ relative (good ++ bad :: more) = false.
Proof.
  intros Hg Hp Hm. destruct (malformed_part bad Hm) as (Eb & Hne & Hdot). destruct (named_steps good pat Hg Hp) as [Es Fs].
  assert (Ee : no_empty_end (good ++ bad :: more) = good ++ bad :: no_empty_end more).
  { clear Es Hg. induction Fs as [|p good H F IH]; cbn [app no_empty_end].
    - destruct bad; [congruence|reflexivity].
    - rewrite IH. destruct p; [congruence|]. now destruct good. }
  assert (Em : map_r part_step (good ++ bad :: no_empty_end more) = Raise XPathError).
  { clear Ee Hg Fs. revert Es. generalize (steps pat). induction good as [|p good IH]; intros ss Es; cbn [app map_r] in *; [now rewrite Eb|]. destruct (part_step p) as [s|]; [|discriminate]. cbn [bind] in *.
    destruct (map_r part_step good) as [r|]; [|discriminate]. now rewrite (IH r eq_refl). }
  assert (Hfirst : exists p rest, good ++ bad :: more = p :: rest /\ p <> [] /\ startswith (lit ".") p = false).
  { destruct Hg as [|p n good pat Hpn Hg]; [now exists bad, more|]. exists p, (good ++ bad :: more). split; [reflexivity|]. inversion Hp as [|? ? Hnn _]; subst. destruct (names_step p n Hnn Hpn) as (_ & H1 & H2). now split. }
  destruct Hfirst as (p & rest & E & Hpne & Hpd). unfold encode_path, relative. rewrite E in *. split; [|split; [|exact Hpd]].
  - destruct p; [congruence|]. now rewrite Ee.
  - now rewrite Ee.
Qed.
Theorem refused_calls {A} (oeq : A -> A -> bool) uid keys (cs : list (call (A := A))) caller good pat bad more o : fresh uid -> Forall (call_ok keys) cs ->
  Forall2 names good pat -> Forall name_ok pat -> malformed bad -> let st := fst (helper_run oeq uid cs helper_new) in let path := good ++ bad :: more in
  get caller path st = Raise XPathError /\ get caller ([] :: path) st = Raise XPathError /\ register oeq uid path o st = (st, Raise XPathError) /\ unregister path st = (st, Raise XPathError).
Proof.
  intros Hu Hcs Hg Hp Hm st path. destruct (run_sim oeq uid Hu keys cs _ _ Hcs (inv_new uid keys)) as [I _]. fold st in I. destruct (refused_steps good pat bad more Hg Hp Hm) as (E1 & E2 & E3). fold path in E1, E2, E3.
  assert (Hfirst : exists p rest, path = p :: rest /\ p <> [] /\ startswith (lit ".") p = false /\ startswith (lit "/") p = false).
  { assert (Hlet : forall p rest, path = p :: rest -> (exists c r, p = c :: r /\ letter c) -> exists p rest, path = p :: rest /\ p <> [] /\ startswith (lit ".") p = false /\ startswith (lit "/") p = false).
    { intros p rest E (c & r & -> & Hc). exists (c :: r), rest. split; [exact E|]. split; [discriminate|]. change (lit ".") with [46%N]. change (lit "/") with [47%N]. cbn [startswith]. rewrite !andb_true_r. unfold letter in Hc. split; apply N.eqb_neq; lia. }
    unfold path in *. destruct Hg as [|p n good pat Hpn Hg].
    - apply (Hlet bad more eq_refl). destruct Hm as (tag & bodies & -> & (c & r & -> & Hc & _) & _). exists c, (r ++ concat (map (fun b => lit "[" ++ b ++ lit "]") bodies)). now split.
    - apply (Hlet p (good ++ bad :: more) eq_refl). inversion Hp as [|? ? Hnn _]; subst. destruct Hnn as ((c & r & Ec & Hc & _) & _). destruct Hpn as (text & Hs & Ht).
      assert (Htext : exists r', text = c :: r'). { destruct Hs as [[_ ->]|(gs & _ & -> & _)]; [now exists r|]. unfold element_text. rewrite Ec. cbn [app]. eexists. reflexivity. }
      destruct Htext as (r' & Er'). destruct Ht as [->|(prefix & (c2 & r2 & -> & Hc2 & _) & ->)]; [exists c, r'; now split|]. exists c2, (r2 ++ lit ":" ++ text). now split. }
  destruct Hfirst as (p & rest & E & Hne & Hd & Hs). assert (Eg : get_etree [] (p :: rest) (h_root st) = Raise XPathError) by (rewrite <- E; unfold get_etree; now rewrite E3, E1). split; [|split; [|split]].
  - unfold get, get_etree. now rewrite E3, E1.
  - unfold get, get_etree. assert (Er : relative ([] :: path) = false) by reflexivity. now rewrite Er, E2.
  - unfold register. rewrite E. assert (Hdd : startswith (lit "..") p = false). { change (lit ".") with [46%N] in Hd. change (lit "..") with [46%N; 46%N]. destruct p as [|c p]; [congruence|]. cbn [startswith] in Hd |- *. rewrite andb_true_r in Hd. now rewrite Hd. }
    rewrite Hdd, (i_fake _ _ _ _ I), Eg. now destruct rest.
  - unfold unregister. rewrite E, Hd, Hs. cbn [orb]. now rewrite Eg.
Qed.
