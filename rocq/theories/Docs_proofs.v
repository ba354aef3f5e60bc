(** Proofs about docstrings. *)
From Coq Require Import Lia.
From Verif Require Import PyStr PyStr_facts PyVal Restricted Defaults Docs Spec_Docs.

Definition quiet (s : str) : Prop := Forall (fun c => c <> 34%N) s.
Fixpoint triple (s : str) : bool := startswith q3 s || match s with [] => false | _ :: s' => triple s' end.
Lemma triple_has s : triple s = true <-> has_three s.
Proof.
  induction s as [|c s IH]; cbn [triple].
  - split; [discriminate|]. intros ([|? ?] & b & E); discriminate.
  - rewrite Bool.orb_true_iff, IH, startswith_iff. split.
    + intros [(t & E)|(a & b & E)]; [exists [], t; exact E|exists (c :: a), b; cbn; now rewrite E].
    + intros ([|x a] & b & E); [left; exists b; exact E|injection E as _ E; right; now exists a, b].
Qed.
Lemma starts_quiet d t : quiet t -> startswith q3 (d ++ t) = startswith q3 d.
Proof.
  intros Ht. assert (H0 : forall n, n <> O -> startswith (repeat 34%N n) t = false).
  { intros [|n] Hn; [congruence|]. destruct t as [|c t]; [reflexivity|]. inversion Ht; subst. cbn [repeat startswith]. destruct (N.eqb_spec 34 c); [congruence|reflexivity]. }
  destruct d as [|a [|b [|c d]]]; cbn [app q3 startswith].
  - exact (H0 3%nat ltac:(discriminate)).
  - destruct (N.eqb 34 a); [|reflexivity]. cbn [andb]. exact (H0 2%nat ltac:(discriminate)).
  - destruct (N.eqb 34 a); [|reflexivity]. destruct (N.eqb 34 b); [|reflexivity]. cbn [andb]. exact (H0 1%nat ltac:(discriminate)).
  - reflexivity.
Qed.
Lemma triple_end d t : quiet t -> triple (d ++ t) = triple d.
Proof.
  intros Ht. induction d as [|c d IH].
  - cbn [app]. induction Ht as [|c t Hc Ht IH]; [reflexivity|]. cbn [triple]. rewrite IH. cbn [q3 startswith]. destruct (N.eqb_spec 34 c); [congruence|reflexivity].
  - cbn [app triple]. rewrite IH. pose proof (starts_quiet (c :: d) t Ht) as H. cbn [app] in H. now rewrite H.
Qed.
Lemma triple_start p d : quiet p -> triple (p ++ d) = triple d.
Proof. induction 1 as [|c p Hc _ IH]; [reflexivity|]. cbn [app triple]. rewrite IH. cbn [q3 startswith]. destruct (N.eqb_spec 34 c); [congruence|reflexivity]. Qed.

(** The literal. *)
Lemma long_read code : forall n body fuel acc, length body <= n -> length body < fuel -> no_escapes body ->
  (forall s1 s2, body = s1 ++ s2 -> s2 <> [] -> startswith q3 (s2 ++ q3 ++ code) = false) ->
  long_string fuel (body ++ q3 ++ code) acc = Doc (rev acc ++ line_ends body) code.
Proof.
  induction n as [|n IH]; intros body fuel acc Hn Hf He H.
  { destruct body; [|cbn in Hn; lia]. destruct fuel; [cbn in Hf; lia|]. cbn. now rewrite app_nil_r. }
  destruct body as [|c body]. { destruct fuel; [cbn in Hf; lia|]. cbn. now rewrite app_nil_r. }
  destruct fuel as [|fuel]; [cbn in Hf; lia|]. inversion He as [|? ? [H92 H0] He']; subst. pose proof (H [] (c :: body) eq_refl ltac:(discriminate)) as Hs.
  assert (Hsub : forall s1 s2, body = s1 ++ s2 -> s2 <> [] -> startswith q3 (s2 ++ q3 ++ code) = false) by (intros s1 s2 E; apply (H (c :: s1)); now rewrite E).
  cbn [app] in Hs |- *. cbn [long_string]. rewrite Hs. destruct (N.eqb_spec c 0); [congruence|]. cbn [line_ends]. cbn [length] in Hn, Hf. destruct (N.eqb_spec c 13) as [->|Hc].
  - destruct body as [|e body].
    + cbn [app]. change (skip_lf (q3 ++ code)) with (q3 ++ code). rewrite (IH [] fuel) by (cbn; auto; lia). cbn [line_ends rev]. rewrite <- app_assoc. reflexivity.
    + cbn [app skip_lf]. inversion He' as [|? ? _ He2]; subst. cbn [length] in Hn, Hf. destruct (N.eqb_spec e 10) as [->|Hne].
      * rewrite IH; [cbn [rev]; now rewrite <- app_assoc|lia|lia|exact He2|]. intros s1 s2 E. apply (Hsub (10%N :: s1)). now rewrite E.
      * change (e :: body ++ q3 ++ code) with ((e :: body) ++ q3 ++ code). rewrite IH; [cbn [rev]; now rewrite <- app_assoc|cbn [length]; lia|cbn [length]; lia|exact He'|exact Hsub].
  - destruct (N.eqb_spec c 92); [congruence|]. cbn [negb]. rewrite IH; [cbn [rev]; now rewrite <- app_assoc|lia|lia|exact He'|exact Hsub].
Qed.
(** The place where the literal ends: no three quotes before, and no quote just before. *)
Lemma ends_there body code : triple body = false -> (forall a, body <> a ++ [34%N]) -> forall s1 s2, body = s1 ++ s2 -> s2 <> [] -> startswith q3 (s2 ++ q3 ++ code) = false.
Proof.
  intros Ht Hl s1 s2 -> Hs. destruct (startswith q3 (s2 ++ q3 ++ code)) eqn:E; [|reflexivity]. exfalso. destruct s2 as [|a [|b [|c s2]]]; [congruence| | |].
  - apply (Hl s1). cbn [app q3 startswith] in E. destruct (N.eqb_spec 34 a) as [<-|]; [reflexivity|discriminate].
  - apply (Hl (s1 ++ [a])). cbn [app q3 startswith] in E. destruct (N.eqb 34 a); [|discriminate]. destruct (N.eqb_spec 34 b) as [<-|]; [now rewrite <- app_assoc|discriminate].
  - assert (triple (s1 ++ a :: b :: c :: s2) = true); [|congruence]. apply triple_has. cbn [app q3 startswith] in E. destruct (N.eqb_spec 34 a) as [<-|]; [|discriminate]. destruct (N.eqb_spec 34 b) as [<-|]; [|discriminate]. destruct (N.eqb_spec 34 c) as [<-|]; [|discriminate]. now exists s1, s2.
Qed.
(** ... or the first three quotes in a longer text. *)
Lemma ends_first a code : triple (a ++ [34; 34]%N) = false -> forall s1 s2, a = s1 ++ s2 -> s2 <> [] -> startswith q3 (s2 ++ q3 ++ code) = false.
Proof.
  intros Ht. apply ends_there.
  - destruct (triple a) eqn:E; [|reflexivity]. apply triple_has in E. destruct E as (x & y & ->). rewrite <- Ht. symmetry. apply triple_has. exists x, (y ++ [34; 34]%N). now rewrite <- !app_assoc.
  - intros x ->. assert (triple ((x ++ [34%N]) ++ [34; 34]%N) = true); [|congruence]. apply triple_has. exists x, []. rewrite <- app_assoc. reflexivity.
Qed.
Lemma docstring_head h s acc : quiet h -> docstring (h ++ q3 ++ s) acc = (rev acc ++ h, long_string (S (length (q3 ++ s))) s []).
Proof.
  intros H. revert acc. induction H as [|c h Hc _ IH]; intros acc; [cbn; now rewrite app_nil_r|].
  cbn [app docstring]. assert (E : startswith q3 (c :: h ++ q3 ++ s) = false) by (cbn [q3 startswith]; destruct (N.eqb_spec 34 c); [congruence|reflexivity]). rewrite E, IH. cbn [rev]. now rewrite <- app_assoc.
Qed.
Lemma read_doc h body code : quiet h -> no_escapes body -> (forall s1 s2, body = s1 ++ s2 -> s2 <> [] -> startswith q3 (s2 ++ q3 ++ code) = false) ->
  docstring (h ++ q3 ++ body ++ q3 ++ code) [] = (h, Doc (line_ends body) code).
Proof.
  intros Hh He H. rewrite docstring_head by exact Hh. rewrite (long_read code (length body)); [reflexivity|lia| |exact He|exact H]. rewrite !app_length. cbn. lia.
Qed.
Definition plain_b (s : str) : bool := forallb (fun c => negb (N.eqb c 92) && negb (N.eqb c 0) && negb (N.eqb c 34))%bool s.
Lemma plain_word s : plain_b s = true -> word s.
Proof.
  intros H. apply Forall_forall. intros c Hc. pose proof (proj1 (forallb_forall _ _) H c Hc) as E. cbn beta in E. apply andb_prop in E. destruct E as [E E3]. apply andb_prop in E. destruct E as [E1 E2].
  destruct (N.eqb_spec c 92); [discriminate|]. destruct (N.eqb_spec c 0); [discriminate|]. destruct (N.eqb_spec c 34); [discriminate|]. auto.
Qed.
Lemma word_app a b : word a -> word b -> word (a ++ b).
Proof. intros. apply Forall_app. auto. Qed.
Lemma word_quiet s : word s -> quiet s.
Proof. intros H. eapply Forall_impl; [|exact H]. now intros c (_ & _ & Hc). Qed.
Lemma word_plain s : word s -> no_escapes s.
Proof. intros H. eapply Forall_impl; [|exact H]. now intros c (H1 & H2 & _). Qed.
(** A docstring: words, the description, white space. *)
Lemma doc_clean h p d t code : word h -> word p -> word t -> t <> [] -> no_escapes d -> ~ has_three d ->
  docstring (h ++ q3 ++ (p ++ d ++ t) ++ q3 ++ code) [] = (h, Doc (line_ends (p ++ d ++ t)) code).
Proof.
  intros Hh Hp Ht Hne Hd Hn. apply read_doc; [now apply word_quiet| |].
  - apply Forall_app. split; [now apply word_plain|]. apply Forall_app. split; [exact Hd|now apply word_plain].
  - apply ends_there.
    + rewrite triple_start by (now apply word_quiet). rewrite triple_end by (now apply word_quiet). destruct (triple d) eqn:E; [|reflexivity]. apply triple_has in E. contradiction.
    + intros a E. destruct (exists_last Hne) as (t' & c & ->). rewrite !app_assoc in E. apply app_inj_tail in E. destruct E as [_ ->]. apply Forall_app in Ht. destruct Ht as [_ Ht]. inversion Ht as [|? ? (_ & _ & H) _]; congruence.
Qed.
Lemma doc_quotes h p a b t code : word h -> word p -> no_escapes a -> ~ has_three (a ++ [34; 34]%N) ->
  docstring (h ++ q3 ++ (p ++ (a ++ three_quotes ++ b) ++ t) ++ q3 ++ code) [] = (h, Doc (line_ends (p ++ a)) (b ++ t ++ q3 ++ code)).
Proof.
  intros Hh Hp Ha Hn. replace (h ++ q3 ++ (p ++ (a ++ three_quotes ++ b) ++ t) ++ q3 ++ code) with (h ++ q3 ++ (p ++ a) ++ q3 ++ (b ++ t ++ q3 ++ code)) by (unfold three_quotes, q3; repeat rewrite <- app_assoc; reflexivity).
  apply read_doc; [now apply word_quiet|apply Forall_app; split; [now apply word_plain|exact Ha]|]. apply ends_first. rewrite <- app_assoc, triple_start by (now apply word_quiet).
  destruct (triple (a ++ [34; 34]%N)) eqn:E; [|reflexivity]. apply triple_has in E. contradiction.
Qed.
Ltac words := repeat (apply word_app; [first [assumption|apply plain_word; vm_compute; reflexivity]|]); first [assumption|apply plain_word; vm_compute; reflexivity].


Lemma getter_shape name path ty c s : getter_text name path ty (Some (c :: s)) =
  getter_head name ++ q3 ++ (getter_doc name path ty [] ++ (c :: s) ++ eol ++ lit "    ") ++ q3 ++ getter_body name.
Proof. unfold getter_text, getter_head, getter_body, getter_doc, descr_text, nl, eol. rewrite app_nil_r. repeat rewrite <- app_assoc. reflexivity. Qed.
Lemma setter_shape name path ty c s : setter_text name path ty (Some (c :: s)) =
  setter_head name ++ q3 ++ (setter_doc name path ty [] ++ (c :: s) ++ eol ++ lit "    ") ++ q3 ++ [].
Proof. unfold setter_text, setter_head, setter_doc, descr_text, nl, eol. rewrite !app_nil_r. repeat rewrite <- app_assoc. reflexivity. Qed.
Lemma class_shape module path d : class_text module path (Some d) =
  lit "  " ++ q3 ++ (class_doc module path [] ++ d ++ eol ++ lit "  ") ++ q3 ++ eol.
Proof. unfold class_text, class_doc, nl, eol. rewrite app_nil_r. repeat rewrite <- app_assoc. reflexivity. Qed.
Lemma getter_doc_app name path ty d : getter_doc name path ty d = getter_doc name path ty [] ++ d.
Proof. unfold getter_doc. rewrite app_nil_r. repeat rewrite <- app_assoc. reflexivity. Qed.
Lemma setter_doc_app name path ty d : setter_doc name path ty d = setter_doc name path ty [] ++ d.
Proof. unfold setter_doc. rewrite app_nil_r. repeat rewrite <- app_assoc. reflexivity. Qed.
Lemma class_doc_app module path d : class_doc module path d = class_doc module path [] ++ d.
Proof. unfold class_doc. rewrite app_nil_r. repeat rewrite <- app_assoc. reflexivity. Qed.
Lemma getter_word name path ty : word name -> word path -> word ty -> word (getter_doc name path ty []).
Proof. intros. unfold getter_doc, eol. words. Qed.
Lemma setter_word name path ty : word name -> word path -> word ty -> word (setter_doc name path ty []).
Proof. intros. unfold setter_doc, eol. words. Qed.
Lemma class_word module path : word module -> word path -> word (class_doc module path []).
Proof. intros. unfold class_doc, eol. words. Qed.
Lemma heads_word name : word name -> word (getter_head name) /\ word (setter_head name).
Proof. intros. split; unfold getter_head, setter_head, eol; words. Qed.
Lemma tail_word : word (eol ++ lit "    ") /\ word (eol ++ lit "  ") /\ word (lit "  ").
Proof. split; [|split]; apply plain_word; vm_compute; reflexivity. Qed.

Lemma C95_thm name path ty module d : word name -> word path -> word ty -> word module -> d <> [] -> no_escapes d -> ~ has_three d ->
  docstring (getter_text name path ty (Some d)) [] = (getter_head name, Doc (line_ends (getter_doc name path ty d ++ eol ++ lit "    ")) (getter_body name)) /\
  docstring (setter_text name path ty (Some d)) [] = (setter_head name, Doc (line_ends (setter_doc name path ty d ++ eol ++ lit "    ")) []) /\
  docstring (class_text module path (Some d)) [] = (lit "  ", Doc (line_ends (class_doc module path d ++ eol ++ lit "  ")) eol).
Proof.
  intros Hn Hp Ht Hm Hne He Hd. destruct d as [|c s]; [congruence|]. destruct (heads_word name Hn) as [Hg Hs]. destruct tail_word as (T4 & T2 & T0).
  rewrite getter_shape, setter_shape, class_shape, (getter_doc_app _ _ _ (c :: s)), (setter_doc_app _ _ _ (c :: s)), (class_doc_app _ _ (c :: s)). rewrite <- (app_assoc (getter_doc name path ty []) (c :: s)), <- (app_assoc (setter_doc name path ty []) (c :: s)), <- (app_assoc (class_doc module path []) (c :: s)). split; [|split]; apply doc_clean;
    first [assumption|now apply getter_word|now apply setter_word|now apply class_word|intros E; apply (f_equal (@length _)) in E; vm_compute in E; discriminate].
Qed.
Lemma C95_quotes_thm name path ty module a b : word name -> word path -> word ty -> word module -> no_escapes a -> ~ has_three (a ++ [34; 34]%N) ->
  let d := a ++ three_quotes ++ b in
  docstring (getter_text name path ty (Some d)) [] = (getter_head name, Doc (line_ends (getter_doc name path ty a)) (b ++ (eol ++ lit "    ") ++ three_quotes ++ getter_body name)) /\
  docstring (setter_text name path ty (Some d)) [] = (setter_head name, Doc (line_ends (setter_doc name path ty a)) (b ++ (eol ++ lit "    ") ++ three_quotes)) /\
  docstring (class_text module path (Some d)) [] = (lit "  ", Doc (line_ends (class_doc module path a)) (b ++ (eol ++ lit "  ") ++ three_quotes ++ eol)).
Proof.
  intros Hn Hp Ht Hm He Hd d. assert (Ed : exists c s, d = c :: s) by (unfold d; destruct a; [exists 34%N, ([34; 34]%N ++ b)|eexists; eexists]; reflexivity).
  destruct (heads_word name Hn) as [Hg Hs]. destruct tail_word as (T4 & T2 & T0). destruct Ed as (c & s & Ed). rewrite Ed, getter_shape, setter_shape, class_shape, <- Ed, (getter_doc_app _ _ _ a), (setter_doc_app _ _ _ a), (class_doc_app _ _ a). unfold d.
  split; [|split].
  - apply doc_quotes; first [assumption|now apply getter_word].
  - rewrite (doc_quotes (setter_head name) (setter_doc name path ty []) a b (eol ++ lit "    ") [] Hs (setter_word _ _ _ Hn Hp Ht) He Hd). now rewrite app_nil_r.
  - apply doc_quotes; first [assumption|now apply class_word].
Qed.

(** A backslash. *)
Lemma long_prefix rest : (forall s', rest <> 10%N :: s') -> forall n body fuel acc, length body <= n -> length body < fuel -> no_escapes body ->
  (forall s1 s2, body = s1 ++ s2 -> s2 <> [] -> startswith q3 (s2 ++ rest) = false) ->
  exists fuel' acc', long_string fuel (body ++ rest) acc = long_string (S fuel') rest acc'.
Proof.
  intros Hr. induction n as [|n IH]; intros body fuel acc Hn Hf He H.
  { destruct body; [|cbn in Hn; lia]. destruct fuel; [cbn in Hf; lia|]. now exists fuel, acc. }
  destruct body as [|c body]. { destruct fuel; [cbn in Hf; lia|]. now exists fuel, acc. }
  destruct fuel as [|fuel]; [cbn in Hf; lia|]. inversion He as [|? ? [H92 H0] He']; subst. pose proof (H [] (c :: body) eq_refl ltac:(discriminate)) as Hs.
  assert (Hsub : forall s1 s2, body = s1 ++ s2 -> s2 <> [] -> startswith q3 (s2 ++ rest) = false) by (intros s1 s2 E; apply (H (c :: s1)); now rewrite E).
  cbn [app] in Hs |- *. cbn [long_string]. rewrite Hs. destruct (N.eqb_spec c 0); [congruence|]. cbn [length] in Hn, Hf. destruct (N.eqb_spec c 13) as [->|Hc].
  - destruct body as [|e body].
    + cbn [app]. assert (E : skip_lf rest = rest). { destruct rest as [|x rest]; [reflexivity|]. cbn [skip_lf]. destruct (N.eqb_spec x 10) as [->|]; [now destruct (Hr rest)|reflexivity]. }
      rewrite E. apply (IH []); [cbn; lia|cbn; lia|constructor|exact Hsub].
    + cbn [app skip_lf]. inversion He' as [|? ? _ He2]; subst. cbn [length] in Hn, Hf. destruct (N.eqb_spec e 10) as [->|Hne].
      * apply IH; [lia|lia|exact He2|]. intros s1 s2 E. apply (Hsub (10%N :: s1)). now rewrite E.
      * apply (IH (e :: body)); [cbn [length]; lia|cbn [length]; lia|exact He'|exact Hsub].
  - destruct (N.eqb_spec c 92); [congruence|]. cbn [negb]. apply IH; [lia|lia|exact He'|exact Hsub].
Qed.
Lemma ends_slash body rest : triple body = false -> forall s1 s2, body = s1 ++ s2 -> s2 <> [] -> startswith q3 (s2 ++ 92%N :: rest) = false.
Proof.
  intros Ht s1 s2 -> Hs. destruct (startswith q3 (s2 ++ 92%N :: rest)) eqn:E; [|reflexivity]. exfalso. destruct s2 as [|a [|b [|c s2]]]; [congruence| | |].
  - cbn [app q3 startswith] in E. destruct (N.eqb 34 a); discriminate.
  - cbn [app q3 startswith] in E. destruct (N.eqb 34 a); [|discriminate]. destruct (N.eqb 34 b); discriminate.
  - assert (triple (s1 ++ a :: b :: c :: s2) = true); [|congruence]. apply triple_has. cbn [app q3 startswith] in E. destruct (N.eqb_spec 34 a) as [<-|]; [|discriminate]. destruct (N.eqb_spec 34 b) as [<-|]; [|discriminate]. destruct (N.eqb_spec 34 c) as [<-|]; [|discriminate]. now exists s1, s2.
Qed.
Lemma slash_bad u c fuel rest acc : In u [120; 117; 85]%N -> digit_in 16 c = None -> long_string (S fuel) (92%N :: u :: c :: rest) acc = DBad.
Proof. intros [<-|[<-|[<-|[]]]] Hc; cbn [long_string]; cbn -[some_digits long_string]; cbn [some_digits]; rewrite Hc; reflexivity. Qed.
Lemma doc_slash h p a u c b : word h -> word p -> no_escapes a -> ~ has_three a -> In u [120; 117; 85]%N -> digit_in 16 c = None ->
  docstring (h ++ q3 ++ p ++ a ++ [92%N; u; c] ++ b) [] = (h, DBad).
Proof.
  intros Hh Hp Ha Hn Hu Hc. rewrite docstring_head by (now apply word_quiet). cbn [rev app]. rewrite (app_assoc p a).
  destruct (long_prefix (92%N :: u :: c :: b) ltac:(discriminate) (length (p ++ a)) (p ++ a) (S (length (q3 ++ (p ++ a) ++ 92%N :: u :: c :: b))) []) as (f & acc & E).
  - lia.
  - rewrite !app_length. lia.
  - apply Forall_app. split; [now apply word_plain|exact Ha].
  - apply ends_slash. rewrite triple_start by (now apply word_quiet). destruct (triple a) eqn:E; [|reflexivity]. apply triple_has in E. contradiction.
  - rewrite E. now rewrite slash_bad.
Qed.
Lemma not_hex c : ~ In c hex_digits -> digit_in 16 c = None.
Proof.
  intros H. destruct (digit_in 16 c) as [z|] eqn:E; [|reflexivity]. exfalso. unfold digit_in, is_digit in E.
  assert (Hc : (48 <= c <= 57 \/ 97 <= c <= 102 \/ 65 <= c <= 70)%N).
  { destruct ((N.leb 48 c && N.leb c 57)%bool) eqn:E1. { apply andb_prop in E1. destruct E1 as [A B]. apply N.leb_le in A, B. lia. }
    destruct ((N.leb 97 c && N.leb c 122)%bool) eqn:E2. { apply andb_prop in E2. destruct E2 as [A B]. apply N.leb_le in A, B. destruct (Z.ltb_spec (Z.of_N c - 87) 16); [lia|discriminate]. }
    destruct ((N.leb 65 c && N.leb c 90)%bool) eqn:E3. { apply andb_prop in E3. destruct E3 as [A B]. apply N.leb_le in A, B. destruct (Z.ltb_spec (Z.of_N c - 55) 16); [lia|discriminate]. }
    discriminate E. }
  apply H. assert (Hk : exists k, (k < 23)%nat /\ c = N.of_nat (nth k [48;49;50;51;52;53;54;55;56;57;97;98;99;100;101;102;65;66;67;68;69;70]%nat 48%nat)).
  { destruct Hc as [Hc|[Hc|Hc]]; [exists (N.to_nat c - 48)%nat|exists (N.to_nat c - 97 + 10)%nat|exists (N.to_nat c - 65 + 16)%nat]; (split; [lia|]).
    - assert (K : (N.to_nat c - 48 < 10)%nat) by lia. assert (E2 : c = N.of_nat (N.to_nat c - 48 + 48)) by lia. rewrite E2 at 1. f_equal. remember (N.to_nat c - 48)%nat as k. do 10 (destruct k as [|k]; [reflexivity|]). lia.
    - assert (K : (N.to_nat c - 97 < 6)%nat) by lia. assert (E2 : c = N.of_nat (N.to_nat c - 97 + 97)) by lia. rewrite E2 at 1. f_equal. remember (N.to_nat c - 97)%nat as k. do 6 (destruct k as [|k]; [reflexivity|]). lia.
    - assert (K : (N.to_nat c - 65 < 6)%nat) by lia. assert (E2 : c = N.of_nat (N.to_nat c - 65 + 65)) by lia. rewrite E2 at 1. f_equal. remember (N.to_nat c - 65)%nat as k. do 6 (destruct k as [|k]; [reflexivity|]). lia. }
  destruct Hk as (k & Hk & ->). do 22 (destruct k as [|k]; [vm_compute; tauto|]). destruct k; [vm_compute; tauto|lia].
Qed.
Lemma C95_backslash_thm name path ty module a u c b : word name -> word path -> word ty -> word module -> no_escapes a -> ~ has_three a -> In u [120; 117; 85]%N -> ~ In c hex_digits ->
  let d := a ++ [92%N; u; c] ++ b in
  docstring (getter_text name path ty (Some d)) [] = (getter_head name, DBad) /\
  docstring (setter_text name path ty (Some d)) [] = (setter_head name, DBad) /\
  docstring (class_text module path (Some d)) [] = (lit "  ", DBad).
Proof.
  intros Hn Hp Ht Hm He Hd Hu Hx d. pose proof (not_hex c Hx) as Hc. assert (Ed : exists c s, d = c :: s) by (unfold d; destruct a; [exists 92%N, ([u; c] ++ b)|eexists; eexists]; reflexivity).
  destruct (heads_word name Hn) as [Hg Hs]. destruct tail_word as (T4 & T2 & T0). destruct Ed as (x & s & Ed). rewrite Ed, getter_shape, setter_shape, class_shape, <- Ed. unfold d.
  split; [|split].
  - rewrite <- (app_assoc (getter_doc name path ty [])). rewrite <- !(app_assoc a), <- !(app_assoc [92%N; u; c]). apply doc_slash; first [assumption|now apply getter_word].
  - rewrite <- (app_assoc (setter_doc name path ty [])). rewrite <- !(app_assoc a), <- !(app_assoc [92%N; u; c]). apply doc_slash; first [assumption|now apply setter_word].
  - rewrite <- (app_assoc (class_doc module path [])). rewrite <- !(app_assoc a), <- !(app_assoc [92%N; u; c]). apply doc_slash; first [assumption|now apply class_word].
Qed.
Lemma in_b (c : N) s : In c s -> existsb (N.eqb c) s = true.
Proof. intros H. apply existsb_exists. exists c. split; [exact H|apply N.eqb_refl]. Qed.
