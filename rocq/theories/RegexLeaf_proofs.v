(** Patterns of string leaves. *)
From Verif Require Import PyStr PyStr_facts PyVal Restricted Spec_Types StrTypes Restricted_proofs Regex Spec_Regex Regex_proofs.
From Coq Require Import Lia ZifyBool ZifyN ZifyNat.

(* ------------------------------------------------------------------ the anchored text *)
Lemma show_head r : pattern_ok r -> caret_free r -> startswith [94%N] (esc (show r)) = false.
Proof.
  assert (A : forall a, atom_ok a -> caret_free_atom a -> exists c w, show_atom a = c :: w /\ c <> 94%N).
  { intros a Ha Hc. destruct a as [x| |k|neg n|neg d1 l d2|r0]; cbn [show_atom].
    - destruct x as [c|c]; [exists c, []; split; [reflexivity|cbn in Hc; congruence]|exists 92%N, [c]; split; [reflexivity|discriminate]].
    - exists 46%N, []. split; [reflexivity|discriminate].
    - exists 92%N, [k]. split; [reflexivity|discriminate].
    - destruct neg; eexists _, _; (split; [reflexivity|discriminate]).
    - eexists _, _. split; [reflexivity|discriminate].
    - eexists _, _. split; [reflexivity|discriminate]. }
  assert (E : forall c w, c <> 94%N -> startswith [94%N] (esc (c :: w)) = false).
  { intros c w Hc. rewrite esc_cons. destruct (N.eqb c 36); [reflexivity|]. cbn [app startswith]. rewrite (proj2 (N.eqb_neq 94 c)) by congruence. reflexivity. }
  assert (B : forall a q b s, atom_ok a -> caret_free_atom a -> startswith [94%N] (esc ((show_atom a ++ show_quant q ++ show_branch b) ++ s)) = false).
  { intros a q b s Ha Ca. destruct (A a Ha Ca) as (c & w & F & Hc). rewrite F. cbn [app]. now apply E. }
  destruct r as [b|b r]; cbn [pattern_ok caret_free show]; intros H Hc.
  - destruct b as [|a q b]; [reflexivity|]. destruct H as (Ha & _), Hc as (Ca & _). cbn [show_branch]. rewrite <- (app_nil_r (_ ++ _)). now apply B.
  - destruct b as [|a q b]; [reflexivity|]. destruct H as ((Ha & _) & _), Hc as ((Ca & _) & _). cbn [show_branch]. now apply B.
Qed.
Lemma convert_show r : pattern_ok r -> caret_free r -> show r <> [] -> (forall w, show r <> w ++ [36%N]) ->
  convert_regexp (show r) = Ok (94%N :: esc (show r) ++ [36%N]).
Proof.
  intros H Hc Hn Hd. unfold convert_regexp. destruct (rev (show r)) as [|c rp] eqn:E.
  - apply (f_equal (@rev N)) in E. rewrite rev_involutive in E. contradiction.
  - assert (E' : show r = rev rp ++ [c]) by (rewrite <- (rev_involutive (show r)), E; reflexivity).
    assert (Hc36 : c <> 36%N) by (intros ->; exact (Hd _ E')). rewrite (proj2 (N.eqb_neq _ _) Hc36).
    change (replace_str 36 (lit "\$") (show r)) with (esc (show r)). rewrite show_head by assumption.
    assert (L : rev (94%N :: esc (show r)) = c :: rev (esc (rev rp)) ++ [94%N]).
    { rewrite E' at 1. rewrite esc_app. rewrite (esc_none [c]) by (intros [F|[]]; congruence). cbn [rev]. now rewrite rev_app_distr. }
    rewrite L. cbn [startswith]. rewrite (proj2 (N.eqb_neq 36 c)) by congruence. reflexivity.
Qed.

(* ------------------------------------------------------------------ its meaning *)
Section Anch.
Context (U : unicode).
Notation cat := (u_cat U).

Fixpoint tr_end (r : pattern) : pre :=
  match r with
  | PBranch b => cat_of (tr_branch b ++ [(PEol, false)])
  | POr b r' => PAlt (cat_of (tr_branch b)) (tr_end r')
  end.
Lemma finish_end r alts : finish (alts_after r alts []) ((PEol, false) :: cur_after r []) = alt_of (rev alts ++ [tr_end r]).
Proof.
  revert alts. induction r as [b|b r IH] using pattern_ind; intros alts; cbn [alts_after cur_after tr_end].
  - unfold finish. rewrite app_nil_r. cbn [rev]. rewrite rev_involutive. reflexivity.
  - rewrite IH. cbn [rev app]. rewrite <- app_assoc. cbn [app].
    destruct (rev alts) as [|p l]; [reflexivity|]. rewrite !alt_of_app by discriminate. reflexivity.
Qed.
Definition anchored (r : pattern) : pre :=
  match r with
  | PBranch b => cat_of ((PBol, false) :: tr_branch b ++ [(PEol, false)])
  | POr b r' => PAlt (cat_of ((PBol, false) :: tr_branch b)) (tr_end r')
  end.
Lemma parse_anchored r : parse (KBol :: toks r ++ [KEol]) [] [] [] = Some (anchored r).
Proof.
  cbn [parse]. rewrite (proj2 (proj2 parse_all)). cbn [parse]. destruct r as [b|b r]; cbn [alts_after cur_after anchored].
  - unfold finish. cbn [rev app alt_of]. rewrite rev_app_distr, rev_involutive. reflexivity.
  - rewrite finish_end. reflexivity.
Qed.
Lemma lex_anchored r : pattern_ok r -> caret_free r -> lex 0 (94%N :: esc (show r) ++ [36%N]) = Some (KBol :: toks r ++ [KEol]).
Proof.
  intros H Hc. change (94%N :: esc (show r) ++ [36%N]) with ([94%N] ++ esc (show r) ++ [36%N]).
  rewrite (reads_tok [94%N] KBol ltac:(discriminate) ltac:(reflexivity)).
  rewrite (proj2 (proj2 reads_all) r H Hc). reflexivity.
Qed.

Definition hits (p : pre) (x : at_) : Prop := exists y, In y (ends U p x).
Lemma hits_alt a b x : hits (PAlt a b) x <-> hits a x \/ hits b x.
Proof.
  unfold hits. cbn [ends]. split.
  - intros (y & H). apply in_app_iff in H. destruct H; [left|right]; eauto.
  - intros [(y & H)|(y & H)]; exists y; apply in_app_iff; tauto.
Qed.
Lemma ends_cat_app l m x y : In y (ends U (cat_of (l ++ m)) x) <-> exists z, In z (ends U (cat_of l) x) /\ In y (ends U (cat_of m) z).
Proof.
  revert x. induction l as [|p l IH]; intros x.
  - cbn [app cat_of fold_right ends]. split; [intros H; exists x; split; [now left|exact H]|intros (z & [<-|[]] & H); exact H].
  - cbn [app cat_of fold_right ends]. fold (cat_of (l ++ m)) (cat_of l). rewrite in_flat_map. split.
    + intros (z & Hz & Hy). apply IH in Hy. destruct Hy as (z' & A & B). exists z'. split; [|exact B]. apply in_flat_map. eauto.
    + intros (z' & Hz & Hy). apply in_flat_map in Hz. destruct Hz as (z & A & B). exists z. split; [exact A|]. apply IH. eauto.
Qed.
Lemma hits_branch b s f : branch_ok b -> chars_ok U s -> hits (cat_of (tr_branch b)) (f, s) <-> some_prefix cat b s.
Proof.
  intros Hb Hs. unfold hits, some_prefix. pose proof (proj1 (proj2 (exact_all U)) b Hb (f, s) Hs) as E. split.
  - intros (y & Hy). apply E in Hy. destruct Hy as (w & A & B & _). exists w, (snd y). tauto.
  - intros (w & t & A & B). exists (f && is_nil w, t)%bool. apply E. exists w. tauto.
Qed.
Lemma ends_eol x y : In y (ends U (cat_of [(PEol, false)]) x) <-> y = x /\ (snd x = [] \/ snd x = [10%N]).
Proof.
  cbn [cat_of fold_right ends fst]. rewrite in_flat_map. split.
  - intros (z & Hz & [->|[]]). destruct (snd x) as [|c [|d t]] eqn:E.
    + destruct Hz as [<-|[]]. tauto.
    + destruct (N.eqb_spec c 10); [|contradiction]. destruct Hz as [<-|[]]. subst. tauto.
    + contradiction.
  - intros (-> & H). exists x. split; [|now left]. destruct H as [-> | ->]; now left.
Qed.
Lemma hits_end b s f : branch_ok b -> chars_ok U s -> hits (cat_of (tr_branch b ++ [(PEol, false)])) (f, s) <-> whole_line cat b s.
Proof.
  intros Hb Hs. unfold hits, whole_line. pose proof (proj1 (proj2 (exact_all U)) b Hb (f, s) Hs) as E. split.
  - intros (y & Hy). apply ends_cat_app in Hy. destruct Hy as (z & Hz & Hy). apply E in Hz. destruct Hz as (w & A & B & _). cbn [snd] in A.
    apply ends_eol in Hy. destruct Hy as (-> & [H|H]); rewrite H in A.
    + left. rewrite app_nil_r in A. now subst.
    + right. eauto.
  - intros [H|(s' & -> & H)].
    + exists (f && is_nil s, [])%bool. apply ends_cat_app. exists (f && is_nil s, [])%bool. split; [|apply ends_eol; cbn; tauto].
      apply E. exists s. split; [cbn; now rewrite app_nil_r|]. tauto.
    + exists (f && is_nil s', [10%N])%bool. apply ends_cat_app. exists (f && is_nil s', [10%N])%bool. split; [|apply ends_eol; cbn; tauto].
      apply E. exists s'. cbn. tauto.
Qed.
Lemma hits_tr_end r s f : pattern_ok r -> chars_ok U s ->
  hits (tr_end r) (f, s) <-> Exists (fun b => some_prefix cat b s) (before_last r) \/ whole_line cat (last_branch r) s.
Proof.
  intros H Hs. induction r as [b|b r IH] using pattern_ind; cbn [tr_end before_last last_branch pattern_ok] in *.
  - rewrite hits_end by assumption. split; [tauto|]. intros [F|F]; [inversion F|exact F].
  - destruct H as [Hb Hr]. rewrite hits_alt, hits_branch, IH by assumption. rewrite Exists_cons. tauto.
Qed.
Lemma hits_bol l s : hits (cat_of ((PBol, false) :: l)) (true, s) <-> hits (cat_of l) (true, s).
Proof. unfold hits. cbn [cat_of fold_right ends fst flat_map]. fold (cat_of l). now setoid_rewrite app_nil_r. Qed.
Lemma hits_anchored r s : pattern_ok r -> chars_ok U s ->
  hits (anchored r) (true, s) <-> Exists (fun b => some_prefix cat b s) (before_last r) \/ whole_line cat (last_branch r) s.
Proof.
  intros H Hs. destruct r as [b|b r]; cbn [anchored before_last last_branch pattern_ok] in *.
  - rewrite hits_bol, hits_end by assumption. split; [tauto|]. intros [F|F]; [inversion F|exact F].
  - destruct H as [Hb Hr]. rewrite hits_alt, hits_bol, hits_branch, hits_tr_end by assumption. rewrite Exists_cons. tauto.
Qed.

Notation re_accepts := (accepted_by cat).
Lemma re_match_show r s : pattern_ok r -> caret_free r -> chars_ok U s ->
  exists b, re_match U (94%N :: esc (show r) ++ [36%N]) s = Some b /\ (b = true <-> re_accepts r s).
Proof.
  intros H Hc Hs. unfold re_match. rewrite lex_anchored, parse_anchored by assumption. eexists. split; [reflexivity|].
  unfold accepted_by. rewrite <- hits_anchored by assumption. unfold hits. destruct (ends U (anchored r) (true, s)) as [|y l].
  - split; [discriminate|intros (y & [])].
  - split; [intros _; exists y; now left|reflexivity].
Qed.

(* ------------------------------------------------------------------ leaves *)
(** Typedefs with a pattern each, outermost first. *)
Fixpoint pattern_chain (ps : list str) : pty :=
  match ps with [] => TStr | p :: ps' => TRestr (pattern_chain ps') [RPattern p] end.

Section Leaf.
Context (O : oracle).
Definition passes (s : str) (p : str) : bool := match convert_regexp p with Ok q => o_match O q s | Raise _ => false end.
Definition convertible (p : str) : Prop := exists q, convert_regexp p = Ok q.

Lemma pattern_test_of p s : convertible p -> pattern_test O p (VStr s) = Ok (passes s p).
Proof. intros (q & E). unfold pattern_test, passes. now rewrite E. Qed.
Lemma chain_new ps s : Forall convertible ps -> ty_new O (pattern_chain ps) (Some (VStr s)) = if forallb (passes s) ps then Ok (VStr s) else Raise ValueError.
Proof.
  induction 1 as [|p ps Hp Hps IH]; [reflexivity|]. cbn [pattern_chain]. rewrite ty_new_restr. cbn [build bind fst snd is_False any_pass].
  rewrite pattern_test_of by assumption. cbn [bind forallb]. destruct (passes s p); [|reflexivity]. cbn [bind andb]. rewrite IH. now destruct (forallb _ ps).
Qed.
Lemma chain_tests p ps : ty_tests O (pattern_chain (p :: ps)) = Ok [pattern_test O (last (p :: ps) [])].
Proof.
  revert p. induction ps as [|p' ps IH]; intros p; [reflexivity|].
  change (pattern_chain (p :: p' :: ps)) with (TRestr (pattern_chain (p' :: ps)) [RPattern p]). rewrite ty_tests_restr. cbn [pattern_chain is_restr]. exact (IH p').
Qed.
Lemma last_forall {A} (P : A -> Prop) x l d : Forall P (x :: l) -> P (last (x :: l) d).
Proof. revert x. induction l as [|y l IH]; intros x H; inversion H as [|? ? Hx Hl]; subst; [exact Hx|exact (IH y Hl)]. Qed.
Lemma last_in {A} (x : A) l d : In (last (x :: l) d) (x :: l).
Proof. revert x. induction l as [|y l IH]; intros x; [now left|right; exact (IH y)]. Qed.
Lemma chain_init ps s o : Forall convertible ps ->
  ty_init O (pattern_chain ps) o (VStr s) = if forallb (passes s) (tl ps) && match ps with [] => true | p :: ps' => passes s (last (p :: ps') []) end then Ok o else Raise ValueError.
Proof.
  intros H. revert o. induction H as [|p ps Hp Hps IH]; intros o; [reflexivity|].
  change (pattern_chain (p :: ps)) with (TRestr (pattern_chain ps) [RPattern p]). rewrite ty_init_restr.
  change (TRestr (pattern_chain ps) [RPattern p]) with (pattern_chain (p :: ps)).
  unfold ty_call. rewrite chain_new by assumption. cbn [tl]. destruct (forallb (passes s) ps) eqn:E; [|reflexivity]. rewrite IH, chain_tests.
  assert (T : forallb (passes s) (tl ps) && match ps with [] => true | p0 :: ps' => passes s (last (p0 :: ps') []) end = true).
  { destruct ps as [|p' ps']; [reflexivity|]. pose proof (proj1 (forallb_forall _ _) E) as F. cbn [tl]. apply andb_true_intro. split.
    - apply forallb_forall. intros q Hq. apply F. now right.
    - apply F. apply last_in. }
  rewrite T. cbn [bind all_pass andb]. rewrite pattern_test_of by (apply last_forall; now constructor). cbn [bind]. now destruct (passes s _).
Qed.
Lemma chain_assign ps s : Forall convertible ps ->
  leaf_assign O (LOne (pattern_chain ps)) (VStr s) =
  {| d_notified := forallb (passes s) ps; d_out := if forallb (passes s) ps then Ok (VStr s) else Raise ValueError |}.
Proof.
  intros H. unfold leaf_assign. cbn [dyn_ltype]. unfold dyn_leaf. rewrite chain_new by assumption.
  destruct (forallb (passes s) ps) eqn:E; [|reflexivity]. rewrite chain_init by assumption.
  destruct ps as [|p ps]; [reflexivity|]. pose proof (proj1 (forallb_forall _ _) E) as F.
  assert (T : forallb (passes s) (tl (p :: ps)) && passes s (last (p :: ps) []) = true).
  { apply andb_true_intro. split; [apply forallb_forall; intros q Hq; apply F; now right|apply F, last_in]. }
  rewrite T. reflexivity.
Qed.
End Leaf.

Lemma chain_regex O rs s : Forall supported rs -> chars_ok U s ->
  (Forall (fun r => re_accepts r s) rs -> leaf_assign (with_regex U O) (LOne (pattern_chain (map show rs))) (VStr s) = {| d_notified := true; d_out := Ok (VStr s) |}) /\
  (~ Forall (fun r => re_accepts r s) rs -> leaf_assign (with_regex U O) (LOne (pattern_chain (map show rs))) (VStr s) = {| d_notified := false; d_out := Raise ValueError |}).
Proof.
  intros H Hs.
  assert (C : Forall convertible (map show rs)).
  { apply Forall_map. eapply Forall_impl; [|exact H]. intros r (A & B & D & E). exists (94%N :: esc (show r) ++ [36%N]). now apply convert_show. }
  assert (P : forall r, supported r -> passes (with_regex U O) s (show r) = true <-> re_accepts r s).
  { intros r (A & B & D & E). unfold passes. rewrite convert_show by assumption. cbn [with_regex o_match].
    destruct (re_match_show r s A B Hs) as (b & -> & F). exact F. }
  assert (F : forallb (passes (with_regex U O) s) (map show rs) = true <-> Forall (fun r => re_accepts r s) rs).
  { rewrite forallb_forall, Forall_forall. rewrite Forall_forall in H. split.
    - intros G r Hr. apply P; [now apply H|]. apply G. now apply in_map.
    - intros G p Hp. apply in_map_iff in Hp. destruct Hp as (r & <- & Hr). apply P; [now apply H|now apply G]. }
  rewrite chain_assign by assumption. split; intros G.
  - rewrite (proj2 F G). reflexivity.
  - destruct (forallb _ _); [exfalso; tauto|reflexivity].
Qed.
End Anch.

Lemma str_chain_patterns rs : str_chain (map (fun r => [SPattern (show r)]) rs) = pattern_chain (map show rs).
Proof. induction rs as [|r rs IH]; [reflexivity|]. cbn [map str_chain pattern_chain restr_of]. now rewrite IH. Qed.
Lemma chain_main U O rs s : Forall supported rs -> Forall (common (u_cat U) (u_space U) (u_word U)) s ->
  (Forall (fun r => accepted_by (u_cat U) r s) rs -> leaf_assign (with_regex U O) (LOne (str_chain (map (fun r => [SPattern (show r)]) rs))) (VStr s) = {| d_notified := true; d_out := Ok (VStr s) |}) /\
  (~ Forall (fun r => accepted_by (u_cat U) r s) rs -> leaf_assign (with_regex U O) (LOne (str_chain (map (fun r => [SPattern (show r)]) rs))) (VStr s) = {| d_notified := false; d_out := Raise ValueError |}).
Proof. rewrite str_chain_patterns. apply chain_regex. Qed.
Lemma anchored_main U O bs s : Forall (fun b => supported (PBranch b)) bs -> Forall (common (u_cat U) (u_space U) (u_word U)) s -> (forall w, s <> w ++ [10%N]) ->
  (Forall (fun b => lang (u_cat U) (PBranch b) s) bs -> leaf_assign (with_regex U O) (LOne (str_chain (map (fun b => [SPattern (show (PBranch b))]) bs))) (VStr s) = {| d_notified := true; d_out := Ok (VStr s) |}) /\
  (~ Forall (fun b => lang (u_cat U) (PBranch b) s) bs -> leaf_assign (with_regex U O) (LOne (str_chain (map (fun b => [SPattern (show (PBranch b))]) bs))) (VStr s) = {| d_notified := false; d_out := Raise ValueError |}).
Proof.
  intros H Hs Hn. destruct (chain_main U O (map PBranch bs) s) as [A B]; [now apply Forall_map|exact Hs|].
  rewrite map_map in A, B.
  assert (E : Forall (fun r => accepted_by (u_cat U) r s) (map PBranch bs) <-> Forall (fun b => lang (u_cat U) (PBranch b) s) bs).
  { rewrite Forall_map. split; apply Forall_impl; intros b; unfold accepted_by, whole_line; cbn [before_last last_branch lang].
    - intros [F|[F|(s' & F & _)]]; [inversion F|exact F|exfalso; exact (Hn _ F)].
    - tauto. }
  rewrite E in A, B. now split.
Qed.
