(** Proofs about the number of attempts that build_typedefs makes. *)
From Verif Require Import PyStr PyStr_facts PyVal PathHelper Identity Restricted Typedefs Spec_Typedefs TypedefOrder_proofs.
From Coq Require Import Lia.
Import ListNotations.

(* ------------------------------------------------------------------ enough attempts *)
Lemma grounded_le c known defs n k : grounded_in c known defs n k -> forall n', n <= n' -> grounded_in c known defs n' k.
Proof.
  induction 1 as [n k Hk|n td Hin Hu IH]; intros n' L; [left; exact Hk|]. destruct n' as [|n']; [lia|]. apply grounded_typedef; [exact Hin|]. intros k Hk. apply (IH k Hk). lia.
Qed.
Lemma common_depth c known defs : forall l : list tdef, (forall td, In td l -> exists n, grounded_in c known defs n (td_key td)) -> exists n, forall td, In td l -> grounded_in c known defs n (td_key td).
Proof.
  induction l as [|td l IH]; intros H; [exists 0; intros td []|]. destruct IH as (n & Hn); [intros x Hx; apply H; right; exact Hx|]. destruct (H td (or_introl eq_refl)) as (m & Hm).
  exists (n + m). intros x [<-|Hx]; [apply (grounded_le _ _ _ _ _ Hm); lia|apply (grounded_le _ _ _ _ _ (Hn x Hx)); lia].
Qed.
Lemma typedefs_iff c limit fuel cm defs : (forall td, In td defs -> well_formed c (known_types cm) td) ->
  (forall td td', In td defs -> In td' defs -> td_key td = td_key td' -> td = td') -> (forall td, In td defs -> ~ In (td_key td) (known_types cm)) ->
  length defs * S limit <= fuel -> length defs <= S limit ->
  ((exists tds, order_typedefs c limit fuel cm defs = Ok tds) <-> forall td, In td defs -> exists n, grounded_in c (known_types cm) defs n (td_key td)) /\
  (~ (forall td, In td defs -> exists n, grounded_in c (known_types cm) defs n (td_key td)) -> order_typedefs c limit fuel cm defs = Raise TypeError).
Proof.
  intros W D K F L. assert (I : (exists tds, order_typedefs c limit fuel cm defs = Ok tds) <-> forall td, In td defs -> exists n, grounded_in c (known_types cm) defs n (td_key td)).
  { split.
    - intros (tds & E) td Hin. exists (length defs). apply (typedefs_grounded c limit fuel cm defs tds W E td Hin).
    - intros H. destruct (common_depth c (known_types cm) defs defs H) as (n & Hn).
      destruct (typedefs_complete c n (length defs * S n) cm defs W D K (le_n _)) as (tds & E).
      + intros td Hin. apply (grounded_le _ _ _ _ _ (Hn td Hin)). lia.
      + apply (typedefs_complete c limit fuel cm defs W D K F). intros td Hin. apply (grounded_le _ _ _ (length defs)); [|exact L]. apply (typedefs_grounded c _ _ cm defs tds W E td Hin). }
  split; [exact I|]. intros N. destruct (typedefs_end c limit fuel cm defs W F) as [Y|Y]; [|exact Y]. destruct N. apply I, Y.
Qed.

(* ------------------------------------------------------------------ too few *)
Lemma errors_stay c bt limit : forall fuel queue known og og', order_loop c bt limit fuel queue known og = Ok og' -> og_errors og <> [] -> og_errors og' <> [].
Proof.
  induction fuel as [|fuel IH]; intros [|[td n] queue] known og og' H E; cbn [order_loop] in H; try (injection H as <-; exact E); try discriminate.
  destruct (references c bt td) as [refs|]; cbn [bind] in H; [|discriminate]. destruct (forallb _ refs); [apply (IH _ _ _ _ H); exact E|].
  destruct (Nat.ltb limit (S n)); [apply (IH _ _ _ _ H); cbn [og_errors]; destruct (og_errors og); discriminate|apply (IH _ _ _ _ H); exact E].
Qed.
Definition one_module : modules := {| m_prefix m := m; m_namespace m := m; m_resolve _ p := Some p; m_refs m := [m] |}.
Definition just (a : str) : ytype :=
  {| ty_arg := a; ty_patterns := []; ty_length := None; ty_range := None; ty_enums := []; ty_digits := None; ty_path := None; ty_require := None; ty_bases := []; ty_bits := []; ty_subs := [] |}.
(** The typedefs a, aa, aaa, ... in module m, each the type of the next. *)
Definition step_name (i : nat) : str := repeat 97%N (S i).
Definition step (i : nat) : tdef :=
  {| td_key := lit "m:" ++ step_name i; td_module := lit "m"; td_type := just (match i with 0 => lit "string" | S i' => step_name i' end); td_default := None |}.
Definition steps (n : nat) : list tdef := rev (map step (seq 0 n)).
Lemma step_inj i j : step_name i = step_name j -> i = j.
Proof. intros H. apply (f_equal (@length N)) in H. unfold step_name in H. rewrite !repeat_length in H. lia. Qed.
Lemma key_inj i j : td_key (step i) = td_key (step j) -> i = j.
Proof. cbn [td_key step]. intros H. apply app_inv_head in H. apply step_inj, H. Qed.
Lemma step_colon i : ~ In 58%N (step_name i).
Proof. intros H. apply repeat_spec in H. discriminate. Qed.
Definition base : list str := known_types builtin_map.
Lemma base_names t : In t base -> exists x r, t = x :: r /\ (x <> 97%N \/ In 98%N r) /\ ~ In 58%N t.
Proof.
  assert (F : Forall (fun t => exists x r, t = x :: r /\ (x <> 97%N \/ In 98%N r) /\ ~ In 58%N t) base).
  { unfold base. vm_compute. repeat (constructor; [eexists; eexists; split; [reflexivity|]; split; [left; discriminate|cbn [In]; intuition discriminate]|]). constructor. }
  rewrite Forall_forall in F. apply F.
Qed.
Lemma step_not_base i : ~ In (step_name i) base.
Proof.
  intros H. destruct (base_names _ H) as (x & r & E & B & _). unfold step_name in E. cbn [repeat] in E. injection E as <- <-. destruct B as [B|B]; [destruct B; reflexivity|apply repeat_spec in B; discriminate].
Qed.
Lemma key_not_base i : ~ In (td_key (step i)) base.
Proof. intros H. destruct (base_names _ H) as (x & r & _ & _ & N). apply N. right. left. reflexivity. Qed.
Lemma step_refs i : references one_module base (step i) = Ok [match i with 0 => lit "string" | S i' => td_key (step i') end].
Proof.
  unfold references, subtypes, subtype. cbn [td_type step just ty_arg]. destruct i as [|i]; [vm_compute; reflexivity|].
  assert (N : forall s, In s (map lit ["union"; "identityref"]%string) -> str_eqb (step_name i) s = false).
  { intros s Hs. apply str_eqb_neq. intros E. destruct Hs as [<-|[<-|[]]]; unfold step_name in E; cbn [repeat] in E; vm_compute in E; discriminate. }
  rewrite !N by (cbn [map In]; auto). cbn [bind map_r]. unfold resolve_text. pose proof (step_colon i) as C. apply ch_in_false in C. rewrite C.
  pose proof (step_not_base i) as B. apply str_in_false in B. rewrite B. reflexivity.
Qed.
(** The typedefs from [j] down to [r], each tried [n] times. *)
Definition down (n j r : nat) : list (tdef * nat) := rev (map (fun i => (step i, n)) (seq r (S j - r))).
Lemma down_head n j r : r < j -> down n j r = (step j, n) :: down n (j - 1) r.
Proof.
  intros L. unfold down. replace (S j - r) with (S (j - r)) by lia. rewrite seq_S, map_app, rev_app_distr. cbn [map rev app]. replace (r + (j - r)) with j by lia. replace (S (j - 1) - r) with (j - r) by lia. reflexivity.
Qed.
Lemma down_one n r : down n r r = [(step r, n)].
Proof. unfold down. replace (S r - r) with 1 by lia. reflexivity. Qed.
Lemma down_snoc n L j : 1 <= j -> j <= L -> down n L (S j) ++ [(step j, n)] = down n L j.
Proof. intros _ Lj. unfold down. replace (S L - j) with (S (S L - S j)) by lia. reflexivity. Qed.
Lemma down_none n L : down n L (S L) = [].
Proof. unfold down. rewrite Nat.sub_diag. reflexivity. Qed.
Section Deep.
Context (limit : nat).
Definition top := S limit.
Definition resolved (r : nat) : list str := base ++ map (fun i => td_key (step i)) (seq 0 r).
Lemma resolved_key r i : str_in (td_key (step i)) (resolved r) = true <-> i < r.
Proof.
  rewrite str_in_In. unfold resolved. rewrite in_app_iff, in_map_iff. split.
  - intros [H|(k & E & Hk)]; [destruct (key_not_base i H)|]. apply key_inj in E. subst k. apply in_seq in Hk. lia.
  - intros L. right. exists i. split; [reflexivity|apply in_seq; lia].
Qed.
Lemma deep_loop : forall fuel r j og og', r <= limit -> r <= j -> j <= top -> (r = limit -> j = top) ->
  order_loop one_module base limit fuel (down r j r ++ down (S r) top (S j)) (resolved r) og = Ok og' -> og_errors og' <> [].
Proof.
  unfold top. induction fuel as [|fuel IH]; intros r j og og' Lr Lj Lt Le H.
  - destruct (Nat.eq_dec r j) as [<-|N]; [rewrite down_one in H|rewrite down_head in H by lia]; cbn [app order_loop] in H; discriminate.
  - destruct (Nat.eq_dec r j) as [<-|N].
    + rewrite down_one in H. cbn [app order_loop] in H. rewrite step_refs in H. cbn [bind] in H.
      assert (E : forallb (fun x => str_in x (resolved r)) [match r with 0 => lit "string" | S i' => td_key (step i') end] = true).
      { cbn [forallb]. rewrite andb_true_r. destruct r as [|r']; [vm_compute; reflexivity|]. apply resolved_key. lia. }
      rewrite E in H. assert (K : resolved r ++ [td_key (step r)] = resolved (S r)) by (unfold resolved; rewrite seq_S, map_app, app_assoc; reflexivity). rewrite K in H.
      apply (IH (S r) (S limit) {| og_done := og_done og ++ [step r]; og_errors := og_errors og |} og'); try lia. rewrite down_none, app_nil_r. exact H.
    + rewrite down_head in H by lia. cbn [app order_loop] in H. rewrite step_refs in H. cbn [bind] in H.
      assert (E : forallb (fun x => str_in x (resolved r)) [match j with 0 => lit "string" | S i' => td_key (step i') end] = false).
      { cbn [forallb]. rewrite andb_true_r. destruct j as [|j']; [lia|]. destruct (str_in (td_key (step j')) (resolved r)) eqn:E; [apply resolved_key in E; lia|reflexivity]. }
      rewrite E in H. destruct (Nat.ltb_spec limit (S r)) as [L|L].
      * apply errors_stay in H; [exact H|]. cbn [og_errors]. destruct (og_errors og); discriminate.
      * apply (IH r (j - 1) og og'); try lia. rewrite <- app_assoc in H. replace (S (j - 1)) with j by lia. rewrite down_snoc in H by lia. exact H.
Qed.
Lemma steps_down : map (fun td => (td, 0)) (steps (S top)) = down 0 top 0 ++ down 1 top (S top).
Proof. rewrite down_none, app_nil_r. unfold steps, down. rewrite <- map_rev, !map_map, map_rev, Nat.sub_0_r. reflexivity. Qed.
Lemma step_in td : In td (steps (S top)) <-> exists i, i <= top /\ td = step i.
Proof.
  unfold steps. rewrite <- in_rev, in_map_iff. split.
  - intros (i & <- & H). apply in_seq in H. exists i. split; [lia|reflexivity].
  - intros (i & L & ->). exists i. split; [reflexivity|apply in_seq; lia].
Qed.
Lemma step_mentions i t : mentions (td_type (step i)) t -> t = match i with 0 => lit "string" | S i' => step_name i' end.
Proof.
  cbn [td_type step]. set (a := match i with 0 => _ | S _ => _ end). assert (N : a <> lit "union" /\ a <> lit "identityref").
  { unfold a. destruct i as [|i]; [split; vm_compute; discriminate|]. unfold step_name. cbn [repeat]. split; vm_compute; discriminate. }
  destruct N as [N1 N2]. intros [[_ [[_ H]|[H _]]]|[H _]]; cbn [just ty_arg] in H; [exact H|destruct (N2 H)|destruct (N1 H)].
Qed.
Lemma step_uses i k : uses one_module base (step i) k -> k = match i with 0 => lit "string" | S i' => td_key (step i') end.
Proof.
  intros (t & M & D). apply step_mentions in M. destruct i as [|i]; subst t.
  - destruct D as [(p & n & m & E & Np & _)|[(_ & _ & E)|(_ & Nk & _)]]; [|exact E|].
    + assert (C : In 58%N (lit "string")) by (rewrite E; apply in_or_app; right; left; reflexivity). vm_compute in C. intuition discriminate.
    + destruct Nk. apply str_in_In. vm_compute. reflexivity.
  - destruct D as [(p & n & m & E & Np & _)|[(_ & K & _)|(_ & _ & E)]]; [|destruct (step_not_base i K)|exact E].
    exfalso. apply (step_colon i). rewrite E. apply in_or_app. right. left. reflexivity.
Qed.
Lemma step_wf i : well_formed one_module base (step i).
Proof.
  split; [|split; [intros s []|]].
  - intros E. exfalso. cbn [td_type step just ty_arg] in E. destruct i; [vm_compute in E|unfold step_name in E; cbn [repeat] in E; vm_compute in E]; discriminate.
  - intros t M. apply step_mentions in M. subst t. destruct i as [|i].
    + exists (lit "string"). right. left. split; [vm_compute; intuition discriminate|]. split; [apply str_in_In; vm_compute; reflexivity|reflexivity].
    + exists (td_key (step i)). right. right. split; [apply step_colon|]. split; [apply step_not_base|reflexivity].
Qed.
Lemma step_grounded i : i <= top -> grounded_in one_module base (steps (S top)) (S i) (td_key (step i)).
Proof.
  induction i as [|i IH]; intros L.
  - apply grounded_typedef; [apply step_in; exists 0; split; [lia|reflexivity]|]. intros k Hk. apply step_uses in Hk. subst k. left. apply str_in_In. vm_compute. reflexivity.
  - apply grounded_typedef; [apply step_in; exists (S i); split; [lia|reflexivity]|]. intros k Hk. apply step_uses in Hk. subst k. apply IH. lia.
Qed.
Lemma too_deep : exists defs, length defs = S (S limit) /\ (forall td, In td defs -> well_formed one_module (known_types builtin_map) td) /\
  (forall td td', In td defs -> In td' defs -> td_key td = td_key td' -> td = td') /\ (forall td, In td defs -> ~ In (td_key td) (known_types builtin_map)) /\
  (forall td, In td defs -> exists n, grounded_in one_module (known_types builtin_map) defs n (td_key td)) /\
  forall fuel, length defs * S limit <= fuel -> order_typedefs one_module limit fuel builtin_map defs = Raise TypeError.
Proof.
  exists (steps (S top)). split; [unfold steps; rewrite rev_length, map_length, seq_length; reflexivity|].
  assert (W : forall td, In td (steps (S top)) -> well_formed one_module (known_types builtin_map) td) by (intros td H; apply step_in in H; destruct H as (i & _ & ->); apply step_wf).
  split; [exact W|]. split; [|split; [|split]].
  - intros td td' H H' E. apply step_in in H, H'. destruct H as (i & _ & ->), H' as (i' & _ & ->). apply key_inj in E. subst i'. reflexivity.
  - intros td H. apply step_in in H. destruct H as (i & _ & ->). apply key_not_base.
  - intros td H. apply step_in in H. destruct H as (i & L & ->). exists (S i). apply step_grounded, L.
  - intros fuel F. destruct (typedefs_end one_module limit fuel builtin_map (steps (S top)) W F) as [(tds & E)|E]; [|exact E]. exfalso. unfold order_typedefs in E.
    destruct (order_loop _ _ _ _ _ _ _) as [og|] eqn:Eo; cbn [bind] in E; [|discriminate]. rewrite steps_down in Eo.
    assert (K : known_types builtin_map = resolved 0) by (unfold resolved; cbn [seq map]; rewrite app_nil_r; reflexivity).
    rewrite K in Eo at 2. apply deep_loop in Eo; [|unfold top; lia..|]; [|intros _; reflexivity]. destruct (og_errors og); [apply Eo; reflexivity|discriminate].
Qed.
End Deep.
