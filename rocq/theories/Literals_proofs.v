(** Lemmas about literals in single quotes. *)
From Coq Require Import Lia.
From Verif Require Import PyStr PyStr_facts PyVal Restricted Defaults Docs Literals Spec_Names Spec_Literals.

Definition clean (s : str) : Prop := Forall (fun c => c <> 39 /\ c <> 10 /\ c <> 13 /\ c <> 0 /\ c <> 92)%N s.

Lemma short_clean : forall s fuel acc code, clean s -> length s < fuel -> short_string fuel (s ++ 39%N :: code) acc = Doc (rev acc ++ s) code.
Proof.
  induction s as [|c s IH]; intros fuel acc code Hc Hf; (destruct fuel as [|fuel]; [cbn in Hf; lia|]); cbn [app short_string].
  - rewrite N.eqb_refl, app_nil_r. reflexivity.
  - inversion Hc as [|? ? (H1 & H2 & H3 & H4 & H5) Hc']; subst. unfold q1. rewrite (proj2 (N.eqb_neq _ _) H1), (proj2 (N.eqb_neq _ _) H2), (proj2 (N.eqb_neq _ _) H3), (proj2 (N.eqb_neq _ _) H4), (proj2 (N.eqb_neq _ _) H5).
    cbn [orb]. rewrite IH; [|assumption|cbn in Hf; lia]. cbn [rev]. rewrite <- app_assoc. reflexivity.
Qed.
Lemma no_start s code : s <> [] -> clean s -> startswith [q1; q1] (s ++ code) = false.
Proof.
  destruct s as [|c s]; [contradiction|]. intros _ H. inversion H as [|? ? (H1 & _) _]; subst. cbn [app startswith]. unfold q1.
  destruct (N.eqb_spec 39 c) as [E|E]; [symmetry in E; contradiction|reflexivity].
Qed.
Definition starts_quote (s : str) : Prop := exists t, s = 39%N :: t.
(** A literal that is not followed by another one. *)
Lemma literals_clean fuel s acc code : s <> [] -> clean s -> ~ starts_quote code -> literals (S fuel) (s ++ 39%N :: code) acc = Doc (acc ++ s) code.
Proof.
  intros Hn Hc Hq. cbn [literals]. rewrite (no_start s _ Hn Hc). rewrite short_clean; [|assumption|rewrite app_length; cbn; lia]. cbn [rev app].
  destruct code as [|c code]; [reflexivity|]. unfold q1. destruct (N.eqb_spec c 39) as [->|E]; [exfalso; apply Hq; exists code; reflexivity|reflexivity].
Qed.
Lemma literals_step fuel s acc code : s <> [] -> clean s -> literals (S fuel) (s ++ 39%N :: 39%N :: code) acc = literals fuel code (acc ++ s).
Proof.
  intros Hn Hc. cbn [literals]. rewrite (no_start s _ Hn Hc). rewrite short_clean; [|assumption|rewrite app_length; cbn; lia]. cbn [rev app]. rewrite N.eqb_refl. reflexivity.
Qed.

Lemma starts_app h t : startswith h (h ++ t) = true.
Proof. induction h as [|c h IH]; [reflexivity|]. cbn [app startswith]. rewrite N.eqb_refl. exact IH. Qed.
Lemma argument_head h s : argument h (h ++ 39%N :: s) = literals (S (length s)) s [].
Proof.
  unfold argument. replace (h ++ 39%N :: s) with ((h ++ [q1]) ++ s) by (rewrite <- app_assoc; reflexivity). rewrite starts_app.
  replace (S (length h)) with (length (h ++ [q1])) by (rewrite app_length; cbn; lia). rewrite skipn_app, skipn_all, Nat.sub_diag. reflexivity.
Qed.
Lemma argument_clean h s code : s <> [] -> clean s -> ~ starts_quote code -> argument h (h ++ 39%N :: s ++ 39%N :: code) = Doc s code.
Proof. intros H1 H2 H3. rewrite argument_head. rewrite literals_clean by assumption. reflexivity. Qed.

(* ------------------------------------------------------------------ pairs of apostrophes *)
Lemma with_pairs_length ps : Forall (fun p => p <> []) ps -> length ps <= length (with_pairs ps).
Proof.
  induction 1 as [|p ps Hp H IH]; [apply le_n|]. cbn [with_pairs]. destruct ps as [|p' ps].
  - destruct p; [contradiction|cbn; lia].
  - rewrite app_length. cbn [app length]. cbn [length] in IH. destruct p; [contradiction|]. cbn [length]. lia.
Qed.
Lemma literals_pairs ps : ps <> [] -> Forall (fun p => p <> [] /\ clean p) ps -> forall fuel acc code, length ps <= fuel -> ~ starts_quote code ->
  literals fuel (with_pairs ps ++ 39%N :: code) acc = Doc (acc ++ concat ps) code.
Proof.
  induction ps as [|p ps IH]; intros Hn H fuel acc code Hf Hq; [contradiction|]. inversion H as [|? ? (H1 & H2) H']; subst. destruct fuel as [|fuel]; [cbn in Hf; lia|].
  cbn [with_pairs]. destruct ps as [|p' ps].
  - rewrite literals_clean by assumption. cbn [concat]. rewrite app_nil_r. reflexivity.
  - replace ((p ++ [apostrophe; apostrophe] ++ with_pairs (p' :: ps)) ++ 39%N :: code) with (p ++ 39%N :: 39%N :: (with_pairs (p' :: ps) ++ 39%N :: code)) by (rewrite <- !app_assoc; reflexivity).
    rewrite literals_step by assumption. rewrite IH; [|discriminate|assumption|cbn in Hf |- *; lia|assumption]. cbn [concat]. rewrite !app_assoc. reflexivity.
Qed.
Lemma argument_pairs h ps code : ps <> [] -> Forall (fun p => p <> [] /\ clean p) ps -> ~ starts_quote code -> argument h (h ++ 39%N :: with_pairs ps ++ 39%N :: code) = Doc (concat ps) code.
Proof.
  intros H1 H2 H3. rewrite argument_head. rewrite literals_pairs; [reflexivity|assumption|assumption| |assumption].
  rewrite app_length. pose proof (with_pairs_length ps) as Hl. assert (Hp : Forall (fun p => p <> []) ps) by (eapply Forall_impl; [|exact H2]; intros a [Ha _]; exact Ha). specialize (Hl Hp). lia.
Qed.

(* ------------------------------------------------------------------ which texts are clean *)
Lemma uri_chars : forallb (fun c => negb (uri_char c)) [10; 13; 0; 92]%N = true.
Proof. vm_compute. reflexivity. Qed.
Lemma uri_not c x : uri_char c = true -> In x [10; 13; 0; 92]%N -> c <> x.
Proof. intros Hc Hx E. subst x. pose proof (proj1 (forallb_forall _ _) uri_chars c Hx) as H. cbn beta in H. rewrite Hc in H. discriminate. Qed.
Lemma uri_clean s : Forall (fun x => uri_char x = true) s -> ~ In 39%N s -> clean s.
Proof.
  intros H Hn. apply Forall_forall. intros c Hc. rewrite Forall_forall in H. specialize (H c Hc).
  split; [intros ->; exact (Hn Hc)|]. split; [apply (uri_not c 10%N H); left; reflexivity|]. split; [apply (uri_not c 13%N H); right; left; reflexivity|].
  split; [apply (uri_not c 0%N H); right; right; left; reflexivity|apply (uri_not c 92%N H); right; right; right; left; reflexivity].
Qed.
Lemma uri_all s : uri s -> s <> [] /\ Forall (fun x => uri_char x = true) s.
Proof. intros (c & s' & -> & Hc & Hs). split; [discriminate|]. constructor; [unfold uri_char; rewrite Hc; reflexivity|assumption]. Qed.
Lemma name_char_clean c : yang_char c = true \/ c = 58%N -> (c <> 39 /\ c <> 10 /\ c <> 13 /\ c <> 0 /\ c <> 92)%N.
Proof.
  intros [H| ->]; [|repeat split; discriminate].
  split; [intros ->; vm_compute in H; discriminate|]. split; [intros ->; vm_compute in H; discriminate|]. split; [intros ->; vm_compute in H; discriminate|].
  split; intros ->; vm_compute in H; discriminate.
Qed.
Lemma type_clean s : type_ref s -> s <> [] /\ clean s.
Proof. intros [H1 H2]. split; [assumption|]. eapply Forall_impl; [|exact H2]. exact name_char_clean. Qed.
Lemma start_char c : yang_start c = true -> yang_char c = true.
Proof. unfold yang_start, yang_char. intros H. apply Bool.orb_true_iff in H. destruct H as [H|H]; rewrite H; rewrite ?Bool.orb_true_r; reflexivity. Qed.
Lemma id_clean s : yang_identifier s -> s <> [] /\ clean s.
Proof.
  intros (c & s' & -> & Hc & Hs). split; [discriminate|]. constructor; [apply name_char_clean; left; apply start_char; assumption|].
  eapply Forall_impl; [|exact Hs]. intros a Ha. apply name_char_clean. left. exact Ha.
Qed.

(* ------------------------------------------------------------------ the whole of the arguments *)
Lemma args_shape ns module ty b : arguments_text ns module ty b =
  lit ", namespace=" ++ 39%N :: ns ++ 39%N :: (lit ", defining_module=" ++ 39%N :: module ++ 39%N :: (lit ", yang_type=" ++ 39%N :: ty ++ 39%N :: (lit ", is_config=" ++ if b then lit "True" else lit "False"))).
Proof. unfold arguments_text. change (lit ", namespace='") with (lit ", namespace=" ++ [39%N]). change (lit ", defining_module='") with (lit ", defining_module=" ++ [39%N]). change (lit ", yang_type='") with (lit ", yang_type=" ++ [39%N]). change (lit "'") with [39%N]. rewrite <- !app_assoc. reflexivity. Qed.
Lemma comma_quote s t : s <> [] -> hd 0%N s <> 39%N -> ~ starts_quote (s ++ t).
Proof. intros Hn H (u & E). destruct s as [|c s]; [contradiction|]. cbn in H, E. injection E as E _. contradiction. Qed.
Ltac nq := apply comma_quote; [let Q := fresh in intros Q; apply (f_equal (@length N)) in Q; vm_compute in Q; discriminate|vm_compute; discriminate].
Definition after_ns (module ty : str) (b : bool) : str :=
  lit ", defining_module=" ++ 39%N :: module ++ 39%N :: (lit ", yang_type=" ++ 39%N :: ty ++ 39%N :: (lit ", is_config=" ++ if b then lit "True" else lit "False")).
Lemma rest_read module ty b : yang_identifier module -> type_ref ty ->
  strings_read [lit ", defining_module="; lit ", yang_type="] (after_ns module ty b) = Some ([module; ty], lit ", is_config=" ++ if b then lit "True" else lit "False").
Proof.
  intros Hm Ht. destruct (id_clean _ Hm) as [M1 M2]. destruct (type_clean _ Ht) as [T1 T2]. unfold after_ns.
  unfold strings_read. rewrite argument_clean; [|assumption|assumption|nq]. rewrite argument_clean; [reflexivity|assumption|assumption|]. nq.
Qed.
Lemma args_any ns v module ty b : argument (lit ", namespace=") (lit ", namespace=" ++ 39%N :: ns ++ 39%N :: after_ns module ty b) = Doc v (after_ns module ty b) -> yang_identifier module -> type_ref ty ->
  arguments_read ns module ty b = Some ([v; module; ty], lit ", is_config=" ++ if b then lit "True" else lit "False").
Proof.
  intros E Hm Ht. unfold arguments_read. rewrite args_shape. fold (after_ns module ty b).
  change (strings_read [lit ", namespace="; lit ", defining_module="; lit ", yang_type="] (lit ", namespace=" ++ 39%N :: ns ++ 39%N :: after_ns module ty b)) with
    (match argument (lit ", namespace=") (lit ", namespace=" ++ 39%N :: ns ++ 39%N :: after_ns module ty b) with
     | Doc v s' => match strings_read [lit ", defining_module="; lit ", yang_type="] s' with Some (vs, t) => Some (v :: vs, t) | None => None end
     | _ => None end).
  rewrite E, (rest_read module ty b Hm Ht). reflexivity.
Qed.
Lemma after_quote module ty b : ~ starts_quote (after_ns module ty b).
Proof. unfold after_ns. nq. Qed.

Lemma class_shape name ns : class_vars_text name ns = lit "  _yang_name = " ++ 39%N :: name ++ 39%N :: ((nl ++ lit "  _yang_namespace = ") ++ 39%N :: ns ++ 39%N :: nl).
Proof. unfold class_vars_text. change (lit "  _yang_name = '") with (lit "  _yang_name = " ++ [39%N]). change (lit "  _yang_namespace = '") with (lit "  _yang_namespace = " ++ [39%N]). change (lit "'") with [39%N]. rewrite <- !app_assoc. reflexivity. Qed.
Lemma nl_quote : ~ starts_quote nl.
Proof. intros (t & E). discriminate. Qed.
Lemma class_any name ns v : yang_identifier name -> argument (nl ++ lit "  _yang_namespace = ") ((nl ++ lit "  _yang_namespace = ") ++ 39%N :: ns ++ 39%N :: nl) = Doc v nl ->
  class_vars_read name ns = Some ([name; v], nl).
Proof.
  intros Hn E. destruct (id_clean _ Hn) as [M1 M2]. unfold class_vars_read. rewrite class_shape. unfold strings_read.
  rewrite argument_clean; [rewrite E; reflexivity|assumption|assumption|]. nq.
Qed.

Lemma clean_thm name ns module ty b : yang_identifier name -> yang_identifier module -> type_ref ty -> uri ns -> ~ In apostrophe ns ->
  arguments_read ns module ty b = Some ([ns; module; ty], lit ", is_config=" ++ if b then lit "True" else lit "False") /\ class_vars_read name ns = Some ([name; ns], [10%N]).
Proof.
  intros Hn Hm Ht Hu Ha. destruct (uri_all _ Hu) as [U1 U2]. pose proof (uri_clean _ U2 Ha) as U3.
  split; [apply args_any; [apply argument_clean; [assumption|assumption|apply after_quote]|assumption|assumption]|]. apply class_any; [assumption|]. apply argument_clean; [assumption|assumption|exact nl_quote].
Qed.
Lemma pairs_thm name ps module ty b : yang_identifier name -> yang_identifier module -> type_ref ty -> ps <> [] -> Forall (fun p => p <> [] /\ ~ In apostrophe p /\ Forall (fun x => uri_char x = true) p) ps ->
  arguments_read (with_pairs ps) module ty b = Some ([concat ps; module; ty], lit ", is_config=" ++ if b then lit "True" else lit "False") /\ class_vars_read name (with_pairs ps) = Some ([name; concat ps], [10%N]).
Proof.
  intros Hn Hm Ht Hp Hu. assert (U : Forall (fun p => p <> [] /\ clean p) ps).
  { eapply Forall_impl; [|exact Hu]. intros p (H1 & H2 & H3). split; [assumption|]. apply uri_clean; assumption. }
  split; [apply args_any; [apply argument_pairs; [assumption|assumption|apply after_quote]|assumption|assumption]|]. apply class_any; [assumption|]. apply argument_pairs; [assumption|assumption|exact nl_quote].
Qed.
(** One apostrophe: the literal ends there. *)
Lemma single_thm a c b module ty cfg : uri a -> ~ In apostrophe a -> c <> apostrophe ->
  argument (lit ", namespace=") (arguments_text (a ++ apostrophe :: c :: b) module ty cfg) = Doc a (c :: b ++ apostrophe :: after_ns module ty cfg).
Proof.
  intros Hu Ha Hc. destruct (uri_all _ Hu) as [U1 U2]. rewrite args_shape. fold (after_ns module ty cfg).
  replace ((a ++ apostrophe :: c :: b) ++ 39%N :: after_ns module ty cfg) with (a ++ 39%N :: (c :: b ++ apostrophe :: after_ns module ty cfg)) by (rewrite <- app_assoc; reflexivity).
  apply argument_clean; [assumption|apply uri_clean; assumption|]. intros (t & E). injection E as E _. contradiction.
Qed.
