(** Lemmas about the literals of lists and references. *)
From Coq Require Import String Lia.
From Verif Require Import PyStr PyStr_facts PyVal Restricted Defaults Docs SafeName Spec_Names Names_proofs Spec_Keysep ListLiterals Spec_ListLiterals.
Import ListNotations.
Local Open Scope list_scope.

Definition key_head : str := lit "base=YANGListType(".
Definition list_heads (ty : str) (user : bool) : list (str * N) :=
  [(lit "," ++ ty ++ lit ", yang_name=", 34%N);
   (lit ", parent=self, is_container='list', user_ordered=" ++ py_bool user ++ lit ", path_helper=self._path_helper, yang_keys=", 39%N)].
Definition clean_for (q : N) (s : str) : Prop := Forall (fun c => c <> q /\ c <> 10 /\ c <> 13 /\ c <> 0 /\ c <> 92)%N s.
Definition lined_for (q : N) (s : str) : Prop := Forall (fun c => c <> q /\ c <> 0 /\ c <> 92)%N s /\ exists c, In c s /\ line_end c.

Lemma one_clean q : forall s fuel acc code, clean_for q s -> length s < fuel -> one_string q fuel (s ++ q :: code) acc = Doc (rev acc ++ s) code.
Proof.
  induction s as [|c s IH]; intros fuel acc code Hc Hf; (destruct fuel as [|fuel]; [cbn in Hf; lia|]); cbn [app one_string].
  - rewrite N.eqb_refl, app_nil_r. reflexivity.
  - inversion Hc as [|? ? (H1 & H2 & H3 & H4 & H5) Hc']; subst. rewrite (proj2 (N.eqb_neq _ _) H1), (proj2 (N.eqb_neq _ _) H2), (proj2 (N.eqb_neq _ _) H3), (proj2 (N.eqb_neq _ _) H4), (proj2 (N.eqb_neq _ _) H5).
    cbn [orb]. rewrite IH; [|assumption|cbn in Hf; lia]. cbn [rev]. rewrite <- app_assoc. reflexivity.
Qed.
Lemma one_lined q : forall s fuel acc code, lined_for q s -> length s < fuel -> one_string q fuel (s ++ code) acc = DBad.
Proof.
  induction s as [|c s IH]; intros fuel acc code [Hc (x & Hx & Lx)] Hf; [destruct Hx|]. destruct fuel as [|fuel]; [cbn in Hf; lia|]. cbn [app one_string].
  inversion Hc as [|? ? (H1 & H2 & H3) Hc']; subst. rewrite (proj2 (N.eqb_neq _ _) H1), (proj2 (N.eqb_neq _ _) H2), (proj2 (N.eqb_neq _ _) H3), Bool.orb_false_r.
  destruct (N.eqb_spec c 10) as [E|N10]; [reflexivity|]. destruct (N.eqb_spec c 13) as [E|N13]; [reflexivity|]. cbn [orb]. apply IH; [|cbn in Hf; lia]. split; [exact Hc'|].
  exists x. split; [|exact Lx]. destruct Hx as [->|Hx]; [destruct Lx; contradiction|exact Hx].
Qed.
Lemma starts_app h t : startswith h (h ++ t) = true.
Proof. induction h as [|c h IH]; [reflexivity|]. cbn [app startswith]. rewrite N.eqb_refl. exact IH. Qed.
Lemma no_two q s code : s <> [] -> Forall (fun c => c <> q) s -> startswith [q; q] (s ++ code) = false.
Proof.
  destruct s as [|c s]; [contradiction|]. intros _ H. inversion H; subst. cbn [app startswith]. destruct (N.eqb_spec q c) as [E|E]; [symmetry in E; contradiction|reflexivity].
Qed.
Lemma segment_head h q s : segment h q (h ++ q :: s) =
  if startswith [q; q] s then DUnknown else match one_string q (S (length s)) s [] with Doc v (c :: t) => if (N.eqb c 34 || N.eqb c 39)%bool then DUnknown else Doc v (c :: t) | r => r end.
Proof.
  unfold segment. replace (h ++ q :: s) with ((h ++ [q]) ++ s) by (rewrite <- app_assoc; reflexivity). rewrite starts_app.
  replace (S (length h)) with (length (h ++ [q])) by (rewrite app_length; cbn; lia). rewrite skipn_app, skipn_all, Nat.sub_diag. reflexivity.
Qed.
Lemma segment_clean h q s c t : s <> [] -> clean_for q s -> c <> 34%N -> c <> 39%N -> segment h q (h ++ q :: s ++ q :: c :: t) = Doc s (c :: t).
Proof.
  intros H1 H2 H3 H4. rewrite segment_head, no_two; [|assumption|eapply Forall_impl; [|exact H2]; cbn; tauto].
  rewrite one_clean; [|assumption|rewrite app_length; cbn; lia]. rewrite (proj2 (N.eqb_neq _ _) H3), (proj2 (N.eqb_neq _ _) H4). reflexivity.
Qed.
Lemma segment_lined h q s t : lined_for q s -> segment h q (h ++ q :: s ++ t) = DBad.
Proof.
  intros H. assert (Hn : s <> []) by (destruct H as [_ (x & Hx & _)]; destruct s; [destruct Hx|discriminate]).
  rewrite segment_head, no_two; [|assumption|destruct H as [H _]; eapply Forall_impl; [|exact H]; cbn; tauto]. rewrite one_lined; [reflexivity|assumption|rewrite app_length; lia].
Qed.

(* ------------------------------------------------------------------ which texts are clean *)
Lemma char_not (f : N -> bool) l c x : forallb (fun c => negb (f c)) l = true -> f c = true -> In x l -> c <> x.
Proof. intros H Hc Hx E. subst x. pose proof (proj1 (forallb_forall _ _) H c Hx) as K. cbn beta in K. rewrite Hc in K. discriminate. Qed.
Lemma path_bad : forallb (fun c => negb (path_char c)) [34; 39; 0; 92; 10; 13]%N = true. Proof. vm_compute. reflexivity. Qed.
Lemma path_ok c : path_char c = true -> (c <> 34 /\ c <> 39 /\ c <> 10 /\ c <> 13 /\ c <> 0 /\ c <> 92)%N.
Proof. intros H. repeat split; apply (char_not path_char _ c _ path_bad H); cbn; tauto. Qed.
Lemma yang_path c : yang_char c = true -> path_char c = true. Proof. unfold path_char. intros ->. reflexivity. Qed.
Lemma space_path c : yang_space c -> path_char c = true \/ line_end c.
Proof. intros [<-|[<-|[<-|[<-|[]]]]]; [left; reflexivity|left; reflexivity|right; now left|right; now right]. Qed.
Lemma start_char c : yang_start c = true -> yang_char c = true.
Proof. unfold yang_start, yang_char. intros H. apply Bool.orb_true_iff in H. destruct H as [H|H]; rewrite H; rewrite ?Bool.orb_true_r; reflexivity. Qed.
Lemma id_chars s : yang_identifier s -> s <> [] /\ Forall (fun c => path_char c = true) s.
Proof. intros (c & s' & -> & Hc & Hs). split; [discriminate|]. constructor; [apply yang_path, start_char; assumption|]. eapply Forall_impl; [|exact Hs]. intros a Ha. now apply yang_path. Qed.
Lemma path_clean q s : q = 34%N \/ q = 39%N -> Forall (fun c => path_char c = true) s -> clean_for q s.
Proof. intros Hq H. eapply Forall_impl; [|exact H]. intros c Hc. destruct (path_ok c Hc) as (A & B & C & D & E & F). destruct Hq as [-> | ->]; auto. Qed.
Lemma lines_lined q s : q = 34%N \/ q = 39%N -> path_lines s -> lined_for q s.
Proof.
  intros Hq [H L]. split; [|exact L]. eapply Forall_impl; [|exact H]. intros c [Hc|Hc]; [destruct (path_ok c Hc) as (A & B & C & D & E & F); destruct Hq as [-> | ->]; auto|].
  destruct Hc as [-> | ->], Hq as [-> | ->]; repeat split; discriminate.
Qed.

Lemma key_arg_ne k more : k <> [] -> key_arg k more <> [].
Proof. intros H. destruct more as [|[s k'] more]; cbn [key_arg]; [exact H|]. destruct k; [contradiction|discriminate]. Qed.
Lemma key_arg_all (P : N -> Prop) more : forall k, Forall P k -> Forall (fun p => Forall P (fst p) /\ Forall P (snd p)) more -> Forall P (key_arg k more).
Proof.
  induction more as [|[s k'] more IH]; intros k Hk H; [exact Hk|]. inversion H as [|? ? [H1 H2] H']; subst. cbn [key_arg]. apply Forall_app. split; [exact Hk|]. apply Forall_app. split; [exact H1|]. now apply IH.
Qed.
Lemma key_arg_line more : forall k, over_lines more -> exists c, In c (key_arg k more) /\ line_end c.
Proof.
  induction more as [|[s k'] more IH]; intros k H; [inversion H|]. cbn [key_arg]. inversion H as [? ? E|? ? E]; subst.
  - cbn [fst] in E. apply Exists_exists in E. destruct E as (c & Hc & L). exists c. split; [|exact L]. apply in_or_app. right. apply in_or_app. now left.
  - destruct (IH k' E) as (c & Hc & L). exists c. split; [|exact L]. apply in_or_app. right. apply in_or_app. now right.
Qed.
Lemma key_clean k more : Forall yang_identifier (k :: map snd more) -> Forall (fun p => separator (fst p)) more -> on_a_line more ->
  key_arg k more <> [] /\ Forall (fun c => path_char c = true) (key_arg k more).
Proof.
  intros Hi Hs Ho. inversion Hi as [|? ? Hk Hm]; subst. destruct (id_chars _ Hk) as [K1 K2]. split; [now apply key_arg_ne|]. apply key_arg_all; [exact K2|].
  apply Forall_forall. intros p Hp. unfold on_a_line in Ho. rewrite Forall_forall in Hm, Hs, Ho. split; [|apply id_chars, Hm, in_map, Hp].
  destruct (Hs p Hp) as [_ S]. pose proof (Ho p Hp) as L. apply Forall_forall. intros c Hc. rewrite Forall_forall in S, L. destruct (space_path c (S c Hc)) as [E|E]; [exact E|destruct (L c Hc E)].
Qed.
Lemma key_lines k more : Forall yang_identifier (k :: map snd more) -> Forall (fun p => separator (fst p)) more -> over_lines more -> path_lines (key_arg k more).
Proof.
  intros Hi Hs Ho. split; [|now apply key_arg_line]. inversion Hi as [|? ? Hk Hm]; subst. apply key_arg_all; [eapply Forall_impl; [|exact (proj2 (id_chars _ Hk))]; cbn; tauto|].
  apply Forall_forall. intros p Hp. rewrite Forall_forall in Hm, Hs. split; [|eapply Forall_impl; [|apply id_chars, Hm, in_map, Hp]; cbn; tauto].
  eapply Forall_impl; [|exact (proj2 (Hs p Hp))]. intros c. apply space_path.
Qed.
Lemma safe_all (P : N -> Prop) s : P 95%N -> Forall P s -> Forall P (safe_name s).
Proof.
  intros H95 H. assert (U : Forall P (underscored s)). { apply Forall_map. eapply Forall_impl; [|exact H]. intros c Hc. cbn beta. destruct (_ || _)%bool; assumption. }
  rewrite safe_name_unfold. destruct (str_in _ _); [|exact U]. apply Forall_app. split; [exact U|repeat constructor; exact H95].
Qed.
Lemma safe_ne s : s <> [] -> safe_name s <> [].
Proof.
  intros H. rewrite safe_name_unfold. destruct s as [|c s]; [contradiction|]. unfold underscored. cbn [map]. destruct (str_in _ _); [|discriminate]. cbn [app]. discriminate.
Qed.
Lemma safe_line s c : In c s -> line_end c -> In c (safe_name s).
Proof.
  intros H L. assert (U : In c (underscored s)). { unfold underscored. apply in_map_iff. exists c. split; [|exact H]. destruct L as [-> | ->]; reflexivity. }
  rewrite safe_name_unfold. destruct (str_in _ _); [|exact U]. apply in_or_app. now left.
Qed.

(* ------------------------------------------------------------------ lists *)
Lemma list_shape k ty name user more : list_text (Some k) ty name user more =
  key_head ++ 34%N :: safe_name k ++ 34%N :: 44%N :: (ty ++ lit ", yang_name=" ++ 34%N :: name ++ 34%N ::
    44%N :: (lit " parent=self, is_container='list', user_ordered=" ++ py_bool user ++ lit ", path_helper=self._path_helper, yang_keys=" ++ 39%N :: k ++ 39%N :: 44%N :: (lit " extensions=" ++ more))).
Proof.
  unfold list_text, key_head. rewrite <- !app_assoc. cbn [app]. do 3 f_equal.
Qed.
Lemma list_thm k more ty name user rest : Forall yang_identifier (k :: map snd more) -> Forall (fun p => separator (fst p)) more -> on_a_line more -> yang_identifier name ->
  segments ((key_head, 34%N) :: list_heads ty user) (list_text (Some (key_arg k more)) ty name user rest) =
    Some ([safe_name (key_arg k more); name; key_arg k more], lit ", extensions=" ++ rest).
Proof.
  intros Hi Hs Ho Hn. destruct (key_clean k more Hi Hs Ho) as [K1 K2]. destruct (id_chars _ Hn) as [N1 N2]. rewrite list_shape. unfold list_heads. cbn [segments].
  rewrite segment_clean; [|now apply safe_ne|apply path_clean; [now left|apply safe_all; [reflexivity|exact K2]]|discriminate|discriminate].
  replace (44%N :: (ty ++ lit ", yang_name=" ++ 34%N :: name ++ 34%N :: 44%N :: (lit " parent=self, is_container='list', user_ordered=" ++ py_bool user ++ lit ", path_helper=self._path_helper, yang_keys=" ++ 39%N :: key_arg k more ++ 39%N :: 44%N :: (lit " extensions=" ++ rest))))
    with ((lit "," ++ ty ++ lit ", yang_name=") ++ 34%N :: name ++ 34%N :: 44%N :: (lit " parent=self, is_container='list', user_ordered=" ++ py_bool user ++ lit ", path_helper=self._path_helper, yang_keys=" ++ 39%N :: key_arg k more ++ 39%N :: 44%N :: (lit " extensions=" ++ rest)))
    by (rewrite <- !app_assoc; reflexivity).
  rewrite segment_clean; [|exact N1|apply path_clean; [now left|exact N2]|discriminate|discriminate].
  replace (44%N :: (lit " parent=self, is_container='list', user_ordered=" ++ py_bool user ++ lit ", path_helper=self._path_helper, yang_keys=" ++ 39%N :: key_arg k more ++ 39%N :: 44%N :: (lit " extensions=" ++ rest)))
    with ((lit ", parent=self, is_container='list', user_ordered=" ++ py_bool user ++ lit ", path_helper=self._path_helper, yang_keys=") ++ 39%N :: key_arg k more ++ 39%N :: 44%N :: (lit " extensions=" ++ rest))
    by (rewrite <- !app_assoc; reflexivity).
  rewrite segment_clean; [|exact K1|apply path_clean; [now right|exact K2]|discriminate|discriminate]. reflexivity.
Qed.
Lemma lines_thm k more ty name user rest : Forall yang_identifier (k :: map snd more) -> Forall (fun p => separator (fst p)) more -> over_lines more ->
  segment key_head 34 (list_text (Some (key_arg k more)) ty name user rest) = DBad.
Proof.
  intros Hi Hs Ho. rewrite list_shape. apply segment_lined. apply lines_lined; [now left|]. destruct (key_lines k more Hi Hs Ho) as [H (c & Hc & L)].
  split; [apply safe_all; [left; reflexivity|exact H]|]. exists c. split; [now apply safe_line|exact L].
Qed.

(* ------------------------------------------------------------------ references *)
Lemma ref_thm ty path name req : path_text path -> yang_identifier name ->
  segments [(lit "base=" ++ ty ++ lit "(referenced_path=", 39%N); (lit ", caller=self._path() + [", 39%N)] (ref_text ty path name req) =
    Some ([path; name], lit "], path_helper=self._path_helper, require_instance=" ++ py_bool req ++ lit ")").
Proof.
  intros [P1 P2] Hn. destruct (id_chars _ Hn) as [N1 N2]. cbn [segments].
  replace (ref_text ty path name req) with ((lit "base=" ++ ty ++ lit "(referenced_path=") ++ 39%N :: path ++ 39%N :: 44%N :: (lit " caller=self._path() + [" ++ 39%N :: name ++ 39%N :: 93%N :: (lit ", path_helper=self._path_helper, require_instance=" ++ py_bool req ++ lit ")")))
    by (unfold ref_text; rewrite <- !app_assoc; reflexivity).
  rewrite segment_clean; [|exact P1|apply path_clean; [now right|exact P2]|discriminate|discriminate].
  replace (44%N :: (lit " caller=self._path() + [" ++ 39%N :: name ++ 39%N :: 93%N :: (lit ", path_helper=self._path_helper, require_instance=" ++ py_bool req ++ lit ")")))
    with (lit ", caller=self._path() + [" ++ 39%N :: name ++ 39%N :: 93%N :: (lit ", path_helper=self._path_helper, require_instance=" ++ py_bool req ++ lit ")")) by reflexivity.
  rewrite segment_clean; [|exact N1|apply path_clean; [now right|exact N2]|discriminate|discriminate]. reflexivity.
Qed.
Lemma refs_thm lty ty path name req : path_text path -> yang_identifier name ->
  segments [(lit "base=" ++ lty ++ lit "(allowed_type=" ++ ty ++ lit "(referenced_path=", 39%N); (lit ",caller=self._path() + [", 39%N)] (refs_text lty ty path name req) =
    Some ([path; name], lit "], path_helper=self._path_helper, require_instance=" ++ py_bool req ++ lit "))").
Proof.
  intros [P1 P2] Hn. destruct (id_chars _ Hn) as [N1 N2]. cbn [segments].
  replace (refs_text lty ty path name req) with ((lit "base=" ++ lty ++ lit "(allowed_type=" ++ ty ++ lit "(referenced_path=") ++ 39%N :: path ++ 39%N :: 44%N :: (lit "caller=self._path() + [" ++ 39%N :: name ++ 39%N :: 93%N :: (lit ", path_helper=self._path_helper, require_instance=" ++ py_bool req ++ lit "))")))
    by (unfold refs_text; rewrite <- !app_assoc; reflexivity).
  rewrite segment_clean; [|exact P1|apply path_clean; [now right|exact P2]|discriminate|discriminate].
  replace (44%N :: (lit "caller=self._path() + [" ++ 39%N :: name ++ 39%N :: 93%N :: (lit ", path_helper=self._path_helper, require_instance=" ++ py_bool req ++ lit "))")))
    with (lit ",caller=self._path() + [" ++ 39%N :: name ++ 39%N :: 93%N :: (lit ", path_helper=self._path_helper, require_instance=" ++ py_bool req ++ lit "))")) by reflexivity.
  rewrite segment_clean; [|exact N1|apply path_clean; [now right|exact N2]|discriminate|discriminate]. reflexivity.
Qed.
Lemma ref_lines ty path name req : path_lines path -> segment (lit "base=" ++ ty ++ lit "(referenced_path=") 39 (ref_text ty path name req) = DBad.
Proof.
  intros H. replace (ref_text ty path name req) with ((lit "base=" ++ ty ++ lit "(referenced_path=") ++ 39%N :: path ++ (39%N :: lit ", caller=self._path() + [" ++ 39%N :: name ++ 39%N :: 93%N :: (lit ", path_helper=self._path_helper, require_instance=" ++ py_bool req ++ lit ")")))
    by (unfold ref_text; rewrite <- !app_assoc; reflexivity).
  apply segment_lined, lines_lined; [now right|exact H].
Qed.
Lemma refs_lines lty ty path name req : path_lines path -> segment (lit "base=" ++ lty ++ lit "(allowed_type=" ++ ty ++ lit "(referenced_path=") 39 (refs_text lty ty path name req) = DBad.
Proof.
  intros H. replace (refs_text lty ty path name req) with ((lit "base=" ++ lty ++ lit "(allowed_type=" ++ ty ++ lit "(referenced_path=") ++ 39%N :: path ++ (39%N :: lit ",caller=self._path() + [" ++ 39%N :: name ++ 39%N :: 93%N :: (lit ", path_helper=self._path_helper, require_instance=" ++ py_bool req ++ lit "))")))
    by (unfold refs_text; rewrite <- !app_assoc; reflexivity).
  apply segment_lined, lines_lined; [now right|exact H].
Qed.
