(** A tree with a path helper: what is registered. *)
From Coq Require Import Lia Permutation.
From Verif Require Import PyStr PyStr_facts PyVal PathHelper Spec_Path RegTree Spec_RegTree PathText_proofs PathHelper_proofs PathSim_proofs.
Import ListNotations.

Lemma rschema_ind' (P : rschema -> Prop) : (forall n v0, P (RLeaf n v0)) -> (forall n, P (RLeafList n)) ->
  (forall n cs, (forall s, In s cs -> P s) -> P (RCont n cs)) -> (forall n keys cs, (forall s, In s cs -> P s) -> P (RList n keys cs)) -> forall s, P s.
Proof.
  intros H1 H2 H3 H4. fix IH 1. intros [n v0|n|n cs|n keys cs]; [apply H1|apply H2|apply H3|apply H4].
  - revert cs. fix IHl 1. intros [|s cs] s' Hi; [destruct Hi|]. destruct Hi as [E|Hi]; [rewrite <- E; apply IH|exact (IHl cs s' Hi)].
  - revert cs. fix IHl 1. intros [|s cs] s' Hi; [destruct Hi|]. destruct Hi as [E|Hi]; [rewrite <- E; apply IH|exact (IHl cs s' Hi)].
Qed.

Lemma set_nth_length {A} n (x : A) l : length (set_nth n x l) = length l.
Proof. revert n. induction l as [|a l IH]; intros [|n]; cbn; auto. Qed.
Lemma set_nth_same {A} n (x : A) l : (n < length l)%nat -> nth_error (set_nth n x l) n = Some x.
Proof. revert n. induction l as [|a l IH]; intros [|n] H; cbn in *; try lia; auto. apply IH. lia. Qed.
Lemma set_nth_other {A} n m (x : A) l : n <> m -> nth_error (set_nth n x l) m = nth_error l m.
Proof. revert n m. induction l as [|a l IH]; intros [|n] [|m] H; cbn; try congruence; auto. Qed.
Lemma Forall2_set {A B} (R : A -> B -> Prop) l l' n a b : Forall2 R l l' -> nth_error l n = Some a -> R a b -> Forall2 R l (set_nth n b l').
Proof.
  intros H. revert n. induction H as [|x y l l' Hxy H IH]; intros [|n] E Hb; cbn in *; try discriminate.
  - injection E as ->. now constructor.
  - constructor; auto.
Qed.
Lemma Forall2_nth {A B} (R : A -> B -> Prop) l l' n a : Forall2 R l l' -> nth_error l n = Some a -> exists b, nth_error l' n = Some b /\ R a b.
Proof.
  intros H. revert n. induction H as [|x y l l' Hxy H IH]; intros [|n] E; cbn in *; try discriminate.
  - injection E as ->. eauto.
  - auto.
Qed.
Lemma nth_inj {A} (l : list A) i j a : NoDup l -> nth_error l i = Some a -> nth_error l j = Some a -> i = j.
Proof. intros H Hi Hj. apply (proj1 (NoDup_nth_error l) H); [apply nth_error_Some; congruence|congruence]. Qed.
Lemma name_inj cs i j s s' : NoDup (map r_name cs) -> nth_error cs i = Some s -> nth_error cs j = Some s' -> r_name s = r_name s' -> i = j.
Proof.
  intros H Hi Hj E. apply (nth_inj (map r_name cs) i j (r_name s) H); [now rewrite nth_error_map, Hi|]. rewrite nth_error_map, Hj. cbn. now rewrite E.
Qed.
Lemma name_same cs s s' : NoDup (map r_name cs) -> In s cs -> In s' cs -> r_name s = r_name s' -> s = s'.
Proof.
  intros H Hi Hj E. apply In_nth_error in Hi as (i & Hi). apply In_nth_error in Hj as (j & Hj). rewrite (name_inj cs i j s s' H Hi Hj E) in Hi. congruence.
Qed.
Lemma named_in cs s : NoDup (map r_name cs) -> In s cs -> named (r_name s) cs = Some s.
Proof.
  intros Hd Hs. unfold named. destruct (find _ cs) as [s'|] eqn:E.
  - apply find_some in E as [Hi E]. apply str_eqb_eq in E. f_equal. symmetry. now apply (name_same cs).
  - apply (List.find_none _ _ E) in Hs. now rewrite str_eqb_refl in Hs.
Qed.

(* ------------------------------------------------------------------ in_tree, child by child *)
Lemma in_tree_nth cs kids r o : in_tree cs kids r o <-> exists i s x, nth_error cs i = Some s /\ nth_error kids i = Some x /\ in_tree [s] [x] r o.
Proof.
  split.
  - intros H. inversion H; subst; eexists _, _, _; (split; [eassumption|]); (split; [eassumption|]).
    + eapply (in_leaf _ _ 0); reflexivity.
    + eapply (in_leaf_list _ _ 0); reflexivity.
    + eapply (in_cont _ _ 0); reflexivity.
    + eapply (in_cont_below _ _ 0); [reflexivity|reflexivity|eassumption].
    + eapply (in_entry _ _ 0); [reflexivity|reflexivity|eassumption].
    + eapply (in_entry_below _ _ 0); [reflexivity|reflexivity|eassumption|eassumption].
  - intros (i & s & x & Hs & Hx & H).
    assert (Z : forall {B} j (a b : B), nth_error [a] j = Some b -> a = b) by (intros B [|j] a b E; [now injection E|destruct j; discriminate]).
    inversion H as [? ? j ? ? ? E1 E2|? ? j ? ? E1 E2|? ? j ? ? ? ? E1 E2|? ? j ? ? ? ? ? ? E1 E2 Hb|? ? j ? ? ? ? ? ? ? E1 E2 Hb|? ? j ? ? ? ? ? ? ? ? ? E1 E2 Hb Hc]; subst; apply Z in E1, E2; subst.
    + eapply in_leaf; eassumption.
    + eapply in_leaf_list; eassumption.
    + eapply in_cont; eassumption.
    + eapply in_cont_below; eassumption.
    + eapply in_entry; eassumption.
    + eapply in_entry_below; eassumption.
Qed.
Lemma in_one s x r o : in_tree [s] [x] r o -> exists d r', r = (r_name s, d) :: r'.
Proof.
  intros H. assert (Z : forall {B} j (a b : B), nth_error [a] j = Some b -> a = b) by (intros B [|j] a b E; [now injection E|destruct j; discriminate]).
  inversion H; subst; match goal with E : nth_error [s] _ = Some _ |- _ => apply Z in E; subst s end; cbn [r_name]; eauto.
Qed.
Lemma in_one_leaf n v0 v r o : in_tree [RLeaf n v0] [TLeaf v] r o -> r = [(n, [])] /\ o = PLeaf v.
Proof.
  intros H. assert (Z : forall {B} j (a b : B), nth_error [a] j = Some b -> a = b) by (intros B [|j] a b E; [now injection E|destruct j; discriminate]).
  inversion H; subst; match goal with E : nth_error [RLeaf _ _] _ = Some _, F : nth_error [TLeaf _] _ = Some _ |- _ => apply Z in E, F; try discriminate E; injection E as -> ->; injection F as -> end. now split.
Qed.
Lemma in_one_leaf_list n id r o : in_tree [RLeafList n] [TLeafList id] r o -> r = [(n, [])] /\ o = PLeafList id.
Proof.
  intros H. assert (Z : forall {B} j (a b : B), nth_error [a] j = Some b -> a = b) by (intros B [|j] a b E; [now injection E|destruct j; discriminate]).
  inversion H; subst; match goal with E : nth_error [RLeafList _] _ = Some _, F : nth_error [TLeafList _] _ = Some _ |- _ => apply Z in E, F; try discriminate E; injection E as ->; injection F as -> end. now split.
Qed.
Lemma in_one_cont n cs id kids r o : in_tree [RCont n cs] [TCont id kids] r o -> (r = [(n, [])] /\ o = PNode id) \/ exists r', r = (n, []) :: r' /\ in_tree cs kids r' o.
Proof.
  intros H. assert (Z : forall {B} j (a b : B), nth_error [a] j = Some b -> a = b) by (intros B [|j] a b E; [now injection E|destruct j; discriminate]).
  inversion H; subst; match goal with E : nth_error [RCont _ _] _ = Some _, F : nth_error [TCont _ _] _ = Some _ |- _ => apply Z in E, F; try discriminate E; injection E; injection F; intros; subst end; [left; now split|right; eauto].
Qed.
Lemma in_one_list n keys cs es r o : in_tree [RList n keys cs] [TList es] r o -> exists ks id ekids, In (ks, (id, ekids)) es /\ ((r = [(n, combine keys ks)] /\ o = PNode id) \/ exists r', r = (n, combine keys ks) :: r' /\ in_tree cs ekids r' o).
Proof.
  intros H. assert (Z : forall {B} j (a b : B), nth_error [a] j = Some b -> a = b) by (intros B [|j] a b E; [now injection E|destruct j; discriminate]).
  inversion H; subst; match goal with E : nth_error [RList _ _ _] _ = Some _, F : nth_error [TList _] _ = Some _ |- _ => apply Z in E, F; try discriminate E; injection E; injection F; intros; subst end; eauto 10.
Qed.

(** The tree has the shape of the schema. *)
Inductive fits : rschema -> robj -> Prop :=
| fits_leaf n v0 v : fits (RLeaf n v0) (TLeaf v)
| fits_leaf_list n id : fits (RLeafList n) (TLeafList id)
| fits_cont n cs id kids : Forall2 fits cs kids -> fits (RCont n cs) (TCont id kids)
| fits_list n keys cs es : NoDup (map fst es) -> (forall ks id ekids, In (ks, (id, ekids)) es -> length ks = length keys /\ Forall key_text_ok ks /\ Forall2 fits cs ekids) ->
    fits (RList n keys cs) (TList es).

(* ------------------------------------------------------------------ texts *)
Lemma combine_fst {A B} (l : list A) (m : list B) : length m = length l -> map fst (combine l m) = l.
Proof. revert m. induction l as [|a l IH]; intros [|b m] H; cbn in *; try discriminate; [reflexivity|]. f_equal. apply IH. lia. Qed.
Lemma combine_snd {A B} (l : list A) (m : list B) : length m = length l -> map snd (combine l m) = m.
Proof. revert m. induction l as [|a l IH]; intros [|b m] H; cbn in *; try discriminate; [reflexivity|]. f_equal. apply IH. lia. Qed.
Lemma combine_inj {A B} (l : list A) (m m' : list B) : length m = length l -> length m' = length l -> combine l m = combine l m' -> m = m'.
Proof. intros H H' E. now rewrite <- (combine_snd l m H), E, combine_snd. Qed.
Definition quote_pred (kv : str * str) : pred := {| p_key := fst kv; p_val := snd kv; p_sign := false; p_quote := lit "'" |}.
Definition plain_pred (sign : bool) (kv : str * str) : pred := {| p_key := fst kv; p_val := snd kv; p_sign := sign; p_quote := [] |}.
Lemma text_ok_pred kv q sign : key_name_ok (fst kv) -> key_text_ok (snd kv) -> In q [[]; lit "'"; lit """"] -> pred_ok {| p_key := fst kv; p_val := snd kv; p_sign := sign; p_quote := q |}.
Proof.
  intros (H1 & H2 & H3) (T1 & T2 & T3 & T4 & T5) Hq. unfold pred_ok. cbn [p_key p_val p_quote].
  split; [destruct H1 as (c & r & -> & _); discriminate|]. split; [assumption|]. split; [assumption|]. split.
  - intros c Hc Hi. apply (T2 c Hc). clear -Hi. vm_compute in Hi. vm_compute. tauto.
  - split; [assumption|]. split; [assumption|]. intros _ Hc. apply (T2 _ Hc). vm_compute. tauto.
Qed.
Lemma combine_texts keys ks : length ks = length keys -> (forall k, In k keys -> key_name_ok k) -> Forall key_text_ok ks ->
  Forall (fun kv => key_name_ok (fst kv) /\ key_text_ok (snd kv)) (combine keys ks).
Proof.
  intros _ Hk Ht. apply Forall_forall. intros [k v] Hi. rewrite Forall_forall in Ht. split; [apply Hk; now apply in_combine_l in Hi|apply Ht; now apply in_combine_r in Hi].
Qed.
Lemma join_more {A} (f : A -> str) sep a l : join sep (map f (a :: l)) = f a ++ concat (map (fun b => sep ++ f b) l).
Proof.
  revert a. induction l as [|b l IH]; intros a; [cbn; now rewrite app_nil_r|]. cbn [map]. change (join sep (f a :: f b :: map f l)) with (f a ++ sep ++ join sep (map f (b :: l))). rewrite IH. cbn [concat map]. now rewrite <- !app_assoc.
Qed.
Lemma group_spells n (d : list (str * str)) (mk : str * str -> pred) : d <> [] -> (forall kv, p_key (mk kv) = fst kv /\ p_val (mk kv) = snd kv) -> Forall (fun kv => pred_ok (mk kv)) d ->
  spells (n ++ lit "[" ++ join (lit " ") (map (fun kv => pred_text (mk kv)) d) ++ lit "]") (n, d).
Proof.
  intros Hd Hmk Hok. destruct d as [|kv d]; [congruence|]. right. exists [(mk kv, map (fun x => (false, mk x)) d)]. split; [discriminate|]. cbn [fst snd]. split; [|split].
  - rewrite join_more. unfold element_text. cbn [map concat]. rewrite app_nil_r. unfold group_text. cbn [fst snd]. rewrite map_map. unfold more_text. cbn [fst snd]. now rewrite <- !app_assoc.
  - unfold pairs. cbn [flat_map group_preds fst snd map app]. rewrite app_nil_r, !map_map. cbn [snd]. destruct (Hmk kv) as [-> ->]. f_equal; [now destruct kv|].
    rewrite <- (map_id d) at 2. apply map_ext. intros x. destruct (Hmk x) as [-> ->]. now destruct x.
  - constructor; [|constructor]. inversion Hok as [|? ? H1 H2]; subst. constructor; [assumption|]. cbn [snd]. rewrite map_map. cbn [snd]. apply Forall_map. exact H2.
Qed.
Lemma key_part_spells n keys ks : length ks = length keys -> keys <> [] -> (forall k, In k keys -> key_name_ok k) -> Forall key_text_ok ks -> spells (n ++ key_part keys ks) (n, combine keys ks).
Proof.
  intros Hl Hne Hk Ht. unfold key_part.
  assert (E : map quoted (combine keys ks) = map (fun kv => pred_text (quote_pred kv)) (combine keys ks)).
  { apply map_ext. intros [k v]. unfold quoted, pred_text, quote_pred. cbn [fst snd p_sign p_key p_val p_quote app]. change (lit "='") with (lit "=" ++ lit "'"). now rewrite <- !app_assoc. }
  rewrite E. apply (group_spells n (combine keys ks) quote_pred).
  - destruct keys as [|k keys]; [congruence|]. destruct ks; [discriminate|]. discriminate.
  - intros kv. now split.
  - pose proof (combine_texts keys ks Hl Hk Ht) as H. revert H. apply Forall_impl. intros kv [H1 H2]. apply text_ok_pred; [assumption|assumption|cbn; tauto].
Qed.
Lemma rstrip_end a c : c <> 32%N -> rstrip_space (a ++ [c]) = a ++ [c].
Proof. intros H. unfold rstrip_space. rewrite rev_app_distr. cbn [rev app span]. destruct (N.eqb 32 c) eqn:E; [apply N.eqb_eq in E; congruence|]. cbn [snd rev]. now rewrite rev_involutive. Qed.
Lemma rstrip_one a c : c <> 32%N -> rstrip_space ((a ++ [c]) ++ lit " ") = a ++ [c].
Proof.
  intros H. unfold rstrip_space. rewrite !rev_app_distr. change (rev (lit " ")) with [32%N]. cbn [rev app span]. rewrite N.eqb_refl. destruct (N.eqb 32 c) eqn:E; [apply N.eqb_eq in E; congruence|]. cbn [snd rev]. now rewrite rev_involutive.
Qed.
Lemma unquoted_join l : l <> [] -> concat (map unquoted l) = join (lit " ") (map (fun kv => pred_text (plain_pred false kv)) l) ++ lit " ".
Proof.
  induction l as [|kv l IH]; [congruence|]. intros _. assert (U : unquoted kv = pred_text (plain_pred false kv) ++ lit " ").
  { destruct kv as [k v]. unfold unquoted, pred_text, plain_pred. cbn [fst snd p_sign p_key p_val p_quote app]. now rewrite <- !app_assoc. }
  destruct l as [|kv' l]; [cbn [map concat join]; now rewrite app_nil_r|].
  change (concat (map unquoted (kv :: kv' :: l))) with (unquoted kv ++ concat (map unquoted (kv' :: l))). rewrite IH by discriminate. rewrite U.
  change (join (lit " ") (map (fun kv => pred_text (plain_pred false kv)) (kv :: kv' :: l))) with (pred_text (plain_pred false kv) ++ lit " " ++ join (lit " ") (map (fun kv => pred_text (plain_pred false kv)) (kv' :: l))).
  now rewrite <- !app_assoc.
Qed.
Lemma last_text l : l <> [] -> Forall (fun kv => key_text_ok (snd kv)) l -> exists a c, join (lit " ") (map (fun kv => pred_text (plain_pred false kv)) l) = a ++ [c] /\ c <> 32%N.
Proof.
  intros Hne H. induction H as [|[k v] l (T1 & T2 & _) H IH]; [congruence|]. cbn [snd] in *. destruct l as [|kv l].
  - destruct (exists_last T1) as (v0 & c & ->). exists (k ++ lit "=" ++ v0), c. split.
    + cbn [map join]. unfold pred_text, plain_pred. cbn [fst snd p_sign p_key p_val p_quote app]. rewrite app_nil_r. now rewrite <- !app_assoc.
    + intros ->. apply (T2 32%N); [apply in_or_app; right; now left|vm_compute; tauto].
  - destruct (IH ltac:(discriminate)) as (a & c & E & Hc). exists (pred_text (plain_pred false (k, v)) ++ lit " " ++ a), c. split; [|assumption].
    cbn [map]. rewrite join_cons2. cbn [map] in E. rewrite E. now rewrite <- !app_assoc.
Qed.
Lemma split_on_texts c ws : ws <> [] -> Forall (fun w : str => ~ In c w) ws -> split_on c (join [c] ws) = ws.
Proof.
  intros Hne H. induction H as [|w ws Hw H IH]; [congruence|]. destruct ws as [|w' ws]; [now apply split_on_no|].
  rewrite join_cons2. cbn [app]. rewrite split_on_app by assumption. f_equal. now apply IH.
Qed.
Lemma delete_part_spells n keys ks : length ks = length keys -> keys <> [] -> (forall k, In k keys -> key_name_ok k) -> Forall key_text_ok ks -> spells (n ++ delete_part keys ks) (n, combine keys ks).
Proof.
  intros Hl Hne Hk Ht. pose proof (combine_texts keys ks Hl Hk Ht) as Hct. assert (Hc : combine keys ks <> []). { destruct keys as [|k keys]; [congruence|]. destruct ks; discriminate. }
  assert (Hks : ks <> []) by (intros ->; destruct keys; [congruence|discriminate]).
  assert (Hd : forall sign, Forall (fun kv => pred_ok (plain_pred sign kv)) (combine keys ks)).
  { intros sign. revert Hct. apply Forall_impl. intros kv [H1 H2]. apply text_ok_pred; [assumption|assumption|now left]. }
  destruct keys as [|k [|k' keys]]; [congruence| |].
  - destruct ks as [|v [|? ?]]; try discriminate. unfold delete_part. cbn [join combine]. pose proof (group_spells n [(k, v)] (plain_pred true)) as G. cbn [map join] in G. unfold pred_text in G. cbn [plain_pred fst snd p_sign p_key p_val p_quote] in G. rewrite app_nil_r in G. change (lit "[@") with (lit "[" ++ lit "@"). rewrite <- !app_assoc in G. rewrite <- !app_assoc. apply G; [discriminate|intros kv; now split|]. apply Hd.
  - unfold delete_part. cbn [fst]. remember (k :: k' :: keys) as keys1 eqn:Ek. change (lit " ") with [32%N].
    rewrite split_on_texts; [|assumption|revert Ht; apply Forall_impl; intros v (_ & T & _) Hi; apply (T _ Hi); vm_compute; tauto].
    rewrite unquoted_join by assumption. destruct (last_text (combine keys1 ks) Hc) as (a & c & E & Hcc); [revert Hct; apply Forall_impl; now intros kv [_ H]|].
    rewrite E. assert (E2 : rstrip_space (lit "[" ++ (a ++ [c]) ++ lit " ") = (lit "[" ++ a) ++ [c]). { rewrite app_assoc, (app_assoc (lit "[") a [c]). now apply rstrip_one. }
    rewrite E2, <- (app_assoc (lit "[") a [c]), <- E, <- app_assoc. apply (group_spells n (combine keys1 ks) (plain_pred false)); [assumption|intros kv; now split|apply Hd].
Qed.

(* ------------------------------------------------------------------ registration *)
Lemma schema_name s : schema_ok s -> xml_name (r_name s).
Proof. intros H. now inversion H. Qed.
Lemma keys_of_one cs s : NoDup (map r_name cs) -> In s cs -> keys_of cs [r_name s] = match s with RList _ keys _ => keys | _ => [] end.
Proof. intros Hd Hs. cbn [keys_of]. rewrite (named_in cs s Hd Hs). now destruct s. Qed.
Lemma keys_of_cont cs n cs' t : NoDup (map r_name cs) -> In (RCont n cs') cs -> keys_of cs (n :: t) = keys_of cs' t.
Proof. intros Hd Hs. cbn [keys_of]. pose proof (named_in cs _ Hd Hs) as E. cbn [r_name] in E. now rewrite E. Qed.
Lemma keys_of_list cs n keys cs' t : NoDup (map r_name cs) -> In (RList n keys cs') cs -> t <> [] -> keys_of cs (n :: t) = keys_of cs' t.
Proof. intros Hd Hs Ht. cbn [keys_of]. pose proof (named_in cs _ Hd Hs) as E. cbn [r_name] in E. rewrite E. destruct t; [congruence|reflexivity]. Qed.

Lemma plain_name_ok n : xml_name n -> name_ok (n, []).
Proof. intros H. split; [assumption|]. split; constructor. Qed.
Lemma entry_name_ok n keys ks : xml_name n -> NoDup keys -> (forall k, In k keys -> key_name_ok k) -> length ks = length keys -> Forall key_text_ok ks -> name_ok (n, combine keys ks).
Proof.
  intros Hn Hd Hk Hl Ht. split; [assumption|]. cbn [snd]. split; [now rewrite combine_fst|]. pose proof (combine_texts keys ks Hl Hk Ht) as H. revert H. apply Forall_impl. intros kv [(H1 & _ & H2) (_ & _ & _ & H3 & H4)]. auto.
Qed.
Lemma app_head {A} (q0 : list A) a b r r' : q0 ++ a :: r = q0 ++ b :: r' -> a = b /\ r = r'.
Proof. intros H. apply app_inv_head in H. injection H. auto. Qed.
Lemma app_not_self {A} (q0 : list A) a r : q0 <> q0 ++ a :: r.
Proof. intros H. rewrite <- (app_nil_r q0) in H at 1. apply app_inv_head in H. discriminate. Qed.
Lemma removelast_snoc {A} (l : list A) a : removelast (l ++ [a]) = l.
Proof. now rewrite removelast_app, app_nil_r by discriminate. Qed.

(* ------------------------------------------------------------------ entries of a list *)
Lemma texts_eqb_eq a b : texts_eqb a b = true <-> a = b.
Proof.
  revert b. induction a as [|x a IH]; intros [|y b]; cbn [texts_eqb]; try (split; congruence). rewrite andb_true_iff, str_eqb_eq, IH. split; [intros [-> ->]; reflexivity|intros E; injection E; auto].
Qed.
Lemma texts_eqb_neq a b : texts_eqb a b = false <-> a <> b.
Proof. rewrite <- texts_eqb_eq. destruct (texts_eqb a b); split; congruence. Qed.
Lemma entry_in {A} ks es (x : A) : entry ks es = Some x -> In (ks, x) es.
Proof.
  induction es as [|[k y] es IH]; cbn [entry]; [discriminate|]. destruct (texts_eqb k ks) eqn:E; [apply texts_eqb_eq in E; subst k; intros H; injection H as ->; now left|]. intros H. right. now apply IH.
Qed.
Lemma entry_none {A} ks (es : list (list str * A)) : entry ks es = None -> ~ In ks (map fst es).
Proof.
  induction es as [|[k y] es IH]; cbn [entry map fst]; [intros _ []|]. destruct (texts_eqb k ks) eqn:E; [discriminate|]. intros H [H1|H1]; [subst k; apply texts_eqb_neq in E; congruence|now apply IH].
Qed.
Lemma in_key {A} (es : list (list str * A)) k x y : NoDup (map fst es) -> In (k, x) es -> In (k, y) es -> x = y.
Proof.
  intros Hd Hx Hy. apply In_nth_error in Hx as (i & Hi), Hy as (j & Hj). assert (i = j); [|congruence]. apply (nth_inj (map fst es) i j k Hd); rewrite nth_error_map; [now rewrite Hi|now rewrite Hj].
Qed.
Lemma put_entry_in {A} ks (x : A) es k y : NoDup (map fst es) -> In (k, y) (put_entry ks x es) <-> (k = ks /\ y = x) \/ (k <> ks /\ In (k, y) es).
Proof.
  induction es as [|[k0 y0] es IH]; intros Hd; cbn [put_entry].
  - cbn [In]. split; [intros [E|[]]; injection E as <- <-; now left|intros [[-> ->]|[_ []]]; now left].
  - cbn [map fst] in Hd. inversion Hd as [|? ? Hni Hd']; subst. destruct (texts_eqb k0 ks) eqn:E.
    + apply texts_eqb_eq in E. subst k0. cbn [In]. split.
      * intros [E|H]; [injection E as <- <-; now left|]. right. split; [|now right]. intros ->. apply Hni. now apply (in_map fst) in H.
      * intros [[-> ->]|[Hne [E|H]]]; [now left|injection E; congruence|now right].
    + apply texts_eqb_neq in E. cbn [In]. rewrite (IH Hd'). split.
      * intros [H|[H|[H1 H2]]]; [injection H as <- <-; right; split; [assumption|now left]|now left|right; split; [assumption|now right]].
      * intros [H|[H1 [H2|H2]]]; [right; now left|now left|right; right; now split].
Qed.
Lemma put_entry_nodup {A} ks (x : A) es : NoDup (map fst es) -> NoDup (map fst (put_entry ks x es)).
Proof.
  induction es as [|[k0 y0] es IH]; intros Hd; cbn [put_entry map fst]; [constructor; [intros []|constructor]|]. cbn [map fst] in Hd. inversion Hd as [|? ? Hni Hd']; subst. destruct (texts_eqb k0 ks) eqn:E.
  - cbn [map fst]. now constructor.
  - cbn [map fst]. constructor; [|now apply IH]. intros H. apply in_map_iff in H as ([k y] & Ek & H). cbn [fst] in Ek. subst k0. apply put_entry_in in H; [|assumption]. apply texts_eqb_neq in E. destruct H as [[-> _]|[_ H]]; [congruence|]. apply Hni. now apply (in_map fst) in H.
Qed.
Lemma del_entry_in {A} ks (es : list (list str * A)) k y : In (k, y) (del_entry ks es) <-> k <> ks /\ In (k, y) es.
Proof. unfold del_entry. rewrite filter_In. cbn [fst]. rewrite negb_true_iff, texts_eqb_neq. tauto. Qed.
Lemma del_entry_nodup {A} ks (es : list (list str * A)) : NoDup (map fst es) -> NoDup (map fst (del_entry ks es)).
Proof.
  unfold del_entry. induction es as [|[k y] es IH]; intros Hd; cbn [filter fst]; [constructor|]. cbn [map fst] in Hd. inversion Hd as [|? ? Hni Hd']; subst. destruct (negb (texts_eqb k ks)); [|now apply IH]. cbn [map fst]. constructor; [|now apply IH].
  intros H. apply Hni. apply in_map_iff in H as (e & <- & H). apply filter_In in H as [H _]. now apply in_map.
Qed.

Section Registered.
Context (uid : nat -> str) (Huid : fresh uid) (top : list rschema).
Let K := keys_of top.
Definition winv (w : world) (M : objects (A := pobj)) : Prop := inv uid K (w_help w) M.
(** [path] is that of the place [q0], where [cs] are the children. *)
Definition ctx (q0 : place) (path : list str) (cs : list rschema) : Prop :=
  Forall2 spells path q0 /\ Forall name_ok q0 /\ keyed K [] q0 /\ forall n t, In n (map r_name cs) -> K (map fst q0 ++ n :: t) = keys_of cs (n :: t).
Definition present (M : objects (A := pobj)) (q0 : place) : Prop := q0 = [] \/ M q0 <> None.
Definition spelled_place (path : list str) (q : place) : Prop := Forall2 spells path q /\ place_ok K q.

Lemma ctx_node q0 path cs part n : ctx q0 path cs -> In (fst n) (map r_name cs) -> spells part n -> name_ok n -> map fst (snd n) = keys_of cs [fst n] -> spelled_place (path ++ [part]) (q0 ++ [n]).
Proof.
  intros (H1 & H2 & H3 & H4) Hin Hs Hn Hk. split; [apply Forall2_app; [assumption|constructor; [assumption|constructor]]|]. split; [destruct q0; discriminate|]. split; [apply Forall_app; split; [assumption|now constructor]|].
  apply keyed_app. split; [assumption|]. cbn [app]. rewrite H4 by exact Hin. exact Hk.
Qed.
Lemma ctx_below q0 path cs part n cs' : ctx q0 path cs -> In (fst n) (map r_name cs) -> spells part n -> name_ok n -> map fst (snd n) = keys_of cs [fst n] -> (forall t, t <> [] -> keys_of cs (fst n :: t) = keys_of cs' t) ->
  ctx (q0 ++ [n]) (path ++ [part]) cs'.
Proof.
  intros Hc Hin Hs Hn Hk Ht. destruct (ctx_node q0 path cs part n Hc Hin Hs Hn Hk) as (S1 & _ & S2 & S3). split; [assumption|]. split; [assumption|]. split; [assumption|].
  intros m t _. rewrite map_app, <- app_assoc. cbn [map app]. destruct Hc as (_ & _ & _ & H4). rewrite H4 by exact Hin. now apply Ht.
Qed.
Definition plain (s : rschema) : Prop := match s with RList _ _ _ => False | _ => True end.
Lemma ctx_plain q0 path cs s : ctx q0 path cs -> NoDup (map r_name cs) -> In s cs -> schema_ok s -> plain s -> spelled_place (path ++ [r_name s]) (q0 ++ [(r_name s, [])]).
Proof.
  intros Hc Hd Hi Hs Hp. apply (ctx_node q0 path cs); [assumption|exact (in_map r_name _ _ Hi)|left; now split|apply plain_name_ok; now apply schema_name|]. cbn [snd fst map]. rewrite keys_of_one by assumption. destruct s; [reflexivity..|contradiction].
Qed.
Lemma ctx_cont q0 path cs n cs' : ctx q0 path cs -> NoDup (map r_name cs) -> In (RCont n cs') cs -> schema_ok (RCont n cs') -> ctx (q0 ++ [(n, [])]) (path ++ [n]) cs'.
Proof.
  intros Hc Hd Hi Hs. apply (ctx_below q0 path cs); [assumption|exact (in_map r_name _ _ Hi)|left; now split|apply plain_name_ok; now inversion Hs| |].
  - cbn [snd fst map]. symmetry. exact (keys_of_one cs _ Hd Hi).
  - cbn [fst]. intros t _. now apply (keys_of_cont cs n cs').
Qed.
Lemma ctx_entry q0 path cs n keys cs' ks part : ctx q0 path cs -> NoDup (map r_name cs) -> In (RList n keys cs') cs -> schema_ok (RList n keys cs') -> length ks = length keys -> Forall key_text_ok ks ->
  spells part (n, combine keys ks) -> spelled_place (path ++ [part]) (q0 ++ [(n, combine keys ks)]) /\ ctx (q0 ++ [(n, combine keys ks)]) (path ++ [part]) cs'.
Proof.
  intros Hc Hd Hi Hs Hl Ht Hp. inversion Hs as [| | |? ? ? S1 S2 S3 S4 S5 S6]; subst.
  assert (Hn : name_ok (n, combine keys ks)) by (apply entry_name_ok; try assumption; intros k Hk; now apply S6).
  assert (Hk : map fst (snd (n, combine keys ks)) = keys_of cs [fst (n, combine keys ks)]). { cbn [snd fst]. rewrite combine_fst by assumption. symmetry. exact (keys_of_one cs _ Hd Hi). }
  assert (Hm : In (fst (n, combine keys ks)) (map r_name cs)) by (exact (in_map r_name _ _ Hi)). split; [now apply (ctx_node q0 path cs)|]. apply (ctx_below q0 path cs); try assumption. cbn [fst]. intros t Hne. now apply (keys_of_list cs n keys cs').
Qed.

Lemma same_agrees heap o' o : is_leaf_list o = false -> same_ref heap o' o = true -> agrees o' o.
Proof. destruct o', o; cbn; intros H1 H2; try discriminate; [now right|]. apply Nat.eqb_eq in H2. now f_equal. Qed.
Lemma agrees_refl o : agrees o o.
Proof. destruct o; cbn; auto. Qed.
(** One registration. *)
Lemma reg_ok w M path q0 n o : winv w M -> spelled_place path (q0 ++ [n]) -> present M q0 -> exists w' M', reg uid path o w = (w', Ok tt) /\ winv w' M' /\
  (forall q, q <> q0 ++ [n] -> M' q = M q) /\
  (exists o', M' (q0 ++ [n]) = Some o' /\ ((is_leaf_list o = true -> M (q0 ++ [n]) = None) -> agrees o' o)).
Proof.
  intros I (Hs & Hp) Hpres. unfold reg. pose proof (register_sim (same_ref (w_heap w)) uid Huid K (w_help w) M path (q0 ++ [n]) o I Hs Hp) as [I' R].
  destruct (register (same_ref (w_heap w)) uid path o (w_help w)) as [h r]. cbn [fst snd] in I', R.
  assert (X : snd (map_register (same_ref (w_heap w)) (q0 ++ [n]) o M) = true /\ let M' := fst (map_register (same_ref (w_heap w)) (q0 ++ [n]) o M) in
    (forall q, q <> q0 ++ [n] -> M' q = M q) /\ (exists o', M' (q0 ++ [n]) = Some o' /\ ((is_leaf_list o = true -> M (q0 ++ [n]) = None) -> agrees o' o))).
  { assert (Y : forall q, q <> q0 ++ [n] -> put (q0 ++ [n]) o M q = M q) by (intros q Hq; unfold put; destruct (place_dec q (q0 ++ [n])); congruence).
    assert (Z : exists o', put (q0 ++ [n]) o M (q0 ++ [n]) = Some o' /\ ((is_leaf_list o = true -> M (q0 ++ [n]) = None) -> agrees o' o)).
    { exists o. split; [unfold put; apply place_dec_refl|]. intros _. apply agrees_refl. }
    unfold map_register. rewrite removelast_snoc. destruct (M (q0 ++ [n])) as [o0|] eqn:EM.
    - split; [reflexivity|]. cbn [fst]. destruct (same_ref (w_heap w) o0 o) eqn:Es; [|now split]. split; [reflexivity|]. exists o0. split; [assumption|]. intros Hl.
      apply (same_agrees (w_heap w)); [|assumption]. destruct (is_leaf_list o); [discriminate Hl; reflexivity|reflexivity].
    - destruct q0 as [|n0 q0]; [split; [reflexivity|]; cbn [fst]; now split|]. destruct Hpres as [E|E]; [discriminate|]. destruct (M (n0 :: q0)); [|congruence]. split; [reflexivity|]. cbn [fst]. now split. }
  destruct X as (X1 & X2 & X3). rewrite X1 in R. destruct r as [[]|]; [|discriminate]. eexists _, _. split; [reflexivity|]. split; [exact I'|]. now split.
Qed.

(** What a construction at [q0] has done: [ll] says whether it is the first one there. *)
Definition step_ok (ll : bool) (q0 : place) (cs : list rschema) (kids : list robj) (M M' : objects (A := pobj)) : Prop :=
  Forall2 fits cs kids /\
  (forall q, (forall s d r, In s cs -> q <> q0 ++ (r_name s, d) :: r) -> M' q = M q) /\
  (forall q, M q <> None -> M' q <> None) /\
  (forall r o, in_tree cs kids r o -> (is_leaf_list o = true -> ll = true /\ M (q0 ++ r) = None) -> exists o', M' (q0 ++ r) = Some o' /\ agrees o' o) /\
  (ll = true -> forall q, M' q = M q \/ exists r o, q = q0 ++ r /\ in_tree cs kids r o).
Lemma in_tree_head cs kids r o : in_tree cs kids r o -> exists s d r', In s cs /\ r = (r_name s, d) :: r'.
Proof.
  intros H. apply in_tree_nth in H as (i & s & x & Hs & _ & H). apply in_one in H as (d & r' & ->). exists s, d, r'. split; [now apply nth_error_In in Hs|reflexivity].
Qed.
Lemma in_tree_cons s cs x kids r o : in_tree (s :: cs) (x :: kids) r o <-> in_tree [s] [x] r o \/ in_tree cs kids r o.
Proof.
  split.
  - intros H. apply in_tree_nth in H as ([|i] & s' & x' & Hs & Hx & H); [injection Hs as <-; injection Hx as <-; now left|]. right. apply in_tree_nth. now exists i, s', x'.
  - intros [H|H]; apply in_tree_nth; [now exists 0%nat, s, x|]. apply in_tree_nth in H as (i & s' & x' & H). now exists (S i), s', x'.
Qed.
Lemma step_cons ll q0 s x cs kids M1 M2 M3 : NoDup (map r_name (s :: cs)) -> step_ok ll q0 [s] [x] M1 M2 -> step_ok ll q0 cs kids M2 M3 -> step_ok ll q0 (s :: cs) (x :: kids) M1 M3.
Proof.
  intros Hd (A1 & A2 & A3 & A4 & A5) (B1 & B2 & B3 & B4 & B5). cbn [map] in Hd. inversion Hd as [|? ? Hni Hd']; subst.
  assert (Hne : forall s', In s' cs -> r_name s' <> r_name s) by (intros s' Hs' E; apply Hni; rewrite <- E; now apply in_map).
  split; [inversion A1; subst; now constructor|]. split.
  - intros q Hq. rewrite B2, A2; [reflexivity| |]; intros s' d r Hs'; apply Hq; [destruct Hs' as [<-|[]]; now left|now right].
  - split; [intros q Hq; apply B3; now apply A3|]. split.
    + intros r o H Hl. apply in_tree_cons in H as [H|H].
      * destruct (in_one s x r o H) as (d & r' & ->). destruct (A4 _ _ H Hl) as (o' & E & Ha). exists o'. split; [|assumption]. rewrite B2; [assumption|]. intros s' d' r2 Hs' E2. apply app_head in E2 as [E2 _]. injection E2 as E2 _. now apply (Hne s').
      * destruct (in_tree_head _ _ _ _ H) as (s' & d & r' & Hs' & ->). apply (B4 _ _ H). intros Ho. destruct (Hl Ho) as [-> Hm]. split; [reflexivity|]. rewrite A2; [assumption|]. intros s2 d' r2 [<-|[]] E2. apply app_head in E2 as [E2 _]. injection E2 as E2 _. now apply (Hne s').
    + intros E q. destruct (B5 E q) as [->|(r & o & -> & H)]; [|right; exists r, o; split; [reflexivity|]; apply in_tree_cons; now right].
      destruct (A5 E q) as [->|(r & o & -> & H)]; [now left|]. right. exists r, o. split; [reflexivity|]. apply in_tree_cons. now left.
Qed.
Lemma step_nil ll q0 M : step_ok ll q0 [] [] M M.
Proof.
  split; [constructor|]. split; [reflexivity|]. split; [auto|]. split; [|now left]. intros r o H. apply in_tree_nth in H as ([|i] & s & x & H & _); discriminate.
Qed.
Lemma step_weaken q0 cs kids M M' : step_ok true q0 cs kids M M' -> step_ok false q0 cs kids M M'.
Proof.
  intros (A1 & A2 & A3 & A4 & A5). split; [assumption|]. split; [assumption|]. split; [assumption|]. split; [|discriminate]. intros r o H Hl. apply A4; [assumption|]. intros Ho. destruct (Hl Ho). discriminate.
Qed.
(** The object itself, then its children. *)
Lemma step_cont ll q0 n cs id kids M1 M2 M3 : 
  (forall q, q <> q0 ++ [(n, [])] -> M2 q = M1 q) -> M2 (q0 ++ [(n, [])]) = Some (PNode id) -> step_ok ll (q0 ++ [(n, [])]) cs kids M2 M3 ->
  step_ok ll q0 [RCont n cs] [TCont id kids] M1 M3.
Proof.
  intros A B (C1 & C2 & C3 & C4 & C5). 
  assert (Hself : M3 (q0 ++ [(n, [])]) = Some (PNode id)). { rewrite C2; [assumption|]. intros s d r _ E. now apply app_not_self in E. }
  assert (Hb : forall r, q0 ++ (n, []) :: r = (q0 ++ [(n, [])]) ++ r) by (intros r; now rewrite <- app_assoc).
  split; [constructor; [now constructor|constructor]|]. split.
  - intros q Hq. rewrite C2, A; [reflexivity| |].
    + apply (Hq (RCont n cs)). now left.
    + intros s d r _. rewrite <- Hb. apply (Hq (RCont n cs)). now left.
  - split; [|split].
    + intros q Hq. destruct (place_dec q (q0 ++ [(n, [])])) as [->|Hne]; [rewrite Hself; discriminate|]. apply C3. now rewrite A.
    + intros r o H Hl. apply in_one_cont in H as [[-> ->]|(r' & -> & H)]; [exists (PNode id); split; [assumption|reflexivity]|]. rewrite Hb. apply (C4 r' o H). intros Ho. destruct (Hl Ho) as [El Em]. split; [assumption|]. rewrite <- Hb. rewrite A; [assumption|].
      destruct (in_tree_head _ _ _ _ H) as (s & d & r2 & _ & ->). rewrite Hb. intros E. symmetry in E. now apply app_not_self in E.
    + intros El q. destruct (C5 El q) as [->|(r & o & -> & H)].
      * destruct (place_dec q (q0 ++ [(n, [])])) as [->|Hne]; [|left; now apply A]. right. exists [(n, [])], (PNode id). split; [reflexivity|]. eapply (in_cont _ _ 0); reflexivity.
      * right. exists ((n, []) :: r), o. split; [symmetry; apply Hb|]. eapply (in_cont_below _ _ 0); [reflexivity|reflexivity|assumption].
Qed.

Definition builds (s : rschema) : Prop := forall w M q0 path cs, winv w M -> ctx q0 path cs -> NoDup (map r_name cs) -> In s cs -> schema_ok s -> present M q0 ->
  exists w' x M', build uid path s w = (w', Ok x) /\ winv w' M' /\ step_ok true q0 [s] [x] M M'.
Lemma mapA_build cs0 q0 path : (forall s, In s cs0 -> builds s) -> ctx q0 path cs0 -> NoDup (map r_name cs0) -> (forall s, In s cs0 -> schema_ok s) ->
  forall cs w M, incl cs cs0 -> NoDup (map r_name cs) -> winv w M -> present M q0 ->
  exists w' kids M', mapA (build uid path) cs w = (w', Ok kids) /\ winv w' M' /\ step_ok true q0 cs kids M M'.
Proof.
  intros Hb Hc Hd Hs. induction cs as [|s cs IH]; intros w M Hi Hd' I Hp.
  - exists w, [], M. split; [reflexivity|]. split; [assumption|apply step_nil].
  - assert (Hin : In s cs0) by (apply Hi; now left). destruct (Hb s Hin w M q0 path cs0 I Hc Hd Hin (Hs s Hin) Hp) as (w1 & x & M1 & E1 & I1 & S1).
    assert (Hp1 : present M1 q0). { destruct Hp as [Hp|Hp]; [now left|right]. now apply (proj1 (proj2 (proj2 S1))). }
    cbn [map] in Hd'. inversion Hd' as [|? ? Hni Hd2]; subst. destruct (IH w1 M1 ltac:(intros a Ha; apply Hi; now right) Hd2 I1 Hp1) as (w2 & kids & M2 & E2 & I2 & S2).
    exists w2, (x :: kids), M2. split; [|split; [assumption|]].
    + cbn [mapA]. unfold andthen at 1. rewrite E1. unfold andthen. cbn [mapA] in E2. rewrite E2. reflexivity.
    + apply (step_cons true q0 s x cs kids M M1 M2); [now constructor|assumption|assumption].
Qed.
Lemma build_all s : builds s.
Proof.
  induction s as [n v0|n|n cs IH|n keys cs IH] using rschema_ind'; intros w M q0 path cs0 I Hc Hd Hin Hs Hp.
  - destruct (reg_ok w M (path ++ [n]) q0 (n, []) (PLeaf v0) I (ctx_plain q0 path cs0 _ Hc Hd Hin Hs Logic.I) Hp) as (w' & M' & E & I' & F & o' & Eo & Ha).
    exists w', (TLeaf v0), M'. cbn [build]. unfold andthen. rewrite E. split; [reflexivity|]. split; [assumption|].
    split; [constructor; [constructor|constructor]|]. split; [|split; [|split]].
    + intros q Hq. apply F. apply (Hq (RLeaf n v0)). now left.
    + intros q Hq. destruct (place_dec q (q0 ++ [(n, [])])) as [->|Hne]; [intros X; discriminate (eq_trans (eq_sym X) Eo)|]. now rewrite F.
    + intros r o H _. apply in_one_leaf in H as [-> ->]. exists o'. split; [assumption|]. apply Ha. discriminate.
    + intros _ q. destruct (place_dec q (q0 ++ [(n, [])])) as [->|Hne]; [|left; now apply F]. right. exists [(n, [])], (PLeaf v0). split; [reflexivity|]. eapply (in_leaf _ _ 0); reflexivity.
  - cbn [build]. unfold andthen, new_id, set_members. cbn [w_next]. set (w1 := {| w_help := _; w_next := _; w_heap := _; w_root := _; w_gets := _ |}).
    destruct (reg_ok w1 M (path ++ [n]) q0 (n, []) (PLeafList (w_next w)) I (ctx_plain q0 path cs0 _ Hc Hd Hin Hs Logic.I) Hp) as (w' & M' & E & I' & F & o' & Eo & Ha).
    exists w', (TLeafList (w_next w)), M'. rewrite E. split; [reflexivity|]. split; [assumption|].
    split; [constructor; [constructor|constructor]|]. split; [|split; [|split]].
    + intros q Hq. apply F. apply (Hq (RLeafList n)). now left.
    + intros q Hq. destruct (place_dec q (q0 ++ [(n, [])])) as [->|Hne]; [intros X; discriminate (eq_trans (eq_sym X) Eo)|]. now rewrite F.
    + intros r o H Hl. apply in_one_leaf_list in H as [-> ->]. exists o'. split; [assumption|]. apply Ha. intros Ho. now apply Hl.
    + intros _ q. destruct (place_dec q (q0 ++ [(n, [])])) as [->|Hne]; [|left; now apply F]. right. exists [(n, [])], (PLeafList (w_next w)). split; [reflexivity|]. eapply (in_leaf_list _ _ 0); reflexivity.
  - cbn [build]. unfold andthen at 1. unfold new_id. set (w1 := {| w_help := _; w_next := _; w_heap := _; w_root := _; w_gets := _ |}). inversion Hs as [| |? ? S1 S2 S3|]; subst.
    destruct (reg_ok w1 M (path ++ [n]) q0 (n, []) (PNode (w_next w)) I (ctx_plain q0 path cs0 _ Hc Hd Hin Hs Logic.I) Hp) as (w2 & M2 & E & I2 & F & o' & Eo & Ha).
    specialize (Ha ltac:(discriminate)). assert (o' = PNode (w_next w)) by (destruct o'; cbn in Ha; congruence). subst o'.
    destruct (mapA_build cs (q0 ++ [(n, [])]) (path ++ [n]) IH (ctx_cont q0 path cs0 n cs Hc Hd Hin Hs) S2 S3 cs w2 M2 (incl_refl cs) S2 I2 ltac:(right; intros X; discriminate (eq_trans (eq_sym X) Eo))) as (w3 & kids & M3 & E3 & I3 & S4).
    exists w3, (TCont (w_next w) kids), M3. unfold andthen at 1. rewrite E. unfold andthen. rewrite E3. split; [reflexivity|]. split; [assumption|]. now apply (step_cont true q0 n cs (w_next w) kids M M2 M3).
  - exists w, (TList []), M. split; [reflexivity|]. split; [assumption|]. split; [constructor; [constructor; [constructor|intros ks id ek []]|constructor]|]. split; [reflexivity|]. split; [auto|]. split; [|now left].
    intros r o H. apply in_one_list in H as (ks & id & ek & [] & _).
Qed.

(* ------------------------------------------------------------------ values *)
Lemma step_replace ll q0 cs kids i s x M0 M1 M2 : NoDup (map r_name cs) -> nth_error cs i = Some s -> (ll = true -> exists n v0, s = RLeaf n v0) ->
  step_ok ll q0 cs kids M0 M1 -> step_ok ll q0 [s] [x] M1 M2 -> step_ok ll q0 cs (set_nth i x kids) M0 M2.
Proof.
  intros Hd Hi Hleaf (A1 & A2 & A3 & A4 & A5) (B1 & B2 & B3 & B4 & B5).
  assert (Hx : fits s x) by now inversion B1.
  destruct (Forall2_nth _ _ _ _ _ A1 Hi) as (x0 & Hx0 & Hf0). assert (Hlen : (i < length kids)%nat) by (apply nth_error_Some; congruence).
  split; [now apply (Forall2_set _ cs kids i s x)|]. split; [|split; [|split]].
  - intros q Hq. rewrite B2, A2; [reflexivity| |]; intros s' d r Hs'; apply Hq; [assumption|]. destruct Hs' as [<-|[]]. now apply nth_error_In in Hi.
  - intros q Hq. apply B3. now apply A3.
  - intros r o H Hl. apply in_tree_nth in H as (j & s' & x' & Hs' & Hx' & H). destruct (Nat.eq_dec i j) as [<-|Hne].
    + rewrite set_nth_same in Hx' by assumption. rewrite Hi in Hs'. injection Hs' as <-. injection Hx' as <-. apply (B4 r o H). intros Ho. destruct (Hl Ho) as [E _]. exfalso. destruct (Hleaf E) as (n & v0 & ->). inversion Hx; subst. apply in_one_leaf in H as [_ ->]. discriminate.
    + rewrite set_nth_other in Hx' by assumption. assert (Ht : in_tree cs kids r o) by (apply in_tree_nth; now exists j, s', x'). destruct (A4 r o Ht Hl) as (o' & E & Ha). exists o'. split; [|assumption]. rewrite B2; [assumption|].
      intros s2 d r2 [<-|[]] E2. destruct (in_one s' x' r o H) as (d' & r' & ->). apply app_head in E2 as [E2 _]. injection E2 as E2 _. apply Hne. now apply (name_inj cs i j s s').
  - intros E q. destruct (Hleaf E) as (n & v0 & ->). inversion Hx; subst. inversion Hf0; subst. assert (Hin : in_tree cs (set_nth i (TLeaf v) kids) [(n, [])] (PLeaf v)). { eapply in_leaf; [exact Hi|now apply set_nth_same]. }
    destruct (B5 eq_refl q) as [->|(r & o & -> & H)]; [|apply in_one_leaf in H as [-> ->]; right; eauto]. destruct (A5 eq_refl q) as [->|(r & o & -> & H)]; [now left|]. right.
    apply in_tree_nth in H as (j & s' & x' & Hs' & Hx' & H). destruct (Nat.eq_dec i j) as [<-|Hne].
    + rewrite Hi in Hs'. injection Hs' as <-. rewrite Hx0 in Hx'. injection Hx' as <-. apply in_one_leaf in H as [-> ->]. eauto.
    + exists r, o. split; [reflexivity|]. apply in_tree_nth. exists j, s', x'. split; [assumption|]. split; [|assumption]. now rewrite set_nth_other.
Qed.
Lemma leaf_step w M q0 path cs n v0 v : winv w M -> ctx q0 path cs -> NoDup (map r_name cs) -> In (RLeaf n v0) cs -> schema_ok (RLeaf n v0) -> present M q0 ->
  exists w' M', reg uid (path ++ [n]) (PLeaf v) w = (w', Ok tt) /\ winv w' M' /\ step_ok true q0 [RLeaf n v0] [TLeaf v] M M'.
Proof.
  intros I Hc Hd Hin Hs Hp. destruct (reg_ok w M (path ++ [n]) q0 (n, []) (PLeaf v) I (ctx_plain q0 path cs _ Hc Hd Hin Hs Logic.I) Hp) as (w' & M' & E & I' & F & o' & Eo & Ha).
  exists w', M'. split; [assumption|]. split; [assumption|]. split; [constructor; [constructor|constructor]|]. split; [|split; [|split]].
  + intros q Hq. apply F. apply (Hq (RLeaf n v0)). now left.
  + intros q Hq. destruct (place_dec q (q0 ++ [(n, [])])) as [->|Hne]; [intros X; discriminate (eq_trans (eq_sym X) Eo)|]. now rewrite F.
  + intros r o H _. apply in_one_leaf in H as [-> ->]. exists o'. split; [assumption|]. apply Ha. discriminate.
  + intros _ q. destruct (place_dec q (q0 ++ [(n, [])])) as [->|Hne]; [|left; now apply F]. right. exists [(n, [])], (PLeaf v). split; [reflexivity|]. eapply (in_leaf _ _ 0); reflexivity.
Qed.
(** Leaf-lists with members: they are looked for only if nothing was there. *)
Lemma leaf_list_step w M q0 path cs n : winv w M -> ctx q0 path cs -> NoDup (map r_name cs) -> In (RLeafList n) cs -> schema_ok (RLeafList n) -> present M q0 ->
  exists w' M', andthen new_id (fun id => andthen (set_members id []) (fun _ => andthen (reg uid (path ++ [n]) (PLeafList id)) (fun _ => ret id))) w = (w', Ok (w_next w)) /\ winv w' M' /\
    step_ok true q0 [RLeafList n] [TLeafList (w_next w)] M M'.
Proof.
  intros I Hc Hd Hin Hs Hp. destruct (build_all (RLeafList n) w M q0 path cs I Hc Hd Hin Hs Hp) as (w' & x & M' & E & I' & S'). exists w', M'. cbn [build] in E. unfold andthen in *. unfold new_id, set_members in *.
  destruct (reg uid (path ++ [n]) _ _) as [w1 [[]|]]; [|discriminate]. cbn [ret] in *. unfold ret in *. injection E as <- <-. split; [reflexivity|]. now split.
Qed.

Definition constructs (s : rschema) : Prop := forall v w M q0 path cs, good_for s v -> winv w M -> ctx q0 path cs -> NoDup (map r_name cs) -> In s cs -> schema_ok s -> present M q0 ->
  exists w' x M', construct uid path s v w = (w', Ok x) /\ winv w' M' /\ step_ok false q0 [s] [x] M M'.
Lemma copy_good q0 path cs : (forall s, In s cs -> constructs s) -> ctx q0 path cs -> NoDup (map r_name cs) -> (forall s, In s cs -> schema_ok s) ->
  forall ch kids w M0 M, (forall i v, In (i, v) ch -> exists s, nth_error cs i = Some s /\ good_for s v) -> winv w M -> present M q0 -> step_ok false q0 cs kids M0 M ->
  exists w' kids' M', copy_into uid path cs ch kids w = (w', Ok kids') /\ winv w' M' /\ step_ok false q0 cs kids' M0 M'.
Proof.
  intros Hcs Hc Hd Hs. induction ch as [|[i v] ch IH]; intros kids w M0 M Hg I Hp S0.
  - exists w, kids, M. split; [reflexivity|]. now split.
  - destruct (Hg i v ltac:(now left)) as (s & Hi & Hgs). pose proof (nth_error_In _ _ Hi) as Hin. destruct (Hcs s Hin v w M q0 path cs Hgs I Hc Hd Hin (Hs s Hin) Hp) as (w1 & x & M1 & E1 & I1 & S1).
    assert (Hp1 : present M1 q0). { destruct Hp as [Hp|Hp]; [now left|right]. now apply (proj1 (proj2 (proj2 S1))). }
    destruct (IH (set_nth i x kids) w1 M0 M1 ltac:(intros j u Hj; apply Hg; now right) I1 Hp1 ltac:(apply (step_replace false q0 cs kids i s x M0 M M1); [assumption|assumption|discriminate|assumption|assumption])) as (w2 & kids' & M2 & E2 & I2 & S2).
    exists w2, kids', M2. split; [|now split]. cbn [copy_into]. rewrite Hi. unfold andthen. rewrite E1. exact E2.
Qed.
Lemma construct_all s : constructs s.
Proof.
  induction s as [n v0|n|n cs IH|n keys cs IH] using rschema_ind'; intros v w M q0 path cs0 Hg I Hc Hd Hin Hs Hp.
  - inversion Hg; subst. match goal with |- context [Good ?a] => rename a into v end. destruct (leaf_step w M q0 path cs0 n v0 v I Hc Hd Hin Hs Hp) as (w' & M' & E & I' & S'). exists w', (TLeaf v), M'. cbn [construct]. unfold andthen. rewrite E. split; [reflexivity|]. split; [assumption|now apply step_weaken].
  - inversion Hg; subst. destruct (leaf_list_step w M q0 path cs0 n I Hc Hd Hin Hs Hp) as (w' & M' & E & I' & S'). cbn [construct]. unfold andthen in *. unfold new_id, set_members in *. destruct (reg uid (path ++ [n]) _ _) as [w1 [[]|]]; [|discriminate]. unfold ret in *. injection E as <-.
    eexists _, _, M'. split; [reflexivity|]. split; [exact I'|now apply step_weaken].
  - inversion Hg as [| | |? ? ch Hch]; subst. cbn [construct]. fold (copy_into uid (path ++ [n]) cs). unfold andthen at 1. unfold new_id. set (w1 := {| w_help := _; w_next := _; w_heap := _; w_root := _; w_gets := _ |}). inversion Hs as [| |? ? S1 S2 S3|]; subst.
    destruct (reg_ok w1 M (path ++ [n]) q0 (n, []) (PNode (w_next w)) I (ctx_plain q0 path cs0 _ Hc Hd Hin Hs Logic.I) Hp) as (w2 & M2 & E & I2 & F & o' & Eo & Ha).
    specialize (Ha ltac:(discriminate)). assert (o' = PNode (w_next w)) by (destruct o'; cbn in Ha; congruence). subst o'. pose proof (ctx_cont q0 path cs0 n cs Hc Hd Hin Hs) as Hc'.
    assert (Hp2 : present M2 (q0 ++ [(n, [])])) by (right; intros X; discriminate (eq_trans (eq_sym X) Eo)).
    destruct (mapA_build cs (q0 ++ [(n, [])]) (path ++ [n]) (fun s _ => build_all s) Hc' S2 S3 cs w2 M2 (incl_refl cs) S2 I2 Hp2) as (w3 & kids & M3 & E3 & I3 & S4).
    assert (Hp3 : present M3 (q0 ++ [(n, [])])). { destruct Hp2 as [Hp2|Hp2]; [now left|right]. now apply (proj1 (proj2 (proj2 S4))). }
    destruct (copy_good (q0 ++ [(n, [])]) (path ++ [n]) cs IH Hc' S2 S3 ch kids w3 M2 M3 Hch I3 Hp3 (step_weaken _ _ _ _ _ S4)) as (w4 & kids' & M4 & E4 & I4 & S5).
    exists w4, (TCont (w_next w) kids'), M4. unfold andthen at 1. rewrite E. unfold andthen at 1. rewrite E3. unfold andthen. rewrite E4. split; [reflexivity|]. split; [assumption|]. now apply (step_cont false q0 n cs (w_next w) kids' M M2 M4).
  - destruct (build_all (RList n keys cs) w M q0 path cs0 I Hc Hd Hin Hs Hp) as (w' & x & M' & E & I' & S'). exists w', x, M'. split; [now destruct v as [[]| | |]|]. split; [assumption|now apply step_weaken].
Qed.

(* ------------------------------------------------------------------ entries *)
Lemma index_of_leaf cs k v0 : NoDup (map r_name cs) -> In (RLeaf k v0) cs -> exists i, index_of k cs = Some i /\ nth_error cs i = Some (RLeaf k v0).
Proof.
  intros Hd Hi. induction cs as [|s cs IH]; [destruct Hi|]. cbn [index_of]. cbn [map] in Hd. inversion Hd as [|? ? Hni Hd']; subst. destruct (str_eqb k (r_name s)) eqn:E.
  - apply str_eqb_eq in E. destruct Hi as [->|Hi]; [now exists 0%nat|]. exfalso. apply Hni. rewrite <- E. now apply (in_map r_name) in Hi.
  - destruct Hi as [->|Hi]; [cbn [r_name] in E; now rewrite str_eqb_refl in E|]. destruct (IH Hd' Hi) as (i & -> & Hn). now exists (S i).
Qed.
Definition inside (q0 : place) (M M' : objects (A := pobj)) : Prop := (forall q, (forall n r, q <> q0 ++ n :: r) -> M' q = M q) /\ (forall q, M q <> None -> M' q <> None).
Lemma inside_refl q0 M : inside q0 M M.
Proof. now split. Qed.
Lemma inside_trans q0 M1 M2 M3 : inside q0 M1 M2 -> inside q0 M2 M3 -> inside q0 M1 M3.
Proof. intros [A1 A2] [B1 B2]. split; [intros q Hq; rewrite B1, A1; auto|auto]. Qed.
Lemma step_inside ll q0 cs kids M M' : step_ok ll q0 cs kids M M' -> inside q0 M M'.
Proof. intros (_ & A2 & A3 & _). split; [|assumption]. intros q Hq. apply A2. intros s d r _. apply Hq. Qed.
Lemma inside_present q0 M M' : inside q0 M M' -> present M q0 -> present M' q0.
Proof. intros [_ H] [Hp|Hp]; [now left|right; now apply H]. Qed.

Lemma set_keys_ok ll q0 path cs : ctx q0 path cs -> NoDup (map r_name cs) -> (forall s, In s cs -> schema_ok s) ->
  forall keys ko kids w M0 M, (forall k, In k keys -> exists v0, In (RLeaf k v0) cs) -> winv w M -> present M q0 -> step_ok ll q0 cs kids M0 M ->
  exists w' r M', set_keys uid path cs keys ko kids w = (w', r) /\ winv w' M' /\ inside q0 M M' /\ match r with Ok kids' => step_ok ll q0 cs kids' M0 M' | Raise _ => ~ Forall is_good ko end.
Proof.
  intros Hc Hd Hs. induction keys as [|k keys IH]; intros ko kids w M0 M Hk I Hp S0; [exists w, (Ok kids), M; split; [reflexivity|]; split; [assumption|]; split; [apply inside_refl|assumption]|].
  destruct ko as [|o ko]; [exists w, (Ok kids), M; split; [reflexivity|]; split; [assumption|]; split; [apply inside_refl|assumption]|].
  cbn [set_keys]. destruct (Hk k ltac:(now left)) as (v0 & Hi). destruct (index_of_leaf cs k v0 Hd Hi) as (i & -> & Hn). rewrite Hn. unfold andthen. cbn [construct]. destruct o as [v|e|v e].
  - destruct (leaf_step w M q0 path cs k v0 v I Hc Hd Hi (Hs _ Hi) Hp) as (w1 & M1 & E1 & I1 & S1). unfold andthen. rewrite E1. unfold ret. pose proof (step_inside _ _ _ _ _ _ S1) as N1.
    assert (S2 : step_ok ll q0 cs (set_nth i (TLeaf v) kids) M0 M1). { apply (step_replace ll q0 cs kids i (RLeaf k v0) (TLeaf v) M0 M M1); [assumption|assumption|eauto|assumption|]. destruct ll; [assumption|now apply step_weaken]. }
    destruct (IH ko (set_nth i (TLeaf v) kids) w1 M0 M1 ltac:(intros k' Hk'; apply Hk; now right) I1 (inside_present _ _ _ N1 Hp) S2) as (w2 & r & M2 & E2 & I2 & N2 & S3).
    exists w2, r, M2. split; [assumption|]. split; [assumption|]. split; [now apply (inside_trans q0 M M1 M2)|]. destruct r; [assumption|]. intros H. apply S3. now inversion H.
  - exists w, (Raise e), M. split; [reflexivity|]. split; [assumption|]. split; [apply inside_refl|]. intros H. inversion H as [|? ? H1 _]. exact H1.
  - destruct (leaf_step w M q0 path cs k v0 v I Hc Hd Hi (Hs _ Hi) Hp) as (w1 & M1 & E1 & I1 & S1). unfold andthen. rewrite E1. exists w1, (Raise e), M1. split; [reflexivity|]. split; [assumption|]. split; [now apply step_inside in S1|].
    intros H. inversion H as [|? ? H1 _]. exact H1.
Qed.

Definition arg_ok (ll : bool) (cs : list rschema) (arg : option (option (list (nat * value)))) : Prop :=
  match arg with
  | None => True
  | Some None => False
  | Some (Some ch) => ll = false /\ forall i v, In (i, v) ch -> exists s, nth_error cs i = Some s /\ good_for s v
  end.
Lemma entry_made ll q0 path cs n keys cs' ks ko arg w M : ctx q0 path cs -> NoDup (map r_name cs) -> In (RList n keys cs') cs -> schema_ok (RList n keys cs') -> length ks = length keys -> Forall key_text_ok ks ->
  winv w M -> present M q0 -> arg_ok ll cs' arg ->
  exists w' r M', make_entry uid path n keys cs' ks ko arg w = (w', r) /\ winv w' M' /\
    (forall q, (forall r', q <> q0 ++ (n, combine keys ks) :: r') -> M' q = M q) /\
    match r with
    | Ok (id, kids) => M' (q0 ++ [(n, combine keys ks)]) = Some (PNode id) /\ exists M1, (forall q, q <> q0 ++ [(n, combine keys ks)] -> M1 q = M q) /\ step_ok ll (q0 ++ [(n, combine keys ks)]) cs' kids M1 M'
    | Raise _ => ~ Forall is_good ko
    end.
Proof.
  intros Hc Hd Hin Hs Hl Ht I Hp Harg. inversion Hs as [| | |? ? ? S1 S2 S3 S4 S5 S6]; subst. set (nn := (n, combine keys ks)).
  assert (Hsp : spells (n ++ key_part keys ks) nn) by (apply key_part_spells; try assumption; intros k Hk; now apply S6).
  destruct (ctx_entry q0 path cs n keys cs' ks _ Hc Hd Hin Hs Hl Ht Hsp) as [Hplace Hctx]. fold nn in Hplace, Hctx. unfold make_entry. cbv zeta. unfold andthen at 1. unfold new_id. cbv beta iota zeta. set (w1 := {| w_help := _; w_next := _; w_heap := _; w_root := _; w_gets := _ |}).
  destruct (reg_ok w1 M _ q0 nn (PNode (w_next w)) I Hplace Hp) as (w2 & M1 & E & I2 & F & o' & Eo & Ha). specialize (Ha ltac:(discriminate)). assert (o' = PNode (w_next w)) by (destruct o'; cbn in Ha; congruence). subst o'.
  assert (Hp2 : present M1 (q0 ++ [nn])) by (right; intros X; discriminate (eq_trans (eq_sym X) Eo)).
  destruct (mapA_build cs' (q0 ++ [nn]) (path ++ [n ++ key_part keys ks]) (fun s _ => build_all s) Hctx S2 S3 cs' w2 M1 (incl_refl cs') S2 I2 Hp2) as (w3 & kids & M3 & E3 & I3 & T3).
  unfold andthen at 1. match goal with |- context [reg uid ?p ?o w1] => change (reg uid p o w1 = (w2, Ok tt)) in E end. rewrite E. unfold andthen at 1. match goal with |- context [mapA ?f ?l w2] => change (mapA f l w2 = (w3, Ok kids)) in E3 end. rewrite E3. pose proof (step_inside _ _ _ _ _ _ T3) as N3. pose proof (inside_present _ _ _ N3 Hp2) as Hp3.
  assert (X : exists w4 kids4 M4, match arg with None => ret kids | Some (Some ch) => copy_into uid (path ++ [n ++ key_part keys ks]) cs' ch kids | Some None => fail ValueError end w3 = (w4, Ok kids4) /\ winv w4 M4 /\ step_ok ll (q0 ++ [nn]) cs' kids4 M1 M4).
  { destruct arg as [[ch|]|]; [|contradiction|].
    - destruct Harg as [-> Hg]. destruct (copy_good (q0 ++ [nn]) _ cs' (fun s _ => construct_all s) Hctx S2 S3 ch kids w3 M1 M3 Hg I3 Hp3 (step_weaken _ _ _ _ _ T3)) as (w4 & kids4 & M4 & E4 & I4 & T4). exists w4, kids4, M4. now split.
    - exists w3, kids, M3. split; [reflexivity|]. split; [assumption|]. destruct ll; [assumption|now apply step_weaken]. }
  destruct X as (w4 & kids4 & M4 & E4 & I4 & T4). unfold andthen at 1. rewrite E4. pose proof (step_inside _ _ _ _ _ _ T4) as N4.
  destruct (set_keys_ok ll (q0 ++ [nn]) _ cs' Hctx S2 S3 keys ko kids4 w4 M1 M4 ltac:(intros k Hk; now apply S6) I4 (inside_present _ _ _ N4 Hp2) T4) as (w5 & r & M5 & E5 & I5 & N5 & T5).
  unfold andthen. match goal with |- context [set_keys uid ?p ?a ?b ?c ?d w4] => change (set_keys uid p a b c d w4 = (w5, r)) in E5 end. rewrite E5. pose proof (inside_trans _ _ _ _ N4 N5) as N6. assert (Hb : forall r, q0 ++ nn :: r = (q0 ++ [nn]) ++ r) by (intros r'; now rewrite <- app_assoc).
  assert (Hframe : forall q, (forall r', q <> q0 ++ nn :: r') -> M5 q = M q). { intros q Hq. rewrite (proj1 N6); [apply F; apply Hq|]. intros m r'. rewrite <- Hb. apply Hq. }
  destruct r as [kids5|e].
  - exists w5, (Ok (w_next w, kids5)), M5. split; [reflexivity|]. split; [assumption|]. split; [assumption|]. split; [|exists M1; now split]. rewrite (proj1 N6); [assumption|]. intros m r' E0. now apply app_not_self in E0.
  - exists w5, (Raise e), M5. split; [reflexivity|]. split; [assumption|]. now split.
Qed.

(* ------------------------------------------------------------------ the tree and the map *)
(** What is in the tree is there ([ll]: leaf-lists too, and nothing else is). *)
Definition tree_inv (ll : bool) (q0 : place) (cs : list rschema) (kids : list robj) (M : objects (A := pobj)) : Prop :=
  (forall r o, in_tree cs kids r o -> (is_leaf_list o = true -> ll = true) -> exists o', M (q0 ++ r) = Some o' /\ agrees o' o) /\
  (ll = true -> forall n r, M (q0 ++ n :: r) <> None -> exists o, in_tree cs kids (n :: r) o).
Definition kid_inv (ll : bool) (q0 : place) (s : rschema) (x : robj) (M : objects (A := pobj)) : Prop :=
  (forall r o, in_tree [s] [x] r o -> (is_leaf_list o = true -> ll = true) -> exists o', M (q0 ++ r) = Some o' /\ agrees o' o) /\
  (ll = true -> forall d r, M (q0 ++ (r_name s, d) :: r) <> None -> exists o, in_tree [s] [x] ((r_name s, d) :: r) o).
Lemma tree_kid ll q0 cs kids M i s x : NoDup (map r_name cs) -> tree_inv ll q0 cs kids M -> nth_error cs i = Some s -> nth_error kids i = Some x -> kid_inv ll q0 s x M.
Proof.
  intros Hd [H1 H2] Hs Hx. split.
  - intros r o H Hl. apply H1; [|assumption]. apply in_tree_nth. now exists i, s, x.
  - intros E d r Hm. destruct (H2 E _ _ Hm) as (o & H). apply in_tree_nth in H as (j & s' & x' & Hs' & Hx' & H). destruct (in_one _ _ _ _ H) as (d' & r' & E'). injection E' as E1 _ _.
    assert (i = j) by (now apply (name_inj cs i j s s')). subst j. exists o. rewrite Hs in Hs'. rewrite Hx in Hx'. injection Hs' as <-. injection Hx' as <-. assumption.
Qed.
Definition within (q0 : place) (t : str) (M M' : objects (A := pobj)) : Prop := forall q, (forall d r, q <> q0 ++ (t, d) :: r) -> M' q = M q.
Lemma kid_replaced ll q0 cs kids M M' i s x x' : NoDup (map r_name cs) -> tree_inv ll q0 cs kids M -> nth_error cs i = Some s -> nth_error kids i = Some x -> within q0 (r_name s) M M' -> kid_inv ll q0 s x' M' ->
  tree_inv ll q0 cs (set_nth i x' kids) M'.
Proof.
  intros Hd [H1 H2] Hs Hx F [K1 K2]. assert (Hlen : (i < length kids)%nat) by (apply nth_error_Some; congruence). split.
  - intros r o H Hl. apply in_tree_nth in H as (j & s' & x2 & Hs' & Hx2 & H). destruct (Nat.eq_dec i j) as [<-|Hne].
    + rewrite set_nth_same in Hx2 by assumption. rewrite Hs in Hs'. injection Hs' as <-. injection Hx2 as <-. now apply K1.
    + rewrite set_nth_other in Hx2 by assumption. destruct (H1 r o ltac:(apply in_tree_nth; now exists j, s', x2) Hl) as (o' & E & Ha). exists o'. split; [|assumption]. rewrite F; [assumption|].
      destruct (in_one _ _ _ _ H) as (d & r' & ->). intros d' r2 E2. apply app_head in E2 as [E2 _]. injection E2 as E2 _. apply Hne. now apply (name_inj cs i j s s').
  - intros E [t d] r Hm. destruct (list_eq_dec N.eq_dec t (r_name s)) as [->|Hne].
    + destruct (K2 E d r Hm) as (o & H). exists o. apply in_tree_nth. exists i, s, x'. split; [assumption|]. split; [now apply set_nth_same|assumption].
    + rewrite F in Hm by (intros d' r' E2; apply app_head in E2 as [E2 _]; injection E2 as E2 _; congruence). destruct (H2 E _ _ Hm) as (o & H). exists o. apply in_tree_nth in H as (j & s' & x2 & Hs' & Hx2 & H).
      destruct (in_one _ _ _ _ H) as (d' & r' & E'). injection E' as E1 _ _. apply in_tree_nth. exists j, s', x2. split; [assumption|]. split; [|assumption]. rewrite set_nth_other; [assumption|]. intros <-. congruence.
Qed.
Lemma cont_kid ll q0 n cs id kids M : kid_inv ll q0 (RCont n cs) (TCont id kids) M <->
  M (q0 ++ [(n, [])]) = Some (PNode id) /\ tree_inv ll (q0 ++ [(n, [])]) cs kids M /\ (ll = true -> forall d r, M (q0 ++ (n, d) :: r) <> None -> d = []).
Proof.
  assert (Hb : forall r, q0 ++ (n, []) :: r = (q0 ++ [(n, [])]) ++ r) by (intros r; now rewrite <- app_assoc). split.
  - intros [H1 H2]. split; [|split; [split|]].
    + destruct (H1 [(n, [])] (PNode id)) as (o' & E & Ha); [eapply (in_cont _ _ 0); reflexivity|discriminate|]. destruct o'; cbn in Ha; try discriminate. now rewrite <- Ha.
    + intros r o H Hl. rewrite <- Hb. apply H1; [|assumption]. eapply (in_cont_below _ _ 0); [reflexivity|reflexivity|assumption].
    + intros E m r Hm. rewrite <- Hb in Hm. destruct (H2 E _ _ Hm) as (o & H). apply in_one_cont in H as [[H _]|(r' & H & Ho)]; [discriminate|]. injection H as <-. now exists o.
    + intros E d r Hm. destruct (H2 E _ _ Hm) as (o & H). apply in_one_cont in H as [[H _]|(r' & H & Ho)]; now injection H.
  - intros (H1 & [H2 H3] & H4). split.
    + intros r o H Hl. apply in_one_cont in H as [[-> ->]|(r' & -> & H)]; [exists (PNode id); split; [assumption|reflexivity]|]. rewrite Hb. now apply H2.
    + cbn [r_name]. intros E d r Hm. pose proof (H4 E d r Hm). subst d. destruct r as [|m r]; [exists (PNode id); eapply (in_cont _ _ 0); reflexivity|]. rewrite Hb in Hm. destruct (H3 E m r Hm) as (o & H). exists o. eapply (in_cont_below _ _ 0); [reflexivity|reflexivity|assumption].
Qed.
Definition entry_inv (ll : bool) (q0 : place) (nn : node_name) (cs : list rschema) (id : nat) (ek : list robj) (M : objects (A := pobj)) : Prop :=
  M (q0 ++ [nn]) = Some (PNode id) /\ tree_inv ll (q0 ++ [nn]) cs ek M.
Lemma list_kid ll q0 n keys cs es M : fits (RList n keys cs) (TList es) -> (kid_inv ll q0 (RList n keys cs) (TList es) M <->
  (forall ks id ek, In (ks, (id, ek)) es -> entry_inv ll q0 (n, combine keys ks) cs id ek M) /\
  (ll = true -> forall d r, M (q0 ++ (n, d) :: r) <> None -> exists ks id ek, In (ks, (id, ek)) es /\ d = combine keys ks)).
Proof.
  intros Hf. inversion Hf as [| | |? ? ? ? Hd Hes]; subst. assert (Hb : forall m r, q0 ++ m :: r = (q0 ++ [m]) ++ r) by (intros m r; now rewrite <- app_assoc). split.
  - intros [H1 H2]. split.
    + intros ks id ek Hin. destruct (Hes _ _ _ Hin) as (Hl & _ & _). split; [|split].
      * destruct (H1 [(n, combine keys ks)] (PNode id)) as (o' & E & Ha); [eapply (in_entry _ _ 0); [reflexivity|reflexivity|eassumption]|discriminate|]. destruct o'; cbn in Ha; try discriminate. now rewrite <- Ha.
      * intros r o H Hll. rewrite <- Hb. apply H1; [|assumption]. eapply (in_entry_below _ _ 0); [reflexivity|reflexivity|eassumption|assumption].
      * intros E m r Hm. rewrite <- Hb in Hm. destruct (H2 E _ _ Hm) as (o & H). apply in_one_list in H as (ks' & id' & ek' & Hin' & [[H _]|(r' & H & Ho)]); [discriminate|]. injection H as Hc <-. destruct (Hes _ _ _ Hin') as (Hl' & _ & _).
        apply combine_inj in Hc; [|assumption|assumption]. subst ks'. pose proof (in_key es ks _ _ Hd Hin Hin') as Ee. injection Ee as <- <-. now exists o.
    + intros E d r Hm. destruct (H2 E _ _ Hm) as (o & H). apply in_one_list in H as (ks & id & ek & Hin & [[H _]|(r' & H & Ho)]); exists ks, id, ek; (split; [assumption|]); now injection H.
  - intros [H1 H2]. split.
    + intros r o H Hll. apply in_one_list in H as (ks & id & ek & Hin & [[-> ->]|(r' & -> & H)]); destruct (H1 _ _ _ Hin) as [E1 [E2 _]]; [exists (PNode id); split; [assumption|reflexivity]|]. rewrite Hb. now apply E2.
    + cbn [r_name]. intros E d r Hm. destruct (H2 E d r Hm) as (ks & id & ek & Hin & ->). destruct (H1 _ _ _ Hin) as [E1 [_ E3]]. destruct r as [|m r]; [exists (PNode id); eapply (in_entry _ _ 0); [reflexivity|reflexivity|eassumption]|].
      rewrite Hb in Hm. destruct (E3 E m r Hm) as (o & H). exists o. eapply (in_entry_below _ _ 0); [reflexivity|reflexivity|eassumption|assumption].
Qed.
Lemma tree_frame ll q0 cs kids M M' : tree_inv ll q0 cs kids M -> (forall r, M' (q0 ++ r) = M (q0 ++ r)) -> tree_inv ll q0 cs kids M'.
Proof. intros [H1 H2] F. split; [intros r o H Hl; rewrite F; now apply H1|]. intros E n r Hm. rewrite F in Hm. now apply H2. Qed.
Lemma step_kid ll q0 s x M M' : (ll = true -> exists n v0 x0, s = RLeaf n v0 /\ fits s x0 /\ kid_inv true q0 s x0 M) -> step_ok ll q0 [s] [x] M M' -> within q0 (r_name s) M M' /\ fits s x /\ kid_inv ll q0 s x M'.
Proof.
  intros Hl (A1 & A2 & A3 & A4 & A5). split; [|split].
  - intros q Hq. apply A2. intros s' d r [<-|[]]. apply Hq.
  - now inversion A1.
  - split.
    + intros r o H Hll. apply A4; [assumption|]. intros Ho. exfalso. pose proof (Hll Ho) as E. destruct (Hl E) as (n & v0 & x0 & -> & _). inversion A1 as [|? ? ? ? Hf _]; subst. inversion Hf; subst. apply in_one_leaf in H as [_ ->]. discriminate.
    + intros E d r Hm. destruct (Hl E) as (n & v0 & x0 & -> & Hf0 & _ & K2). inversion A1 as [|? ? ? ? Hf _]; subst. inversion Hf as [? ? vx| | |]; subst. inversion Hf0 as [? ? vy| | |]; subst. cbn [r_name] in *. assert (Y : forall o, in_tree [RLeaf n v0] [TLeaf vy] ((n, d) :: r) o -> exists o', in_tree [RLeaf n v0] [TLeaf vx] ((n, d) :: r) o').
      { intros o H. apply in_one_leaf in H as [H _]. injection H as -> ->. exists (PLeaf vx). eapply (in_leaf _ _ 0); reflexivity. }
      destruct (A5 eq_refl (q0 ++ (n, d) :: r)) as [E5|(r' & o & E5 & H)]; [rewrite E5 in Hm; destruct (K2 eq_refl d r Hm) as (o & H); exact (Y o H)|]. apply app_inv_head in E5. subst r'. now exists o.
Qed.

(* ------------------------------------------------------------------ operations *)
Definition fit_at (os : option rschema) (ks : list str) : Prop := forall n keys cs', os = Some (RList n keys cs') -> length ks = length keys /\ Forall key_text_ok ks.
Definition fine_at (os : option rschema) (o : rop) : Prop :=
  match o with
  | Set_ v => not_late v /\ (forall n cs', os = Some (RCont n cs') -> good_for (RCont n cs') v)
  | Unset | Members _ | Del _ => True
  | Add ks _ | Delete ks => fit_at os ks
  | Put ks ko arg => fit_at os ks /\ Forall is_good ko /\ exists ch, arg = Some ch /\
      forall n keys cs' i v, os = Some (RList n keys cs') -> In (i, v) ch -> exists s, nth_error cs' i = Some s /\ good_for s v
  end.
Definition tame_at (os : option rschema) (o : rop) : Prop :=
  match o with
  | Set_ v => not_late v /\ exists n v0, os = Some (RLeaf n v0)
  | Unset => exists n v0, os = Some (RLeaf n v0)
  | Members _ => True
  | Add ks ko => fit_at os ks /\ Forall is_good ko
  | Delete ks => fit_at os ks
  | Put _ _ _ | Del _ => False
  end.
Definition op_at (ll : bool) (os : option rschema) (o : rop) : Prop := if ll then tame_at os o else fine_at os o.

Lemma entry_frame ll q0 (nn nn' : node_name) cs id ek M M' : nn' <> nn -> (forall q, (forall r', q <> q0 ++ nn :: r') -> M' q = M q) -> entry_inv ll q0 nn' cs id ek M -> entry_inv ll q0 nn' cs id ek M'.
Proof.
  intros Hne F [E1 E2]. split.
  - rewrite F; [assumption|]. intros r' E. apply app_head in E as [E _]. congruence.
  - apply (tree_frame _ _ _ _ _ _ E2). intros r. apply F. intros r' E. rewrite <- app_assoc in E. cbn [app] in E. apply app_head in E as [E _]. congruence.
Qed.
Lemma fits_put n keys cs es ks id ek : fits (RList n keys cs) (TList es) -> length ks = length keys -> Forall key_text_ok ks -> Forall2 fits cs ek -> fits (RList n keys cs) (TList (put_entry ks (id, ek) es)).
Proof.
  intros Hf Hl Ht Hk. inversion Hf as [| | |? ? ? ? Hd Hes]; subst. constructor; [now apply put_entry_nodup|]. intros ks' id' ek' Hin. apply put_entry_in in Hin; [|assumption]. destruct Hin as [[-> E]|[_ Hin]]; [injection E as -> ->; auto|now apply (Hes ks' id')].
Qed.
Lemma put_kid ll q0 n keys cs es ks id ek M M' : fits (RList n keys cs) (TList es) -> length ks = length keys -> Forall key_text_ok ks -> Forall2 fits cs ek ->
  kid_inv ll q0 (RList n keys cs) (TList es) M -> (forall q, (forall r', q <> q0 ++ (n, combine keys ks) :: r') -> M' q = M q) -> entry_inv ll q0 (n, combine keys ks) cs id ek M' ->
  kid_inv ll q0 (RList n keys cs) (TList (put_entry ks (id, ek) es)) M'.
Proof.
  intros Hf Hl Ht Hk HK F He. pose proof (fits_put n keys cs es ks id ek Hf Hl Ht Hk) as Hf'. apply (list_kid ll q0 n keys cs es M Hf) in HK as [H1 H2]. apply (list_kid ll q0 n keys cs _ M' Hf'). inversion Hf as [| | |? ? ? ? Hd Hes]; subst. split.
  - intros ks' id' ek' Hin. apply put_entry_in in Hin; [|assumption]. destruct Hin as [[-> E]|[Hne Hin]]; [injection E as -> ->; assumption|]. apply (entry_frame ll q0 (n, combine keys ks) _ cs id' ek' M M'); [|assumption|now apply H1].
    intros E. injection E as E. apply Hne. destruct (Hes _ _ _ Hin) as (Hl' & _). now apply (combine_inj keys).
  - intros E d r Hm. assert (Hdd : d = combine keys ks \/ d <> combine keys ks) by (destruct (place_dec [(n, d)] [(n, combine keys ks)]) as [X|X]; [injection X; auto|right; congruence]). destruct Hdd as [->|Hne].
    + exists ks, id, ek. split; [|reflexivity]. apply put_entry_in; [assumption|]. now left.
    + rewrite F in Hm by (intros r' E2; apply app_head in E2 as [E2 _]; injection E2 as E2; congruence). destruct (H2 E d r Hm) as (ks' & id' & ek' & Hin & ->). exists ks', id', ek'. split; [|reflexivity]. apply put_entry_in; [assumption|]. right. split; [congruence|assumption].
Qed.
Lemma made_entry ll q0 nn cs id ek M M1 M' : (ll = true -> forall r, M (q0 ++ nn :: r) = None) -> (forall q, q <> q0 ++ [nn] -> M1 q = M q) -> M' (q0 ++ [nn]) = Some (PNode id) -> step_ok ll (q0 ++ [nn]) cs ek M1 M' -> entry_inv ll q0 nn cs id ek M'.
Proof.
  intros Hn F E (A1 & A2 & A3 & A4 & A5). assert (Hb : forall r, q0 ++ nn :: r = (q0 ++ [nn]) ++ r) by (intros r; now rewrite <- app_assoc).
  assert (Hnone : ll = true -> forall m r, M1 ((q0 ++ [nn]) ++ m :: r) = None). { intros El m r. rewrite F; [rewrite <- Hb; now apply Hn|]. intros X. symmetry in X. now apply app_not_self in X. }
  split; [assumption|]. split.
  - intros r o H Hl. apply A4; [assumption|]. intros Ho. pose proof (Hl Ho) as El. split; [assumption|]. destruct (in_tree_head _ _ _ _ H) as (s & d & r' & _ & ->). now apply Hnone.
  - intros El m r Hm. destruct (A5 El ((q0 ++ [nn]) ++ m :: r)) as [E5|(r' & o & E5 & H)]; [rewrite E5, (Hnone El) in Hm; congruence|]. apply app_inv_head in E5. subst r'. now exists o.
Qed.
Lemma fits_del n keys cs es ks : fits (RList n keys cs) (TList es) -> fits (RList n keys cs) (TList (del_entry ks es)).
Proof.
  intros Hf. inversion Hf as [| | |? ? ? ? Hd Hes]; subst. constructor; [now apply del_entry_nodup|]. intros ks' id' ek' Hin. apply del_entry_in in Hin as [_ Hin]. now apply (Hes ks' id').
Qed.
Lemma below_prefix (q q' : place) : below q q' = true <-> exists r, q' = q ++ r.
Proof.
  revert q'. induction q as [|n q IH]; intros [|n' q']; cbn [below app]; split; try discriminate.
  - intros _. now exists [].
  - reflexivity.
  - intros _. now exists (n' :: q').
  - reflexivity.
  - intros (r & E). discriminate.
  - destruct (place_dec [n] [n']) as [E|E]; [|discriminate]. injection E as <-. intros H. apply IH in H as (r & ->). now exists r.
  - intros (r & E). injection E as -> ->. destruct (place_dec [n] [n]) as [_|E]; [|congruence]. apply IH. now exists r.
Qed.

Lemma apply_ok ll q0 path cs s x o w M : ctx q0 path cs -> NoDup (map r_name cs) -> In s cs -> schema_ok s -> fits s x -> winv w M -> present M q0 -> kid_inv ll q0 s x M -> op_at ll (Some s) o ->
  exists w' x' r M', apply uid path s x o w = (w', x', r) /\ winv w' M' /\ within q0 (r_name s) M M' /\ fits s x' /\ kid_inv ll q0 s x' M'.
Proof.
  intros Hc Hd Hin Hs Hf I Hp HK Ho.
  assert (Same : forall r, exists w' x' r' M', (w, x, r : res unit) = (w', x', r') /\ winv w' M' /\ within q0 (r_name s) M M' /\ fits s x' /\ kid_inv ll q0 s x' M').
  { intros r. exists w, x, r, M. split; [reflexivity|]. split; [assumption|]. split; [intros q _; reflexivity|]. now split. }
  assert (Built : forall n v0 w' y M', s = RLeaf n v0 \/ ll = false -> step_ok true q0 [s] [y] M M' -> winv w' M' -> exists w2 x' r' M2, (w', y, Ok tt : res unit) = (w2, x', r') /\ winv w2 M2 /\ within q0 (r_name s) M M2 /\ fits s x' /\ kid_inv ll q0 s x' M2).
  { intros n v0 w' y M' Hcase S I'. exists w', y, (Ok tt), M'. split; [reflexivity|]. split; [assumption|]. apply step_kid.
    - intros ->. destruct Hcase as [Hcase|Hcase]; [|discriminate]. now exists n, v0, x.
    - destruct ll; [assumption|now apply step_weaken]. }
  destruct o as [v| |l|ks ko|ks ko arg|ks|ks]; cbn [apply].
  - (* Set *) destruct s as [n v0|n|n cs'|n keys cs'].
    + assert (Hnl : not_late v) by (destruct ll; now destruct Ho as [Ho _]). destruct v as [[v|e|v e]| | |]; cbn [construct]; try apply Same; [|contradiction].
      destruct (leaf_step w M q0 path cs n v0 v I Hc Hd Hin Hs Hp) as (w1 & M1 & E1 & I1 & S1). unfold andthen. rewrite E1. apply (Built n v0 w1 (TLeaf v) M1); [now left|assumption|assumption].
    + destruct ll; [destruct Ho as [_ (n' & v0 & E)]; discriminate|]. destruct v as [| r | |]; cbn [construct]; try apply Same.
      destruct (leaf_list_step w M q0 path cs n I Hc Hd Hin Hs Hp) as (w1 & M1 & E1 & I1 & S1). unfold andthen in *. unfold new_id, set_members in *. destruct (reg uid (path ++ [n]) _ _) as [w2 [[]|]]; [|discriminate]. unfold ret in *. injection E1 as <-.
      destruct r as [l|e].
      * apply (Built [] VNone _ (TLeafList (w_next w)) M1); [now right|assumption|assumption].
      * unfold fail. exists w2, x, (Raise e), M1. split; [reflexivity|]. split; [assumption|]. destruct (step_kid false q0 (RLeafList n) (TLeafList (w_next w)) M M1 ltac:(discriminate) (step_weaken _ _ _ _ _ S1)) as (F & _ & _). split; [assumption|]. split; [assumption|].
        inversion Hf; subst. split; [|discriminate]. intros r o H Hl. apply in_one_leaf_list in H as [_ ->]. discriminate (Hl eq_refl).
    + destruct ll; [destruct Ho as [_ (n' & v0 & E)]; discriminate|]. destruct Ho as [_ Hg]. specialize (Hg n cs' eq_refl). destruct (construct_all (RCont n cs') v w M q0 path cs Hg I Hc Hd Hin Hs Hp) as (w1 & y & M1 & E1 & I1 & S1).
      cbn [construct] in E1 |- *. rewrite E1. exists w1, y, (Ok tt), M1. split; [reflexivity|]. split; [assumption|]. apply step_kid; [discriminate|assumption].
    + destruct ll; [destruct Ho as [_ (n' & v0 & E)]; discriminate|]. destruct (construct_all (RList n keys cs') v w M q0 path cs (good_list n keys cs' v) I Hc Hd Hin Hs Hp) as (w1 & y & M1 & E1 & I1 & S1).
      rewrite E1. exists w1, y, (Ok tt), M1. split; [reflexivity|]. split; [assumption|]. apply step_kid; [discriminate|assumption].
  - (* Unset *) destruct (build_all s w M q0 path cs I Hc Hd Hin Hs Hp) as (w1 & y & M1 & E1 & I1 & S1). rewrite E1. destruct ll.
    + destruct Ho as (n & v0 & E). injection E as ->. apply (Built n v0 w1 y M1); [now left|assumption|assumption].
    + apply (Built [] VNone w1 y M1); [now right|assumption|assumption].
  - (* Members *) destruct x as [|id| |]; try apply Same. cbn [set_members fst]. exists (fst (set_members id l w)), (TLeafList id), (Ok tt), M. split; [reflexivity|]. split; [exact I|]. split; [intros q _; reflexivity|]. now split.
  - (* Add *) destruct s as [|n|n cs'|n keys cs']; try apply Same. destruct x as [| | |es]; try apply Same. destruct (entry ks es) as [e0|] eqn:Ee; [apply Same|]. inversion Hs as [| | |? ? ? S1 S2 S3 S4 S5 S6]; subst.
    assert (Hfit : length ks = length keys /\ Forall key_text_ok ks) by (destruct ll; [destruct Ho as [Ho _]|]; now apply (Ho n keys cs')). destruct Hfit as [Hl Ht].
    assert (Ek : match keys with [] => make_keyless uid path n cs' | _ => make_entry uid path n keys cs' ks ko None end = make_entry uid path n keys cs' ks ko None) by (destruct keys; [congruence|reflexivity]). rewrite Ek.
    destruct (entry_made ll q0 path cs n keys cs' ks ko None w M Hc Hd Hin Hs Hl Ht I Hp Logic.I) as (w1 & r & M' & E1 & I1 & F & Hr). unfold andthen. rewrite E1. cbn [r_name].
    assert (Fw : within q0 n M M') by (intros q Hq; apply F; intros r'; apply Hq).
    inversion Hf as [| | |? ? ? ? Hde Hes]; subst. destruct r as [[id ek]|e].
    + destruct Hr as (Em & M1 & F1 & S). unfold ret. eexists _, _, _, M'. split; [reflexivity|]. split; [assumption|]. split; [assumption|]. split; [apply fits_put; try assumption; apply S|].
      apply (put_kid ll q0 n keys cs' es ks id ek M M'); try assumption; [apply S|]. apply (made_entry ll q0 _ cs' id ek M M1 M'); try assumption.
      intros El r. destruct (M (q0 ++ (n, combine keys ks) :: r)) eqn:EM; [|exact EM]. exfalso. apply (list_kid ll q0 n keys cs' es M Hf) in HK as [_ H2]. destruct (H2 El (combine keys ks) r ltac:(congruence)) as (ks' & id' & ek' & Hi & Ec).
      destruct (Hes _ _ _ Hi) as (Hl' & _). apply combine_inj in Ec; [|assumption|assumption]. subst ks'. apply (entry_none ks es Ee). now apply (in_map fst) in Hi.
    + destruct ll; [destruct Ho as [_ Hg]; contradiction|]. exists w1, (TList es), (Raise e), M'. split; [reflexivity|]. split; [assumption|]. split; [assumption|]. split; [assumption|].
      apply (list_kid false q0 n keys cs' es M Hf) in HK as [H1 _]. apply (list_kid false q0 n keys cs' es M' Hf). split; [|discriminate]. intros ks' id' ek' Hi. apply (entry_frame false q0 (n, combine keys ks) _ cs' id' ek' M M'); [|assumption|now apply H1].
      intros Ec. injection Ec as Ec. destruct (Hes _ _ _ Hi) as (Hl' & _). apply combine_inj in Ec; [|assumption|assumption]. subst ks'. apply (entry_none ks es Ee). now apply (in_map fst) in Hi.
  - (* Put *) destruct ll; [contradiction|]. destruct s as [|n|n cs'|n keys cs']; try apply Same. destruct x as [| | |es]; try apply Same. destruct Ho as (Hfit & Hg & ch & -> & Hch). destruct (Hfit n keys cs' eq_refl) as [Hl Ht]. inversion Hs as [| | |? ? ? S1 S2 S3 S4 S5 S6]; subst.
    assert (Ek : match keys with [] => make_keyless uid path n cs' | _ => make_entry uid path n keys cs' ks ko (Some (Some ch)) end = make_entry uid path n keys cs' ks ko (Some (Some ch))) by (destruct keys; [congruence|reflexivity]). cbv zeta. rewrite Ek.
    destruct (entry_made false q0 path cs n keys cs' ks ko (Some (Some ch)) w M Hc Hd Hin Hs Hl Ht I Hp (conj eq_refl (fun i v => Hch n keys cs' i v eq_refl))) as (w1 & r & M' & E1 & I1 & F & Hr). unfold andthen. rewrite E1. cbn [r_name].
    assert (Fw : within q0 n M M') by (intros q Hq; apply F; intros r'; apply Hq).
    destruct r as [[id ek]|e]; [|contradiction]. destruct Hr as (Em & M1 & F1 & S). unfold ret. eexists _, _, _, M'. split; [reflexivity|]. split; [assumption|]. split; [assumption|]. split; [apply fits_put; try assumption; apply S|].
    apply (put_kid false q0 n keys cs' es ks id ek M M'); try assumption; [apply S|]. apply (made_entry false q0 _ cs' id ek M M1 M'); try assumption. discriminate.
  - (* Delete *) destruct s as [|n|n cs'|n keys cs']; try apply Same. destruct x as [| | |es]; try (destruct keys; apply Same). inversion Hs as [| | |? ? ? S1 S2 S3 S4 S5 S6]; subst. destruct keys as [|k keys0]; [congruence|]. remember (k :: keys0) as keys eqn:Ekeys.
    destruct (entry ks es) as [[id ek]|] eqn:Ee; [|apply Same]. assert (Hfit : length ks = length keys /\ Forall key_text_ok ks) by (destruct ll; now apply (Ho n keys cs')). destruct Hfit as [Hl Ht]. pose proof (entry_in _ _ _ Ee) as Hi.
    assert (Hsp : spells (n ++ delete_part keys ks) (n, combine keys ks)) by (apply delete_part_spells; try assumption; intros k' Hk'; now apply S6).
    destruct (ctx_entry q0 path cs n keys cs' ks _ Hc Hd Hin Hs Hl Ht Hsp) as [(Hpl1 & Hpl2) _]. pose proof (unregister_sim uid K (w_help w) M _ _ I Hpl1 Hpl2) as [I' R]. unfold map_unregister in I', R.
    pose proof (proj1 (list_kid ll q0 n keys cs' es M Hf) HK) as [H1 H2]. destruct (H1 _ _ _ Hi) as [Em _]. 
    assert (Emm : M (q0 ++ [(n, combine keys ks)]) = Some (PNode id)) by exact Em. rewrite Emm in I'. cbn [fst] in I'. destruct (unregister (path ++ [n ++ delete_part keys ks]) (w_help w)) as [h r] eqn:Eu. assert (Eh : fst (unregister (path ++ [n ++ delete_part keys ks]) (w_help w)) = h) by (refine (eq_trans (f_equal fst Eu) _); reflexivity). assert (I2 : inv uid K h (fun q' => if below (q0 ++ [(n, combine keys ks)]) q' then None else M q')) by (rewrite <- Eh; exact I').
    eexists _, _, _, _. split; [reflexivity|]. split; [exact I2|]. inversion Hf as [| | |? ? ? ? Hde Hes]; subst es0 keys1 cs0 n0.
    assert (Hb : forall d r', below (q0 ++ [(n, combine keys ks)]) (q0 ++ (n, d) :: r') = true -> d = combine keys ks). { intros d r' Hb. apply below_prefix in Hb as (r2 & Hb). rewrite <- app_assoc in Hb. cbn [app] in Hb. apply app_head in Hb as [Hb _]. now injection Hb. }
    assert (F : forall q, (forall r', q <> q0 ++ (n, combine keys ks) :: r') -> (if below (q0 ++ [(n, combine keys ks)]) q then None else M q) = M q).
    { intros q Hq. destruct (below _ q) eqn:Eb; [|reflexivity]. apply below_prefix in Eb as (r' & ->). exfalso. apply (Hq r'). rewrite <- app_assoc. reflexivity. }
    split; [intros q Hq; apply F; intros r'; apply Hq|]. split; [now apply fits_del|]. apply (list_kid ll q0 n keys cs' _ _ (fits_del n keys cs' es ks Hf)). split.
    + intros ks' id' ek' Hin'. apply del_entry_in in Hin' as [Hne Hin']. apply (entry_frame ll q0 (n, combine keys ks) _ cs' id' ek' M _); [|exact F|now apply H1]. intros Ec. injection Ec as Ec. apply Hne. destruct (Hes _ _ _ Hin') as (Hl' & _). now apply (combine_inj keys).
    + intros El d r' Hm. destruct (below (q0 ++ [(n, combine keys ks)]) (q0 ++ (n, d) :: r')) eqn:Eb; [congruence|]. destruct (H2 El d r' Hm) as (ks' & id' & ek' & Hin' & ->). exists ks', id', ek'. split; [|reflexivity]. apply del_entry_in. split; [|assumption]. intros ->.
      assert (below (q0 ++ [(n, combine keys ks)]) (q0 ++ (n, combine keys ks) :: r') = true); [|congruence]. apply below_prefix. exists r'. now rewrite <- app_assoc.
  - (* Del *) destruct ll; [contradiction|]. destruct s as [|n|n cs'|n keys cs']; try apply Same. destruct x as [| | |es]; try apply Same. destruct (entry ks es); [|apply Same]. exists w, (TList (del_entry ks es)), (Ok tt), M. split; [reflexivity|]. split; [assumption|]. split; [intros q _; reflexivity|].
    split; [now apply fits_del|]. apply (list_kid false q0 n keys cs' es M Hf) in HK as [H1 _]. apply (list_kid false q0 n keys cs' _ M (fits_del n keys cs' es ks Hf)). split; [|discriminate]. intros ks' id' ek' Hi. apply del_entry_in in Hi as [_ Hi]. now apply H1.
Qed.

Lemma within_below (q0 : place) (n : str) (d : list (str * str)) (M M' : objects (A := pobj)) : (forall q, (forall m r, q <> (q0 ++ [(n, d)]) ++ m :: r) -> M' q = M q) -> forall q, (forall r', q <> q0 ++ (n, d) :: r') -> M' q = M q.
Proof. intros F q Hq. apply F. intros m r ->. apply (Hq (m :: r)). now rewrite <- app_assoc. Qed.
Lemma self_below q0 (nn : node_name) (M M' : objects (A := pobj)) : (forall q, (forall m r, q <> (q0 ++ [nn]) ++ m :: r) -> M' q = M q) -> M' (q0 ++ [nn]) = M (q0 ++ [nn]).
Proof. intros F. apply F. intros m r E. now apply app_not_self in E. Qed.
Lemma within_out q0 t M M' : within q0 t M M' -> forall q, (forall m r, q <> q0 ++ m :: r) -> M' q = M q.
Proof. intros F q Hq. apply F. intros d r. apply Hq. Qed.

Definition stepped (ll : bool) (q0 : place) (cs : list rschema) (M : objects (A := pobj)) (res' : world * list robj * res unit) : Prop :=
  let '(w', kids', _) := res' in exists M', winv w' M' /\ (forall q, (forall s d r, In s cs -> q <> q0 ++ (r_name s, d) :: r) -> M' q = M q) /\ Forall2 fits cs kids' /\ tree_inv ll q0 cs kids' M'.
Lemma outside_named q0 cs (M M' : objects (A := pobj)) : (forall q, (forall s d r, In s cs -> q <> q0 ++ (r_name s, d) :: r) -> M' q = M q) -> forall q, (forall m r, q <> q0 ++ m :: r) -> M' q = M q.
Proof. intros H q Hq. apply H. intros s d r _. apply Hq. Qed.

Lemma exec_ok ll o : forall k p, (length p <= k)%nat -> forall q0 path cs kids w M, ctx q0 path cs -> NoDup (map r_name cs) -> (forall s, In s cs -> schema_ok s) -> Forall2 fits cs kids -> winv w M -> present M q0 -> tree_inv ll q0 cs kids M ->
  op_at ll (schema_at cs p) o -> stepped ll q0 cs M (exec uid path cs kids p o w).
Proof.
  induction k as [|k IH]; intros p Hk q0 path cs kids w M Hc Hd Hs Hf I Hp HT Ho.
  { destruct p; [|cbn in Hk; lia]. exists M. now repeat (split; [assumption || (intros; reflexivity)|]). }
  assert (Same : forall r, stepped ll q0 cs M (w, kids, r)) by (intros r; exists M; now repeat (split; [assumption || (intros; reflexivity)|])).
  destruct p as [|[i|ks] p']; [apply Same| |apply Same]. cbn [exec]. destruct (nth_error cs i) as [s|] eqn:Es; [|apply Same]. destruct (nth_error kids i) as [x|] eqn:Ex; [|apply Same].
  assert (Hin : In s cs) by (now apply nth_error_In in Es). pose proof (tree_kid ll q0 cs kids M i s x Hd HT Es Ex) as HK. assert (Hfx : fits s x) by (destruct (Forall2_nth _ _ _ _ _ Hf Es) as (x' & Ex' & H); congruence).
  assert (Finish : forall w' x' M' (r : res unit), winv w' M' -> within q0 (r_name s) M M' -> fits s x' -> kid_inv ll q0 s x' M' -> stepped ll q0 cs M (w', set_nth i x' kids, r)).
  { intros w' x' M' r I' F' Hf' HK'. exists M'. split; [assumption|]. split; [intros q Hq; apply F'; intros d r'; now apply Hq|]. split; [now apply (Forall2_set fits cs kids i s)|]. now apply (kid_replaced ll q0 cs kids M M' i s x x'). }
  destruct p' as [|[j|ks] p''].
  - cbn [schema_at] in Ho. rewrite Es in Ho. destruct (apply_ok ll q0 path cs s x o w M Hc Hd Hin (Hs s Hin) Hfx I Hp HK Ho) as (w' & x' & r & M' & E & I' & F' & Hf' & HK'). rewrite E. now apply (Finish w' x' M').
  - destruct s as [n v0|n|n cs'|n keys cs']; try apply Same. destruct x as [| |id kids'|]; try apply Same. change (schema_at cs (Kid i :: Kid j :: p'')) with (match nth_error cs i with Some (RCont _ cs') => schema_at cs' (Kid j :: p'') | _ => None end) in Ho. rewrite Es in Ho.
    pose proof (proj1 (cont_kid ll q0 n cs' id kids' M) HK) as (K1 & K2 & K3). pose proof (Hs _ Hin) as Hsn. inversion Hsn as [| |? ? S1 S2 S3|]; subst. inversion Hfx as [| |? ? ? ? Hfk|]; subst.
    pose proof (IH (Kid j :: p'') ltac:(cbn [length] in *; lia) (q0 ++ [(n, [])]) (path ++ [n]) cs' kids' w M (ctx_cont q0 path cs n cs' Hc Hd Hin Hsn) S2 S3 Hfk I ltac:(right; unfold objects in *; intros X; discriminate (eq_trans (eq_sym X) K1)) K2 Ho) as HS.
    destruct (exec uid (path ++ [n]) cs' kids' (Kid j :: p'') o w) as [[w' kids2] r] eqn:EE. destruct HS as (M' & I' & F0 & Hf' & HT'). pose proof (outside_named _ _ _ _ F0) as F'.
    assert (Hgoal : stepped ll q0 cs M (w', set_nth i (TCont id kids2) kids, r)).
    { pose proof (within_below q0 n [] M M' F') as F2. apply (Finish w' (TCont id kids2) M' r I'); [intros q Hq; apply F2; intros r'; apply Hq|now constructor|]. apply cont_kid. split; [exact (eq_trans (self_below _ _ _ _ F') K1)|]. split; [assumption|].
      intros El d r0 Hm. destruct d as [|kv d]; [reflexivity|]. apply (K3 El (kv :: d) r0). rewrite F2 in Hm; [assumption|]. intros r' E. apply app_head in E as [E _]. discriminate. }
    exact Hgoal.
  - destruct s as [n v0|n|n cs'|n keys cs']; try apply Same. destruct x as [| | |es]; try apply Same. destruct (entry ks es) as [[id ek]|] eqn:Ee; [|apply Same]. change (schema_at cs (Kid i :: Ent ks :: p'')) with (match nth_error cs i with Some (RList _ _ cs') => schema_at cs' p'' | _ => None end) in Ho. rewrite Es in Ho.
    pose proof (proj1 (list_kid ll q0 n keys cs' es M Hfx) HK) as [K1 K2]. pose proof (Hs _ Hin) as Hsn. inversion Hsn as [| | |? ? ? S1 S2 S3 S4 S5 S6]; subst. inversion Hfx as [| | |? ? ? ? Hde Hes]; subst. pose proof (entry_in _ _ _ Ee) as Hi. destruct (Hes _ _ _ Hi) as (Hl & Ht & Hfk). destruct (K1 _ _ _ Hi) as [E1 E2].
    assert (Ep : match keys with [] => n | _ :: _ => n ++ key_part keys ks end = n ++ key_part keys ks) by (destruct keys; [congruence|reflexivity]). cbv zeta. rewrite Ep.
    assert (Hsp : spells (n ++ key_part keys ks) (n, combine keys ks)) by (apply key_part_spells; try assumption; intros k' Hk'; now apply S6).
    destruct (ctx_entry q0 path cs n keys cs' ks _ Hc Hd Hin Hsn Hl Ht Hsp) as [_ Hctx].
    pose proof (IH p'' ltac:(cbn [length] in *; lia) (q0 ++ [(n, combine keys ks)]) (path ++ [n ++ key_part keys ks]) cs' ek w M Hctx S2 S3 Hfk I ltac:(right; unfold objects in *; intros X; discriminate (eq_trans (eq_sym X) E1)) E2 Ho) as HS.
    destruct (exec uid (path ++ [n ++ key_part keys ks]) cs' ek p'' o w) as [[w' ek'] r] eqn:EE. destruct HS as (M' & I' & F0 & Hf' & HT'). pose proof (outside_named _ _ _ _ F0) as F'. pose proof (within_below q0 n _ M M' F') as F2. match goal with |- context [exec ?a ?b ?c ?d ?e ?f ?g] => change (exec a b c d e f g = (w', ek', r)) in EE end. rewrite EE.
    apply (Finish w' (TList (put_entry ks (id, ek') es)) M' r I'); [intros q Hq; apply F2; intros r'; apply Hq|now apply fits_put|]. apply (put_kid ll q0 n keys cs' es ks id ek' M M'); try assumption. split; [exact (eq_trans (self_below _ _ _ _ F') E1)|assumption].
Qed.

Lemma in_place cs kids q o : in_tree cs kids q o -> forall q0 path, ctx q0 path cs -> NoDup (map r_name cs) -> (forall s, In s cs -> schema_ok s) -> Forall2 fits cs kids -> exists path', spelled_place path' (q0 ++ q).
Proof.
  induction 1 as [cs kids i n v0 v H1 H2|cs kids i n id H1 H2|cs kids i n cs' id kids' H1 H2|cs kids i n cs' id kids' q o H1 H2 H IH|cs kids i n keys cs' es ks id ek H1 H2 H3|cs kids i n keys cs' es ks id ek q o H1 H2 H3 H IH]; intros q0 path Hc Hd Hs Hf; pose proof (nth_error_In _ _ H1) as Hin; pose proof (Hs _ Hin) as Hsn.
  - exists (path ++ [n]). now apply (ctx_plain q0 path cs (RLeaf n v0)).
  - exists (path ++ [n]). now apply (ctx_plain q0 path cs (RLeafList n)).
  - exists (path ++ [n]). now apply (ctx_plain q0 path cs (RCont n cs')).
  - inversion Hsn as [| |? ? S1 S2 S3|]; subst. destruct (Forall2_nth _ _ _ _ _ Hf H1) as (x & Ex & Hfx). rewrite H2 in Ex. injection Ex as <-. inversion Hfx; subst.
    destruct (IH (q0 ++ [(n, [])]) (path ++ [n])) as (path' & Hp); [now apply (ctx_cont q0 path cs)|assumption..|]. exists path'. now rewrite <- app_assoc in Hp.
  - inversion Hsn as [| | |? ? ? S1 S2 S3 S4 S5 S6]; subst. destruct (Forall2_nth _ _ _ _ _ Hf H1) as (x & Ex & Hfx). rewrite H2 in Ex. injection Ex as <-. inversion Hfx as [| | |? ? ? ? Hde Hes]; subst. destruct (Hes _ _ _ H3) as (Hl & Ht & Hfk).
    assert (Hsp : spells (n ++ key_part keys ks) (n, combine keys ks)) by (apply key_part_spells; try assumption; intros k' Hk'; now apply S6).
    destruct (ctx_entry q0 path cs n keys cs' ks _ Hc Hd Hin Hsn Hl Ht Hsp) as [Hp Hctx]. eexists; exact Hp.
  - inversion Hsn as [| | |? ? ? S1 S2 S3 S4 S5 S6]; subst. destruct (Forall2_nth _ _ _ _ _ Hf H1) as (x & Ex & Hfx). rewrite H2 in Ex. injection Ex as <-. inversion Hfx as [| | |? ? ? ? Hde Hes]; subst. destruct (Hes _ _ _ H3) as (Hl & Ht & Hfk).
    assert (Hsp : spells (n ++ key_part keys ks) (n, combine keys ks)) by (apply key_part_spells; try assumption; intros k' Hk'; now apply S6).
    destruct (ctx_entry q0 path cs n keys cs' ks _ Hc Hd Hin Hsn Hl Ht Hsp) as [Hp Hctx]. destruct (IH _ _ Hctx S2 S3 Hfk) as (path' & Hp'). exists path'. now rewrite <- app_assoc in Hp'.
Qed.
End Registered.

Definition op_fine (ll : bool) (cs : list rschema) (po : list rstep * rop) : Prop := if ll then tame cs po else fine cs po.
Lemma op_fine_at ll cs p o : op_fine ll cs (p, o) -> op_at ll (schema_at cs p) o.
Proof. destruct ll, o; exact (fun H => H). Qed.
Lemma ctx_top top : ctx top [] [] top.
Proof. split; [constructor|]. split; [constructor|]. split; [exact I|]. intros n t _. reflexivity. Qed.

Lemma run_ok uid (Huid : fresh uid) cs ll : module_ok cs -> forall os w kids M, Forall (op_fine ll cs) os -> winv uid cs w M -> Forall2 fits cs kids -> tree_inv ll [] cs kids M ->
  exists M', winv uid cs (fst (run uid cs w kids os)) M' /\ Forall2 fits cs (snd (run uid cs w kids os)) /\ tree_inv ll [] cs (snd (run uid cs w kids os)) M'.
Proof.
  intros [Hd Hs]. induction os as [|[p o] os IH]; intros w kids M Hos I Hf HT; cbn [run]; [exists M; now split|]. inversion Hos as [|? ? Ho Hos']; subst.
  pose proof (exec_ok uid Huid cs ll o (length p) p (le_n _) [] [] cs kids w M (ctx_top cs) Hd Hs Hf I (or_introl eq_refl) HT (op_fine_at _ _ _ _ Ho)) as HS. destruct (exec uid [] cs kids p o w) as [[w' kids'] r]. destruct HS as (M' & I' & _ & Hf' & HT'). now apply (IH w' kids' M').
Qed.
Lemma session_ok uid (Huid : fresh uid) cs ll os : module_ok cs -> Forall (op_fine ll cs) os ->
  exists M, winv uid cs (fst (session uid cs os)) M /\ Forall2 fits cs (snd (session uid cs os)) /\ tree_inv ll [] cs (snd (session uid cs os)) M.
Proof.
  intros Hm Hos. destruct Hm as [Hd Hs]. unfold session, module_new.
  destruct (mapA_build uid cs cs [] [] (fun s _ => build_all uid Huid cs s) (ctx_top cs) Hd Hs cs world_new (fun _ => None) (incl_refl cs) Hd (inv_new uid _) (or_introl eq_refl)) as (w & kids & M & E & I & S).
  match goal with |- context [mapA ?f ?l world_new] => change (mapA f l world_new = (w, Ok kids)) in E end. rewrite E. apply (run_ok uid Huid cs ll (conj Hd Hs) os w kids M Hos I); [apply S|].
  destruct S as (_ & _ & _ & A4 & A5). split.
  - intros r o H _. apply A4; [assumption|]. intros _. now split.
  - intros _ n r Hm. destruct (A5 eq_refl ([] ++ n :: r)) as [E5|(r' & o & E5 & H)]; [rewrite E5 in Hm; congruence|]. cbn [app] in E5. subst r'. now exists o.
Qed.

Theorem session_found uid cs os : fresh uid -> module_ok cs -> Forall (fine cs) os -> forall q o, in_tree cs (snd (session uid cs os)) q o -> is_leaf_list o = false ->
  forall path q', same_place q q' -> Forall2 spells path q' -> exists o', get [] path (w_help (fst (session uid cs os))) = Ok [Some o'] /\ agrees o' o.
Proof.
  intros Hu Hm Hos q o Hin Hl path q' Hsame Hsp. destruct (session_ok uid Hu cs false os Hm Hos) as (M & I & Hf & HT). destruct Hm as [Hd Hs]. destruct (in_place cs _ _ _ _ Hin [] [] (ctx_top cs) Hd Hs Hf) as (_ & _ & Hok). cbn [app] in Hok.
  destruct (proj1 HT q o Hin ltac:(congruence)) as (o' & E & Ha). cbn [app] in E. exists o'. split; [|assumption]. rewrite (get_sim uid _ _ M path q q' I Hok Hsame Hsp). match goal with |- Ok ?m = _ => change (M q = Some o') in E end. now rewrite E.
Qed.
Theorem session_exact uid cs os : fresh uid -> module_ok cs -> Forall (tame cs) os -> forall path q q', place_ok (keys_of cs) q -> same_place q q' -> Forall2 spells path q' ->
  (forall o, in_tree cs (snd (session uid cs os)) q o -> exists o', get [] path (w_help (fst (session uid cs os))) = Ok [Some o'] /\ agrees o' o) /\
  ((forall o, ~ in_tree cs (snd (session uid cs os)) q o) -> get [] path (w_help (fst (session uid cs os))) = Ok []).
Proof.
  intros Hu Hm Hos path q q' Hok Hsame Hsp. destruct (session_ok uid Hu cs true os Hm Hos) as (M & I & Hf & HT). pose proof (get_sim uid _ _ M path q q' I Hok Hsame Hsp) as G. split.
  - intros o Hin. destruct (proj1 HT q o Hin ltac:(reflexivity)) as (o' & E & Ha). cbn [app] in E. exists o'. split; [|assumption]. rewrite G. match goal with |- Ok ?m = _ => change (M q = Some o') in E end. now rewrite E.
  - intros Hn. rewrite G. destruct q as [|n q]; [destruct Hok as [Hok _]; congruence|]. destruct (M (n :: q)) eqn:E; [|reflexivity]. exfalso. destruct (proj2 HT eq_refl n q) as (o & H); [cbn [app]; congruence|]. now apply (Hn o).
Qed.
