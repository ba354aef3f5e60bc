(** Documents that load have the shape of the schema. *)
From Coq Require Import Lia.
From Verif Require Import PyStr PyStr_facts PyVal Restricted Spec_Lists TypedList YList SafeName
  Tree Spec_Tree Tree_proofs Tree_frame Tree_main Tree_past Serialise Spec_Serialise Load_proofs Unknown_proofs UnknownIetf_proofs Spec_Loading Loading_proofs LoadingIetf_proofs Spec_Shape Xml.
From Verif Require LoadingMain_proofs.

Section S.
Context (O : oracle) (uid : list (pyval * obj) -> str) (top : list schema).
Notation run_op := (run_op O top).
Notation load_ietf := (load_ietf O uid top).
Notation iload_kid := (iload_kid O uid top).
Notation load := (load O uid top).
Notation load_kid := (load_kid O uid top).

Lemma each_ok {A} (f : A -> list obj -> step) l a : In a l -> forall m, snd (for_each f l m) = Ok tt -> exists m', snd (f a m') = Ok tt.
Proof.
  induction l as [|b l IH]; intros H m E; [destruct H|]. cbn [for_each] in E. destruct (f b m) as [m1 [[]|e]] eqn:Eb; cbn [andthen] in E; [|discriminate].
  destruct H as [->|H]; [exists m; now rewrite Eb|exact (IH H _ E)].
Qed.
Lemma then_ok r k : snd (andthen r k) = Ok tt -> snd r = Ok tt /\ exists m, snd (k m) = Ok tt.
Proof. destruct r as [m [[]|e]]; cbn; [intros H; split; [reflexivity|now exists m]|discriminate]. Qed.

(** An operation that succeeds does so on an object of the class at its path. *)
Lemma exec_class n : forall p, length p <= n -> forall live i pr cs kids o k e, exec O live cs kids p o = (k, e, Ok tt) ->
  exists s x, sub (SCont i pr cs) p = Some s /\ f_out (apply O s x o) = Ok tt.
Proof.
  induction n as [|n IH]; intros p Hp live i pr cs kids o k e E.
  { destruct p; [|cbn in Hp; lia]. discriminate. }
  destruct p as [|[j|key] p]; [discriminate| |discriminate]. cbn [exec sub] in *. destruct (nth_error cs j) as [s|]; [|discriminate]. destruct (nth_error kids j) as [x|]; [|discriminate].
  injection E as _ _ E. destruct p as [|[j2|key] p].
  - exists s, x. split; [reflexivity|exact E].
  - destruct s as [| |i' pr' cs'|]; try discriminate. destruct x as [| |ch ps kids'|]; try discriminate.
    destruct (exec O true cs' kids' (Kid j2 :: p) o) as [[k1 e1] r1] eqn:E1. cbn [f_out] in E. subst r1. cbn [length] in Hp. eapply (IH (Kid j2 :: p)); [cbn [length]; lia|exact E1].
  - destruct s as [| | |i' keys od cs']; try discriminate. destruct x as [| | |ch es]; try discriminate. destruct (mget key es) as [[| |ech eps ekids|]|]; try discriminate.
    destruct (exec O true cs' ekids p o) as [[k1 e1] r1] eqn:E1. cbn [f_out] in E. subst r1. cbn [length] in Hp. cbn [sub]. eapply (IH p); [lia|exact E1].
Qed.
Lemma op_class q s m o : schema_at top q = Some s -> snd (run_op m q o) = Ok tt -> exists x, f_out (apply O s x o) = Ok tt.
Proof.
  unfold Serialise.run_op, module_exec, schema_at, entry_schema. intros Hs H. destruct (exec O false top m q o) as [[k e] r] eqn:E. cbn in H. subst r.
  destruct (exec_class (length q) q (le_n _) false plain false top m o k e E) as (s' & x & Hs' & Hx). exists x. congruence.
Qed.
Lemma assign_set s w v : f_out (assign O s w (AVal v)) = Ok tt -> f_out (set_any O s (AVal v)) = Ok tt.
Proof. destruct (assign_either O s w v) as [->| ->]; [auto|discriminate]. Qed.
Lemma set_ok q s m w v : schema_at top q = Some s -> snd (run_op m q (ASet w (AVal v))) = Ok tt -> f_out (set_any O s (AVal v)) = Ok tt.
Proof. intros Hs H. destruct (op_class q s m _ Hs H) as (x & Hx). cbn [apply] in Hx. exact (assign_set _ _ _ Hx). Qed.
Lemma setter_ok evs r : f_out (setter evs r) = Ok tt -> exists x, r = Ok x.
Proof. destruct r as [x|e]; cbn; [eauto|discriminate]. Qed.
Lemma leaf_takes i lt v : f_out (set_leaf O i lt v) = Ok tt -> exists w, d_out (leaf_assign O lt v) = Ok w.
Proof. unfold set_leaf. intros H. apply setter_ok in H. destruct H as (x & H). destruct (d_out (leaf_assign O lt v)) as [w|]; [eauto|discriminate]. Qed.
Lemma members_taken i ts v : f_out (set_leaf_list O i ts v) = Ok tt -> exists l, tl_init O ts true v = Ok l.
Proof. unfold set_leaf_list. intros H. apply setter_ok in H. destruct H as (x & H). destruct (tl_init O ts true v) as [w|]; [eauto|discriminate]. Qed.

Lemma first_colon s : has_char 58 s = true -> exists a, s = a ++ lit ":" ++ after_first_colon s /\ ~ In 58%N a.
Proof.
  induction s as [|c s IH]; cbn [has_char existsb after_first_colon]; [discriminate|]. destruct (N.eqb c 58) eqn:E.
  - intros _. apply N.eqb_eq in E. subst c. exists []. split; [reflexivity|easy].
  - rewrite N.eqb_sym in E. rewrite E. cbn [orb]. intros H. destruct (IH H) as (a & Ha & Hn). exists (c :: a). split; [cbn [app]; now rewrite <- Ha|].
    intros [->|Hi]; [discriminate|auto].
Qed.
Lemma no_colon s : has_char 58 s = false -> ~ In 58%N s.
Proof. unfold has_char. intros H Hi. assert (existsb (N.eqb 58) s = true); [apply existsb_exists; exists 58%N; auto|congruence]. Qed.
Lemma not_found key cs : find_kid key cs = None -> foreign cs key.
Proof.
  intros Ef n s [Hn Hpy]. unfold find_kid in Ef. destruct (kid_index (safe_name key) cs) as [k|] eqn:Ek.
  - destruct (kid_index_py _ _ _ Ek) as (s' & Hs' & _). rewrite Hs' in Ef. discriminate.
  - clear - Hn Hpy Ek. revert cs Hn Ek. induction n as [|n IH]; intros [|c cs] Hn Ek; try discriminate; cbn [kid_index nth_error] in *.
    + injection Hn as ->. rewrite Hpy, str_eqb_refl in Ek. discriminate.
    + destruct (str_eqb _ _); [discriminate|]. destruct (kid_index _ cs) eqn:E; [discriminate|]. eapply IH; eauto.
Qed.
(** What is set in the end. *)
Lemma value_given s j j' : ietf_value s j = Ok j' ->
  (s_ytype s = lit "empty" /\ j = JArr [JNull] /\ j' = JBool true) \/ (s_ytype s <> lit "empty" /\ given (s_ytype s) j j').
Proof.
  unfold ietf_value. destruct (str_eqb (s_ytype s) (lit "empty")) eqn:Ee.
  - apply str_eqb_eq in Ee. rewrite Ee. destruct j as [| | | | |l|]; try discriminate. destruct l as [|[] [|]]; try discriminate. cbn. intros H. injection H as <-. left. auto.
  - assert (Hne : s_ytype s <> lit "empty"). { intros E. rewrite E, str_eqb_refl in Ee. discriminate. }
    cbn [bind]. intros H. right. split; [exact Hne|]. destruct (str_eqb (s_ytype s) (lit "identityref")) eqn:Ei.
    + apply str_eqb_eq in Ei. destruct j as [| | | |v|l|ms]; try discriminate H.
      * destruct (has_char 58 v) eqn:Ec; injection H as <-.
        -- destruct (first_colon v Ec) as (a & Ha & Hn). rewrite Ha at 1. now apply GivenLocal.
        -- apply GivenPlain. right. intros w Hw. injection Hw as <-. now apply no_colon.
      * destruct (existsb _ l); [discriminate|]. injection H as <-. apply GivenPlain. right. discriminate.
      * injection H as <-. apply GivenPlain. right. discriminate.
    + injection H as <-. apply GivenPlain. left. intros E. rewrite E, str_eqb_refl in Ei. discriminate.
Qed.
Lemma given_shape yt j j' : given yt j j' -> match j with JStr _ => exists v, j' = JStr v | _ => j' = j end.
Proof. intros [j0 _|a b _ _]; [destruct j0; eauto|eauto]. Qed.

Context (skip : bool).
Notation ifits := (ietf_fits O skip false).
(** A value that is set as a whole. *)
Lemma set_fits s q j m : schema_at top q = Some s -> no_object j -> (match s with SList _ _ _ _ => forall l, j <> JArr l | _ => True end) ->
  snd (std_set O top q s j m) = Ok tt -> ifits s j.
Proof.
  intros Hs Hno Hnl H. unfold std_set in H. destruct (is_key s) eqn:Ek.
  { destruct s as [i lt d yt [|]| | |]; try discriminate. now apply XKey. }
  destruct (ietf_value s j) as [j'|e] eqn:Ev; [|discriminate]. apply value_given in Ev.
  assert (Hj : j = JNull \/ j' <> JNull).
  { destruct Ev as [(_ & _ & ->)|(_ & Hg)]; [right; discriminate|]. apply given_shape in Hg. destruct j; auto; right; try (subst; discriminate). destruct Hg as (v & ->). discriminate. }
  destruct Hj as [->|Hj]; [now apply XNull|].
  assert (Hset : f_out (set_any O s (AVal (jval j'))) = Ok tt).
  { destruct j'; try congruence; eapply set_ok; eauto. }
  destruct s as [i lt d yt k|i ts yt|i pr cs|i keys od cs]; cbn [s_ytype] in Ev.
  - cbn [set_any] in Hset. apply leaf_takes in Hset. change (takes O lt j') in Hset. destruct Ev as [(-> & -> & ->)|(Hne & Hg)]; [apply IEmpty; auto|].
    pose proof (given_shape _ _ _ Hg) as Hsh. destruct j as [| | | | |l|ms]; [now subst| | | | |subst j'; now apply XArray|now destruct (Hno ms)].
    all: apply ILeaf; [exact I|exact Hne|right; eauto].
  - cbn [set_any] in Hset. apply members_taken in Hset. change (takes_all O ts j') in Hset. destruct Ev as [(-> & -> & ->)|(Hne & Hg)]; [apply XMembers; auto|].
    pose proof (given_shape _ _ _ Hg) as Hsh. destruct j as [| | | | |l|ms]; [now subst| | | | |subst j'; apply XMembers; auto|now destruct (Hno ms)].
    all: eapply XSingle; [reflexivity|exact I|exact Hg|exact Hset].
  - destruct cs as [|c cs]; [now apply XCont|]. cbn in Hset. discriminate.
  - destruct Ev as [(E & _)|(_ & Hg)]; [discriminate E|]. destruct j as [| | | | |l|ms]; [now apply XNull| | | | |now destruct (Hnl l)|now destruct (Hno ms)]; apply XList; try reflexivity; exact I.
Qed.

Definition isound (s : schema) : Prop := forall ov q j m, schema_at top q = Some s -> snd (iload_kid ov skip s q j m) = Ok tt -> ifits s j.
(** The members of an object for a container, or for anything else ([cs] is empty then). *)
Lemma isound_obj cs : Forall isound cs -> forall ov self p ms m, (forall n s, nth_error cs n = Some s -> schema_at top (p ++ [Kid n]) = Some s) ->
  snd (load_ietf ov skip cs self p (JObj ms) m) = Ok tt -> forall key j, In (key, j) ms ->
  In 64%N key \/ (exists n s, spelt cs (local_name key) n s /\ ifits s j) \/ (skip = true /\ foreign cs (local_name key) /\ forall l, j <> JArr l) \/ (false = false /\ j = JArr []).
Proof.
  intros HP ov self p ms m Hs H key j Hi. rewrite iload_obj in H. destruct (each_ok _ _ _ Hi _ H) as (m1 & H1). unfold iload_member in H1. cbn [fst snd] in H1.
  destruct (metadata key) eqn:Em; [left; unfold metadata in Em; apply existsb_exists in Em; destruct Em as (c & Hc & E); apply N.eqb_eq in E; now subst c|]. right.
  destruct (find_kid (local_name key) cs) as [[n s]|] eqn:Ef.
  - left. pose proof (find_spelt _ _ _ _ Ef) as Hsp. exists n, s. split; [exact Hsp|]. destruct Hsp as [Hn _]. rewrite Forall_forall in HP. eapply (HP s); [eapply nth_error_In; exact Hn|apply Hs; exact Hn|exact H1].
  - right. unfold lost in H1. assert (Hf : foreign cs (local_name key)).
    { now apply not_found. }
    destruct j as [| | | | |[|]|]; try (destruct skip; [left; split; [reflexivity|split; [exact Hf|discriminate]]|discriminate]); right; auto.
Qed.
Lemma kid_paths p i pr cs : schema_at top p = Some (SCont i pr cs) -> forall n s, nth_error cs n = Some s -> schema_at top (p ++ [Kid n]) = Some s.
Proof. unfold schema_at. intros H n s Hn. rewrite sub_app, H. cbn. now rewrite Hn. Qed.
Lemma entry_path q i keys od cs k : schema_at top q = Some (SList i keys od cs) -> schema_at top (q ++ [Ent k]) = Some (entry_schema cs).
Proof. unfold schema_at. intros H. rewrite sub_app, H. reflexivity. Qed.
Lemma other_object s ov q ms m : ~ container s -> snd (load_ietf ov skip [] (Some q) q (JObj ms) m) = Ok tt -> ifits s (JObj ms).
Proof.
  intros Hc H. apply XObject; [reflexivity|exact Hc|]. intros key j Hi.
  destruct (isound_obj [] (Forall_nil _) ov (Some q) q ms m ltac:(intros [|n] s0 E; discriminate E) H key j Hi) as [?|[(n & s' & [E _] & _)|[(? & _ & ?)|[_ ?]]]]; auto. destruct n; discriminate E.
Qed.
Lemma entry_keyed q keys cs e m m' k : ietf_entry O uid top q keys cs e m = (m', Ok k) -> keys = [] \/ exists ms, e = JObj ms /\ keyed cs keys ms.
Proof.
  intros H. destruct keys as [|a keys]; [now left|]. right.
  assert (Hk : exists kd, elem_keys cs (a :: keys) e = Ok kd).
  { unfold ietf_entry in H. destruct keys as [|b keys]; destruct (elem_keys cs _ e) as [kd|]; eauto; discriminate. }
  destruct Hk as (kd & Hk). apply elem_keys_values in Hk; [|discriminate]. destruct Hk as (ms & -> & Hf). exists ms. split; [reflexivity|]. intros k0 Hk0.
  clear - Hf Hk0. induction Hf as [|x y l l' (_ & n & s & j & H1 & H2 & H3 & _) _ IH]; [destruct Hk0|]. destruct Hk0 as [->|Hk0]; [exists n, s, j; auto|auto].
Qed.
Lemma all_isound s : isound s.
Proof.
  induction s as [i lt d yt k|i ts yt|i pr cs IH|i keys od cs IH] using schema_ind'; intros ov q j m Hs H;
    (destruct j as [|b|z|fm fe|v|l|ms]; try (eapply set_fits; [exact Hs|intros ? ?; discriminate|exact I|exact H])).
  - destruct l as [|e l]; [now apply XNothing|]. eapply set_fits; [exact Hs|intros ? ?; discriminate|exact I|exact H].
  - apply (other_object _ ov q ms m); [intros []|exact H].
  - destruct l as [|e l]; [now apply XNothing|]. eapply set_fits; [exact Hs|intros ? ?; discriminate|exact I|exact H].
  - apply (other_object _ ov q ms m); [intros []|exact H].
  - destruct l as [|e l]; [now apply XNothing|]. eapply set_fits; [exact Hs|intros ? ?; discriminate|exact I|exact H].
  - cbn [UnknownIetf_proofs.iload_kid] in H. apply then_ok in H. destruct H as (_ & m1 & H). apply ICont. exact (isound_obj cs IH ov (Some q) q ms m1 (kid_paths _ _ _ _ Hs) H).
  - now apply XNull.
  - eapply set_fits; [exact Hs|intros ? ?; discriminate|intros l; discriminate|exact H].
  - eapply set_fits; [exact Hs|intros ? ?; discriminate|intros l; discriminate|exact H].
  - eapply set_fits; [exact Hs|intros ? ?; discriminate|intros l; discriminate|exact H].
  - eapply set_fits; [exact Hs|intros ? ?; discriminate|intros l; discriminate|exact H].
  - destruct l as [|e0 l]; [now apply XNothing|]. 
    assert (He : forall e, In e (e0 :: l) -> (no_object e \/ ifits (entry_schema cs) e) /\ (keys = [] \/ exists ms, e = JObj ms /\ keyed cs keys ms)).
    { intros e He. cbn [UnknownIetf_proofs.iload_kid] in H. rewrite for_each_map in H. destruct (each_ok _ _ _ He _ H) as (m1 & H1). apply then_ok in H1. destruct H1 as (_ & m2 & H2).
      destruct (ietf_entry O uid top q keys cs e m2) as [m3 [k|ex]] eqn:Ee; [|discriminate]. split; [|eapply entry_keyed; exact Ee].
      destruct e as [| | | | | |ms]; try (left; intros ? ?; discriminate). right. apply ICont. apply (isound_obj cs IH ov (Some q) (q ++ [Ent k]) ms m3); [|exact H2].
      apply (kid_paths _ plain false). eapply entry_path. exact Hs. }
    destruct keys as [|k0 keys]; [apply XKeyless; [reflexivity|intros e Hi; now apply He]|]. apply IList. intros e Hi. destruct (He e Hi) as [Ha [Hb|(ms & -> & Hk)]]; [discriminate|]. exists ms. split; [reflexivity|]. split; [exact Hk|].
    destruct Ha as [Ha|Ha]; [now destruct (Ha ms)|exact Ha].
  - apply (other_object _ ov q ms m); [intros []|exact H].
Qed.
Theorem ietf_shape ov d m m' : load_ietf_json O uid top ov skip d m = (m', Ok tt) -> ifits (entry_schema top) d.
Proof.
  unfold load_ietf_json. intros H. destruct d as [| | | | | |ms]; try discriminate. apply ICont.
  apply (isound_obj top) with (ov := ov) (self := None) (p := []) (m := m); [apply Forall_forall; intros s _; apply all_isound|apply (kid_paths [] plain false); reflexivity|now rewrite H].
Qed.

(* ------------------------------------------------------------------ the default format *)
Notation jfits := (json_fits O skip false).
Definition jsound (s : schema) : Prop := forall ov od0 q j m, schema_at top q = Some s -> snd (load_kid ov skip s q j m) = Ok tt -> jfits od0 s j.
Lemma jsound_obj cs : Forall jsound cs -> forall ov strip self p ms m, (forall n s, nth_error cs n = Some s -> schema_at top (p ++ [Kid n]) = Some s) ->
  snd (load ov skip strip cs self p (JObj ms) m) = Ok tt -> forall key j, In (key, j) ms ->
  (strip = true /\ key = lit "__yang_order") \/ (exists n s, spelt cs key n s /\ jfits false s j) \/ (skip = true /\ foreign cs key).
Proof.
  intros HP ov strip self p ms m Hs H key j Hi. rewrite load_obj in H. destruct (each_ok _ _ _ Hi _ H) as (m1 & H1). unfold load_member in H1. cbn [fst snd] in H1.
  destruct (strip && str_eqb key order_key) eqn:Em; [left; apply andb_prop in Em; destruct Em as [-> E]; apply str_eqb_eq in E; auto|]. right.
  destruct (find_kid key cs) as [[n s]|] eqn:Ef.
  - left. pose proof (find_spelt _ _ _ _ Ef) as Hsp. exists n, s. split; [exact Hsp|]. destruct Hsp as [Hn _]. rewrite Forall_forall in HP. eapply (HP s); [eapply nth_error_In; exact Hn|apply Hs; exact Hn|exact H1].
  - right. destruct skip; [|discriminate]. split; [reflexivity|]. now apply not_found.
Qed.
Lemma all_jsound s : jsound s.
Proof.
  induction s as [i lt d yt k|i ts yt|i pr cs IH|i keys od cs IH] using schema_ind'; intros ov od0 q j m Hs H; cbn [Load_proofs.load_kid] in H.
  - apply JLeaf; [now left|]. exact (leaf_takes _ _ _ (set_ok _ _ _ _ _ Hs H)).
  - destruct ov; [apply ZSingle; [reflexivity|exact (members_taken _ _ _ (set_ok _ _ _ _ _ Hs H))]|]. destruct j; try discriminate; [apply ZIterated; eauto|apply JLeafList; now left|apply ZIterated; eauto].
  - apply then_ok in H. destruct H as (_ & m1 & H). apply then_ok in H. destruct H as (_ & m2 & H).
    destruct j as [|b|z|fm fe|v|l|ms]; try (cbn [Serialise.load] in H; apply (set_ok _ _ _ _ _ Hs) in H; destruct cs as [|c cs]; [apply ZCont; [reflexivity|intros ? ?; discriminate]|discriminate]).
    apply JCont. intros key j Hi. destruct (jsound_obj cs IH false false (Some q) q ms m2 (kid_paths _ _ _ _ Hs) H key j Hi) as [[? _]|?]; [discriminate|auto].
  - destruct j as [| | | | | |es]; try discriminate. apply JList. intros es1 k e es2 ->.
    set (act := fun kj : str * json => load_entry O uid top q (fst kj) (load false skip od cs (Some q) (q ++ [Ent (VStr (fst kj))]) (snd kj))) in H.
    change (map (fun kj => (order_of (snd kj), load_entry O uid top q (fst kj) (load false skip od cs (Some q) (q ++ [Ent (VStr (fst kj))]) (snd kj)))) (es1 ++ (k, e) :: es2))
      with (map (fun kj => (order_of (snd kj), act kj)) (es1 ++ (k, e) :: es2)) in H.
    destruct (if od then in_order (map (fun kj => (order_of (snd kj), act kj)) (es1 ++ (k, e) :: es2)) [] [] else Ok (map snd (map (fun kj => (order_of (snd kj), act kj)) (es1 ++ (k, e) :: es2)))) as [todo|ex] eqn:Et; [|discriminate].
    apply then_ok in H. destruct H as [H _].
    assert (Hrun : In (act (k, e)) todo -> (exists ms, e = JObj ms /\ jfits od (entry_schema cs) e) \/ no_object e).
    { intros Hi. destruct (each_ok _ _ _ Hi _ H) as (m1 & H1). unfold act, load_entry in H1. cbn [fst snd] in H1. apply then_ok in H1. destruct H1 as (_ & m2 & H2). destruct (mhas _ _); [|discriminate].
      destruct e as [| | | | | |ms]; try (right; intros ? ?; discriminate). left. exists ms. split; [reflexivity|]. apply JCont.
      apply (jsound_obj cs IH false od (Some q) (q ++ [Ent (VStr k)]) ms m2); [|exact H2]. apply (kid_paths _ plain false). eapply entry_path. exact Hs. }
    assert (Hc : In (act (k, e)) todo \/ (od = true /\ exists z, position e = Some z /\ exists k' e', In (k', e') es2 /\ position e' = Some z)).
    { destruct od; [|left; injection Et as <-; rewrite map_map; apply in_map, in_elt]. rewrite map_app in Et. cbn [map snd] in Et.
      destruct (order_of e) as [[z|]|] eqn:Eo.
      - destruct (Exists_dec (fun ke : str * json => order_of (snd ke) = Ok (Some z)) es2) as [Hx|Hx].
        { intros ke. destruct (order_of (snd ke)) as [[z'|]|]; [destruct (Z.eq_dec z' z); [left|right]; congruence|right; discriminate|right; discriminate]. }
        + right. split; [reflexivity|]. exists (JInt z). split; [now apply position_of|]. apply Exists_exists in Hx. destruct Hx as ([k' e'] & Hi & Hz). exists k', e'. split; [exact Hi|now apply position_of].
        + left. eapply in_order_keeps; [|exact Et]. intros z' Hz'. injection Hz' as <-. apply Forall_map, Forall_forall. cbn [fst]. intros ke Hi Hz. apply Hx. apply Exists_exists. exists ke. auto.
      - left. eapply in_order_keeps; [|exact Et]. discriminate.
      - left. eapply in_order_keeps; [|exact Et]. discriminate. }
    destruct Hc as [Hc|Hc]; [destruct (Hrun Hc); auto|auto].
Qed.
Theorem json_shape ov d m m' : load_json O uid top ov skip d m = (m', Ok tt) -> jfits false (entry_schema top) d.
Proof.
  unfold load_json. intros H. destruct d as [| | | | | |ms]; try discriminate. apply JCont.
  apply (jsound_obj top) with (ov := ov) (self := None) (p := []) (m := m); [apply Forall_forall; intros s _; apply all_jsound|apply (kid_paths [] plain false); reflexivity|now rewrite H].
Qed.

(* ------------------------------------------------------------------ mistakes *)
(** Containers are always there. *)
Lemma kid_there m q s : shaped top m -> kid_path q -> schema_at top q = Some s -> exists x, at_path m q = Some x /\ conf s x.
Proof.
  intros Hs Hk Hsc. destruct (at_path m q) as [x|] eqn:Ex.
  - destruct (at_path_conf top m q x Hs Ex) as (s' & Hs' & Hc). exists x. split; [reflexivity|]. congruence.
  - exfalso. destruct (gone_entry q (entry_schema top) (OCont false false m) s) as (q1 & k & q2 & -> & _); [now constructor|exact Hsc|exact Ex|].
    unfold kid_path in Hk. rewrite Forall_forall in Hk. destruct (Hk (Ent k)) as (n & E); [apply in_elt|discriminate].
Qed.
Lemma op_out m q o s : shaped top m -> kid_path q -> ends_kid q -> schema_at top q = Some s ->
  shaped top (fst (run_op m q o)) /\ exists x, conf s x /\ snd (run_op m q o) = f_out (apply O s x o).
Proof.
  intros Hs Hk He Hsc. split; [exact (module_run_shaped O top [(q, o)] m Hs)|]. destruct (kid_there m q s Hs Hk Hsc) as (x & Hx & Hc). exists x. split; [exact Hc|].
  destruct (module_exec_ok O top m q o s x Hs He Hsc Hx) as (evs & R). exact (run_out _ _ _ _ _ _ _ _ _ _ _ R).
Qed.
Lemma found_child cs name s : the_child cs name s -> exists n, find_kid name cs = Some (n, s) /\ nth_error cs n = Some s.
Proof.
  intros [(n & Hn) Hu]. destruct (find_kid name cs) as [[k s']|] eqn:E; [|destruct (not_found _ _ E n s Hn)].
  pose proof (find_spelt _ _ _ _ E) as Hsp. assert (s' = s) by exact (Hu _ _ Hsp). subst s'. exists k. split; [reflexivity|apply Hsp].
Qed.
Lemma found_none cs name : foreign cs name -> find_kid name cs = None.
Proof. intros H. destruct (find_kid name cs) as [[k s]|] eqn:E; [|reflexivity]. destruct (H k s). now apply find_spelt. Qed.
Lemma no_at key : ~ In 64%N key -> metadata key = false.
Proof. intros H. unfold metadata. destruct (existsb _ key) eqn:E; [|reflexivity]. apply existsb_exists in E. destruct E as (c & Hc & E). apply N.eqb_eq in E. now subst c. Qed.
Lemma first_raises {A} (f : A -> list obj -> step) a l m e : snd (f a m) = Raise e -> snd (for_each f (a :: l) m) = Raise e.
Proof. intros H. cbn [for_each]. destruct (f a m) as [m1 r]. cbn in H. subst r. reflexivity. Qed.
Lemma kid_snoc p n : kid_path p -> kid_path (p ++ [Kid n]).
Proof. intros H. apply Forall_app. split; [exact H|]. constructor; [eauto|constructor]. Qed.
Lemma key_missing cs keys ms : ~ keyed cs keys ms -> elem_keys cs keys (JObj ms) = Raise KeyError.
Proof.
  intros H. unfold elem_keys. induction keys as [|k keys IH]; [destruct H; intros k []|]. cbn [map_res].
  destruct (yang_key cs k) as [y|e] eqn:Ey.
  2:{ cbn. unfold yang_key in Ey. destruct (kid_index k cs); [destruct (nth_error cs n); [discriminate|]|]; now injection Ey as <-. }
  cbn [bind elem_get]. destruct (assoc y ms) as [j|] eqn:Ea; [|reflexivity]. cbn [bind]. enough (Ek : map_res (fun k0 : str => y0 <- yang_key cs k0 ;; v <- elem_get (JObj ms) y0 ;; Ok (k0, v)) keys = Raise KeyError) by (setoid_rewrite Ek; reflexivity). apply IH. intros Hk. apply H. intros k' [<-|Hk']; [|now apply Hk].
  unfold yang_key in Ey. destruct (kid_index k cs) as [n|] eqn:En; [|discriminate]. destruct (kid_index_py _ _ _ En) as (s & Hs & Hpy). rewrite Hs in Ey. injection Ey as <-. exists n, s, j.
  split; [exact Hs|]. split; [exact Hpy|]. now apply assoc_in.
Qed.
Lemma key_scalar cs k keys j : (exists n s, nth_error cs n = Some s /\ e_py (s_info s) = k) -> no_object j -> elem_keys cs (k :: keys) j = Raise TypeError.
Proof.
  intros (n & s & Hn & Hpy) Hj. unfold elem_keys. cbn [map_res]. unfold yang_key. destruct (kid_index k cs) as [n'|] eqn:En.
  - destruct (kid_index_py _ _ _ En) as (s' & Hs' & _). rewrite Hs'. cbn [bind]. destruct j; try reflexivity. now destruct (Hj ms).
  - exfalso. clear - Hn Hpy En. revert cs Hn En. induction n as [|n IH]; intros [|c cs] Hn En; try discriminate; cbn [kid_index nth_error] in *.
    + injection Hn as ->. rewrite Hpy, str_eqb_refl in En. discriminate.
    + destruct (str_eqb _ _); [discriminate|]. destruct (kid_index _ cs) eqn:E; [discriminate|]. eapply IH; eauto.
Qed.
Lemma set_raises m q s v e : shaped top m -> kid_path q -> ends_kid q -> schema_at top q = Some s -> is_key s = false ->
  f_out (set_any O s (AVal v)) = Raise e -> snd (run_op m q (ASet (Priv false) (AVal v))) = Raise e.
Proof.
  intros Hs Hk He Hsc Hn Hf. destruct (op_out m q (ASet (Priv false) (AVal v)) s Hs Hk He Hsc) as (_ & x & _ & ->). cbn [apply assign]. rewrite Hn. exact Hf.
Qed.
Lemma lost_raises m j : j <> JArr [] -> snd (lost false j m) = Raise AttributeError.
Proof. intros H. destruct j as [| | | | |[|]|]; try reflexivity. congruence. Qed.
Lemma assigned_exn lt v e : d_out (leaf_assign O lt v) = Raise e -> setter_exn e = e.
Proof. unfold leaf_assign. cbn [d_out]. destruct (d_out (dyn_ltype O lt v)); [discriminate|]. intros [= <-]. now destruct e0. Qed.
Lemma ietf_mistaken s j e : ietf_mistake O s j e -> forall q m, shaped top m -> kid_path q -> ends_kid q -> schema_at top q = Some s ->
  snd (iload_kid false false s q j m) = Raise e.
Proof.
  induction 1 as [i pr c cs j Hj Hn Ha|i pr cs key j ms Hk Hf Ha|s key j ms Hc Hk Ha|i keys od cs ms l Hk|i k keys od cs j l Hk Hj|i lt d j Hj Ha1 Ha2|i lt d yt j e Hj Hy1 Hy2 Ht|i pr cs key s j ms e Hk Hch Hm IH];
    intros q m Hs Hkp He0 Hsc.
  - assert (E : forall v, snd (run_op m q (ASet (Priv false) (AVal v))) = Raise ValueError) by (intros v; eapply set_raises; eauto).
    destruct j as [| | | | |[|x l]|ms]; try congruence; apply E.
  - cbn [UnknownIetf_proofs.iload_kid]. destruct (if pr then run_op m q (APresent true) else (m, Ok tt)) as [m1 r] eqn:Ep.
    assert (r = Ok tt). { destruct pr; [|now injection Ep]. destruct (op_out m q (APresent true) _ Hs Hkp He0 Hsc) as (_ & x & Hx & Hr). rewrite Ep in Hr. cbn [snd] in Hr. subst r. inversion Hx; reflexivity. }
    subst r. cbn [andthen]. rewrite iload_obj. apply first_raises. unfold iload_member. cbn [fst snd]. rewrite (no_at _ Hk), (found_none _ _ Hf). now apply lost_raises.
  - assert (E : snd (load_ietf false false [] (Some q) q (JObj ((key, j) :: ms)) m) = Raise AttributeError).
    { rewrite iload_obj. apply first_raises. unfold iload_member. cbn [fst snd]. rewrite (no_at _ Hk). cbn [find_kid kid_index]. now apply lost_raises. }
    destruct s; try exact E. now destruct Hc.
  - cbn [UnknownIetf_proofs.iload_kid]. cbn [map]. apply first_raises. cbn [andthen]. unfold ietf_entry. destruct keys as [|k1 keys]; [destruct Hk; intros k []|].
    pose proof (key_missing _ _ _ Hk) as E. destruct keys; rewrite E; reflexivity.
  - cbn [UnknownIetf_proofs.iload_kid]. cbn [map]. apply first_raises. cbn [andthen]. unfold ietf_entry. pose proof (key_scalar cs k keys j Hk Hj) as E. destruct keys; rewrite E; reflexivity.
  - assert (E : j <> JArr [] -> snd (std_set O top q (SLeaf i lt d (lit "empty") false) j m) = Raise ValueError).
    { intros _. unfold std_set, ietf_value. cbn [is_key s_ytype]. rewrite str_eqb_refl. destruct j as [| | | | |[|x [|]]|]; try reflexivity; destruct x; try reflexivity. now destruct Ha2. }
    destruct j as [| | | | |[|x l]|ms]; try (apply E; discriminate); [congruence|now destruct (Hj ms)].
  - assert (E : snd (run_op m q (ASet (Priv false) (AVal (jval j)))) = Raise e).
    { apply (set_raises m q (SLeaf i lt d yt false) (jval j) e Hs Hkp He0 Hsc eq_refl). cbn [set_any]. unfold set_leaf. rewrite Ht. cbn. now rewrite (assigned_exn _ _ _ Ht). }
    assert (E2 : snd (std_set O top q (SLeaf i lt d yt false) j m) = Raise e).
    { unfold std_set, ietf_value. cbn [is_key s_ytype]. destruct (str_eqb yt (lit "empty")) eqn:E1; [apply str_eqb_eq in E1; congruence|]. destruct (str_eqb yt (lit "identityref")) eqn:E3; [apply str_eqb_eq in E3; congruence|]. cbn [bind]. destruct j; try exact E; destruct Hj. }
    destruct j; try exact E2; destruct Hj.
  - cbn [UnknownIetf_proofs.iload_kid]. destruct (if pr then run_op m q (APresent true) else (m, Ok tt)) as [m1 r] eqn:Ep.
    assert (Hr : r = Ok tt /\ shaped top m1). { destruct pr; [|injection Ep as <- <-; auto]. destruct (op_out m q (APresent true) _ Hs Hkp He0 Hsc) as (Hs1 & x & Hx & Hr). rewrite Ep in Hr, Hs1. cbn [fst snd] in *. subst r. inversion Hx; auto. }
    destruct Hr as [-> Hs1]. cbn [andthen]. rewrite iload_obj. apply first_raises. unfold iload_member. cbn [fst snd]. rewrite (no_at _ Hk). destruct (found_child _ _ _ Hch) as (n & -> & Hn).
    apply IH; [exact Hs1|now apply kid_snoc|apply ends_kid_app|]. eapply kid_paths; eauto.
Qed.
Lemma ietf_first ms e m : shaped top m -> ietf_mistake O (entry_schema top) (JObj ms) e -> snd (load_ietf_json O uid top false false (JObj ms) m) = Raise e.
Proof.
  intros Hs H. unfold load_ietf_json. rewrite iload_obj. inversion H as [? ? ? ? ? Hj|? ? ? key j ms' Hk Hf Ha|? ? ? ? Hc| | | | |? ? ? key s j ms' ? Hk Hch Hm]; subst; try (now destruct (Hj ms)); try (now destruct Hc).
  - apply first_raises. unfold iload_member. cbn [fst snd]. rewrite (no_at _ Hk), (found_none _ _ Hf). now apply lost_raises.
  - apply first_raises. unfold iload_member. cbn [fst snd]. rewrite (no_at _ Hk). destruct (found_child _ _ _ Hch) as (n & -> & Hn). apply (ietf_mistaken _ _ _ Hm); [exact Hs|apply (kid_snoc []); constructor|apply (ends_kid_app [])|]. apply (kid_paths [] plain false top eq_refl n s Hn).
Qed.

Lemma ietf_shaped ov sk d m : shaped top m -> shaped top (fst (load_ietf_json O uid top ov sk d m)).
Proof. intros H. destruct (load_ietf_json O uid top ov sk d m) as [m' r] eqn:E. destruct (LoadingMain_proofs.ietf_series O uid top ov sk d m m' r E) as (os & -> & _). cbn [fst]. now apply module_run_shaped. Qed.
Theorem ietf_mistake_raises pre ms e m : shaped top m -> snd (load_ietf_json O uid top false false (JObj pre) m) = Ok tt ->
  ietf_mistake O (entry_schema top) (JObj ms) e -> snd (load_ietf_json O uid top false false (JObj (pre ++ ms)) m) = Raise e.
Proof.
  intros Hs Hp H. pose proof (ietf_shaped false false (JObj pre) m Hs) as Hs1. pose proof (ietf_first ms e _ Hs1 H) as G. unfold load_ietf_json in *. rewrite iload_obj in Hp. rewrite iload_obj in G. rewrite iload_obj in G. rewrite iload_obj, for_each_app.
  destruct (for_each _ pre m) as [m1 r]. cbn [fst snd] in *. subst r. exact G.
Qed.

Lemma json_mistaken s j e : json_mistake O s j e -> forall q m, shaped top m -> kid_path q -> ends_kid q -> schema_at top q = Some s ->
  snd (load_kid false false s q j m) = Raise e.
Proof.
  induction 1 as [i pr c cs j Hj|i pr cs key j ms Hf|i keys od cs j Hj|i lt d yt k j e Ht|i ts yt j Hj Hl Ht|i pr cs key s j ms e Hch Hm IH]; intros q m Hs Hkp He0 Hsc; cbn [Load_proofs.load_kid].
  all: try (destruct (if pr then run_op m q (APresent true) else (m, Ok tt)) as [m1 r] eqn:Ep;
    assert (Hr : r = Ok tt /\ shaped top m1) by (destruct pr; [|injection Ep as <- <-; auto]; destruct (op_out m q (APresent true) _ Hs Hkp He0 Hsc) as (Hs1 & x & Hx & Hr); rewrite Ep in Hr, Hs1; cbn [fst snd] in *; subst r; inversion Hx; auto);
    destruct Hr as [-> Hs1]; cbn [andthen]).
  - assert (E : forall v, snd (run_op m1 q (ASet (Priv false) (AVal v))) = Raise ValueError) by (intros v; eapply set_raises; eauto).
    destruct j; try apply E. now destruct (Hj ms).
  - rewrite load_obj. apply first_raises. unfold load_member. cbn [fst snd andb]. now rewrite (found_none _ _ Hf).
  - destruct j; try reflexivity. now destruct (Hj ms).
  - destruct (op_out m q (ASet (Priv true) (AVal (jval j))) _ Hs Hkp He0 Hsc) as (_ & x & _ & ->). cbn [apply assign]. rewrite andb_false_r. cbn [set_any]. unfold set_leaf. rewrite Ht. cbn. now rewrite (assigned_exn _ _ _ Ht).
  - destruct j; try reflexivity; congruence.
  - rewrite load_obj. apply first_raises. unfold load_member. cbn [fst snd andb]. destruct (found_child _ _ _ Hch) as (n & -> & Hn). apply IH; [exact Hs1|now apply kid_snoc|apply ends_kid_app|]. eapply kid_paths; eauto.
Qed.
Lemma json_first ms e m : shaped top m -> json_mistake O (entry_schema top) (JObj ms) e -> snd (load_json O uid top false false (JObj ms) m) = Raise e.
Proof.
  intros Hs H. unfold load_json. rewrite load_obj. inversion H as [? ? ? ? ? Hj|? ? ? key j ms' Hf| | | |? ? ? key s j ms' ? Hch Hm]; subst; try (now destruct (Hj ms)).
  - apply first_raises. unfold load_member. cbn [fst snd andb]. now rewrite (found_none _ _ Hf).
  - apply first_raises. unfold load_member. cbn [fst snd andb]. destruct (found_child _ _ _ Hch) as (n & -> & Hn). apply (json_mistaken _ _ _ Hm); [exact Hs|apply (kid_snoc []); constructor|apply (ends_kid_app [])|]. apply (kid_paths [] plain false top eq_refl n s Hn).
Qed.
Lemma json_shaped ov sk d m : shaped top m -> shaped top (fst (load_json O uid top ov sk d m)).
Proof. intros H. destruct (load_json O uid top ov sk d m) as [m' r] eqn:E. destruct (LoadingMain_proofs.json_series O uid top ov sk d m m' r E) as (os & -> & _). cbn [fst]. now apply module_run_shaped. Qed.
Theorem json_mistake_raises pre ms e m : shaped top m -> snd (load_json O uid top false false (JObj pre) m) = Ok tt ->
  json_mistake O (entry_schema top) (JObj ms) e -> snd (load_json O uid top false false (JObj (pre ++ ms)) m) = Raise e.
Proof.
  intros Hs Hp H. pose proof (json_shaped false false (JObj pre) m Hs) as Hs1. pose proof (json_first ms e _ Hs1 H) as G. unfold load_json in *. rewrite load_obj in Hp. rewrite load_obj in G. rewrite load_obj in G. rewrite load_obj, for_each_app.
  destruct (for_each _ pre m) as [m1 r]. cbn [fst snd] in *. subst r. exact G.
Qed.
Lemma after_shaped ft l : shaped top (after O ft uid top l).
Proof.
  unfold after. assert (G : forall m, shaped top m -> shaped top (fold_left (perform O ft uid top) l m)); [|apply G, fresh_shaped].
  induction l as [|a l IH]; intros m Hm; [exact Hm|]. cbn [fold_left]. apply IH. destruct a as [p o|ov sk d|ov sk d|d]; unfold perform.
  - exact (module_run_shaped O top [(p, o)] m Hm).
  - now apply json_shaped.
  - now apply ietf_shaped.
  - destruct (load_doc O ft uid top d m) as [m' r] eqn:E. destruct (LoadingMain_proofs.xml_series O uid top ft d m m' r E) as (os & -> & _). cbn [fst]. now apply module_run_shaped.
Qed.
End S.

(** What documents of the proper shape have for a child. *)
Lemma ietf_proper O i pr cs ms key j s : ietf_fits O false true (SCont i pr cs) (JObj ms) -> In (key, j) ms -> ~ In 64%N key -> the_child cs (local_name key) s -> ietf_fits O false true s j.
Proof.
  intros H Hi Hk [_ Hu]. inversion H as [| | |? ? ? ? HC| | | | | | | | | | |]; subst; try discriminate. destruct (HC _ _ Hi) as [E|[(n & s' & Hn & Hf)|[(E & _)|(E & _)]]]; try discriminate; [contradiction|].
  now rewrite <- (Hu _ _ Hn).
Qed.
Lemma json_proper O od i pr cs ms key j s : json_fits O false true od (SCont i pr cs) (JObj ms) -> In (key, j) ms -> od = false -> the_child cs key s -> json_fits O false true false s j.
Proof.
  intros H Hi Hk [_ Hu]. inversion H as [| |? ? ? ? ? HC| | | |]; subst; try discriminate. destruct (HC _ _ Hi) as [(E & _)|[(n & s' & Hn & Hf)|(E & _)]]; try discriminate.
  now rewrite <- (Hu _ _ Hn).
Qed.
Lemma nth_error_firstn' {A} (l : list A) : forall n k, (k < n)%nat -> nth_error (firstn n l) k = nth_error l k.
Proof. induction l as [|a l IH]; intros [|n] [|k] H; try lia; try reflexivity. cbn. apply IH. lia. Qed.
Lemma nth_error_skipn' {A} (l : list A) : forall n k, nth_error (skipn n l) k = nth_error l (n + k).
Proof. induction l as [|a l IH]; intros [|n] k; try reflexivity; [now destruct k|]. cbn. apply IH. Qed.
(** Children have different names. *)
Lemma child_by cs n s key : nth_error cs n = Some s -> str_eqb (e_py (s_info s)) (safe_name key) = true ->
  forallb (fun s' => negb (str_eqb (e_py (s_info s')) (safe_name key))) (firstn n cs ++ skipn (S n) cs) = true -> the_child cs key s.
Proof.
  intros Hn He Hf. apply str_eqb_eq in He. split; [exists n; now split|]. intros n' s' [Hn' Hp]. rewrite forallb_forall in Hf.
  destruct (Nat.eq_dec n n') as [->|Hne]; [congruence|]. exfalso.
  assert (Hin : In s' (firstn n cs ++ skipn (S n) cs)).
  { apply in_or_app. destruct (Nat.lt_ge_cases n' n) as [L|G].
    - left. apply nth_error_In with n'. now rewrite nth_error_firstn'.
    - right. apply nth_error_In with (n' - S n)%nat. rewrite nth_error_skipn'. rewrite <- Hn'. f_equal. lia. }
  apply Hf in Hin. rewrite Hp, str_eqb_refl in Hin. discriminate.
Qed.
