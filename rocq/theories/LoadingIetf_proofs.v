(** Loading as a series of operations: IETF JSON. *)
From Coq Require Import Lia.
From Verif Require Import PyStr PyStr_facts PyVal Restricted Spec_Lists TypedList YList SafeName
  Tree Spec_Tree Tree_proofs Tree_main Tree_past Serialise Spec_Serialise Load_proofs UnknownIetf_proofs Spec_Loading Loading_proofs.

Section I.
Context (O : oracle) (uid : list (pyval * obj) -> str) (top : list schema).
Notation run_op := (run_op O top).
Notation never := (fun (_ : list pstep) (_ : op) (_ : list (list pstep * op)) => False).
Notation does := (does O top never).
Notation asks := (asks O i_part (i_elem O) i_whole true).
Notation want := (want O uid i_part (i_elem O) i_whole true).
Notation load_ietf := (load_ietf O uid top).
Notation iload_kid := (iload_kid O uid top).

Lemma kw_get_in n kw v : kw_get n kw = Some v -> In (n, v) kw.
Proof.
  induction kw as [|[m w] kw IH]; cbn; [discriminate|]. destruct (str_eqb n m) eqn:E; [|intros H; right; auto].
  apply str_eqb_eq in E. intros H. injection H as ->. left. congruence.
Qed.
(** Keys given by name are put in order. *)
Lemma kw_keys_each (Q : str -> pyval -> Prop) kd0 : Forall (fun kv => Q (fst kv) (snd kv)) kd0 -> forall keys kd, kw_keys keys kd0 = Ok kd ->
  Forall2 (fun k kv => fst kv = k /\ Q k (snd kv)) keys kd.
Proof.
  intros Hall keys. induction keys as [|n keys IH]; cbn; intros kd H; [injection H as <-; constructor|].
  destruct (kw_get n kd0) as [v|] eqn:E; [|discriminate]. destruct (kw_keys keys kd0) as [r|]; [|discriminate].
  injection H as <-. constructor; [|now apply IH]. split; [reflexivity|]. rewrite Forall_forall in Hall. exact (Hall _ (kw_get_in _ _ _ E)).
Qed.
Lemma assoc_in {A} n (ms : list (str * A)) j : assoc n ms = Some j -> In (n, j) ms.
Proof.
  induction ms as [|[m w] ms IH]; cbn; [discriminate|]. destruct (str_eqb n m) eqn:E; [|intros H; right; auto].
  apply str_eqb_eq in E. intros H. injection H as ->. left. congruence.
Qed.
Lemma elem_keys_values cs keys e kd : keys <> [] -> elem_keys cs keys e = Ok kd -> i_key_values cs keys e kd.
Proof.
  unfold elem_keys, i_key_values. intros Hne H.
  assert (Hobj : exists ms, e = JObj ms).
  { destruct keys as [|k ks]; [congruence|]. cbn in H. destruct (yang_key cs k) as [y|]; cbn in H; [|discriminate].
    destruct e; cbn in H; try discriminate. eauto. }
  destruct Hobj as (ms & ->). exists ms. split; [reflexivity|]. clear Hne. revert kd H.
  induction keys as [|k keys IH]; cbn; intros kd H; [injection H as <-; constructor|].
  destruct (yang_key cs k) as [y|] eqn:Ey; cbn in H; [|discriminate]. destruct (assoc y ms) as [j|] eqn:Ej; cbn in H; [|discriminate].
  destruct (map_res _ keys) as [r|] eqn:Er; cbn in H; [|discriminate]. injection H as <-. constructor; [|now apply IH].
  split; [reflexivity|]. unfold yang_key in Ey. destruct (kid_index k cs) as [n|] eqn:En; [|discriminate].
  destruct (kid_index_py _ _ _ En) as (s & Hs & Hpy). rewrite Hs in Ey. injection Ey as <-. exists n, s, j.
  split; [exact Hs|]. split; [exact Hpy|]. split; [now apply assoc_in|reflexivity].
Qed.
Lemma key_values_again cs keys e kd kd' : i_key_values cs keys e kd -> kw_keys keys kd = Ok kd' -> i_key_values cs keys e kd'.
Proof.
  intros (ms & -> & H) Hk. exists ms. split; [reflexivity|].
  eapply (kw_keys_each (fun k v => exists n s j, nth_error cs n = Some s /\ e_py (s_info s) = k /\ In (e_yang (s_info s), j) ms /\ v = jval j)); [|exact Hk].
  clear Hk. induction H as [|k kv keys kd [<- Hv] _ IH]; constructor; auto.
Qed.

(** What holds of the states and the places on the way. *)
Context (P0 : list obj -> list pstep -> op -> Prop) (I : list obj -> Prop) (Good : list pstep -> Prop).
Context (Hinv : forall m p o, P0 m p o -> I m -> I (fst (module_exec O top m p o))).
Context (Gkid : forall p n, Good p -> Good (p ++ [Kid n])).
Context (Gent : forall m p i keys od cs k, schema_at top p = Some (SList i keys od cs) -> Good p ->
  (keys = [] -> I m /\ k = VStr (uid (entries m p))) -> Good (p ++ [Ent k])).
Definition ok_at (at_ : list pstep) (ov : bool) (cs : list schema) (d : json) : Prop :=
  (exists i pr, schema_at top at_ = Some (SCont i pr cs)) /\ Good at_ /\ forall m p o, want at_ ov cs d m p o -> Good p -> P0 m p o.
Lemma ok_kid at_ ov cs d n s d' : ok_at at_ ov cs d -> i_part cs d n s d' -> schema_at top (at_ ++ [Kid n]) = Some s.
Proof.
  intros ((i & pr & Hs) & _) (ms & key & _ & _ & _ & Hn & _). unfold schema_at in *. rewrite Tree_main.sub_app, Hs. cbn. now rewrite Hn.
Qed.

Lemma entry_does at_ ov cs d n i keys od cs' es elem m : ok_at at_ ov cs d -> I m -> i_part cs d n (SList i keys od cs') (JArr es) -> In elem es ->
  exists st, does P0 m st /\
    match ietf_entry O uid top (at_ ++ [Kid n]) keys cs' elem m with
    | (m', Raise e) => st = (m', Raise e)
    | (m', Ok k) => st = (m', Ok tt) /\ i_elem O (SList i keys od cs') (JArr es) k elem /\ Good (at_ ++ [Kid n] ++ [Ent k])
    end.
Proof.
  intros Hok HI Hp Hin. unfold ietf_entry. pose proof (ok_kid _ _ _ _ _ _ _ Hok Hp) as Hsl. destruct Hok as (_ & Hg & Hw). pose proof (Gkid at_ n Hg) as Hgk.
  assert (Hge : forall k, (keys = [] -> k = VStr (uid (entries m (at_ ++ [Kid n])))) -> Good (at_ ++ [Kid n] ++ [Ent k])).
  { intros k Hk. rewrite app_assoc. eapply Gent; eauto. }
  assert (Added : forall yo k, adds yo -> (keys <> [] -> forall k', stores O keys yo k' -> i_elem O (SList i keys od cs') (JArr es) k' elem) ->
    i_elem O (SList i keys od cs') (JArr es) k elem -> (keys = [] -> k = VStr (uid (entries m (at_ ++ [Kid n])))) ->
    exists st, does P0 m st /\
      match (match run_op m (at_ ++ [Kid n]) (AList (uid (entries m (at_ ++ [Kid n]))) yo) with (m', Ok _) => (m', Ok k) | (m', Raise e) => (m', Raise e) end) with
      | (m', Raise e) => st = (m', Raise e)
      | (m', Ok k0) => st = (m', Ok tt) /\ i_elem O (SList i keys od cs') (JArr es) k0 elem /\ Good (at_ ++ [Kid n] ++ [Ent k0])
      end).
  { intros yo k Ha Hst He Hk. exists (run_op m (at_ ++ [Kid n]) (AList (uid (entries m (at_ ++ [Kid n]))) yo)). split.
    - apply does_op. apply Hw; [|exact Hgk]. exists [Kid n]. split; [reflexivity|]. split.
      + eapply AAdd; eauto.
      + intros u yo' E _. now injection E as <- _.
    - destruct (run_op _ _ _) as [m' [[]|e]]; auto. }
  destruct keys as [|k1 [|k2 ks]].
  - apply Added; [exact Logic.I|congruence|exists es; auto|auto].
  - assert (Hge' : forall k, Good (at_ ++ [Kid n] ++ [Ent k])) by (intros k; apply Hge; discriminate).
    destruct (elem_keys cs' [k1] elem) as [kd|e] eqn:Ek; [|exists (m, Raise e); split; [apply does_raise|reflexivity]].
    pose proof (elem_keys_values cs' [k1] elem kd ltac:(discriminate) Ek) as Hkv.
    destruct kd as [|[k0 v] [|kv kd]]; try (eexists; split; [apply does_raise|reflexivity]).
    assert (He : i_elem O (SList i [k1] od cs') (JArr es) v elem) by (exists es; split; [reflexivity|]; split; [exact Hin|]; exists [(k0, v)]; split; [exact Hkv|reflexivity]).
    destruct (negb (hashable v)); [eexists; split; [apply does_raise|reflexivity]|].
    destruct (mhas v _).
    + eexists; split; [apply does_ok|]. auto.
    + apply Added; [exact Logic.I| |exact He|discriminate]. intros _ k' ->. exact He.
  - assert (Hge' : forall k, Good (at_ ++ [Kid n] ++ [Ent k])) by (intros k; apply Hge; discriminate).
    destruct (elem_keys cs' (k1 :: k2 :: ks) elem) as [kd|e] eqn:Ek; [|exists (m, Raise e); split; [apply does_raise|reflexivity]].
    pose proof (elem_keys_values cs' (k1 :: k2 :: ks) elem kd ltac:(discriminate) Ek) as Hkv.
    assert (Htwo : forall kd', i_key_values cs' (k1 :: k2 :: ks) elem kd' -> exists a b r, kd' = a :: b :: r).
    { intros kd' (ms & _ & H). inversion H as [|? ? ? ? _ H1]; subst. inversion H1; subst. eauto. }
    assert (He : forall kd' k, i_key_values cs' (k1 :: k2 :: ks) elem kd' -> k = VStr (key_text O kd') \/ k = VStr (rstrip_sp (key_text O kd')) ->
      i_elem O (SList i (k1 :: k2 :: ks) od cs') (JArr es) k elem).
    { intros kd' k H1 H2. exists es; split; [reflexivity|]; split; [exact Hin|]. exists kd'. split; [exact H1|].
      destruct (Htwo kd' H1) as ((? & ?) & ? & ? & ->). exact H2. }
    destruct (mhas _ _).
    + eexists; split; [apply does_ok|]. split; [reflexivity|]. split; [apply (He kd); auto|auto].
    + apply Added; [exact Logic.I| |apply (He kd); auto|discriminate]. intros _ k' (kd' & Hk & ->). apply (He kd'); auto. eapply key_values_again; eauto.
Qed.

Definition ikid_does (s : schema) : Prop := forall cs d n j, i_part cs d n s j -> forall ov skip at_ m, ok_at at_ ov cs d -> I m ->
  does P0 m (iload_kid ov skip s (at_ ++ [Kid n]) j m).

Lemma metadata_in key : metadata key = false -> ~ In 64%N key.
Proof.
  unfold metadata. intros H Hin. apply Bool.not_true_iff_false in H. apply H. apply existsb_exists. exists 64%N. split; [exact Hin|reflexivity].
Qed.
Lemma iobj_does cs ms : Forall ikid_does cs -> forall ov skip self at_ m, ok_at at_ ov cs (JObj ms) -> I m ->
  does P0 m (load_ietf ov skip cs self at_ (JObj ms) m).
Proof.
  intros HP ov skip self at_ m Hok HI. rewrite iload_obj. apply (does_each_inv _ _ _ (fun _ _ _ _ (H : False) => H) P0 I); auto. intros [key j] m0 Hin HI0.
  unfold iload_member. cbn [fst snd]. destruct (metadata key) eqn:Em; [apply does_ok|].
  destruct (find_kid (local_name key) cs) as [[n s]|] eqn:Ef.
  - pose proof (find_spelt _ _ _ _ Ef) as Hsp. rewrite Forall_forall in HP. apply (HP s) with (cs := cs) (d := JObj ms); auto.
    + destruct Hsp as [Hn _]. eapply nth_error_In; eauto.
    + exists ms, key. split; [reflexivity|]. split; [exact Hin|]. split; [now apply metadata_in|exact Hsp].
  - unfold lost. destruct j as [| | | | |[]|]; try apply does_ok; try apply does_raise; destruct skip; try apply does_ok; try apply does_raise.
Qed.
(** Without children nothing happens. *)
Lemma nothing_does P ms ov skip self at_ m : does P m (load_ietf ov skip [] self at_ (JObj ms) m).
Proof.
  rewrite iload_obj. apply does_each; [intros ? ? ? ? []|]. intros [key j] m0 _.
  unfold iload_member. cbn [fst snd]. destruct (metadata key); [apply does_ok|]. change (find_kid (local_name key) []) with (@None (nat * schema)).
  unfold lost. destruct j as [| | | | |[]|]; try apply does_ok; try apply does_raise; destruct skip; try apply does_ok; try apply does_raise.
Qed.
Lemma set_does cs d n s j : i_part cs d n s j -> match s with SCont _ _ _ | SList _ _ _ _ => i_whole s j | _ => True end -> forall ov at_ m, ok_at at_ ov cs d ->
  does P0 m (std_set O top (at_ ++ [Kid n]) s j m).
Proof.
  intros Hp Hw ov at_ m (_ & Hg & Hok). unfold std_set. destruct (is_key s); [apply does_ok|].
  assert (G : forall j', does P0 m (run_op m (at_ ++ [Kid n]) (ASet (Priv false) (AVal (jval j'))))).
  { intros j'. apply does_op. apply Hok; auto. exists [Kid n]. split; [reflexivity|]. split; [|apply no_list; discriminate].
    destruct s; try (eapply AVals; eauto; exact Logic.I); eapply AWhole; eauto. }
  destruct (ietf_value s j) as [[]|]; try apply does_ok; try apply does_raise; apply G.
Qed.

Lemma iall_do s : ikid_does s.
Proof.
  induction s as [i lt d yt k|i ts yt|i pr cs IH|i keys od cs IH] using schema_ind'; intros cs0 d0 n j Hp ov skip at_ m Hok HI; unfold UnknownIetf_proofs.iload_kid;
    pose proof (ok_kid _ _ _ _ _ _ _ Hok Hp) as Hsch.
  - destruct j as [| | | | |[]|]; try apply does_ok; try (eapply set_does; eauto; fail). apply nothing_does.
  - destruct j as [| | | | |[]|]; try apply does_ok; try (eapply set_does; eauto; fail). apply nothing_does.
  - destruct j as [| | | | |[]|ms]; try apply does_ok; try (eapply set_does; eauto; intros ms; discriminate).
    destruct Hok as (Hk & Hg & Hw).
    apply (does_then_inv _ _ _ (fun _ _ _ _ (H : False) => H) P0 I); auto; [|intros m1 HI1].
    + destruct pr; [|apply does_ok]. apply does_op. apply Hw; auto. exists [Kid n]. split; [reflexivity|]. split; [|apply no_list; discriminate]. eapply AFlag; eauto.
    + apply iobj_does; auto. split; [eauto|]. split; [now apply Gkid|]. intros m3 p o H. apply Hw. eapply want_deeper; [exact Hp|]. now rewrite andb_true_r.
  - destruct j as [| | | | |[|e0 es0]|ms]; try apply does_ok; try (eapply set_does; eauto; exact Logic.I); [|apply nothing_does].
    set (es := e0 :: es0) in *. clearbody es. apply (does_each_inv _ _ _ (fun _ _ _ _ (H : False) => H) P0 I); auto.
    intros act m1 Hin HI1. apply in_map_iff in Hin as (elem & <- & Hin).
    pose proof Hok as (Hk & Hg & Hw).
    apply (does_then_inv _ _ _ (fun _ _ _ _ (H : False) => H) P0 I); auto; [|intros m2 HI2].
    + destruct ov; [|apply does_ok]. unfold wipe. destruct (map fst _) as [|k ks]; [apply does_ok|]. apply does_then; [intros ? ? ? ? []| |].
      * apply does_op. apply Hw; auto. exists [Kid n]. split; [reflexivity|]. split; [eapply ADelete; eauto|]. intros u yo E Ha. injection E as _ <-. contradiction.
      * intros m3. destruct ks; [apply does_ok|apply does_raise].
    + destruct (entry_does at_ ov cs0 d0 n i keys od cs es elem m2 Hok HI2 Hp Hin) as (st & Hst & He).
      destruct (ietf_entry O uid top (at_ ++ [Kid n]) keys cs elem m2) as [m3 [k|ex]]; [|now subst st].
      destruct He as (-> & Hel & Hge).
      change (does P0 m2 (andthen (m3, Ok tt) (load_ietf ov skip cs (Some (at_ ++ [Kid n])) ((at_ ++ [Kid n]) ++ [Ent k]) elem))).
      apply (does_then_inv _ _ _ (fun _ _ _ _ (H : False) => H) P0 I); auto. intros m4 HI4.
      assert (Hd : (exists ms, elem = JObj ms) \/ no_object elem) by (destruct elem; [right; intros ms; discriminate ..|left; eauto] || idtac).
      destruct Hd as [(ms & ->)|Hno].
      * apply iobj_does; auto. rewrite <- app_assoc. split.
        { rewrite app_assoc. unfold schema_at in *. rewrite Tree_main.sub_app, Hsch. cbn. unfold entry_schema. eauto. }
        split; [exact Hge|]. intros m5 p o H. apply Hw. eapply want_entry; [exact Hp|exact Hel|]. now rewrite andb_true_r.
      * replace (load_ietf ov skip cs (Some (at_ ++ [Kid n])) ((at_ ++ [Kid n]) ++ [Ent k]) elem m4) with (run_op m4 (at_ ++ [Kid n]) (ASet (Priv false) (AVal (jval elem)))).
        2:{ destruct elem; try reflexivity. exfalso. eapply Hno; eauto. }
        apply does_op. apply Hw; auto. exists [Kid n]. split; [reflexivity|]. split; [|apply no_list; discriminate]. eapply AWhole; eauto. exists elem. auto.
Qed.

Theorem ietf_does_inv ov skip d m : Good [] -> (forall m p o, asks ov top d p o -> by_uid uid m p o -> Good p -> P0 m p o) -> I m ->
  does P0 m (load_ietf_json O uid top ov skip d m).
Proof.
  intros Hg HP HI. unfold load_ietf_json. destruct d; try apply does_raise.
  apply iobj_does; auto; [apply Forall_forall; intros; apply iall_do|]. split; [unfold schema_at; cbn; unfold entry_schema; eauto|]. split; [exact Hg|].
  intros m0 p o (p1 & -> & H1 & H2) H3. now apply HP.
Qed.
End I.

Theorem ietf_does O uid top ov skip d m :
  does O top (fun _ _ _ => False) (fun m p o => asks O i_part (i_elem O) i_whole true ov top d p o /\ by_uid uid m p o) m (load_ietf_json O uid top ov skip d m).
Proof. apply (ietf_does_inv O uid top _ (fun _ => True) (fun _ => True)); auto. Qed.
