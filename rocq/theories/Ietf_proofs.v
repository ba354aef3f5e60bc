(** The IETF JSON decoder on what the encoder wrote. *)
From Coq Require Import Lia.
From Verif Require Import PyStr PyStr_facts PyVal Restricted Spec_Lists TypedList TypedList_proofs YList YList_proofs SafeName
  Tree Spec_Tree Tree_proofs Tree_frame Tree_main Tree_hist Tree_dump Tree_choice Tree_copy Serialise Spec_Serialise Load_proofs
  Json_proofs Emit_proofs UnknownIetf_proofs.
Local Open Scope Z_scope.

Lemma split_last_colon s t : no_colon t -> last (split_on 58 (s ++ 58%N :: t)) [] = t.
Proof.
  intros Ht.
  assert (H0 : split_on 58 t = [t]).
  { clear -Ht. induction t as [|c t IH]; [reflexivity|]. cbn. destruct (N.eqb_spec c 58) as [->|Hc]; [exfalso; apply Ht; now left|].
    rewrite IH; [reflexivity|]. intros H. apply Ht. now right. }
  induction s as [|c s IH].
  - cbn. now rewrite H0.
  - cbn. assert (Hne : forall l, split_on 58 l <> []).
    { clear. induction l as [|c l IH]; cbn; [discriminate|]. destruct (N.eqb c 58); [discriminate|].
      destruct (split_on 58 l); discriminate. }
    specialize (Hne (s ++ 58%N :: t)). destruct (N.eqb c 58).
    + destruct (split_on 58 (s ++ 58%N :: t)) as [|w ws]; [congruence|exact IH].
    + destruct (split_on 58 (s ++ 58%N :: t)) as [|w ws] eqn:E; [congruence|]. destruct ws as [|w2 ws]; [|exact IH].
      exfalso. (* a text with a ":" has two parts *)
      assert (G : forall l, (2 <= length (split_on 58 (l ++ 58%N :: t)))%nat).
      { clear. induction l as [|c l IH]; cbn; [destruct (split_on 58 t) eqn:E; cbn; [|lia]|].
        - destruct t; cbn in E; [discriminate|]. destruct (N.eqb n 58); [discriminate|]. destruct (split_on 58 t); discriminate.
        - destruct (N.eqb c 58); cbn; [lia|]. destruct (split_on 58 (l ++ 58%N :: t)); cbn in *; lia. }
      specialize (G s). rewrite E in G. cbn in G. lia.
Qed.

Section I.
Context (O : oracle) (uid : list (pyval * obj) -> str) (top : list schema).
Context (Hpk : plain_keys top) (im : einfo -> str -> option str).
Notation run_op := (run_op O top).
Notation upd := (upd top).
Notation gen_kid := (gen_kid true WNone).
Notation gen_kids := (gen_kids true WNone).
Notation member_enc := (member_enc O im).
Notation iload_kid := (iload_kid O uid top false).
Notation iload_member := (iload_member O uid top false).

Definition inamed_ok (cs : list schema) : Prop :=
  named_ok cs /\ Forall (fun s => no_colon (e_yang (s_info s)) /\ metadata (e_yang (s_info s)) = false /\ metadata (e_mod (s_info s)) = false) cs.

(** What is read for a name that was written. *)
Lemma local_qualified ns i : no_colon (e_yang i) -> local_name (qualified ns i) = e_yang i.
Proof.
  intros H. unfold local_name, qualified.
  assert (H1 : last (split_on 58 (e_mod i ++ lit ":" ++ e_yang i)) [] = e_yang i) by (apply split_last_colon; exact H).
  assert (H2 : last (split_on 58 (e_yang i)) [] = e_yang i).
  { clear -H. assert (H0 : split_on 58 (e_yang i) = [e_yang i]); [|now rewrite H0].
    induction (e_yang i) as [|c t IH]; [reflexivity|]. cbn. destruct (N.eqb_spec c 58) as [->|Hc]; [exfalso; apply H; now left|].
    rewrite IH; [reflexivity|]. intros H'. apply H. now right. }
  destruct ns as [n|]; [destruct (str_eqb (e_ns i) n)|]; assumption.
Qed.
Lemma metadata_app a b : metadata (a ++ b) = (metadata a || metadata b)%bool.
Proof. unfold metadata. apply existsb_app. Qed.
Lemma metadata_qualified ns i : metadata (e_yang i) = false -> metadata (e_mod i) = false -> metadata (qualified ns i) = false.
Proof.
  intros H1 H2. unfold qualified. destruct ns as [n|]; [destruct (str_eqb (e_ns i) n)|]; auto; rewrite !metadata_app, H1, H2; reflexivity.
Qed.

(* ------------------------------------------------------------------ what is asked of a tree *)
Definition to_set (j : json) : Prop := match j with JObj _ | JArr [] => False | _ => True end.
(** The value read for what is written for a leaf. *)
Definition comes_back (i : einfo) (lt : ltype) (yt : str) (d : option pyval) (k : bool) (v : pyval) : Prop :=
  exists j j', enc_leaf O im true i lt yt v = Ok j /\ to_set j /\ ietf_value (SLeaf i lt d yt k) j = Ok j' /\ j' <> JNull /\
    d_out (leaf_assign O lt (jval j')) = Ok v.

(** [kvs]: the key values as they stand in the document. *)
Definition key_value (cs : list schema) (kids : list obj) (i : einfo) (n : str) (kv : pyval) : Prop :=
  exists a ki lt d yt key v j, kid_index n cs = Some a /\ nth_error cs a = Some (SLeaf ki lt d yt key) /\ nth_error kids a = Some (OLeaf true v) /\
    e_ns ki = e_ns i /\ enc_leaf O im true ki lt yt v = Ok j /\ jval j = kv /\ d_out (leaf_assign O lt kv) = Ok v.
Definition key_made (keys : list str) (kvs : list pyval) (k : pyval) : Prop :=
  match keys with
  | [_] => kvs = [k] /\ hashable k = true /\ k <> VStr [] /\ k <> VNone
  | _ => k = VStr (join [32%N] (map (py_str O) kvs)) /\ rstrip_sp (join [32%N] (map (py_str O) kvs)) = join [32%N] (map (py_str O) kvs)
  end.

Inductive iready : schema -> obj -> Prop :=
| IrLeaf i lt d yt k ch v : (ch = true -> comes_back i lt yt d k v) -> iready (SLeaf i lt d yt k) (OLeaf ch v)
| IrLeafList i ts yt ch l js :
    Forall2 (fun v j => enc_member O true ts v = Ok j /\ member_value O ts (jval j) = Some v /\
                        forall w, In w l -> py_eq w (jval j) = true -> py_eq w v = true) l js ->
    dist l -> (ch = false -> l = []) -> ietf_value (SLeafList i ts yt) (JArr js) = Ok (JArr js) ->
    iready (SLeafList i ts yt) (OLeafList ch l)
| IrCont i pr cs ch pres kids : Forall2 iready cs kids -> Forall (fun s => is_key s = false) cs ->
    (pr = true -> pres = true \/ gen_kids (Some (e_ns i)) cs kids = []) ->
    iready (SCont i pr cs) (OCont ch pres kids)
| IrList i keys od cs ch es : keys <> [] -> kdist es ->
    Forall (fun s => is_key s = true -> In (e_py (s_info s)) keys) cs ->
    Forall (fun e => exists c ps kids kvs, snd e = OCont c ps kids /\ Forall2 iready cs kids /\
              Forall2 (key_value cs kids i) keys kvs /\ key_made keys kvs (fst e)) es ->
    iready (SList i keys od cs) (OList ch es).

Definition istart (s : schema) (x y : obj) : Prop :=
  (y = fresh O s /\ is_key s = false) \/ (exists i lt d yt k v, s = SLeaf i lt d yt k /\ x = OLeaf true v /\ y = OLeaf true v).

Notation outer := (outer O top).
Notation around := (around O top).
Notation quiet := (quiet O).
Definition iarrives (s : schema) : Prop := forall x ns, (exists q, schema_at top q = Some s) -> iready s x -> settled s x ->
  match gen_kid ns s x with
  | None => get_kid true s x = None
  | Some (_, t) => exists j, enc_itree O im t = Ok j /\
      forall q m y skip, shaped top m -> schema_at top q = Some s -> ends_kid q -> at_path m q = Some y -> istart s x y -> outer s x q m ->
        exists m' y', iload_kid skip s q j m = (m', Ok tt) /\ upd q m m' /\ at_path m' q = Some y' /\
          get_kid true s y' = get_kid true s x /\ (~ has_data s x -> m' = m)
  end.

Lemma ikids_arrive cs : inamed_ok cs -> Forall iarrives cs -> (exists q i pr, schema_at top q = Some (SCont i pr cs)) -> forall ns,
  forall kids, length kids = length cs ->
  forall cs2 kids2 n0, (forall n s, nth_error cs2 n = Some s -> nth_error cs (n0 + n) = Some s) ->
  (forall n x, nth_error kids2 n = Some x -> nth_error kids (n0 + n) = Some x) -> Forall2 iready cs2 kids2 -> Forall2 settled cs2 kids2 ->
  (gen_kids ns cs2 kids2 = [] -> get_kids true cs2 kids2 = []) /\
  exists ms, map_res member_enc (gen_kids ns cs2 kids2) = Ok ms /\
    forall p m skip i pr, shaped top m -> schema_at top p = Some (SCont i pr cs) ->
      (forall n s x, nth_error cs2 n = Some s -> nth_error kids2 n = Some x ->
         exists y, at_path m (p ++ [Kid (n0 + n)]) = Some y /\ istart s x y) ->
      around cs kids p m -> quiet cs kids p m -> (p <> [] -> kids_settled cs kids) ->
      exists m', for_each (iload_member skip cs p) ms m = (m', Ok tt) /\ upd p m m' /\
        kept (at_path m p) (at_path m' p) /\ (get_kids true cs2 kids2 = [] -> m' = m) /\
        (forall n, (n < n0)%nat -> at_path m' (p ++ [Kid n]) = at_path m (p ++ [Kid n])) /\
        (forall n s x, nth_error cs2 n = Some s -> nth_error kids2 n = Some x ->
           exists y', at_path m' (p ++ [Kid (n0 + n)]) = Some y' /\ get_kid true s y' = get_kid true s x).
Proof.
  intros Hnm HP Hq0 ns kids Hlk. induction cs2 as [|s cs2 IH]; intros kids2 n0 Hsuf Hsuk Hr Hse; inversion Hr as [|? x ? kids2' Hrs Hrr E1 E2]; subst.
  - split; [reflexivity|]. exists []. split; [reflexivity|]. intros p m skip i pr Hs Hp _ _ _ _. exists m. split; auto.
    split; [now apply upd_refl|]. split; [apply kept_refl|]. split; auto. split; auto. intros [|n]; discriminate.
  - assert (Hsuf' : forall n t, nth_error cs2 n = Some t -> nth_error cs (S n0 + n) = Some t).
    { intros n t Hn. rewrite <- (Hsuf (S n) t Hn). f_equal. lia. }
    assert (Hsuk' : forall n t, nth_error kids2' n = Some t -> nth_error kids (S n0 + n) = Some t).
    { intros n t Hn. rewrite <- (Hsuk (S n) t Hn). f_equal. lia. }
    assert (Hs0 : nth_error cs n0 = Some s). { rewrite <- (Hsuf 0%nat s eq_refl). f_equal. lia. }
    assert (Hx0 : nth_error kids n0 = Some x). { rewrite <- (Hsuk 0%nat x eq_refl). f_equal. lia. }
    inversion Hse as [|? ? ? ? Hse1 Hse2]; subst.
    destruct (IH kids2' (S n0) Hsuf' Hsuk' Hrr Hse2) as (Hnil & ms & Hms & Hload).
    cbn [Serialise.gen_kids get_kids].
    assert (Har : iarrives s) by (rewrite Forall_forall in HP; eapply HP, nth_error_In; eassumption).
    assert (Hq : exists q, schema_at top q = Some s).
    { destruct Hq0 as (q & i & pr & Hq). exists (q ++ [Kid n0]). now rewrite (schema_kid top q i pr cs). }
    specialize (Har x ns Hq Hrs Hse1). destruct (gen_kid ns s x) as [[nm t]|] eqn:Hd.
    + split; [discriminate|]. destruct Har as (j & Hj & Hl).
      pose proof (gen_name _ _ _ _ _ _ _ Hd) as ->.
      exists ((qualified ns (s_info s), j) :: ms). split.
      { rewrite map_res_cons. unfold Json_proofs.member_enc at 1. cbn [fst snd]. rewrite Hj. cbn [bind]. now rewrite Hms. }
      intros p m skip i pr Hsh Hp Hst Haro Hqui Hks.
      destruct (Hst 0%nat s x eq_refl eq_refl) as (y & Hy & Hsty). rewrite Nat.add_0_r in Hy.
      destruct (Hl (p ++ [Kid n0]) m y skip Hsh) as (m1 & y1 & El & Hu & Hy1 & Hg1 & Hno1); auto using ends_kid_app.
      { now rewrite (schema_kid top p i pr cs). }
      { intros Hdat. eapply kid_clear; eauto. }
      destruct (Hload p m1 skip i pr) as (m2 & E2' & Hu2 & Hk2 & Hsame & Hlow & Hnew); auto.
      { apply Hu. }
      2:{ eapply around_upd; [eapply upd_below; exact Hu|exact Haro]. }
      2:{ destruct (data_dec s x) as [Hdat|Hdat]; [eapply quiet_upd; eauto|]. now rewrite (Hno1 Hdat). }
      { intros n t' z Ht Hz. destruct (Hst (S n) t' z Ht Hz) as (w & Hw & Hsw). exists w.
        replace (n0 + S n)%nat with (S n0 + n)%nat in Hw by lia. split; auto.
        rewrite (u_apart _ _ _ _ Hu); auto. apply apart_kids. lia. }
      exists m2. split.
      { cbn [for_each]. unfold UnknownIetf_proofs.iload_member at 1. cbn [fst snd].
        destruct Hnm as [Hnm Hic]. rewrite Forall_forall in Hic. destruct (Hic s (nth_error_In _ _ Hs0)) as (Hc1 & Hc2 & Hc3).
        rewrite metadata_qualified, local_qualified by assumption.
        rewrite (find_own cs n0 s Hnm Hs0), El. cbn [andthen]. exact E2'. }
      split; [eapply upd_trans; [eapply upd_below; exact Hu|exact Hu2]|].
      split; [eapply kept_trans; [eapply upd_above_one; exact Hu|exact Hk2]|].
      split.
      { destruct (get_kid true s x) eqn:Eg; [discriminate|]. intros Hnk. rewrite (Hsame Hnk). apply Hno1. unfold has_data. rewrite Eg. auto. }
      split.
      { intros n Hn. rewrite Hlow by lia. apply (u_apart _ _ _ _ Hu), apart_kids. lia. }
      intros [|n] t' z Ht Hz; cbn in Ht, Hz.
      * injection Ht as <-. injection Hz as <-. exists y1. rewrite Nat.add_0_r, Hlow by lia. auto.
      * destruct (Hnew n t' z Ht Hz) as (w & Hw & Hg). exists w. replace (n0 + S n)%nat with (S n0 + n)%nat by lia. auto.
    + rewrite Har. split; [exact Hnil|]. exists ms. split; auto. intros p m skip i pr Hsh Hp Hst Haro Hqui Hks.
      destruct (Hload p m skip i pr Hsh Hp) as (m2 & E2' & Hu2 & Hk2 & Hsame & Hlow & Hnew); auto.
      { intros n t z Ht Hz. destruct (Hst (S n) t z Ht Hz) as (w & Hw & Hsw). exists w.
        replace (n0 + S n)%nat with (S n0 + n)%nat in Hw by lia. auto. }
      exists m2. split; auto. split; auto. split; auto. split; auto. split; [intros; apply Hlow; lia|].
      intros [|n] t z Ht Hz; cbn in Ht, Hz.
      * injection Ht as <-. injection Hz as <-. destruct (Hst 0%nat s x eq_refl eq_refl) as (y & Hy & Hb).
        exists y. rewrite Nat.add_0_r in Hy. rewrite Nat.add_0_r, Hlow by lia. rewrite Har. split; auto.
        destruct Hb as [[-> _]|(i' & lt & d & yt & k & v & -> & -> & ->)]; [apply get_blank, fresh_blank|]. discriminate Hd.
      * destruct (Hnew n t z Ht Hz) as (w & Hw & Hg). exists w. replace (n0 + S n)%nat with (S n0 + n)%nat by lia. auto.
Qed.

Lemma istd_leaf i lt d yt k skip q j m : to_set j -> iload_kid skip (SLeaf i lt d yt k) q j m = std_set O top q (SLeaf i lt d yt k) j m.
Proof. intros H. destruct j as [| | | | |[|j l]|]; cbn in H; try contradiction; reflexivity. Qed.

Lemma std_run q s j j' m : is_key s = false -> ietf_value s j = Ok j' -> j' <> JNull ->
  std_set O top q s j m = run_op m q (ASet (Priv false) (AVal (jval j'))).
Proof. intros Hk Hv Hn. unfold std_set. rewrite Hk, Hv. destruct j'; congruence. Qed.

Lemma ileaf_arrives i lt d yt k : iarrives (SLeaf i lt d yt k).
Proof.
  intros x ns _ Hr _. inversion Hr as [? ? ? ? ? ch v Henc| | |]; subst. cbn [Serialise.gen_kid negb orb].
  destruct ch; [|reflexivity]. destruct (Henc eq_refl) as (j & j' & Hj & Hts & Hv & Hnn & Ha).
  exists j. split; [exact Hj|]. intros q m y skip Hs Hsc He Hy Hst Hout. rewrite istd_leaf by assumption.
  destruct (is_key (SLeaf i lt d yt k)) eqn:Hk.
  - destruct Hst as [[_ E]|(i' & lt' & d' & yt' & k' & v' & E & Ev & ->)]; [congruence|]. injection Ev as <-.
    exists m, (OLeaf true v). split; [unfold std_set; now rewrite Hk|]. split; [now apply upd_refl|]. split; auto.
  - rewrite (std_run q _ j j' m Hk Hv Hnn).
    destruct (op_calm O top _ m q (ASet (Priv false) (AVal (jval j'))) _ y Hs He Hsc Hy (own_events O _ _ (ASet (Priv false) (AVal (jval j'))) I) (Hout ltac:(discriminate))) as (Hu & Ho & Hp).
    destruct (run_op m q (ASet (Priv false) (AVal (jval j')))) as [m' r] eqn:Er. cbn [fst snd] in *.
    exists m', (OLeaf true v).
    unfold put in Hp. cbn [apply assign] in Ho, Hp. rewrite Hk in Ho, Hp. cbn [andb] in Ho, Hp.
    cbn [set_any] in Ho, Hp. unfold set_leaf in Ho, Hp. rewrite Ha in Ho, Hp. cbn in Ho, Hp.
    subst r. split; auto. split; auto. split; auto. split; auto. intros Hn. exfalso. apply Hn. discriminate.
Qed.

Lemma build_all ts js2 : forall l1 l2 l, 
  Forall2 (fun v j => enc_member O true ts v = Ok j /\ member_value O ts (jval j) = Some v /\
                      forall w, In w l -> py_eq w (jval j) = true -> py_eq w v = true) l2 js2 ->
  dist (l1 ++ l2) -> incl l1 l -> incl l2 l -> tl_build O ts true l1 (map jval js2) = Ok (l1 ++ l2).
Proof.
  induction js2 as [|j js2 IH]; intros l1 l2 l Hf Hd Hi1 Hi2; inversion Hf as [|v ? l2' ? Hv Hf' E1 E2]; subst; cbn [map tl_build].
  - now rewrite app_nil_r.
  - destruct Hv as (_ & Hm & Heq).
    assert (Hd1 : dist (l1 ++ [v])).
    { change (v :: l2') with ([v] ++ l2') in Hd. rewrite app_assoc in Hd. apply dist_app in Hd. apply Hd. }
    assert (Hnin : py_in (jval j) l1 = false).
    { apply py_in_not. intros Hh. apply Exists_exists in Hh. destruct Hh as (z & Hz & Ez).
      apply dist_app in Hd1. destruct Hd1 as (_ & _ & H). specialize (H z v Hz (or_introl eq_refl)).
      rewrite (Heq z) in H; [discriminate|now apply Hi1|rewrite py_eq_sym; exact Ez]. }
    rewrite Hnin. cbn [andb]. unfold tl_check. cbn [py_in existsb andb]. rewrite Hm. cbn [bind].
    rewrite (IH (l1 ++ [v]) l2' l).
    + now rewrite <- app_assoc.
    + exact Hf'.
    + now rewrite <- app_assoc.
    + apply incl_app; auto. intros w [<-|[]]. apply Hi2. now left.
    + intros w Hw. apply Hi2. now right.
Qed.
Lemma imembers_enc ts l l0 js : Forall2 (fun v j => enc_member O true ts v = Ok j /\ member_value O ts (jval j) = Some v /\
                      forall w, In w l0 -> py_eq w (jval j) = true -> py_eq w v = true) l js ->
  map_res (enc_member O true ts) l = Ok js.
Proof. intros H. induction H as [|v j l js (H1 & _) H2 IH]; [reflexivity|]. rewrite map_res_cons, H1. cbn [bind]. now rewrite IH. Qed.

Lemma ileaf_list_arrives i ts yt : iarrives (SLeafList i ts yt).
Proof.
  intros x ns _ Hr _. inversion Hr as [|? ? ? ch l js Henc Hd Hch Hval| |]; subst. cbn [Serialise.gen_kid negb orb].
  destruct ch; [|now rewrite Hch].
  exists (JArr js). split. { cbn [enc_itree]. unfold enc_members. now rewrite (imembers_enc ts l l js Henc). }
  intros q m y skip Hs Hsc He Hy Hst Hout.
  destruct Hst as [[Hb _]|(i' & lt & d & yt' & k & v & E & _)]; [|discriminate].
  cbn [fresh] in Hb. subst y.
  destruct js as [|j0 js0] eqn:Ejs.
  - inversion Henc; subst. exists m, (OLeafList false []). split; [reflexivity|]. split; [now apply upd_refl|]. split; auto.
  - rewrite <- Ejs in *. assert (E : iload_kid skip (SLeafList i ts yt) q (JArr js) m = std_set O top q (SLeafList i ts yt) (JArr js) m).
    { rewrite Ejs. reflexivity. }
    rewrite E, (std_run q (SLeafList i ts yt) _ _ m eq_refl Hval ltac:(discriminate)).
    assert (Hdat : has_data (SLeafList i ts yt) (OLeafList true l)).
    { unfold has_data. cbn. destruct l; [inversion Henc; congruence|discriminate]. }
    destruct (op_calm O top _ m q (ASet (Priv false) (AVal (jval (JArr js)))) _ _ Hs He Hsc Hy (own_events O _ _ (ASet (Priv false) (AVal (jval (JArr js)))) I) (Hout Hdat)) as (Hu & Ho & Hp).
    destruct (run_op m q (ASet (Priv false) (AVal (jval (JArr js))))) as [m' r] eqn:Er. cbn [fst snd] in *.
    exists m', (OLeafList true l).
    unfold put in Hp. cbn [apply assign is_key andb set_any jval] in Ho, Hp. unfold set_leaf_list in Ho, Hp. cbn [tl_init] in Ho, Hp.
    rewrite (build_all ts js [] l l Henc Hd (incl_nil_l _) (incl_refl _)) in Ho, Hp. cbn in Ho, Hp. subst r. split; auto. split; auto. split; auto. split; auto. intros Hn. contradiction.
Qed.

Lemma iready_conf s : forall x, iready s x -> conf s x.
Proof.
  induction s as [i lt d yt k|i ts yt|i pr cs IH|i keys od cs IH] using schema_ind'; intros x H; inversion H; subst; constructor.
  - match goal with H : Forall2 iready _ _ |- _ => rename H into Hk end. clear -IH Hk.
    revert IH; induction Hk as [|a b la lb Hab Hl IHl]; intros IH; constructor; inversion IH; subst; auto.
  - match goal with H : Forall (fun e => exists c ps kids kvs, _) es |- _ => rename H into Hf end.
    eapply Forall_impl; [|exact Hf]. intros e (c & ps & kids & kvs & -> & Hk & _). constructor.
    clear - IH Hk. revert IH. induction Hk as [|a b la lb Hab Hl IHl]; intros IH; constructor; inversion IH; subst; auto.
Qed.
Lemma ireadys_shaped cs kids : Forall2 iready cs kids -> Forall2 conf cs kids.
Proof. intros H. induction H; constructor; auto using iready_conf. Qed.

Lemma icont_arrives i pr cs : inamed_ok cs -> Forall iarrives cs -> iarrives (SCont i pr cs).
Proof.
  intros Hnm HP x ns [q0 Hq0] Hr Hse. inversion Hr as [| |? ? ? ch pres kids Hk Hnk Hpr|]; subst.
  inversion Hse as [| |? ? ? ? ? ? Hks Hse'|]; subst.
  assert (Hlk : length kids = length cs) by (clear -Hk; induction Hk; cbn; congruence).
  destruct (ikids_arrive cs Hnm HP (ex_intro _ q0 (ex_intro _ i (ex_intro _ pr Hq0))) (Some (e_ns i)) kids Hlk cs kids 0%nat) as (Hnil & ms & Hms & Hl); auto.
  rewrite gen_cont.
  assert (Hgo : (gen_kids (Some (e_ns i)) cs kids = [] -> pres = true) ->
     exists j, enc_itree O im (IDict (gen_kids (Some (e_ns i)) cs kids)) = Ok j /\
      forall q m y skip, shaped top m -> schema_at top q = Some (SCont i pr cs) -> ends_kid q -> at_path m q = Some y ->
        istart (SCont i pr cs) (OCont ch pres kids) y -> outer (SCont i pr cs) (OCont ch pres kids) q m ->
        exists m' y', iload_kid skip (SCont i pr cs) q j m = (m', Ok tt) /\ upd q m m' /\ at_path m' q = Some y' /\
          get_kid true (SCont i pr cs) y' = get_kid true (SCont i pr cs) (OCont ch pres kids) /\
          (~ has_data (SCont i pr cs) (OCont ch pres kids) -> m' = m)).
  { intros Hpre0. exists (JObj ms). split; [rewrite enc_dict, Hms; reflexivity|].
    intros q m y skip Hs Hsc He Hy Hst Hout.
    destruct Hst as [[Hb _]|(i' & lt & d & yt' & k & v & E & _)]; [|discriminate].
    cbn [fresh] in Hb. subst y. set (ky := map (fresh O) cs) in *.
    assert (Hdat : pr = true -> has_data (SCont i pr cs) (OCont ch pres kids)).
    { intros Epr. unfold has_data. rewrite get_cont. assert (pres = true) as -> by (destruct (Hpr Epr); auto). rewrite Epr.
      destruct (get_kids true cs kids); discriminate. }
    assert (Hpre : exists m1 c1 ps1, (if pr then run_op m q (APresent true) else (m, Ok tt)) = (m1, Ok tt) /\ upd q m m1 /\
                     at_path m1 q = Some (OCont c1 ps1 ky) /\ (pr = true -> ps1 = true) /\ (pr = false -> m1 = m)).
    { destruct pr.
      - destruct (op_calm O top _ m q (APresent true) _ _ Hs He Hsc Hy (own_events O _ _ (APresent true) I) (Hout (Hdat eq_refl))) as (Hu & Ho & Hp).
        destruct (run_op m q (APresent true)) as [m1 r]. cbn in Ho, Hp, Hu. subst r. exists m1, true, true. split; auto. split; auto. split; auto. split; auto. discriminate.
      - exists m, false, false. repeat split; auto; try discriminate. now intros; apply kept_refl. }
    destruct Hpre as (m1 & c1 & ps1 & E1 & Hu1 & Hat1 & Hps & Hsm).
    destruct (Hl q m1 skip i pr) as (m2 & E2 & Hu2 & Hk2 & Hsame & _ & Hnew); auto.
    { apply Hu1. }
    { intros n s x Hns Hnx. cbn [Nat.add]. rewrite (at_kid m1 q c1 ps1 ky n Hat1). exists (fresh O s).
      unfold ky. rewrite nth_fresh, Hns. split; [reflexivity|left]. split; [reflexivity|].
      rewrite Forall_forall in Hnk. apply Hnk. eapply nth_error_In; eassumption. }
    { eapply around_outer with (ch := ch) (ps := pres) (i := i) (pr := pr); [apply Hu1|now apply iready_conf|]. eapply outer_upd; eauto. }
    { intros n s x Hns Hnx _. rewrite (at_kid m1 q c1 ps1 ky n Hat1). unfold ky. now rewrite nth_fresh, Hns. }
    assert (Hat2 : exists c2 ps2 k2, at_path m2 q = Some (OCont c2 ps2 k2) /\ (ps1 = true -> ps2 = true)).
    { rewrite Hat1 in Hk2. destruct (at_path m2 q) as [[]|]; cbn in Hk2; try discriminate. eauto. }
    destruct Hat2 as (c2 & ps2 & k2 & Hat2 & Hps2).
    exists m2, (OCont c2 ps2 k2). split.
    { unfold UnknownIetf_proofs.iload_kid. rewrite E1. cbn [andthen]. rewrite iload_obj. exact E2. }
    split; [eapply upd_trans; eassumption|]. split; auto.
    assert (Hno : ~ has_data (SCont i pr cs) (OCont ch pres kids) -> m2 = m).
    { intros Hn. destruct pr; [exfalso; apply Hn, Hdat; reflexivity|]. rewrite <- (Hsm eq_refl). apply Hsame.
      unfold has_data in Hn. rewrite get_cont in Hn. destruct (get_kids true cs kids); [reflexivity|]. exfalso. apply Hn. discriminate. }
    split; [|exact Hno].
    rewrite !get_cont. rewrite (get_kids_ext cs kids k2).
    - destruct (get_kids true cs kids); auto. destruct pr; [|reflexivity]. rewrite (Hps2 (Hps eq_refl)). cbn [andb].
      assert (pres = true) as ->; [|reflexivity]. destruct (Hpr eq_refl) as [Hp|Hp]; auto.
    - now apply ireadys_shaped.
    - destruct (at_path_conf top m2 q _ (u_shape _ _ _ _ Hu2) Hat2) as (s & Hs2 & Hc2). rewrite Hsc in Hs2. injection Hs2 as <-.
      now inversion Hc2.
    - intros n s x Hns Hnx. destruct (Hnew n s x Hns Hnx) as (y & Hy1 & Hy2). cbn [Nat.add] in Hy1.
      rewrite (at_kid m2 q _ _ _ n Hat2) in Hy1. eauto. }
  destruct (gen_kids (Some (e_ns i)) cs kids) as [|a l] eqn:Eg.
  - destruct pres; [exact (Hgo (fun _ => eq_refl))|]. rewrite get_cont, (Hnil eq_refl). now rewrite Bool.andb_false_r.
  - apply Hgo. discriminate.
Qed.

(* ------------------------------------------------------------------ lists *)
Lemma fill_target tg cs target : forall kd kids, length kids = length cs -> kept_apart O tg cs kids ->
  Forall (fun nv => exists a i lt d yt k v, kid_index (fst nv) cs = Some a /\ nth_error cs a = Some (SLeaf i lt d yt k) /\
            nth_error target a = Some (OLeaf true v) /\ d_out (leaf_assign O lt (snd nv)) = Ok v /\ (e_choice i = None \/ e_choice i = tg)) kd ->
  exists kids' evs, fill_keys O cs kids kd = (kids', evs, Ok tt) /\
    forall a y, nth_error kids' a = Some y ->
      (In (Some a) (map (fun nv => kid_index (fst nv) cs) kd) -> nth_error target a = Some y) /\
      (~ In (Some a) (map (fun nv => kid_index (fst nv) cs) kd) -> nth_error kids a = Some y).
Proof.
  induction kd as [|[n w] kd IH]; intros kids Hlen Hun Hkd.
  - exists kids, []. split; [reflexivity|]. intros a y Hy. split; [contradiction|auto].
  - inversion Hkd as [|? ? (a & i & lt & d & yt & k & v & Ha & Hs & Hx & Hv & Hno) Hkd']; subst. cbn [fst snd] in *.
    assert (Hal : (a < length kids)%nat) by (rewrite Hlen; apply nth_error_Some; congruence).
    destruct (IH (set_nth a (OLeaf true v) kids)) as (kids' & evs & Hf & Hat); auto.
    { now rewrite set_nth_length. } { eapply kept_set; eauto. now apply (own_case tg (SLeaf i lt d yt k)). }
    cbn [fill_keys]. rewrite Ha, Hs. cbn [set_any]. pose proof (key_events O tg i lt w Hno) as Hkq. unfold set_leaf in *. rewrite Hv in *. cbn [bind setter f_out f_pre f_post f_new] in *.
    rewrite (absorb_same O tg cs kids a (SLeaf i lt d yt k) _ (OLeaf true v)); [|exact Hkq|reflexivity|exact Hun|exact Hs|now apply own_case]. rewrite Hf.
    eexists kids', _. split; [reflexivity|]. intros b y Hy. destruct (Hat b y Hy) as [H1 H2].
    assert (Hdec : {In (Some b) (map (fun nv => kid_index (fst nv) cs) kd)} + {~ In (Some b) (map (fun nv => kid_index (fst nv) cs) kd)}).
    { apply in_dec. decide equality. apply Nat.eq_dec. }
    cbn [map fst]. split.
    + intros [E|Hin]; [|auto]. assert (a = b) by congruence. subst b. destruct Hdec as [Hi|Hi]; [auto|]. specialize (H2 Hi).
      rewrite set_nth_same in H2 by assumption. congruence.
    + intros Hn. destruct Hdec as [Hi|Hi]; [exfalso; apply Hn; now right|]. specialize (H2 Hi).
      destruct (Nat.eq_dec a b) as [->|Hne]; [exfalso; apply Hn; left; congruence|]. now rewrite set_nth_other in H2.
Qed.

(** The member of the document that a key is read from. *)
Lemma keys_read i cs kids ms : inamed_ok cs -> map_res member_enc (gen_kids (Some (e_ns i)) cs kids) = Ok ms ->
  forall keys kvs, Forall2 (key_value cs kids i) keys kvs -> elem_keys cs keys (JObj ms) = Ok (combine keys kvs).
Proof.
  intros [Hnm Hic] Hms keys kvs H. unfold elem_keys.
  induction H as [|n kv keys kvs (a & ki & lt & d & yt & key & v & j & Ha & Hs & Hx & Hns & Hj & Hjv & _) H IH]; [reflexivity|].
  rewrite map_res_cons. cbn [combine]. rewrite IH.
  unfold yang_key. rewrite Ha, Hs. cbn [bind s_info elem_get].
  assert (Hnc : Forall (fun s => no_colon (e_yang (s_info s))) cs) by (eapply Forall_impl; [|exact Hic]; now intros s (? & _)).
  pose proof (kid_written O im true WNone (Some (e_ns i)) cs (yang_dist cs Hnm) Hnc kids ms a _ _ Hms Hs Hx) as Hw.
  cbn [Serialise.gen_kid negb orb s_info enc_itree] in Hw. destruct Hw as (j' & Hj' & Hw). rewrite Hj in Hj'. injection Hj' as <-.
  unfold qualified in Hw. rewrite Hns, str_eqb_refl in Hw. rewrite Hw. cbn [bind]. now rewrite Hjv.
Qed.

Lemma kw_get_combine keys : forall kvs n, length kvs = length keys -> In n keys -> exists kv, kw_get n (combine keys kvs) = Some kv.
Proof.
  induction keys as [|m keys IH]; intros [|kv kvs] n Hl Hi; try contradiction; try discriminate.
  cbn. destruct (str_eqb n m) eqn:E; [eauto|]. apply IH; [now injection Hl|]. destruct Hi as [->|Hi]; [|assumption].
  rewrite str_eqb_refl in E. discriminate.
Qed.
(** [kw_keys] gives back a dictionary in the order of the keys, provided that equal keys have equal values. *)
Lemma kw_same keys kvs (f : str -> pyval) : kvs = map f keys -> kw_keys keys (combine keys kvs) = Ok (combine keys kvs).
Proof.
  intros ->. assert (G : forall ks l, incl ks l -> kw_keys ks (combine l (map f l)) = Ok (combine ks (map f ks))).
  { induction ks as [|n ks IH]; intros l Hi; [reflexivity|]. cbn [kw_keys].
    assert (Hg : kw_get n (combine l (map f l)) = Some (f n)).
    { assert (Hin : In n l) by (apply Hi; now left). clear -Hin. induction l as [|m l IH]; [contradiction|]. cbn.
      destruct (str_eqb n m) eqn:E; [apply str_eqb_eq in E; now subst|]. apply IH. destruct Hin as [->|H]; [|assumption].
      rewrite str_eqb_refl in E. discriminate. }
    rewrite Hg, IH; [reflexivity|]. intros x Hx. apply Hi. now right. }
  apply G. apply incl_refl.
Qed.
Lemma key_fun cs kids i keys kvs : Forall2 (key_value cs kids i) keys kvs -> exists f, kvs = map f keys.
Proof.
  intros H.
  exists (fun n => match kid_index n cs with
                   | Some a => match nth_error cs a, nth_error kids a with
                               | Some (SLeaf ki lt d yt key), Some (OLeaf _ v) =>
                                   match enc_leaf O im true ki lt yt v with Ok j => jval j | _ => VNone end
                               | _, _ => VNone
                               end
                   | None => VNone
                   end).
  induction H as [|n kv keys kvs (a & ki & lt & d & yt & key & v & j & Ha & Hs & Hx & _ & Hj & Hjv & _) H IH]; [reflexivity|].
  cbn [map]. rewrite Ha, Hs, Hx, Hj. congruence.
Qed.
Lemma combine_snd {A B} (ks : list A) : forall (l : list B), length l = length ks -> map snd (combine ks l) = l.
Proof. induction ks as [|a ks IH]; intros [|b l] E; cbn in *; try lia; auto. f_equal. apply IH. lia. Qed.
Lemma F2_len {A B} (P : A -> B -> Prop) l1 l2 : Forall2 P l1 l2 -> length l2 = length l1.
Proof. induction 1; cbn; congruence. Qed.
Lemma key_text_of keys kvs : length kvs = length keys -> key_text O (combine keys kvs) = join [32%N] (map (py_str O) kvs).
Proof. intros H. unfold key_text. rewrite <- map_map, combine_snd by assumption. reflexivity. Qed.

(** An entry is added. *)
Lemma ientry_added E i keys od cs kids kvs k ms q m c es :
  clear_of O top E q m -> keys <> [] -> Forall2 (key_value cs kids i) keys kvs -> key_made keys kvs k -> inamed_ok cs ->
  map_res member_enc (gen_kids (Some (e_ns i)) cs kids) = Ok ms ->
  shaped top m -> schema_at top q = Some (SList i keys od cs) -> ends_kid q -> at_path m q = Some (OList c es) -> ~ has_key es k ->
  exists m1 k0 evs c1, ietf_entry O uid top q keys cs (JObj ms) m = (m1, Ok k) /\ upd q m m1 /\
    at_path m1 q = Some (OList c1 (es ++ [(k, OCont (mark evs false) false k0)])) /\
    Forall2 conf cs k0 /\
    forall a y s, nth_error cs a = Some s -> nth_error k0 a = Some y ->
      (In (e_py (s_info s)) keys -> nth_error kids a = Some y) /\ (~ In (e_py (s_info s)) keys -> y = fresh O s).
Proof.
  intros Hclr Hne Hkv Hmade Hnm Hms Hs Hsc He Hat Hnh.
  assert (Hlen : length kvs = length keys) by now apply F2_len in Hkv.
  pose proof (keys_read i cs kids ms Hnm Hms keys kvs Hkv) as Hread.
  assert (Htag : forall n a s, In n keys -> kid_index n cs = Some a -> nth_error cs a = Some s -> s_tag s = None \/ s_tag s = e_choice i).
  { intros n a s Hin Ha Hsa. destruct (kid_index_some _ _ _ Ha) as (s' & Hs' & Ep). rewrite Hsa in Hs'. injection Hs' as <-.
    apply (Hpk q i keys od cs a s Hsc Hsa). now rewrite Ep. }
  destruct (fill_target (e_choice i) cs kids (combine keys kvs) (map (fresh O) cs)) as (k0 & evs & Hfill & Hat0).
  { apply map_length. }
  { apply kept_fresh. }
  { clear -Hkv Htag. induction Hkv as [|n kv keys kvs (a & ki & lt & d & yt & key & v & j & Ha & Hs & Hx & Hns & Hj & Hjv & Hla) H IH]; cbn [combine]; constructor.
    - exists a, ki, lt, d, yt, key, v. repeat (split; [assumption|]). exact (Htag n a _ (or_introl eq_refl) Ha Hs).
    - apply IH. intros n' a' s' Hn'. apply Htag. now right. }
  assert (Hmk : mk_entry O cs (combine keys kvs) = (evs, Ok (OCont (mark evs false) false k0))).
  { unfold mk_entry. now rewrite Hfill. }
  set (e0 := OCont (mark evs false) false k0) in *.
  assert (Hop : exists o, ietf_entry O uid top q keys cs (JObj ms) m =
            match run_op m q (AList (uid es) o) with (m', Ok _) => (m', Ok k) | (m', Raise e) => (m', Raise e) end /\
            list_op O keys cs (uid es) es o = (es ++ [(k, e0)], evs, Ok tt)).
  { unfold ietf_entry, entries. rewrite Hat. apply mhas_not in Hnh as Hnm'.
    destruct keys as [|n [|n2 ks]]; [congruence| |].
    - cbn [key_made] in Hmade. destruct Hmade as (-> & Hh & Hk1 & Hk2). cbn [combine] in *. rewrite Hread.
      exists (YAdd k). rewrite Hh, Hnm'. split; [reflexivity|].
      unfold list_op, yl_op, yl_add. rewrite Hh, Hnm'. cbn [negb].
      assert (Hkd : key_dict [n] k = Ok [(n, k)]) by (unfold key_dict; destruct k as [| | | |[|]| | | | |]; congruence).
      assert (Hst : store k es (mk_entry O cs [(n, k)]) = (es ++ [(k, e0)], evs, Ok tt)).
      { rewrite Hmk. cbn [store]. now rewrite mput_add. }
      destruct k; try congruence; rewrite Hkd; exact Hst.
    - cbn [key_made] in Hmade. destruct Hmade as (-> & Hrs). rewrite Hread.
      exists (YAddKw (combine (n :: n2 :: ks) kvs)). cbv zeta. rewrite key_text_of by assumption. rewrite Hrs, Hnm'. split; [reflexivity|].
      unfold list_op, yl_op. destruct (combine (n :: n2 :: ks) kvs) as [|p l] eqn:Ec; [destruct kvs; discriminate|]. rewrite <- Ec in *.
      unfold yl_add_kw. destruct (key_fun cs kids i _ _ Hkv) as [f Hf]. rewrite (kw_same _ _ f Hf). cbv zeta.
      rewrite key_text_of by assumption. rewrite Hnm', Hmk. cbn [store]. now rewrite mput_add. }
  destruct Hop as (o & E1 & E2).
  assert (Hev : forall c k, In (Some (c, k)) (snd (fst (list_op O keys cs (uid es) es o))) -> e_choice i = Some (c, k)).
  { rewrite E2. cbn [fst snd]. intros c0 k1. pose proof (fill_events O (e_choice i) cs (combine keys kvs) (map (fresh O) cs)) as Hn. rewrite Hfill in Hn. cbn [fst snd] in Hn.
    apply Hn. intros nm j s Hnm' Hj Hsj. rewrite combine_fst in Hnm' by assumption. split; [exact (Htag nm j s Hnm' Hj Hsj)|].
    clear -Hkv Hnm' Hj Hsj. induction Hkv as [|n kv keys kvs (a & ki & lt & d & yt & key & v & jj & Ha & Hs & _) H IH]; [contradiction|].
    destruct Hnm' as [->|Hnm']; [|auto]. rewrite Ha in Hj. injection Hj as ->. rewrite Hs in Hsj. injection Hsj as <-. now exists ki, lt, d, yt, key. }
  destruct (op_calm O top _ m q (AList (uid es) o) _ _ Hs He Hsc Hat (fun c k => list_events O i keys od cs _ es _ _ c k Hev) Hclr) as (Hu & Ho & Hp).
  rewrite E1. destruct (run_op m q (AList (uid es) o)) as [m1 r]. cbn [fst snd] in *.
  unfold put in Hp. cbn [apply] in Ho, Hp. rewrite E2 in Ho, Hp. cbn in Ho, Hp. subst r.
  exists m1, k0, evs. eexists. split; [reflexivity|]. split; [exact Hu|]. split; [exact Hp|].
  assert (Hck0 : conf (entry_schema cs) e0). { apply (mk_entry_conf O cs (combine keys kvs)). now rewrite Hmk. }
  split; [now inversion Hck0|].
  intros a y s Hsa Hy. destruct (Hat0 a y Hy) as [H1 H2]. destruct Hnm as [[Hnd Hsafe] _].
  assert (Hidx : kid_index (e_py (s_info s)) cs = Some a) by now apply kid_index_nth.
  assert (Hmap : map (fun nv => kid_index (fst nv) cs) (combine keys kvs) = map (fun n => kid_index n cs) keys).
  { rewrite <- (map_map fst (fun n => kid_index n cs)). now rewrite combine_fst. }
  rewrite Hmap in H1, H2. split.
  - intros Hin. apply H1. rewrite <- Hidx. now apply (in_map (fun n => kid_index n cs)).
  - intros Hnin. assert (Hn : ~ In (Some a) (map (fun n => kid_index n cs) keys)).
    { intros Hi. apply in_map_iff in Hi as (n & En & Hi). apply kid_index_some in En as (s' & Hs' & Ep). rewrite Hsa in Hs'. injection Hs' as <-.
      apply Hnin. now rewrite Ep. }
    specialize (H2 Hn). rewrite nth_fresh, Hsa in H2. cbn in H2. congruence.
Qed.

Definition ientry (skip : bool) (q : list pstep) (keys : list str) (cs : list schema) (elem : json) (m : list obj) : step :=
  match ietf_entry O uid top q keys cs elem m with
  | (m, Raise e) => (m, Raise e)
  | (m, Ok k) => load_ietf O uid top false skip cs (Some q) (q ++ [Ent k]) elem m
  end.

Inductive ielems (keys : list str) (i : einfo) (cs : list schema) : list (pyval * obj) -> list json -> Prop :=
| IeNil : ielems keys i cs [] []
| IeCons k c ps kids kvs ms es js : Forall2 (key_value cs kids i) keys kvs -> key_made keys kvs k -> Forall2 iready cs kids -> settled (entry_schema cs) (OCont c ps kids) ->
    map_res member_enc (gen_kids (Some (e_ns i)) cs kids) = Ok ms -> ielems keys i cs es js ->
    ielems keys i cs ((k, OCont c ps kids) :: es) (JObj ms :: js).

Lemma ielems_make keys i cs : inamed_ok cs -> Forall iarrives cs -> (exists q i pr, schema_at top q = Some (SCont i pr cs)) -> forall es,
  Forall (fun e => exists c ps kids kvs, snd e = OCont c ps kids /\ Forall2 iready cs kids /\
              Forall2 (key_value cs kids i) keys kvs /\ key_made keys kvs (fst e)) es ->
  Forall (fun e => settled (entry_schema cs) (snd e)) es ->
  exists js, map_res (enc_itree O im) (map (entry_itree true WNone i cs) es) = Ok js /\ ielems keys i cs es js.
Proof.
  intros Hnm HP Hq. induction es as [|[k e] es IH]; intros H Hsl.
  - exists []. split; [reflexivity|constructor].
  - inversion H as [|? ? (c & ps & kids & kvs & He & Hr & Hkv & Hm) H']; subst. cbn [fst snd] in *. subst e.
    inversion Hsl as [|? ? Hse Hsl']; subst. cbn [snd] in Hse. pose proof Hse as Hse0. inversion Hse0 as [| |? ? ? ? ? ? Hks Hse'|]; subst.
    assert (Hlk : length kids = length cs) by (clear -Hr; induction Hr; cbn; congruence).
    destruct (IH H' Hsl') as (js & Hjs & Hel).
    destruct (ikids_arrive cs Hnm HP Hq (Some (e_ns i)) kids Hlk cs kids 0%nat) as (_ & ms & Hms & _); auto.
    exists (JObj ms :: js). split.
    + cbn [map]. rewrite map_res_cons. unfold entry_itree at 1. cbn [snd]. rewrite enc_dict, Hms. cbn [bind]. now rewrite Hjs.
    + econstructor; eauto.
Qed.

Lemma ielem_loads i keys od cs kids kvs k ms q m c es skip xc xes ec eps :
  mget k xes = Some (OCont ec eps kids) -> outer (SList i keys od cs) (OList xc xes) q m -> settled (entry_schema cs) (OCont ec eps kids) -> keys <> [] -> Forall2 (key_value cs kids i) keys kvs -> key_made keys kvs k -> inamed_ok cs -> Forall iarrives cs ->
  Forall (fun s => is_key s = true -> In (e_py (s_info s)) keys) cs -> Forall2 iready cs kids ->
  map_res member_enc (gen_kids (Some (e_ns i)) cs kids) = Ok ms ->
  shaped top m -> schema_at top q = Some (SList i keys od cs) -> ends_kid q -> at_path m q = Some (OList c es) -> ~ has_key es k ->
  exists m' c' es' e', ientry skip q keys cs (JObj ms) m = (m', Ok tt) /\ upd q m m' /\ at_path m' q = Some (OList c' es') /\
    map fst es' = map fst es ++ [k] /\ (forall k', py_eq k k' = false -> mget k' es' = mget k' es) /\
    mget k es' = Some e' /\ get_entry true cs e' = DDict (get_kids true cs kids).
Proof.
  intros Hmg Hout Hse Hne Hkv Hmade Hnm HP Hkeys Hr Hms Hs Hsc He Hat Hnh.
  inversion Hse as [| |? ? ? ? ? ? Hks Hse'|]; subst.
  assert (Hlk : length kids = length cs) by (clear -Hr; induction Hr; cbn; congruence).
  assert (Hdat : has_data (SList i keys od cs) (OList xc xes)).
  { unfold has_data. rewrite get_list. destruct xes; [discriminate Hmg|discriminate]. }
  destruct (ientry_added _ i keys od cs kids kvs k ms q m c es (Hout Hdat) Hne Hkv Hmade Hnm Hms Hs Hsc He Hat Hnh) as (m1 & k0 & evs & c1 & E1 & Hu & Hp & Hck & Hk0).
  unfold ientry. rewrite E1. set (e0 := OCont (mark evs false) false k0) in *.
  assert (Hg0 : mget k (es ++ [(k, e0)]) = Some e0) by now apply mget_snoc.
  assert (Hate : at_path m1 (q ++ [Ent k]) = Some e0) by now rewrite (at_entry m1 q _ _ k Hp).
  pose proof (schema_entry top q i keys od cs k Hsc) as Hsce.
  destruct (ikids_arrive cs Hnm HP (ex_intro _ (q ++ [Ent k]) (ex_intro _ plain (ex_intro _ false Hsce))) (Some (e_ns i)) kids Hlk cs kids 0%nat)
    as (_ & ms' & Hms' & Hl); auto.
  rewrite Hms in Hms'. injection Hms' as <-.
  assert (Hst0 : forall j s x, nth_error cs j = Some s -> nth_error kids j = Some x ->
             exists y, at_path m1 ((q ++ [Ent k]) ++ [Kid (0 + j)]) = Some y /\ istart s x y).
  { intros j s x Hj Hx. cbn [Nat.add]. rewrite (at_kid _ _ _ _ _ j Hate).
    destruct (Forall2_nth conf cs k0 j s Hck Hj) as (y & Hy & Hcy). exists y. split; auto.
    destruct (Hk0 j y s Hj Hy) as [Hin Hou].
    destruct (in_dec (list_eq_dec N.eq_dec) (e_py (s_info s)) keys) as [Hk|Hk].
    - right. specialize (Hin Hk). rewrite Hx in Hin. injection Hin as ->.
      assert (Hkx : exists i lt d yt kk v, s = SLeaf i lt d yt kk /\ y = OLeaf true v).
      { clear -Hkv Hk Hj Hx Hnm. induction Hkv as [|n kv keys kvs (a & ki & lt & d & yt & key & v & jj & Ha & Hs & Hxx & _) H IH]; [contradiction|].
        destruct Hk as [->|Hk]; [|auto]. destruct Hnm as [[Hnd _] _]. rewrite (kid_index_nth cs Hnd j s Hj) in Ha. injection Ha as <-.
        rewrite Hj in Hs. injection Hs as ->. rewrite Hx in Hxx. injection Hxx as ->. do 6 eexists. split; reflexivity. }
      destruct Hkx as (i' & lt & d & yt & kk & v & -> & ->). now exists i', lt, d, yt, kk, v.
    - left. rewrite (Hou Hk). split; [reflexivity|]. rewrite Forall_forall in Hkeys.
      destruct (is_key s) eqn:Ek; auto. exfalso. apply Hk. apply Hkeys; auto. eapply nth_error_In; eassumption. }
  destruct (Hl (q ++ [Ent k]) m1 skip plain false) as (m2 & E2 & Hu2 & Hk2 & _ & _ & Hnew); auto.
  { apply Hu. }
  { eapply around_outer with (ch := ec) (ps := eps) (i := plain) (pr := false); [apply Hu|constructor; now apply ireadys_shaped|].
    eapply entry_outer with (ch := xc); eauto. eapply outer_upd; eauto. }
  { intros j s x Hj Hx Hnd. destruct (Hst0 j s x Hj Hx) as (y & Hy & [[-> _]|(i' & lt & d & yt & kk & v & -> & -> & _)]); [exact Hy|].
    exfalso. apply Hnd. discriminate. }
  destruct (upd_entry top q k m1 m2 _ _ Hu2 Hp) as (c2 & es2 & Hat2 & Hkeys2 & Hoth).
  assert (Hate2 : exists ch ps kk, at_path m2 (q ++ [Ent k]) = Some (OCont ch ps kk)).
  { rewrite Hate in Hk2. destruct (at_path m2 (q ++ [Ent k])) as [[]|]; cbn in Hk2; try discriminate. eauto. }
  destruct Hate2 as (ch2 & ps2 & kk2 & Hate2).
  exists m2, c2, es2, (OCont ch2 ps2 kk2). split; [rewrite iload_obj; exact E2|].
  split; [eapply upd_trans; [exact Hu|eapply upd_below; exact Hu2]|]. split; auto. split.
  { rewrite Hkeys2, map_app. reflexivity. }
  split.
  { intros k' Hk'. rewrite Hoth by assumption. rewrite <- (mput_add es k e0 Hnh). apply mget_mput_other. now rewrite py_eq_sym. }
  split; [now rewrite <- (at_entry m2 q _ _ k Hat2)|].
  unfold get_entry. f_equal. apply get_kids_ext; auto.
  - now apply ireadys_shaped.
  - destruct (at_path_conf top m2 _ _ (u_shape _ _ _ _ Hu2) Hate2) as (s & Hs2 & Hc2).
    rewrite (schema_entry top q i keys od cs k Hsc) in Hs2. injection Hs2 as <-. now inversion Hc2.
  - intros j s x Hj Hx. destruct (Hnew j s x Hj Hx) as (y & Hy1 & Hy2). cbn [Nat.add] in Hy1. rewrite (at_kid _ _ _ _ _ j Hate2) in Hy1. eauto.
Qed.

Lemma ielems_load i keys od cs skip q xc xes : keys <> [] -> inamed_ok cs -> Forall iarrives cs ->
  Forall (fun s => is_key s = true -> In (e_py (s_info s)) keys) cs -> schema_at top q = Some (SList i keys od cs) -> ends_kid q ->
  forall es js, ielems keys i cs es js -> (forall k e, In (k, e) es -> mget k xes = Some e) ->
  forall m c es0, kdist (es0 ++ es) -> shaped top m -> at_path m q = Some (OList c es0) -> outer (SList i keys od cs) (OList xc xes) q m ->
  exists m' c' es', for_each (ientry skip q keys cs) js m = (m', Ok tt) /\
    upd q m m' /\ at_path m' q = Some (OList c' es') /\
    map (fun e => (fst e, get_entry true cs (snd e))) es' = map (fun e => (fst e, get_entry true cs (snd e))) (es0 ++ es).
Proof.
  intros Hne Hnm HP Hkeys Hsc He. induction 1 as [|k c1 ps kids kvs ms es js Hkv Hmade Hr Hse Hms Hel IH]; intros Hxe m c es0 Hkd Hs Hat Hout.
  - exists m, c, es0. rewrite app_nil_r. split; auto. split; auto using upd_refl.
  - assert (Hnh : ~ has_key es0 k).
    { intros (k1 & z & Hin & Heq). unfold kdist in Hkd. rewrite map_app in Hkd. apply dist_app in Hkd. destruct Hkd as (_ & _ & H).
      assert (py_eq k1 k = false) by (apply H; [change k1 with (fst (k1, z)); now apply in_map|now left]).
      rewrite py_eq_sym in Heq. congruence. }
    destruct (ielem_loads i keys od cs kids kvs k ms q m c es0 skip xc xes c1 ps (Hxe _ _ (or_introl eq_refl)) Hout Hse Hne Hkv Hmade Hnm HP Hkeys Hr Hms Hs Hsc He Hat Hnh)
      as (m1 & c' & es1 & e1 & E1 & Hu1 & Hat1 & Hk1 & Hoth & Hget & Hshow).
    set (mid := es0 ++ [(k, OCont c1 ps kids)]).
    assert (Hmid : kdist (mid ++ es)). { unfold mid. rewrite <- app_assoc. exact Hkd. }
    assert (Hkmid : kdist mid) by (unfold kdist in *; rewrite map_app in Hmid; apply dist_app in Hmid; apply Hmid).
    assert (Hsh : map (fun e => (fst e, get_entry true cs (snd e))) es1 = map (fun e => (fst e, get_entry true cs (snd e))) mid).
    { apply same_shown; auto.
      - rewrite Hk1. unfold mid. now rewrite map_app.
      - intros k' Hk'. unfold mid. destruct (py_eq k k') eqn:Ek.
        + assert (Hmg : forall l : list (pyval * obj), mget k' l = mget k l).
          { clear - Ek. induction l as [|[k1 z] l IH]; [reflexivity|]. cbn [mget]. rewrite IH.
            destruct (py_eq k' k1) eqn:E1, (py_eq k k1) eqn:E2; auto.
            - pose proof (py_eq_trans _ _ _ Ek E1). congruence.
            - rewrite py_eq_sym in Ek. pose proof (py_eq_trans _ _ _ Ek E2). congruence. }
          rewrite !Hmg, Hget, mget_snoc by assumption. cbn. now rewrite Hshow.
        + rewrite Hoth by assumption. rewrite <- (mput_add es0 k (OCont c1 ps kids) Hnh), mget_mput_other; auto.
          now rewrite py_eq_sym. }
    assert (Hfst : map fst es1 = map fst mid).
    { apply (f_equal (map fst)) in Hsh. rewrite !map_map in Hsh. exact Hsh. }
    destruct (IH (fun k e H => Hxe k e (or_intror H)) m1 c' es1) as (m2 & c2 & es2 & E2 & Hu2 & Hat2 & Hsh2); auto.
    { unfold kdist in *. rewrite map_app in *. now rewrite Hfst. } { apply Hu1. } { eapply outer_upd; eauto. }
    exists m2, c2, es2. split; [cbn [for_each]; rewrite E1; exact E2|].
    split; [eapply upd_trans; eassumption|]. split; auto.
    rewrite Hsh2, map_app, Hsh. unfold mid. rewrite !map_app, <- app_assoc. reflexivity.
Qed.

Lemma ilist_arrives i keys od cs : inamed_ok cs -> Forall iarrives cs -> iarrives (SList i keys od cs).
Proof.
  intros Hnm HP x ns [q0 Hq0] Hr Hse. inversion Hr as [| | |? ? ? ? ch es Hne Hkd Hkeys Hents]; subst.
  inversion Hse as [| | |? ? ? ? ? ? Hset]; subst.
  assert (Hxe : forall k e, In (k, e) es -> mget k es = Some e) by now apply kdist_mget.
  rewrite gen_list. destruct es as [|e0 es0] eqn:Ees; [reflexivity|]. rewrite <- Ees in *.
  destruct (ielems_make keys i cs Hnm HP) with (es := es) as (js & Henc & Hok); auto.
  { exists (q0 ++ [Ent VNone]), plain, false. now apply schema_entry with i keys od. }
  { apply Forall_forall. intros [k e] He. cbn [snd]. apply Hset with k. now apply Hxe. }
  exists (JArr js). split. { cbn [enc_itree]. now rewrite Henc. }
  intros q m y skip Hs Hsc He Hy Hst Hout.
  destruct Hst as [[Hb _]|(i' & lt & d & yt' & k & v & E & _)]; [|discriminate].
  cbn [fresh] in Hb. subst y.
  destruct (ielems_load i keys od cs skip q ch es Hne Hnm HP Hkeys Hsc He es js Hok Hxe m false []) as (m' & c' & es' & E & Hu & Hat & Hsh); auto.
  exists m', (OList c' es'). split.
  { unfold UnknownIetf_proofs.iload_kid. destruct js as [|j0 js0]; [rewrite Ees in Hok; inversion Hok|].
    rewrite for_each_map. exact E. }
  split; auto. split; auto. split.
  2:{ intros Hn. exfalso. apply Hn. unfold has_data. rewrite get_list, Ees. discriminate. }
  rewrite !get_list, Hsh. cbn [app].
  destruct es' as [|? ?]; [|rewrite Ees; reflexivity]. rewrite Ees in Hsh. discriminate.
Qed.

(* ------------------------------------------------------------------ together *)
Lemma all_iarrive : (forall p i pr cs, schema_at top p = Some (SCont i pr cs) -> inamed_ok cs) ->
  forall s q, schema_at top q = Some s -> iarrives s.
Proof.
  intros Hnm. induction s as [i lt d yt k|i ts yt|i pr cs IH|i keys od cs IH] using schema_ind'; intros q Hq.
  - apply ileaf_arrives.
  - apply ileaf_list_arrives.
  - apply icont_arrives; [eapply Hnm; eassumption|]. apply Forall_forall. intros s Hs. apply In_nth_error in Hs as [n Hn].
    rewrite Forall_forall in IH. apply (IH s (nth_error_In _ _ Hn) (q ++ [Kid n])). now rewrite (schema_kid top q i pr cs).
  - pose proof (schema_entry top q i keys od cs VNone Hq) as Hq'.
    apply ilist_arrives; [eapply Hnm; eassumption|]. apply Forall_forall. intros s Hs. apply In_nth_error in Hs as [n Hn].
    rewrite Forall_forall in IH. apply (IH s (nth_error_In _ _ Hn) ((q ++ [Ent VNone]) ++ [Kid n])).
    now rewrite (schema_kid top _ plain false cs).
Qed.

Theorem iready_round_trip kids : (forall p i pr cs, schema_at top p = Some (SCont i pr cs) -> inamed_ok cs) ->
  Forall (fun s => is_key s = false) top -> Forall2 iready top kids -> Forall2 settled top kids ->
  exists j m', dumps_ietf O im true WNone top kids = Ok j /\ loads_ietf O uid top j = (m', Ok tt) /\
    get_kids true top m' = get_kids true top kids.
Proof.
  intros Hnm Hnk Hr Hse. pose proof (Hnm [] plain false top eq_refl) as Hn0.
  assert (Hlk : length kids = length top) by (clear -Hr; induction Hr; cbn; congruence).
  assert (HP : Forall iarrives top).
  { apply Forall_forall. intros s Hs. apply In_nth_error in Hs as [n Hn]. apply (all_iarrive Hnm s [Kid n]).
    unfold schema_at. cbn. now rewrite Hn. }
  destruct (ikids_arrive top Hn0 HP) with (ns := @None str) (kids := kids) (cs2 := top) (kids2 := kids) (n0 := 0%nat) as (_ & ms & Hms & Hl); auto.
  { now exists [], plain, false. }
  destruct (Hl [] (module_new O top) false plain false) as (m' & E & Hu & _ & _ & _ & Hnew); auto.
  { apply fresh_shaped. }
  { intros n s x Hs Hx. exists (fresh O s). split.
    - unfold at_path. cbn. unfold module_new. now rewrite nth_fresh, Hs.
    - left. split; [reflexivity|]. rewrite Forall_forall in Hnk. apply Hnk. eapply nth_error_In; eassumption. }
  { intros n s x Hs Hx Hd r t c k k' Hll. cbn in Hll. lia. }
  { intros n s x Hs Hx _. unfold at_path. cbn. unfold module_new. now rewrite nth_fresh, Hs. }
  { congruence. }
  exists (JObj ms), m'. split; [unfold dumps_ietf; rewrite enc_dict, Hms; reflexivity|].
  split; [unfold loads_ietf, load_ietf_json; rewrite iload_obj; exact E|].
  apply get_kids_ext; [now apply ireadys_shaped|apply Hu|].
  intros n s x Hs Hx. destruct (Hnew n s x Hs Hx) as (y & Hy & Hg). exists y. split; auto.
  unfold at_path in Hy. cbn in Hy. destruct (nth_error m' n) as [z|]; [|discriminate]. exact Hy.
Qed.
End I.
