(** The dictionaries of values that are built from the identity store. *)
From Coq Require Import Lia.
From Verif Require Import PyStr PyStr_facts PyVal PathHelper Identity Spec_Identity.
From Verif Require Import PathSim_proofs Identity_proofs.
Import ListNotations.

Section Proofs.
Context (c : modules) (store : list identity).

(** [e] has the texts of [L], with values of [L]. *)
Definition holds (L : values) (e : values) : Prop := (forall t v, look t e = Some v -> In (t, v) L) /\ (forall t v, In (t, v) L -> look t e <> None).
Lemma holds_nil : holds [] [].
Proof. split; [discriminate|easy]. Qed.
Lemma holds_set L e t v : holds L e -> holds (L ++ [(t, v)]) (dict_set t v e).
Proof.
  intros [H1 H2]. split.
  - intros t' v'. rewrite look_set. destruct (str_eqb t' t) eqn:E; intros H; apply in_or_app; [apply str_eqb_eq in E; injection H as <-; right; left; now subst|left; now apply H1].
  - intros t' v' H. rewrite look_set. destruct (str_eqb t' t) eqn:E; [discriminate|]. apply in_app_or in H as [H|[H|[]]]; [now apply (H2 t' v')|]. injection H as -> _. rewrite str_eqb_refl in E. discriminate.
Qed.

Definition texts (ch : ident) : list str :=
  flat_map (fun p => [snd ch; key_of p (snd ch)]) (match find_ident ch store with Some j => id_prefixes j | None => [] end) ++ [snd ch; snd ch].
Definition value_of (ch : ident) : str * str := (fst ch, m_namespace c (fst ch)).
Definition pairs_of (ch : ident) : values := map (fun t => (t, value_of ch)) (texts ch).
Definition at_key (k : str) (D : list (str * values)) (L : values) : Prop := exists e, look k D = Some e /\ holds L e.

Lemma look_add k key t v D : look k (add_value key t v D) = if str_eqb k key then option_map (dict_set t v) (look key D) else look k D.
Proof.
  unfold add_value. destruct (look key D) as [e|] eqn:E.
  - rewrite look_set. destruct (str_eqb k key); reflexivity.
  - destruct (str_eqb k key) eqn:Ek; [|reflexivity]. apply str_eqb_eq in Ek. now subst.
Qed.
Lemma at_add_same k t v D L : at_key k D L -> at_key k (add_value k t v D) (L ++ [(t, v)]).
Proof. intros (e & H1 & H2). exists (dict_set t v e). rewrite look_add, str_eqb_refl, H1. split; [reflexivity|now apply holds_set]. Qed.
Lemma at_look k D D' L : look k D' = look k D -> at_key k D L -> at_key k D' L.
Proof. intros H (e & H1 & H2). exists e. now rewrite H. Qed.
Lemma key_longer p n : key_of p n <> n.
Proof. unfold key_of. intros H. apply (f_equal (@length _)) in H. rewrite !app_length in H. cbn in H. lia. Qed.
Lemma key_inj p p' n : key_of p n = key_of p' n -> p = p'.
Proof. unfold key_of. intros H. now apply app_inv_tail in H. Qed.

Section One.
Context (i : identity).
Local Notation nm := (id_name i).
Lemma add_values_spec key ch D k : key <> nm ->
  (k = key \/ k = nm -> forall L, at_key k D L -> at_key k (add_values c i key store ch D) (L ++ pairs_of ch)) /\
  (k <> key -> k <> nm -> look k (add_values c i key store ch D) = look k D).
Proof.
  intros Hne. unfold add_values, pairs_of. fold (texts ch). change (fst ch, m_namespace c (fst ch)) with (value_of ch). generalize (texts ch) as ts. intros ts. split.
  - intros Hk. revert D. induction ts as [|t ts IH]; intros D L H; [cbn [fold_left map]; now rewrite app_nil_r|]. cbn [fold_left map]. change (L ++ (t, value_of ch) :: map (fun t0 => (t0, value_of ch)) ts) with (L ++ [(t, value_of ch)] ++ map (fun t0 => (t0, value_of ch)) ts).
    rewrite app_assoc. apply IH. destruct Hk as [-> | ->].
    + apply (at_look _ (add_value key t (value_of ch) D)); [|now apply at_add_same]. rewrite look_add. assert (E : str_eqb key nm = false) by now apply str_eqb_neq. now rewrite E.
    + apply at_add_same. apply (at_look _ D); [|assumption]. rewrite look_add. assert (E : str_eqb nm key = false) by (apply str_eqb_neq; congruence). now rewrite E.
  - intros H1 H2. apply str_eqb_neq in H1, H2. revert D. induction ts as [|t ts IH]; intros D; [reflexivity|]. cbn [fold_left]. rewrite IH, look_add, H2, look_add, H1. reflexivity.
Qed.
Definition all_pairs : values := flat_map pairs_of (id_children i).
Definition per_prefix (D : list (str * values)) (p : str) : list (str * values) :=
  fold_left (fun D ch => add_values c i (key_of p nm) store ch D) (id_children i) (dict_set nm [] (dict_set (key_of p nm) [] D)).
Lemma children_spec key D k chs : key <> nm ->
  (k = key \/ k = nm -> forall L, at_key k D L -> at_key k (fold_left (fun D ch => add_values c i key store ch D) chs D) (L ++ flat_map pairs_of chs)) /\
  (k <> key -> k <> nm -> look k (fold_left (fun D ch => add_values c i key store ch D) chs D) = look k D).
Proof.
  intros Hne. revert D. induction chs as [|ch chs IH]; intros D; [cbn [fold_left flat_map]; split; [intros _ L H; now rewrite app_nil_r|reflexivity]|]. cbn [fold_left flat_map]. destruct (add_values_spec key ch D k Hne) as [A1 A2]. destruct (IH (add_values c i key store ch D)) as [I1 I2]. split.
  - intros Hk L H. rewrite app_assoc. apply I1; [assumption|]. now apply A1.
  - intros H1 H2. rewrite I2 by assumption. now apply A2.
Qed.
Lemma prefix_spec D p k : (k = key_of p nm \/ k = nm -> at_key k (per_prefix D p) all_pairs) /\ (k <> key_of p nm -> k <> nm -> look k (per_prefix D p) = look k D).
Proof.
  unfold per_prefix. destruct (children_spec (key_of p nm) (dict_set nm [] (dict_set (key_of p nm) [] D)) k (id_children i) (key_longer p nm)) as [A1 A2]. split.
  - intros Hk. apply (A1 Hk []). exists []. split; [|apply holds_nil]. rewrite !look_set. destruct Hk as [-> | ->]; rewrite str_eqb_refl; [|reflexivity]. now destruct (str_eqb (key_of p nm) nm).
  - intros H1 H2. rewrite (A2 H1 H2). apply str_eqb_neq in H1, H2. now rewrite !look_set, H1, H2.
Qed.
Lemma prefixes_spec k ps : forall D,
  (k = nm -> ps <> [] -> at_key k (fold_left per_prefix ps D) all_pairs) /\
  (forall p, k = key_of p nm -> In p ps -> at_key k (fold_left per_prefix ps D) all_pairs) /\
  (k <> nm -> (forall p, In p ps -> k <> key_of p nm) -> look k (fold_left per_prefix ps D) = look k D).
Proof.
  induction ps as [|p ps IH]; intros D; [split; [easy|split; [easy|reflexivity]]|]. cbn [fold_left]. destruct (IH (per_prefix D p)) as (I1 & I2 & I3). destruct (prefix_spec D p k) as [P1 P2]. split; [|split].
  - intros Hk _. destruct ps as [|p' ps]; [cbn [fold_left]; apply P1; now right|]. apply I1; [assumption|discriminate].
  - intros q Hk Hq. destruct (in_dec (list_eq_dec N.eq_dec) q ps) as [Hi|Hi]; [now apply (I2 q)|]. destruct Hq as [<-|Hq]; [|contradiction]. apply (at_look _ (per_prefix D p)); [|apply P1; now left].
    apply I3; [rewrite Hk; apply key_longer|]. intros q Hq E. rewrite Hk in E. apply key_inj in E. now subst.
  - intros H1 H2. rewrite I3; [apply P2; [apply H2; now left|assumption]|assumption|]. intros q Hq. apply H2. now right.
Qed.
Definition per_identity (D : list (str * values)) : list (str * values) :=
  let D' := fold_left per_prefix (id_prefixes i) D in match look nm D' with Some _ => D' | None => dict_set nm [] D' end.
Definition keys_of : list str := nm :: map (fun p => key_of p nm) (id_prefixes i).
Lemma identity_spec D k : id_prefixes i <> [] -> (In k keys_of -> at_key k (per_identity D) all_pairs) /\ (~ In k keys_of -> look k (per_identity D) = look k D).
Proof.
  intros Hne. unfold per_identity. destruct (prefixes_spec nm (id_prefixes i) D) as (A1 & _). destruct (A1 eq_refl Hne) as (e & E & _). cbv zeta. rewrite E. destruct (prefixes_spec k (id_prefixes i) D) as (B1 & B2 & B3). unfold keys_of. split.
  - intros [<-|H]; [now apply B1|]. apply in_map_iff in H as (p & <- & Hp). now apply (B2 p).
  - intros H. apply B3; [intros ->; apply H; now left|]. intros p Hp ->. apply H. right. now apply (in_map (fun p => key_of p nm)).
Qed.
End One.

Lemma dict_unfold : identity_dict c store = fold_left (fun D i => per_identity i D) store [].
Proof. reflexivity. Qed.
Lemma dict_spec l : (forall i, In i l -> id_prefixes i <> []) -> forall D k i, In i l -> In k (keys_of i) -> (forall j, In j l -> In k (keys_of j) -> j = i) ->
  at_key k (fold_left (fun D i => per_identity i D) l D) (all_pairs i).
Proof.
  induction l as [|j l IH]; intros Hp D k i Hi Hk Hu; [easy|]. cbn [fold_left].
  assert (U : forall l D, (forall j, In j l -> id_prefixes j <> [] /\ ~ In k (keys_of j)) -> look k (fold_left (fun D i => per_identity i D) l D) = look k D).
  { clear. induction l as [|j l IH]; intros D H; [reflexivity|]. cbn [fold_left]. destruct (H j (or_introl eq_refl)) as [H1 H2]. rewrite IH by (intros j' Hj; apply H; now right). now apply identity_spec. }
  destruct (existsb (fun j => existsb (str_eqb k) (keys_of j)) l) eqn:E.
  - apply existsb_exists in E as (j' & Hj' & E). apply existsb_exists in E as (k' & Hk' & E). apply str_eqb_eq in E. subst k'. pose proof (Hu j' (or_intror Hj') Hk') as Ej. subst j'. apply IH; try assumption; [intros x Hx; apply Hp; now right|]. intros x Hx. apply Hu. now right.
  - assert (N : forall j, In j l -> ~ In k (keys_of j)).
    { intros x Hx Hkx. assert (T : existsb (fun j => existsb (str_eqb k) (keys_of j)) l = true); [|congruence]. apply existsb_exists. exists x. split; [assumption|]. apply existsb_exists. exists k. split; [assumption|apply str_eqb_refl]. }
    destruct Hi as [->|Hi]; [|exfalso; now apply (N i Hi)]. apply (at_look _ (per_identity i D)); [|apply identity_spec; [apply Hp; now left|assumption]]. apply U. intros x Hx. split; [apply Hp; now right|now apply N].
Qed.
End Proofs.

(** C53, C59: the values by the name of the base. *)
Lemma values_exact c defs fuel depth D n k : defined_once defs -> build_identities c fuel depth defs = Ok D -> (length defs < depth)%nat ->
  (exists d, In d defs /\ ident_of d = n) -> text_of c n k ->
  (forall d, In d defs -> text_of c (ident_of d) k -> ident_of d = n) ->
  exists e, look k D = Some e /\ (forall t v, look t e = Some v -> exists m, derived c defs n m /\ text_of c m t /\ v = (fst m, m_namespace c (fst m))) /\
            (forall m t, derived c defs n m -> text_of c m t -> look t e <> None).
Proof.
  intros Ho H Hd Hn Hk Hu. unfold build_identities in H. destruct (build_store c fuel depth defs) as [st|e] eqn:E; cbn [bind] in H; [|discriminate]. injection H as <-.
  destruct (store_exact c defs fuel depth st Ho E Hd) as (S1 & S2 & S3). apply S1 in Hn. apply in_map_iff in Hn as (i & <- & Hi).
  assert (K : forall j, In j st -> forall t, In t (keys_of j) <-> text_of c (id_of j) t).
  { intros j Hj t. destruct (S3 j Hj) as (_ & P & _). unfold keys_of, text_of. cbn [In fst snd id_of]. split.
    - intros [<-|H]; [now left|]. apply in_map_iff in H as (p & <- & Hp). right. exists p. split; [now apply P|reflexivity].
    - intros [->|(p & Hp & ->)]; [now left|]. right. apply in_map_iff. exists p. split; [reflexivity|now apply P]. }
  assert (T : forall m t, In m (map id_of st) -> (In t (texts st m) <-> text_of c m t)).
  { intros m t Hm. destruct (in_find m st Hm) as (j & Ej). destruct (find_in _ _ _ Ej) as [Hj <-]. rewrite <- (K j Hj). unfold texts, keys_of. rewrite Ej. cbn [id_of snd]. rewrite in_app_iff, in_flat_map. cbn [In]. split.
    - intros [(p & Hp & [<-|[<-|[]]])|[<-|[<-|[]]]]; [now left| |now left|now left]. right. now apply (in_map (fun p => key_of p (id_name j))).
    - intros [<-|H]; [right; now left|]. apply in_map_iff in H as (p & <- & Hp). left. exists p. split; [assumption|]. right. now left. }
  assert (Der : forall m, derived c defs (id_of i) m -> In m (map id_of st)) by (intros m Hm; apply S1; destruct Hm as [d ? ? Hd' _ _|? d ? ? _ Hd' _ _]; now exists d).
  destruct (dict_spec c st st) with (D := @nil (str * values)) (k := k) (i := i) as (e & He & H1 & H2).
  - intros j Hj En. destruct (S3 j Hj) as (_ & P & _). rewrite En in P. now apply (P (id_module j)); left.
  - assumption.
  - now apply K.
  - intros j Hj Hkj. apply K in Hkj; [|assumption]. assert (Hin : In (id_of j) (map id_of st)) by now apply in_map. apply S1 in Hin as (d & Hdd & Ed). assert (Eid : id_of j = id_of i) by (rewrite <- Ed; apply Hu; [assumption|]; now rewrite Ed).
    now apply (nodup_inj st).
  - rewrite <- dict_unfold in He. exists e. split; [assumption|]. destruct (S3 i Hi) as (_ & _ & Ch). split.
    + intros t v Ht. apply H1 in Ht. apply in_flat_map in Ht as (m & Hm & Ht). apply Ch in Hm. apply in_map_iff in Ht as (t' & Et & Ht'). injection Et as <- <-. exists m. split; [assumption|]. split; [|reflexivity]. apply T; [now apply Der|assumption].
    + intros m t Hm Ht. apply (H2 t (value_of c m)). apply in_flat_map. exists m. split; [now apply Ch|]. apply in_map_iff. exists t. split; [reflexivity|]. apply T; [now apply Der|assumption].
Qed.
