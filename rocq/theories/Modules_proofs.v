(** Proofs about several modules with one path helper. *)
From Coq Require Import Lia.
From Verif Require Import PyStr PyStr_facts PyVal PathHelper Spec_Path PathText_proofs PathHelper_proofs PathSim_proofs RegTree Spec_RegTree RegTree_proofs Modules Spec_Modules.

Import ListNotations.

Lemma in_top (mods : list (list rschema)) m cs s : nth_error mods m = Some cs -> In s cs -> In s (concat mods).
Proof. intros Hn Hs. apply in_concat. exists cs. split; [now apply nth_error_In in Hn|exact Hs]. Qed.
Lemma nodup_right {A} (l l' : list A) : NoDup (l ++ l') -> NoDup l'.
Proof. induction l as [|a l IH]; intros H; [exact H|]. inversion H; subst. now apply IH. Qed.
Lemma nodup_left {A} (l l' : list A) : NoDup (l ++ l') -> NoDup l.
Proof. induction l as [|a l IH]; intros H; [constructor|]. inversion H as [|? ? Hn Hd]; subst. constructor; [|now apply IH]. intros Hi. apply Hn, in_or_app. now left. Qed.
Lemma apart (mods : list (list rschema)) : NoDup (map r_name (concat mods)) -> forall m m' cs cs' s s', nth_error mods m = Some cs -> nth_error mods m' = Some cs' -> m <> m' -> In s cs -> In s' cs' -> r_name s <> r_name s'.
Proof.
  induction mods as [|c mods IH]; intros Hd m m' cs cs' s s' H H' Hne Hs Hs'; [destruct m; discriminate|]. cbn [concat] in Hd. rewrite map_app in Hd.
  assert (Hx : forall a b k ck, In a c -> nth_error mods k = Some ck -> In b ck -> r_name a <> r_name b).
  { intros a b k ck Ha Hk Hb E. apply (in_map r_name) in Ha. rewrite E in Ha. assert (Hb2 : In (r_name b) (map r_name (concat mods))) by (apply in_map, in_concat; exists ck; split; [now apply nth_error_In in Hk|exact Hb]).
    clear - Hd Ha Hb2. revert Hd Ha. induction (map r_name c) as [|x l IHl]; intros Hd Ha; [destruct Ha|]. cbn in Hd. inversion Hd as [|? ? Hn Hd']; subst. destruct Ha as [->|Ha]; [|now apply IHl]. apply Hn, in_or_app. now right. }
  destruct m as [|m], m' as [|m']; cbn in H, H'; [congruence| | |].
  - injection H as <-. now apply (Hx s s' m' cs').
  - injection H' as <-. intros E. now apply (Hx s' s m cs).
  - apply (IH (nodup_right _ _ Hd) m m' cs cs'); try assumption. congruence.
Qed.
Lemma part_nodup (mods : list (list rschema)) m cs : NoDup (map r_name (concat mods)) -> nth_error mods m = Some cs -> NoDup (map r_name cs).
Proof.
  revert m. induction mods as [|c mods IH]; intros m Hd H; [destruct m; discriminate|]. cbn [concat] in Hd. rewrite map_app in Hd. destruct m as [|m]; cbn in H; [injection H as <-; now apply nodup_left in Hd|]. apply (IH m); [now apply nodup_right in Hd|exact H].
Qed.
Section Found.
Context (uid : nat -> str) (Huid : fresh uid) (mods : list (list rschema)) (Hm : modules_ok mods).
Let top := concat mods.
Lemma ctx_part m cs : nth_error mods m = Some cs -> ctx top [] [] cs.
Proof.
  intros H. destruct Hm as [Hd _]. split; [constructor|]. split; [constructor|]. split; [exact I|]. intros n t Hn. cbn [map app]. apply in_map_iff in Hn. destruct Hn as (s & <- & Hs). unfold top.
  cbn [keys_of]. rewrite (named_in cs s) by (try exact Hs; now apply (part_nodup mods m)). rewrite (named_in (concat mods) s) by (try exact Hd; now apply (in_top mods m cs)). reflexivity.
Qed.
Definition held (w : world) (ts : list (option (list robj))) : Prop :=
  length ts = length mods /\ exists M, winv uid top w M /\ forall m cs kids, nth_error mods m = Some cs -> nth_error ts m = Some (Some kids) -> Forall2 fits cs kids /\ tree_inv false [] cs kids M.
Lemma held_other w ts (M M' : objects (A := pobj)) m cs : nth_error mods m = Some cs -> (forall q, (forall s d r, In s cs -> q <> [] ++ (r_name s, d) :: r) -> M' q = M q) ->
  (forall m' cs' kids', nth_error mods m' = Some cs' -> nth_error ts m' = Some (Some kids') -> Forall2 fits cs' kids' /\ tree_inv false [] cs' kids' M) ->
  winv uid top w M' -> length ts = length mods -> forall kids, Forall2 fits cs kids -> tree_inv false [] cs kids M' -> held w (set_nth m (Some kids) ts).
Proof.
  intros Hn F HT I Hl kids Hf HK. split; [now rewrite set_nth_length|]. exists M'. split; [exact I|]. intros m' cs' kids' Hn' Ht'. destruct (Nat.eq_dec m m') as [<-|Hne].
  - rewrite set_nth_same in Ht' by (rewrite Hl; apply nth_error_Some; congruence). injection Ht' as <-. assert (cs' = cs) by congruence. subst. now split.
  - rewrite set_nth_other in Ht' by congruence. destruct (HT m' cs' kids' Hn' Ht') as [Hf' [T1 _]]. split; [exact Hf'|]. split; [|discriminate]. intros r o Hin Hll. destruct (T1 r o Hin Hll) as (o' & E & Ha). exists o'. split; [|exact Ha].
    rewrite <- E. apply F. intros s d r' Hs Er. cbn [app] in Er. apply in_tree_head in Hin. destruct Hin as (s' & d' & r2 & Hs' & ->). injection Er as Er _ _. symmetry in Er. revert Er. destruct Hm as [Hd _]. now apply (apart mods Hd m m' cs cs').
Qed.
Lemma held_happen e w ts : fine_event mods e -> held w ts -> held (fst (happen uid mods e (w, ts))) (snd (happen uid mods e (w, ts))).
Proof.
  intros He (Hl & M & I & HT). pose proof Hm as [Hd Hok]. destruct e as [m|m p o]; cbn [happen].
  - destruct (nth_error mods m) as [cs|] eqn:En; [|split; [exact Hl|now exists M]]. pose proof (part_nodup mods m cs Hd En) as Hdc. assert (Hs : forall s, In s cs -> schema_ok s) by (intros s; apply Hok; now apply nth_error_In in En).
    destruct (mapA_build uid top cs [] [] (fun s _ => build_all uid Huid top s) (ctx_part m cs En) Hdc Hs cs w M (incl_refl cs) Hdc I (or_introl eq_refl)) as (w' & kids & M' & E & I' & S).
    match goal with |- context [mapA ?f ?l w] => change (mapA f l w = (w', Ok kids)) in E end. rewrite E. cbn [fst snd]. destruct S as (A1 & A2 & A3 & A4 & A5).
    apply (held_other w' ts M M' m cs En A2 HT I' Hl kids A1). split; [|discriminate]. intros r ob Hin Hll. apply A4; [exact Hin|]. intros Hb. discriminate (Hll Hb).
  - destruct (nth_error mods m) as [cs|] eqn:En; [|split; [exact Hl|now exists M]]. destruct (nth_error ts m) as [[kids|]|] eqn:Et; [|split; [exact Hl|now exists M]..]. pose proof (part_nodup mods m cs Hd En) as Hdc. assert (Hs : forall s, In s cs -> schema_ok s) by (intros s; apply Hok; now apply nth_error_In in En).
    destruct (HT m cs kids En Et) as [Hf HK].
    pose proof (exec_ok uid Huid top false o (length p) p (le_n _) [] [] cs kids w M (ctx_part m cs En) Hdc Hs Hf I (or_introl eq_refl) HK (op_fine_at false cs p o (He cs En))) as HS. destruct (exec uid [] cs kids p o w) as [[w' kids'] r]. destruct HS as (M' & I' & F' & Hf' & HT'). cbn [fst snd].
    now apply (held_other w' ts M M' m cs).
Qed.
Lemma held_all es : Forall (fine_event mods) es -> held (fst (happen_all uid mods es)) (snd (happen_all uid mods es)).
Proof.
  intros He. unfold happen_all. assert (H0 : held world_new (map (fun _ => None) mods)).
  { split; [now rewrite map_length|]. exists (fun _ => None). split; [exact (inv_new uid _)|]. intros m cs kids _ H. exfalso. clear - H. revert m H. induction mods as [|c l IH]; intros m H; destruct m as [|m]; cbn in H; try discriminate. exact (IH m H). }
  revert H0. generalize world_new, (map (fun _ : list rschema => @None (list robj)) mods). induction He as [|e es He1 _ IH]; intros w ts H; [exact H|]. cbn [fold_left]. pose proof (held_happen e w ts He1 H) as H1. destruct (happen uid mods e (w, ts)) as [w1 ts1]. now apply IH.
Qed.
Theorem modules_found es : Forall (fine_event mods) es -> forall m cs kids, nth_error mods m = Some cs -> nth_error (snd (happen_all uid mods es)) m = Some (Some kids) ->
  forall q o, in_tree cs kids q o -> is_leaf_list o = false -> forall path q', same_place q q' -> Forall2 spells path q' ->
  exists o', get [] path (w_help (fst (happen_all uid mods es))) = Ok [Some o'] /\ agrees o' o.
Proof.
  intros He m cs kids Hn Ht q o Hin Hl path q' Hsame Hsp. destruct (held_all es He) as (_ & M & I & HT). destruct (HT m cs kids Hn Ht) as [Hf [T1 _]]. pose proof Hm as [Hd Hok].
  destruct (in_place top cs kids q o Hin [] [] (ctx_part m cs Hn) (part_nodup mods m cs Hd Hn) (fun s => Hok cs s (nth_error_In _ _ Hn)) Hf) as (_ & _ & Hp). cbn [app] in Hp.
  destruct (T1 q o Hin ltac:(congruence)) as (o' & E & Ha). cbn [app] in E. exists o'. split; [|exact Ha]. rewrite (get_sim uid _ _ M path q q' I Hp Hsame Hsp). match goal with |- Ok ?m = _ => change (M q = Some o') in E end. now rewrite E.
Qed.
(** A new object is blank. *)
Lemma members_cons id i l h : i <> id -> members id ((i, l) :: h) = members id h.
Proof. intros H. cbn [members]. destruct (Nat.eqb_spec i id); [contradiction|reflexivity]. Qed.
Definition grows (w w' : world) : Prop := (w_next w <= w_next w')%nat /\ forall id, (id < w_next w)%nat -> members id (w_heap w') = members id (w_heap w).
Definition blank_from (w w' : world) (s : rschema) (x : robj) : Prop := forall h, (forall id, (w_next w <= id < w_next w')%nat -> members id h = members id (w_heap w')) -> blank h s x.
Lemma grows_trans w1 w2 w3 : grows w1 w2 -> grows w2 w3 -> grows w1 w3.
Proof. intros [A B] [C D]. split; [lia|]. intros id Hi. rewrite D by lia. now apply B. Qed.
Lemma reg_grows path o w : (w_next (fst (reg uid path o w)) = w_next w) /\ w_heap (fst (reg uid path o w)) = w_heap w.
Proof. unfold reg. destruct (register (same_ref (w_heap w)) uid path o (w_help w)) as [h r]. now split. Qed.
Lemma mapA_cons {A B} (f : A -> act B) a l w : mapA f (a :: l) w = andthen (f a) (fun b => andthen (mapA f l) (fun bs => ret (b :: bs))) w.
Proof. reflexivity. Qed.
Lemma build_cont path n cs w : build uid path (RCont n cs) w = andthen new_id (fun id => andthen (reg uid (path ++ [n]) (PNode id)) (fun _ => andthen (mapA (build uid (path ++ [n])) cs) (fun kids => ret (TCont id kids)))) w.
Proof. reflexivity. Qed.
Lemma build_blank s : forall path w w' x, build uid path s w = (w', Ok x) -> grows w w' /\ blank_from w w' s x.
Proof.
  induction s as [n v0|n|n cs IH|n keys cs IH] using rschema_ind'; intros path w w' x.
  - cbn [build]. unfold andthen. destruct (reg_grows (path ++ [n]) (PLeaf v0) w) as [A B]. destruct (reg uid (path ++ [n]) (PLeaf v0) w) as [w1 [u|e]]; [|discriminate]. cbn [fst] in A, B. intros E. injection E as <- <-. split; [|intros h _; constructor]. split; [lia|]. intros id _. now rewrite B.
  - cbn [build]. unfold andthen, new_id, set_members. set (w1 := {| w_help := _; w_next := _; w_heap := _; w_root := _; w_gets := _ |}). destruct (reg_grows (path ++ [n]) (PLeafList (w_next w)) w1) as [A B].
    cbn [w_help w_next w_heap w_root w_gets] in *. match goal with |- context [reg uid ?p ?o ?ww] => change ww with w1; destruct (reg uid p o w1) as [w2 [u|e]] end; [|discriminate]. cbn [fst] in A, B. intros E. injection E as <- <-. unfold w1 in A, B. cbn [w_next w_heap] in A, B. split.
    + split; [lia|]. intros id Hi. rewrite B. apply members_cons. lia.
    + intros h Hh. constructor. rewrite Hh by lia. rewrite B. cbn [members]. now rewrite Nat.eqb_refl.
  - rewrite build_cont. unfold andthen at 1. unfold new_id. set (w1 := {| w_help := _; w_next := _; w_heap := _; w_root := _; w_gets := _ |}). unfold andthen at 1. destruct (reg_grows (path ++ [n]) (PNode (w_next w)) w1) as [A B].
    destruct (reg uid (path ++ [n]) (PNode (w_next w)) w1) as [w2 [u|e]]; [|discriminate]. cbn [fst] in A, B. unfold w1 in A, B. cbn [w_next w_heap] in A, B. unfold andthen.
    assert (Hk : forall l, incl l cs -> forall wa wb ks, mapA (build uid (path ++ [n])) l wa = (wb, Ok ks) -> grows wa wb /\ forall h, (forall id, (w_next wa <= id < w_next wb)%nat -> members id h = members id (w_heap wb)) -> Forall2 (blank h) l ks).
    { induction l as [|s l IHl]; intros Hi wa wb ks; [intros E; injection E as <- <-; split; [split; [lia|reflexivity]|constructor]|]. rewrite mapA_cons. unfold andthen. destruct (build uid (path ++ [n]) s wa) as [wc [y|e]] eqn:E1; [|discriminate].
      destruct (mapA (build uid (path ++ [n])) l wc) as [wd [ys|e]] eqn:E2; [|discriminate]. unfold ret. intros E. injection E as <- <-.
      destruct (IH s (Hi s (or_introl eq_refl)) _ _ _ _ E1) as [G1 B1]. destruct (IHl (fun a Ha => Hi a (or_intror Ha)) wc wd ys E2) as [G2 B2]. split; [now apply (grows_trans wa wc wd)|]. intros h Hh. destruct G1 as [G1 G1']. destruct G2 as [G2 G2']. constructor.
      - apply B1. intros id Hid. rewrite Hh by lia. apply G2'. lia.
      - apply B2. intros id Hid. apply Hh. lia. }
    destruct (mapA (build uid (path ++ [n])) cs w2) as [w3 [ks|e]] eqn:E3; [|discriminate]. unfold ret. intros E. injection E as <- <-. destruct (Hk cs (incl_refl cs) w2 w3 ks E3) as [[G G'] Bk]. split.
    + split; [lia|]. intros id Hi. rewrite G' by lia. now rewrite B.
    + intros h Hh. constructor. apply Bk. intros id Hid. apply Hh. lia.
  - cbn [build]. intros E. injection E as <- <-. split; [split; [lia|reflexivity]|intros h _; constructor].
Qed.
Lemma build_blank_all path cs : forall w w' ks, mapA (build uid path) cs w = (w', Ok ks) -> grows w w' /\ forall h, (forall id, (w_next w <= id < w_next w')%nat -> members id h = members id (w_heap w')) -> Forall2 (blank h) cs ks.
Proof.
  induction cs as [|s l IHl]; intros wa wb ks; [intros E; injection E as <- <-; split; [split; [lia|reflexivity]|constructor]|]. rewrite mapA_cons. unfold andthen. destruct (build uid path s wa) as [wc [y|e]] eqn:E1; [|discriminate].
  destruct (mapA (build uid path) l wc) as [wd [ys|e]] eqn:E2; [|discriminate]. unfold ret. intros E. injection E as <- <-.
  destruct (build_blank s _ _ _ _ E1) as [G1 B1]. destruct (IHl wc wd ys E2) as [G2 B2]. split; [now apply (grows_trans wa wc wd)|]. intros h Hh. destruct G1 as [G1 G1']. destruct G2 as [G2 G2']. constructor.
  - apply B1. intros id Hid. rewrite Hh by lia. apply G2'. lia.
  - apply B2. intros id Hid. apply Hh. lia.
Qed.
Theorem module_again es m cs : Forall (fine_event mods) es -> nth_error mods m = Some cs ->
  exists kids, nth_error (snd (happen_all uid mods (es ++ [New m]))) m = Some (Some kids) /\ Forall2 (blank (w_heap (fst (happen_all uid mods (es ++ [New m]))))) cs kids.
Proof.
  intros He En. pose proof (held_all es He) as H. unfold happen_all in *. rewrite fold_left_app. cbn [fold_left]. destruct (fold_left _ es _) as [w ts]. cbn [fst snd] in H. destruct H as (Hl & M & I & HT). cbn [happen]. rewrite En. pose proof Hm as [Hd Hok]. pose proof (part_nodup mods m cs Hd En) as Hdc. assert (Hs : forall s, In s cs -> schema_ok s) by (intros s; apply Hok; now apply nth_error_In in En).
  destruct (mapA_build uid top cs [] [] (fun s _ => build_all uid Huid top s) (ctx_part m cs En) Hdc Hs cs w M (incl_refl cs) Hdc I (or_introl eq_refl)) as (w' & kids & M' & E & _ & _).
  pose proof (proj2 (build_blank_all [] cs w w' kids E)) as B. match goal with |- context [mapA ?f ?l w] => change (mapA f l w = (w', Ok kids)) in E end. rewrite E. cbn [fst snd]. exists kids. split; [apply set_nth_same; rewrite Hl; apply nth_error_Some; congruence|]. apply B. reflexivity.
Qed.
End Found.
