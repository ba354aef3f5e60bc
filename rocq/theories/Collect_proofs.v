(** Proofs about the definitions that are found. *)
From Verif Require Import PyStr PyStr_facts PyVal PathHelper PathSim_proofs Identity Collect Spec_Collect.
From Coq Require Import Lia.
Import ListNotations.

Section P.
Context {D : Type}.

Lemma stm_ind' (P : stm D -> Prop) : (forall kw n d, P (Defn kw n d)) -> (forall kw b l, Forall P l -> P (Block kw b l)) -> forall s, P s.
Proof.
  intros H1 H2. fix F 1. intros [kw n d|kw b l]; [apply H1|]. apply H2. induction l as [|x l IH]; constructor; [apply F|exact IH].
Qed.

(** The same with a list of substatements. *)
Definition into (kw prefix pt : str) (ds : list (str * D)) (ch : stm D) : list (str * D) :=
  match ch with Block kw' true _ => if str_eqb kw' pt then find_child kw prefix ch ds else ds | _ => ds end.
Lemma find_block kw prefix k b subs defs : find_child kw prefix (Block k b subs) defs =
  fold_left (fun ds pt => fold_left (into kw prefix pt) subs ds) possible_parents (fold_left (own_def kw prefix) subs defs).
Proof.
  cbn [find_child]. generalize (fold_left (own_def kw prefix) subs defs). generalize possible_parents. intros pts. induction pts as [|pt pts IH]; intros ds; [reflexivity|]. cbn [fold_left].
  rewrite IH. reflexivity.
Qed.
Lemma pkey_inj p n p' n' : ~ In 58%N p -> ~ In 58%N p' -> pkey p n = pkey p' n' -> p = p' /\ n = n'.
Proof.
  unfold pkey. cbn [lit app]. revert p'. induction p as [|a p IH]; intros [|b p'] Np Np' E.
  - injection E as <-. split; reflexivity.
  - injection E as <- _. destruct Np'. left. reflexivity.
  - injection E as -> _. destruct Np. left. reflexivity.
  - injection E as <- E. destruct (IH p' (fun h => Np (or_intror h)) (fun h => Np' (or_intror h)) E) as [<- <-]. split; reflexivity.
Qed.

Lemma fold_inv {A B} (f : B -> A -> B) (P : B -> Prop) l : (forall b a, In a l -> P b -> P (f b a)) -> forall b, P b -> P (fold_left f l b).
Proof. induction l as [|a l IH]; intros H b Hb; [exact Hb|]. apply IH; [intros b' a' Ha; apply H; right; exact Ha|]. apply H; [left; reflexivity|exact Hb]. Qed.
Lemma fold_reach {A B} (f : B -> A -> B) (I P : B -> Prop) l a0 : In a0 l -> (forall b a, In a l -> I b -> I (f b a)) -> (forall b a, In a l -> P b -> P (f b a)) ->
  (forall b, I b -> P (f b a0)) -> forall b, I b -> P (fold_left f l b).
Proof.
  intros Hin. induction l as [|a l IH]; [destruct Hin|]. intros HI HP H0 b Hb. cbn [fold_left]. destruct Hin as [->|Hin].
  - apply fold_inv; [intros b' a' Ha; apply HP; right; exact Ha|]. apply H0, Hb.
  - apply IH; [exact Hin|intros b' a' Ha; apply HI; right; exact Ha|intros b' a' Ha; apply HP; right; exact Ha|exact H0|]. apply HI; [left; reflexivity|exact Hb].
Qed.
Lemma has_look {A} k (d : list (str * A)) : has k d = true <-> look k d <> None.
Proof. unfold has. destruct (look k d); split; congruence. Qed.

(* ------------------------------------------------------------------ one module *)
Definition from (kw p : str) (l : list (stm D)) (k : str) (d : D) : Prop := exists n, k = pkey p n /\ defines kw l n d.
Lemma scopes_parents kw : In kw scopes <-> In kw possible_parents.
Proof. cbn [scopes possible_parents map In]. tauto. Qed.
Lemma find_sound kw p s : forall defs k d, look k (find_child kw p s defs) = Some d -> look k defs = Some d \/ match s with Block _ _ l => from kw p l k d | _ => False end.
Proof.
  induction s as [kw' n' d'|kw' b l IH] using stm_ind'; intros defs k d; [left; assumption|]. rewrite find_block. rewrite Forall_forall in IH.
  set (P := fun ds => look k ds = Some d -> look k defs = Some d \/ from kw p l k d). change (P (fold_left (fun ds pt => fold_left (into kw p pt) l ds) possible_parents (fold_left (own_def kw p) l defs))).
  apply fold_inv.
  - intros ds pt Hpt HP. apply fold_inv; [|exact HP]. intros ds' ch Hch HP' Hl. destruct ch as [|kc [|] lc]; cbn [into] in Hl; [apply HP', Hl| |apply HP', Hl].
    destruct (str_eqb kc pt) eqn:E; [|apply HP', Hl]. apply str_eqb_eq in E as ->. destruct (IH _ Hch _ _ _ Hl) as [H|(n & Ek & H)]; [apply HP', H|]. right. exists n. split; [exact Ek|].
    apply (def_inside kw l pt lc n d Hch); [apply scopes_parents, Hpt|exact H].
  - apply fold_inv; [|intros H; left; exact H]. intros ds ch Hch HP Hl. destruct ch as [kc n' d'|]; cbn [own_def] in Hl; [|apply HP, Hl]. destruct (str_eqb kc kw) eqn:E; [|apply HP, Hl].
    apply str_eqb_eq in E as ->. destruct (has n' ds); [apply HP, Hl|]. rewrite look_set in Hl. destruct (str_eqb k (pkey p n')) eqn:E; [|apply HP, Hl]. injection Hl as ->. apply str_eqb_eq in E. right. exists n'. split; [exact E|].
    apply def_here, Hch.
Qed.
Definition colons (ds : list (str * D)) : Prop := forall k, look k ds <> None -> In 58%N k.
Lemma pkey_colon p n : In 58%N (pkey p n).
Proof. unfold pkey. apply in_or_app. right. left. reflexivity. Qed.
Lemma own_colons kw p ds s : colons ds -> colons (own_def kw p ds s).
Proof.
  intros C. destruct s as [kc n d|]; [|exact C]. cbn [own_def]. destruct (str_eqb kc kw); [|exact C]. destruct (has n ds); [exact C|]. intros k. rewrite look_set. destruct (str_eqb k (pkey p n)) eqn:E; [|apply C].
  apply str_eqb_eq in E as ->. intros _. apply pkey_colon.
Qed.
Lemma find_colons kw p s : forall defs, colons defs -> colons (find_child kw p s defs).
Proof.
  induction s as [kw' n' d'|kw' b l IH] using stm_ind'; intros defs C; [exact C|]. rewrite find_block. rewrite Forall_forall in IH. apply fold_inv.
  - intros ds pt _ HP. apply fold_inv; [|exact HP]. intros ds' [|kc [|] lc] Hch HP'; cbn [into]; [exact HP'| |exact HP']. destruct (str_eqb kc pt); [apply (IH _ Hch), HP'|exact HP'].
  - apply fold_inv; [|exact C]. intros ds ch _. apply own_colons.
Qed.
Lemma find_keeps kw p s k : forall defs : list (str * D), look k defs <> None -> look k (find_child kw p s defs) <> None.
Proof.
  induction s as [kw' n' d'|kw' b l IH] using stm_ind'; intros defs C; [exact C|]. rewrite find_block. rewrite Forall_forall in IH.
  apply (fold_inv _ (fun ds : list (str * D) => look k ds <> None)).
  - intros ds pt _ HP. apply (fold_inv _ (fun ds : list (str * D) => look k ds <> None)); [|exact HP]. intros ds' [|kc [|] lc] Hch HP'; cbn [into]; [exact HP'| |exact HP']. destruct (str_eqb kc pt); [apply (IH _ Hch), HP'|exact HP'].
  - apply (fold_inv _ (fun ds : list (str * D) => look k ds <> None)); [|exact C]. intros ds [kc n d|] _ HP; [|exact HP]. cbn [own_def]. destruct (str_eqb kc kw); [|exact HP]. destruct (has n ds); [exact HP|]. rewrite look_set. destruct (str_eqb k _); [discriminate|exact HP].
Qed.
Lemma find_complete kw p l n d : defines kw l n d -> ~ In 58%N n -> forall k b defs, colons defs -> look (pkey p n) (find_child kw p (Block k b l) defs) <> None.
Proof.
  intros H Nn. induction H as [l n d Hin|l kc lc n d Hin Hs H IH]; intros k b defs C; rewrite find_block; set (P := fun ds : list (str * D) => look (pkey p n) ds <> None).
  - apply (fold_inv _ P).
    + intros ds pt _ HP. apply (fold_inv _ P); [|exact HP]. intros ds' [|k' [|] l'] _ HP'; cbn [into]; [exact HP'| |exact HP']. destruct (str_eqb k' pt); [apply find_keeps, HP'|exact HP'].
    + apply (fold_reach (own_def kw p) colons P l (Defn kw n d) Hin); [intros ds s _; apply own_colons| | |exact C].
      * intros ds [k' n' d'|] _ HP; [|exact HP]. cbn [own_def]. destruct (str_eqb k' kw); [|exact HP]. destruct (has n' ds); [exact HP|]. unfold P. rewrite look_set. destruct (str_eqb _ _); [discriminate|exact HP].
      * intros ds Cd. cbn [own_def]. rewrite str_eqb_refl. destruct (has n ds) eqn:E; [destruct Nn; apply Cd, has_look, E|]. unfold P. rewrite look_set, str_eqb_refl. discriminate.
  - assert (Ki : forall pt ds ch, P ds -> P (into kw p pt ds ch)).
    { intros pt ds [|k' [|] l'] HP; cbn [into]; [exact HP| |exact HP]. destruct (str_eqb k' pt); [apply find_keeps, HP|exact HP]. }
    assert (Kc : forall pt ds ch, colons ds -> colons (into kw p pt ds ch)).
    { intros pt ds [|k' [|] l'] HP; cbn [into]; [exact HP| |exact HP]. destruct (str_eqb k' pt); [apply find_colons, HP|exact HP]. }
    apply (fold_reach _ colons P possible_parents kc (proj1 (scopes_parents kc) Hs)).
    + intros ds pt _ HC. apply fold_inv; [|exact HC]. intros ds' ch _. apply Kc.
    + intros ds pt _ HC. apply (fold_inv _ P); [|exact HC]. intros ds' ch _. apply Ki.
    + intros ds HC. apply (fold_reach _ colons P l (Block kc true lc) Hin); [intros ds' ch _; apply Kc|intros ds' ch _; apply Ki| |exact HC].
      intros ds' HC'. cbn [into]. rewrite str_eqb_refl. apply (IH Nn), HC'.
    + apply fold_inv; [intros ds s _; apply own_colons|exact C].
Qed.

(* ------------------------------------------------------------------ all modules *)
Lemma keep_look k : forall (new ds : list (str * D)), look k (keep_first ds new) = match look k ds with Some d => Some d | None => look k new end.
Proof.
  induction new as [|[k' d'] new IH]; intros ds; [cbn; destruct (look k ds); reflexivity|]. unfold keep_first in *. cbn [fold_left fst snd]. rewrite IH. cbn [look]. destruct (has k' ds) eqn:E.
  - destruct (look k ds) eqn:Ek; [reflexivity|]. destruct (str_eqb k k') eqn:Ekk; [|reflexivity]. apply str_eqb_eq in Ekk as ->. apply has_look in E. congruence.
  - rewrite look_set. destruct (str_eqb k k') eqn:Ekk; [|reflexivity]. apply str_eqb_eq in Ekk as ->. unfold has in E. destruct (look k' ds); [discriminate|reflexivity].
Qed.
Lemma defs_sound kw (all : list (str * ymod D)) : forall k d, look k (definitions kw all) = Some d -> exists p m, In (p, m) all /\ look k (find_definitions kw p m) = Some d.
Proof.
  intros k d. unfold definitions. apply (fold_inv _ (fun ds : list (str * D) => look k ds = Some d -> exists p m, In (p, m) all /\ look k (find_definitions kw p m) = Some d)); [|discriminate].
  intros ds [p m] Hin IH. cbn [fst snd]. rewrite keep_look. destruct (look k ds) as [d0|]; [intros E; injection E as ->; apply IH; reflexivity|]. intros E. exists p, m. split; assumption.
Qed.
Lemma defs_complete kw (all : list (str * ymod D)) p m k : In (p, m) all -> look k (find_definitions kw p m) <> None -> look k (definitions kw all) <> None.
Proof.
  intros Hin H. unfold definitions. apply (fold_reach _ (fun _ => True) (fun ds : list (str * D) => look k ds <> None) all (p, m) Hin); [auto| | |exact I].
  - intros ds [p' m'] _ HP. cbn [fst snd]. rewrite keep_look. destruct (look k ds); [discriminate|destruct HP; reflexivity].
  - intros ds _. cbn [fst snd]. rewrite keep_look. destruct (look k ds); [discriminate|exact H].
Qed.
Lemma dedup_sub l : forall x : str * ymod D, In x (dedup l) -> In x l.
Proof.
  intros x. unfold dedup. apply (fold_inv _ (fun acc => In x acc -> In x l)); [|intros []]. intros acc m Hm IH. destruct (existsb (same_mod m) acc); [exact IH|]. intros H. apply in_app_or in H as [H|[<-|[]]]; [apply IH, H|exact Hm].
Qed.
Lemma dedup_all l : forall x : str * ymod D, In x l -> exists y, In y (dedup l) /\ same_mod x y = true.
Proof.
  intros x Hin. unfold dedup. apply (fold_reach _ (fun _ => True) (fun acc => exists y, In y acc /\ same_mod x y = true) l x Hin); [auto| | |exact I].
  - intros acc m _ (y & Hy & Hs). exists y. split; [|exact Hs]. destruct (existsb (same_mod m) acc); [exact Hy|apply in_or_app; left; exact Hy].
  - intros acc _. destruct (existsb (same_mod x) acc) eqn:E; [apply existsb_exists in E; exact E|]. exists x. split; [apply in_or_app; right; left; reflexivity|]. unfold same_mod. rewrite !str_eqb_refl. reflexivity.
Qed.

Context (c : str -> option (ymod D)).
Lemma in_modules names (m : ymod D) : In m (modules_of c names) <-> exists n, In n names /\ c n = Some m.
Proof.
  unfold modules_of. rewrite in_flat_map. split; intros (n & Hn & H); exists n; (split; [exact Hn|]).
  - destruct (c n); [destruct H as [<-|[]]; reflexivity|destruct H].
  - rewrite H. left. reflexivity.
Qed.
Lemma in_imported l p (m : ymod D) : In (p, m) (imported c l) <-> exists n, In (n, p) l /\ c n = Some m.
Proof.
  unfold imported. rewrite in_flat_map. split.
  - intros ([n p'] & Hn & H). cbn [fst snd] in H. exists n. destruct (c n) eqn:E; [destruct H as [H|[]]; injection H as <- <-; split; [exact Hn|reflexivity]|destruct H].
  - intros (n & Hn & H). exists (n, p). split; [exact Hn|]. cbn [fst snd]. rewrite H. left. reflexivity.
Qed.
Definition imps (m : ymod D) := imported c (mo_imports m ++ flat_map mo_imports (modules_of c (mo_includes m))).
Lemma in_imps m p m' : In (p, m') (imps m) <-> imports c m p m'.
Proof.
  unfold imps. rewrite in_imported. split; intros (n & H & H').
  - exists n. split; [exact H'|]. apply in_app_or in H as [H|H]; [left; exact H|right]. apply in_flat_map in H as (sub & Hs & H). exists sub. split; [apply in_modules, Hs|exact H].
  - exists n. split; [|exact H]. apply in_or_app. destruct H' as [H'|(sub & Hs & H')]; [left; exact H'|right]. apply in_flat_map. exists sub. split; [apply in_modules, Hs|exact H'].
Qed.
Lemma prefix_own (m : ymod D) p : local_prefix m = Ok p <-> own_prefix m p.
Proof.
  unfold local_prefix, own_prefix. destruct (mo_prefix m) as [q|]; [|destruct (mo_belongs m) as [q|]]; split; intros H.
  - injection H as ->. left. reflexivity.
  - destruct H as [H|[H _]]; [injection H as ->; reflexivity|discriminate].
  - injection H as ->. right. split; reflexivity.
  - destruct H as [H|[_ H]]; [discriminate|injection H as ->; reflexivity].
  - discriminate.
  - destruct H as [H|[_ H]]; discriminate.
Qed.
Lemma gather_step fuel m q acc : gather c (S fuel) (m :: q) acc =
  (p <- local_prefix m ;; gather c fuel (q ++ map snd (imps m)) (acc ++ (p, m) :: map (pair p) (modules_of c (mo_includes m)) ++ imps m)).
Proof. reflexivity. Qed.

Lemma needed_mono (ms ms' : list (ymod D)) (m : ymod D) : (forall x, In x ms -> needed c ms' x) -> needed c ms m -> needed c ms' m.
Proof. intros H. induction 1 as [m Hm|m p m' _ IH Hi]; [apply H, Hm|apply (needed_import c ms' m p m' IH Hi)]. Qed.
Lemma needed_step m q x : needed c (m :: q) x <-> x = m \/ needed c (q ++ map snd (imps m)) x.
Proof.
  split.
  - induction 1 as [x [<-|Hx]|x p x' _ IH Hi]; [left; reflexivity|right; apply needed_given, in_or_app; left; exact Hx|]. right. destruct IH as [->|IH].
    + apply needed_given, in_or_app. right. apply in_map_iff. exists (p, x'). split; [reflexivity|apply in_imps, Hi].
    + apply (needed_import c _ x p x' IH Hi).
  - intros [->|H]; [apply needed_given; left; reflexivity|]. revert H. apply needed_mono. intros y Hy. apply in_app_or in Hy as [Hy|Hy]; [apply needed_given; right; exact Hy|].
    apply in_map_iff in Hy as ([p y'] & <- & Hy). apply in_imps in Hy. apply (needed_import c _ m p y'); [apply needed_given; left; reflexivity|exact Hy].
Qed.
Definition brings (m : ymod D) (p : str) (x : ymod D) : Prop := (own_prefix m p /\ (x = m \/ includes c m x)) \/ imports c m p x.
Lemma under_brings ms p x : under c ms p x <-> exists m, needed c ms m /\ brings m p x.
Proof.
  split.
  - intros [m p' Hn Ho|m p' sub Hn Ho Hi|m p' m' Hn Hi]; exists m; (split; [exact Hn|]); [left|left|right; exact Hi]; (split; [exact Ho|]); [left; reflexivity|right; exact Hi].
  - intros (m & Hn & [[Ho [->|Hi]]|Hi]); [apply under_own; assumption|apply (under_sub c ms m); assumption|apply (under_import c ms m); assumption].
Qed.
Lemma gather_spec : forall fuel q acc all, gather c fuel q acc = Ok all -> forall p x, In (p, x) all <-> In (p, x) acc \/ under c q p x.
Proof.
  induction fuel as [|fuel IH]; intros [|m q] acc all H p x.
  - injection H as <-. split; [intros K; left; exact K|]. intros [K|K]; [exact K|]. exfalso. apply under_brings in K as (m & Hn & _). induction Hn as [m []|]; assumption.
  - discriminate.
  - injection H as <-. split; [intros K; left; exact K|]. intros [K|K]; [exact K|]. exfalso. apply under_brings in K as (m & Hn & _). induction Hn as [m []|]; assumption.
  - rewrite gather_step in H. destruct (local_prefix m) as [pm|] eqn:Ep; [|discriminate]. cbn [bind] in H. rewrite (IH _ _ _ H p x). clear IH H. apply prefix_own in Ep.
    assert (U : forall p', own_prefix m p' -> p' = pm) by (intros p' H'; apply prefix_own in Ep; apply prefix_own in H'; congruence).
    assert (B : In (p, x) ((pm, m) :: map (pair pm) (modules_of c (mo_includes m)) ++ imps m) <-> brings m p x).
    { unfold brings. cbn [In]. rewrite in_app_iff, in_imps, in_map_iff. split.
      - intros [E|[(y & E & Hy)|Hi]]; [injection E as <- <-; left; split; [exact Ep|left; reflexivity]|injection E as <- <-; left; split; [exact Ep|right; apply in_modules, Hy]|right; exact Hi].
      - intros [[Ho [->|Hi]]|Hi]; [left; rewrite (U p Ho); reflexivity|right; left; exists x; rewrite (U p Ho); split; [reflexivity|apply in_modules, Hi]|right; right; exact Hi]. }
    rewrite in_app_iff, B. rewrite !under_brings. split.
    + intros [[Ha|Hb]|(y & Hn & Hb)]; [left; exact Ha|right; exists m; split; [apply needed_given; left; reflexivity|exact Hb]|right; exists y; split; [apply needed_step; right; exact Hn|exact Hb]].
    + intros [Ha|(y & Hn & Hb)]; [left; left; exact Ha|]. apply needed_step in Hn as [->|Hn]; [left; right; exact Hb|right; exists y; split; assumption].
Qed.
Lemma needed_name ms m : by_name c ms -> needed c ms m -> c (mo_name m) = Some m.
Proof. intros [B1 B2]. induction 1 as [m Hm|m p m' _ _ (n & Hc & _)]; [apply B1, Hm|]. rewrite (B2 _ _ Hc). exact Hc. Qed.
Lemma under_name ms p m : by_name c ms -> under c ms p m -> c (mo_name m) = Some m.
Proof.
  intros B [m' p' Hn _|m' p' sub _ _ (n & _ & Hc)|m' p' m'' _ (n & Hc & _)]; [apply (needed_name ms); assumption| |]; rewrite (proj2 B _ _ Hc); exact Hc.
Qed.

Theorem collect_only fuel ms kw defs k d : collect c fuel ms kw = Ok defs -> look k defs = Some d ->
  exists p m n, under c ms p m /\ defines kw (mo_body m) n d /\ k = p ++ lit ":" ++ n.
Proof.
  unfold collect. destruct (gather c fuel ms []) as [all|] eqn:G; [|discriminate]. cbn [bind]. intros E H. injection E as <-. apply defs_sound in H as (p & m & Hin & H). apply dedup_sub in Hin.
  apply (gather_spec fuel ms [] all G) in Hin as [[]|Hin]. unfold find_definitions in H. apply find_sound in H as [H|(n & -> & H)]; [discriminate|]. exists p, m, n. split; [exact Hin|]. split; [exact H|reflexivity].
Qed.
Theorem collect_found fuel ms kw defs p m n d : by_name c ms -> no_colons c ms kw -> collect c fuel ms kw = Ok defs -> under c ms p m -> defines kw (mo_body m) n d ->
  exists m' d', look (p ++ lit ":" ++ n) defs = Some d' /\ under c ms p m' /\ defines kw (mo_body m') n d'.
Proof.
  intros B N H U Df. assert (S : look (pkey p n) defs <> None).
  { unfold collect in H. destruct (gather c fuel ms []) as [all|] eqn:G; [|discriminate]. cbn [bind] in H. injection H as <-.
    assert (Hin : In (p, m) all) by (apply (gather_spec fuel ms [] all G); right; exact U). destruct (dedup_all all _ Hin) as ([p' m'] & Hin' & Es). unfold same_mod in Es. cbn [fst snd] in Es.
    apply andb_prop in Es as [E1 E2]. apply str_eqb_eq in E1 as <-. apply str_eqb_eq in E2.
    assert (m' = m) as ->. { pose proof (dedup_sub all _ Hin') as Hs. apply (gather_spec fuel ms [] all G) in Hs as [[]|Hs]. pose proof (under_name ms p m B U) as C1. pose proof (under_name ms p m' B Hs) as C2. rewrite <- E2 in C2. congruence. }
    apply (defs_complete kw (dedup all) p m _ Hin'). unfold find_definitions. destruct (N p m U) as [_ Nn]. apply (find_complete kw p (mo_body m) n d Df (Nn n d Df)). intros k' C. destruct C. reflexivity. }
  change (p ++ lit ":" ++ n) with (pkey p n). destruct (look (pkey p n) defs) as [d'|] eqn:L; [|destruct S; reflexivity]. destruct (collect_only fuel ms kw defs _ _ H L) as (p' & m' & n' & U' & D' & E).
  exists m', d'. split; [reflexivity|]. destruct (N p m U) as [Np _]. destruct (N p' m' U') as [Np' _].
  destruct (pkey_inj p n p' n' Np Np' E) as [<- <-]. split; assumption.
Qed.

(* ------------------------------------------------------------------ the end of the list *)
Definition total (ns : list nat) : nat := fold_right plus 0%nat ns.
Lemma total_app a b : total (a ++ b) = (total a + total b)%nat.
Proof. unfold total. rewrite fold_right_app. induction a as [|x a IH]; [reflexivity|]. cbn [fold_right]. rewrite IH. apply PeanoNat.Nat.add_assoc. Qed.
Inductive cost : ymod D -> nat -> Prop := cost_of m ns : Forall2 cost (map snd (imps m)) ns -> cost m (S (total ns)).
Lemma gather_ends : forall fuel q ns acc, Forall2 cost q ns -> (total ns <= fuel)%nat -> (forall m, needed c q m -> exists p, own_prefix m p) -> exists all, gather c fuel q acc = Ok all.
Proof.
  induction fuel as [|fuel IH]; intros q ns acc H L P; inversion H as [|m n q' ns' Hc H' E1 E2]; subst; try (eexists; reflexivity).
  - destruct Hc. cbn in L. lia.
  - destruct Hc as [m nm Hm]. destruct (P m) as (p & Hp); [apply needed_given; left; reflexivity|]. rewrite gather_step. apply prefix_own in Hp. rewrite Hp. cbn [bind].
    apply (IH _ (ns' ++ nm)); [apply Forall2_app; assumption| |].
    + rewrite total_app. assert (E : total (S (total nm) :: ns') = S (total nm + total ns')) by reflexivity. rewrite E in L. lia.
    + intros x Hx. apply P, needed_step. right. exact Hx.
Qed.
Lemma cost_exists (rank : ymod D -> nat) ms : ranked c rank ms -> forall k m, (rank m < k)%nat -> needed c ms m -> exists n, cost m n.
Proof.
  intros R. induction k as [|k IH]; intros m Hk Hn; [lia|].
  assert (G : exists ns, Forall2 cost (map snd (imps m)) ns).
  { assert (A : forall x, In x (map snd (imps m)) -> exists n, cost x n).
    { intros x Hx. apply in_map_iff in Hx as ([p y] & <- & Hy). apply in_imps in Hy. cbn [snd]. apply IH; [pose proof (R m p y Hn Hy); lia|apply (needed_import c ms m p y Hn Hy)]. }
    revert A. generalize (map snd (imps m)). intros l. induction l as [|x l IHl]; intros A; [exists []; constructor|]. destruct (A x (or_introl eq_refl)) as (n & Hx). destruct IHl as (ns & Hl); [intros y Hy; apply A; right; exact Hy|].
    exists (n :: ns). constructor; assumption. }
  destruct G as (ns & Hns). exists (S (total ns)). constructor. exact Hns.
Qed.
Theorem collect_ends rank ms kw : ranked c rank ms -> prefixed c ms -> exists fuel defs, collect c fuel ms kw = Ok defs.
Proof.
  intros R P. assert (G : exists ns, Forall2 cost ms ns).
  { assert (A : forall x, In x ms -> exists n, cost x n) by (intros x Hx; apply (cost_exists rank ms R (S (rank x))); [lia|apply needed_given, Hx]). revert A. generalize ms. intros l. clear R P.
    induction l as [|x l IHl]; intros A; [exists []; constructor|]. destruct (A x (or_introl eq_refl)) as (n & Hx). destruct IHl as (ns & Hl); [intros y Hy; apply A; right; exact Hy|]. exists (n :: ns). constructor; assumption. }
  destruct G as (ns & H). exists (total ns). unfold collect. destruct (gather_ends (total ns) ms ns [] H (le_n _) P) as (all & ->). eexists. reflexivity.
Qed.

Definition endless (x : ymod D) : Prop := exists y, (x = y \/ leads c x y) /\ leads c y y.
Lemma leads_left x p y z : imports c x p y -> leads c y z -> leads c x z.
Proof. intros H. induction 1 as [p' z Hi|p' z z' _ IH Hi]; [apply (leads_more c x p' y z); [apply (leads_one c x p y H)|exact Hi]|apply (leads_more c x p' z z' IH Hi)]. Qed.
Lemma leads_inv x y : leads c x y -> exists p z, imports c x p z /\ (z = y \/ leads c z y).
Proof.
  induction 1 as [p y Hi|p y y' _ (q & z & Hz & IH) Hi]; [exists p, y; split; [exact Hi|left; reflexivity]|]. exists q, z. split; [exact Hz|right]. destruct IH as [->|IH]; [apply (leads_one c y p y' Hi)|apply (leads_more c z p y y' IH Hi)].
Qed.
Lemma endless_step x : endless x -> exists p z, imports c x p z /\ endless z.
Proof.
  intros (y & [->|L] & Ly).
  - destruct (leads_inv y y Ly) as (p & z & Hi & H). exists p, z. split; [exact Hi|]. exists y. split; assumption.
  - destruct (leads_inv x y L) as (p & z & Hi & H). exists p, z. split; [exact Hi|]. exists y. split; assumption.
Qed.
Lemma gather_never : forall fuel q acc, (exists x, In x q /\ endless x) -> (forall m, needed c q m -> exists p, own_prefix m p) -> gather c fuel q acc = Raise OutOfFuel.
Proof.
  induction fuel as [|fuel IH]; intros [|m q] acc (x & Hx & E) P; try (destruct Hx; fail); [reflexivity|]. destruct (P m) as (p & Hp); [apply needed_given; left; reflexivity|]. rewrite gather_step. apply prefix_own in Hp. rewrite Hp. cbn [bind].
  apply IH; [|intros y Hy; apply P, needed_step; right; exact Hy]. destruct Hx as [->|Hx]; [|exists x; split; [apply in_or_app; left; exact Hx|exact E]].
  destruct (endless_step x E) as (p' & z & Hi & Ez). exists z. split; [|exact Ez]. apply in_or_app. right. apply in_map_iff. exists (p', z). split; [reflexivity|apply in_imps, Hi].
Qed.
Theorem collect_never ms m kw : needed c ms m -> leads c m m -> prefixed c ms -> forall fuel, collect c fuel ms kw = Raise OutOfFuel.
Proof.
  intros Hn L P fuel. unfold collect. rewrite gather_never; [reflexivity| |exact P].
  assert (G : forall y, needed c ms y -> endless y -> exists x, In x ms /\ endless x).
  { induction 1 as [y Hy|y p y' _ IH Hi]; intros E; [exists y; split; assumption|]. apply IH. destruct E as (z & Hz & Lz). exists z. split; [|exact Lz]. right. destruct Hz as [->|Hz]; [apply (leads_one c y p z Hi)|apply (leads_left y p y' z Hi Hz)]. }
  apply (G m Hn). exists m. split; [left; reflexivity|exact L].
Qed.
End P.
