(** Lemmas about generated files. *)
From Verif Require Import PyStr PyStr_facts PyVal Restricted SafeName Spec_Names Names_proofs Tree Compile Spec_Compile Compile_proofs Serialise Split Spec_Split File Spec_File.
From Coq Require Import Lia.
Import ListNotations.

(* ------------------------------------------------------------------ dictionaries *)
Lemma put_new {A} k (v : A) d : ~ In k (map fst d) -> put k v d = d ++ [(k, v)].
Proof.
  induction d as [|[n a] d IH]; intros H; [reflexivity|]. cbn [put map fst app] in *. destruct (str_eqb k n) eqn:E.
  - apply str_eqb_eq in E. subst n. exfalso. apply H. now left.
  - f_equal. apply IH. intros Hi. apply H. now right.
Qed.
Lemma attrs_plain l : NoDup (map member_py l) -> attrs l = map (fun x => (member_py x, x)) l.
Proof.
  intros H. unfold attrs.
  enough (G : forall d, (forall x, In x l -> ~ In (member_py x) (map fst d)) -> fold_left (fun d x => put (member_py x) x d) l d = d ++ map (fun x => (member_py x, x)) l).
  { apply (G []). intros x _ []. }
  induction l as [|x l IH]; intros d Hd; [now rewrite app_nil_r|]. inversion H as [|? ? Hx Hl]; subst. cbn [fold_left map].
  rewrite put_new by (apply Hd; now left). rewrite IH; auto.
  - now rewrite <- app_assoc.
  - intros y Hy. rewrite map_app, in_app_iff. cbn [map fst]. intros [Hi|[E|[]]]; [apply (Hd y); [now right|assumption]|].
    apply Hx. rewrite E. now apply in_map.
Qed.
Lemma find_coherent c f : (forall d, In d f -> k_name d = k_name c -> d = c) -> In c f -> find_class (k_name c) f = Some c.
Proof.
  intros Hc Hi. unfold find_class. destruct (find _ (rev f)) as [d|] eqn:E.
  - apply find_some in E as [E1 E2]. apply in_rev in E1. apply str_eqb_eq in E2. f_equal. now apply Hc.
  - apply in_rev in Hi. pose proof (find_none _ _ E _ Hi) as N. cbn beta in N. rewrite str_eqb_refl in N. discriminate.
Qed.
Lemma map_res_app {A B} (g : A -> res B) l m a b : map_res g l = Ok a -> map_res g m = Ok b -> map_res g (l ++ m) = Ok (a ++ b).
Proof.
  revert a. induction l as [|x l IH]; intros a Ha Hb; [cbn in Ha; now injection Ha as <-|].
  cbn [app] in *. unfold map_res in *. cbn in Ha |- *. fold (map_res g) in *. destruct (g x) as [y|]; [|discriminate]. cbn [bind] in *.
  destruct (map_res g l) as [a'|] eqn:E; [|discriminate]. cbn [bind] in Ha. injection Ha as <-. rewrite (IH _ eq_refl Hb). reflexivity.
Qed.
Lemma map_res_map {A B C} (h : A -> B) (g : B -> res C) l : map_res g (map h l) = map_res (fun x => g (h x)) l.
Proof. unfold map_res. induction l as [|x l IH]; [reflexivity|]. cbn. now rewrite IH. Qed.

Lemma map_res_one {A B} (g : A -> res B) x y : g x = Ok y -> map_res g [x] = Ok [y].
Proof. intros H. unfold map_res. rewrite H. reflexivity. Qed.

(* ------------------------------------------------------------------ the instance *)
Section F.
Context (f : list pyclass) (Hco : forall c d, In c f -> In d f -> k_name c = k_name d -> c = d).
Definition unfold1 (fuel : nat) (x : cmember) : res schema :=
  match x with MLeaf s => Ok s | MNode i k cls => cs <- instantiate fuel f cls ;; Ok (node i k cs) end.
Lemma instantiate_class fuel c : In c f -> NoDup (map member_py (k_members c)) -> instantiate (S fuel) f (k_name c) = map_res (unfold1 fuel) (k_members c).
Proof.
  intros Hi Hn. cbn [instantiate]. rewrite (find_coherent c f) by auto. rewrite attrs_plain by assumption. now rewrite map_res_map.
Qed.

Lemma member_names po cfg m path s : forall ch keys x, In x (members po cfg ch keys m path s) -> exists n, In n (level_names s) /\ member_py x = safe_name n.
Proof.
  induction s as [h lt d yt|h ts yt|h pr cs _|h k od cs _|n c cases IH] using ystmt_ind'; intros ch keys x H; cbn [members level_names] in *.
  - destruct H as [<-|[]]. exists (y_name h). split; [now left|reflexivity].
  - destruct H as [<-|[]]. exists (y_name h). split; [now left|reflexivity].
  - destruct (has_class _ _); [|contradiction]. destruct H as [<-|[]]. exists (y_name h). split; [now left|reflexivity].
  - destruct (has_class _ _); [|contradiction]. destruct H as [<-|[]]. exists (y_name h). split; [now left|reflexivity].
  - apply in_flat_map in H as ([q ss] & Hin & H). apply in_flat_map in H as (y & Hy & H). rewrite Forall_forall in IH. specialize (IH _ Hin). cbn [snd] in IH.
    rewrite Forall_forall in IH. destruct (IH y Hy _ _ _ H) as (a & Ha & E). exists a. split; [|assumption]. apply in_flat_map. exists (q, ss). split; [assumption|].
    apply in_flat_map. now exists y.
Qed.

(** A list all of whose parts have keys that are apart. *)
Lemma nodup_keyed {A B K} (g : A -> list B) (key : A -> list K) (R : B -> K -> Prop) (l : list A) :
  (forall b k k', R b k -> R b k' -> k = k') -> (forall a, In a l -> NoDup (key a) -> NoDup (g a)) -> (forall a b, In a l -> In b (g a) -> exists k, In k (key a) /\ R b k) ->
  NoDup (flat_map key l) -> NoDup (flat_map g l).
Proof.
  intros HR. induction l as [|a l IH]; intros Hg Hk Hd; [constructor|]. cbn [flat_map] in *.
  assert (App : forall (u v : list K), NoDup (u ++ v) -> NoDup u /\ NoDup v /\ forall x, In x u -> In x v -> False).
  { clear. induction u as [|x u IH]; intros v H; [split; [constructor|split; [assumption|intros ? []]]|]. cbn in H. inversion H as [|? ? Hx H']; subst.
    destruct (IH v H') as (A1 & A2 & A3). split; [constructor; [intros Hi; apply Hx, in_app_iff; now left|assumption]|]. split; [assumption|].
    intros y [<-|Hy] Hv; [apply Hx, in_app_iff; now right|now apply (A3 y)]. }
  destruct (App _ _ Hd) as (D1 & D2 & D3).
  assert (N1 : NoDup (g a)) by (apply Hg; [now left|assumption]). assert (N2 : NoDup (flat_map g l)) by (apply IH; auto; intros; [apply Hg|apply Hk]; auto; now right).
  assert (X : forall b, In b (g a) -> In b (flat_map g l) -> False).
  { intros b Hb Hb'. apply in_flat_map in Hb' as (a' & Ha' & Hb'). destruct (Hk a b (or_introl eq_refl) Hb) as (k & Hka & R1).
    destruct (Hk a' b (or_intror Ha') Hb') as (k' & Hka' & R2). rewrite (HR _ _ _ R1 R2) in Hka. apply (D3 k'); [assumption|]. apply in_flat_map. now exists a'. }
  clear - N1 N2 X. induction (g a) as [|b u IHu]; [assumption|]. inversion N1; subst. cbn. constructor.
  - rewrite in_app_iff. intros [Hi|Hi]; [contradiction|]. apply (X b); [now left|assumption].
  - apply IHu; [assumption|]. intros y Hy. apply X. now right.
Qed.
Lemma map_flat_map {A B C} (h : B -> C) (g : A -> list B) l : map h (flat_map g l) = flat_map (fun a => map h (g a)) l.
Proof. induction l as [|a l IH]; [reflexivity|]. cbn. now rewrite map_app, IH. Qed.
Lemma members_apart po cfg m path : forall s ch keys, NoDup (map safe_name (level_names s)) -> NoDup (map member_py (members po cfg ch keys m path s)).
Proof.
  induction s as [h lt d yt|h ts yt|h pr cs _|h k od cs _|n c cases IH] using ystmt_ind'; intros ch keys Hd; cbn [members].
  - constructor; [intros []|constructor].
  - constructor; [intros []|constructor].
  - destruct (has_class _ _); [constructor; [intros []|constructor]|constructor].
  - destruct (has_class _ _); [constructor; [intros []|constructor]|constructor].
  - cbn [level_names] in Hd. rewrite map_flat_map in Hd; rewrite map_flat_map.
    apply (nodup_keyed _ (fun a => map safe_name (match a : str * list ystmt with (_, ss) => flat_map level_names ss end)) eq); [congruence| | |assumption].
    + intros [q ss] Hin Hk. rewrite map_flat_map in Hk; rewrite map_flat_map. rewrite Forall_forall in IH. specialize (IH _ Hin). cbn [snd] in IH. rewrite Forall_forall in IH.
      apply (nodup_keyed _ (fun a => map safe_name (level_names a)) eq); [congruence| | |assumption].
      * intros y Hy Hn. now apply IH.
      * intros y b Hy Hb. exists b. split; [|reflexivity]. apply in_map_iff in Hb as (x & <- & Hx). destruct (member_names _ _ _ _ _ _ _ _ Hx) as (a & Ha & E). rewrite E. now apply in_map.
    + intros [q ss] b Hin Hb. exists b. split; [|reflexivity]. apply in_map_iff in Hb as (x & <- & Hx). apply in_flat_map in Hx as (y & Hy & Hx).
      destruct (member_names _ _ _ _ _ _ _ _ Hx) as (a & Ha & E). rewrite E. apply in_map. apply in_flat_map. now exists y.
Qed.
Lemma all_members_apart po cfg m path ss ch keys : NoDup (map safe_name (flat_map level_names ss)) -> NoDup (map member_py (flat_map (members po cfg ch keys m path) ss)).
Proof.
  intros Hd. rewrite map_flat_map in Hd; rewrite map_flat_map. apply (nodup_keyed _ (fun a => map safe_name (level_names a)) eq); [congruence| | |assumption].
  - intros y _ Hn. now apply members_apart.
  - intros y b Hy Hb. exists b. split; [|reflexivity]. apply in_map_iff in Hb as (x & <- & Hx). destruct (member_names _ _ _ _ _ _ _ _ Hx) as (a & Ha & E). rewrite E. now apply in_map.
Qed.

Lemma unfold_all {A} (g : A -> list cmember) (h : A -> list schema) ss :
  (forall s, In s ss -> exists k, forall fuel, (k <= fuel)%nat -> map_res (unfold1 fuel) (g s) = Ok (h s)) ->
  exists k, forall fuel, (k <= fuel)%nat -> map_res (unfold1 fuel) (flat_map g ss) = Ok (flat_map h ss).
Proof.
  induction ss as [|s ss IH]; intros H; [exists 0%nat; reflexivity|]. destruct (H s (or_introl eq_refl)) as (k1 & H1).
  destruct IH as (k2 & H2); [intros t Ht; apply H; now right|]. exists (Nat.max k1 k2). intros fuel Hf. cbn [flat_map]. apply map_res_app; [apply H1|apply H2]; lia.
Qed.
Lemma unfold_node po cfg ch keys m name path cs : In (class_of po cfg ch keys m name path cs) f -> NoDup (map safe_name (flat_map level_names cs)) ->
  (exists k, forall fuel, (k <= fuel)%nat -> map_res (unfold1 fuel) (flat_map (members po cfg ch keys m path) cs) = Ok (flat_map (compile po cfg ch keys) cs)) ->
  exists k, forall fuel, (k <= fuel)%nat -> instantiate fuel f name = Ok (flat_map (compile po cfg ch keys) cs).
Proof.
  intros Hi Hn (k & Hk). exists (S k). intros [|fuel] Hf; [lia|].
  change name with (k_name (class_of po cfg ch keys m name path cs)). rewrite instantiate_class; [apply Hk; lia|assumption|]. cbn [k_members class_of]. now apply all_members_apart.
Qed.
Lemma unfold_stmt po m : forall s, attrs_apart s -> forall cfg ch keys path, incl (classes po cfg ch m path s) f ->
  exists k, forall fuel, (k <= fuel)%nat -> map_res (unfold1 fuel) (members po cfg ch keys m path s) = Ok (compile po cfg ch keys s).
Proof.
  induction s as [h lt d yt|h ts yt|h pr cs IH|h k od cs IH|n c cases IH] using ystmt_ind'; intros Ha cfg ch keys path Hi.
  - exists 0%nat. reflexivity.
  - exists 0%nat. reflexivity.
  - inversion Ha as [| |? ? ? Hn Hs| |]; subst. cbn [members compile classes] in *. destruct (has_class po (YCont h pr cs)) eqn:E.
    + destruct (unfold_node po (cfg && own_config (y_config h)) ch [] m (class_name m (y_name h) (path ++ [y_name h])) (path ++ [y_name h]) cs) as (k & Hk).
      * apply Hi. apply in_app_iff. right. now left.
      * assumption.
      * apply unfold_all. intros s Hs'. rewrite Forall_forall in IH. apply (IH s Hs'); [now apply Hs|]. intros x Hx. apply Hi, in_app_iff. left. apply in_flat_map. now exists s.
      * exists k. intros fuel Hf. etransitivity; [apply map_res_one; cbn [unfold1]; rewrite (Hk fuel Hf); reflexivity|].
        cbn [node]. destruct cs; [|reflexivity]. cbn [has_class] in E. now rewrite E.
    + exists 0%nat. intros fuel _. cbn [has_class] in E. destruct cs; [now rewrite E|discriminate].
  - inversion Ha as [| | |? ? ? ? Hn Hs|]; subst. cbn [members compile classes] in *. destruct (has_class po (YList h k od cs)) eqn:E.
    + destruct (unfold_node po (cfg && own_config (y_config h)) ch (match k with Some k => split_on 32 k | None => [] end) m (class_name m (y_name h) (path ++ [y_name h])) (path ++ [y_name h]) cs) as (q & Hk).
      * apply Hi. apply in_app_iff. right. now left.
      * assumption.
      * apply unfold_all. intros s Hs'. rewrite Forall_forall in IH. apply (IH s Hs'); [now apply Hs|]. intros x Hx. apply Hi, in_app_iff. left. apply in_flat_map. now exists s.
      * exists q. intros fuel Hf. etransitivity; [apply map_res_one; cbn [unfold1]; rewrite (Hk fuel Hf); reflexivity|].
        cbn [node]. destruct cs; [discriminate|reflexivity].
    + exists 0%nat. intros fuel _. cbn [has_class] in E. destruct cs; [reflexivity|discriminate].
  - inversion Ha as [| | | |? ? ? Hs]; subst. cbn [members compile classes] in *.
    apply (unfold_all (fun kc => match kc with (q, ss) => flat_map (members po cfg (Some (n, q)) keys m path) ss end)
                      (fun kc => match kc with (q, ss) => flat_map (compile po cfg (Some (n, q)) keys) ss end)).
    intros [q ss] Hin. apply unfold_all. intros s Hs'. rewrite Forall_forall in IH. specialize (IH _ Hin). cbn [snd] in IH. rewrite Forall_forall in IH.
    apply (IH s Hs'); [now apply (Hs q ss)|]. intros x Hx. apply Hi. apply in_flat_map. exists (q, ss). split; [assumption|]. apply in_flat_map. now exists s.
Qed.
Lemma unfold_group po m name path ss : attrs_apart_all ss -> incl (group po m name path ss) f ->
  exists k, forall fuel, (k <= fuel)%nat -> instantiate fuel f name = Ok (flat_map (compile po true None []) ss).
Proof.
  intros [Hn Ha] Hi. apply (unfold_node po true None [] m name path ss); [apply Hi; apply in_app_iff; right; now left|assumption|].
  apply unfold_all. intros s Hs. apply unfold_stmt; [now apply Ha|]. intros x Hx. apply Hi, in_app_iff. left. apply in_flat_map. now exists s.
Qed.
End F.

Theorem file_means po rpcs notes ys y :
  let f := build po rpcs notes ys in
  (forall c d, In c f -> In d f -> k_name c = k_name d -> c = d) -> (forall c, In c f -> ~ In (k_name c) header_names) -> In y ys ->
  (attrs_apart_all (ym_data y) -> forall x, In x (ym_name y :: ym_subs y) ->
     exists k, forall fuel, (k <= fuel)%nat -> run_file fuel f (safe_name x) = Ok (compile_module po (ym_data y))) /\
  (rpcs = true -> ym_rpcs y <> [] -> attrs_apart_all (ym_rpcs y) ->
     exists k, forall fuel, (k <= fuel)%nat -> run_file fuel f (class_name (ym_name y) (ym_name y) [safe_name (ym_name y) ++ lit "_rpc"]) = Ok (compile_module po (ym_rpcs y))) /\
  (notes = true -> ym_notes y <> [] -> attrs_apart_all (ym_notes y) ->
     exists k, forall fuel, (k <= fuel)%nat -> run_file fuel f (class_name (ym_name y) (ym_name y) [safe_name (ym_name y) ++ lit "_notification"]) = Ok (compile_module po (ym_notes y))).
Proof.
  cbv zeta. intros Hco Hh Hy.
  assert (R : forall fuel n, run_file fuel (build po rpcs notes ys) n = instantiate fuel (build po rpcs notes ys) n).
  { intros fuel n. unfold run_file. destruct (existsb _ _) eqn:E; [|reflexivity]. apply existsb_exists in E as (c & Hc & E). apply str_in_In in E. now apply Hh in E. }
  assert (I : forall x, In x (ym_name y :: ym_subs y) -> forall c, In c (group po x (safe_name x) [] (ym_data y) ++
                     (if rpcs then side po (ym_name y) "_rpc" (ym_rpcs y) else []) ++ (if notes then side po (ym_name y) "_notification" (ym_notes y) else [])) -> In c (build po rpcs notes ys)).
  { intros x Hx c Hc. apply in_flat_map. exists y. split; [assumption|]. apply in_flat_map. now exists x. }
  split; [|split].
  - intros Ha x Hx. destruct (unfold_group _ Hco po x (safe_name x) [] (ym_data y) Ha) as (k & Hk); [intros c Hc; apply (I x Hx); apply in_app_iff; now left|].
    exists k. intros fuel Hf. rewrite R. now apply Hk.
  - intros -> Hr Ha. destruct (unfold_group _ Hco po (ym_name y) (class_name (ym_name y) (ym_name y) (side_path (ym_name y) "_rpc")) (side_path (ym_name y) "_rpc") (ym_rpcs y) Ha) as (k & Hk).
    + intros c Hc. apply (I (ym_name y) (or_introl eq_refl)). apply in_app_iff. right. apply in_app_iff. left. unfold side. destruct (ym_rpcs y); [contradiction|exact Hc].
    + exists k. intros fuel Hf. rewrite R. now apply Hk.
  - intros -> Hr Ha. destruct (unfold_group _ Hco po (ym_name y) (class_name (ym_name y) (ym_name y) (side_path (ym_name y) "_notification")) (side_path (ym_name y) "_notification") (ym_notes y) Ha) as (k & Hk).
    + intros c Hc. apply (I (ym_name y) (or_introl eq_refl)). apply in_app_iff. right. apply in_app_iff. right. unfold side. destruct (ym_notes y); [contradiction|exact Hc].
    + exists k. intros fuel Hf. rewrite R. now apply Hk.
Qed.

(* ------------------------------------------------------------------ the attributes *)
Lemma compile_py po : forall y cfg ch keys s, In s (compile po cfg ch keys y) -> exists n, In n (level_names y) /\ e_py (s_info s) = safe_name n.
Proof.
  induction y as [h lt d yt|h ts yt|h pr cs _|h k od cs _|n c cases IH] using ystmt_ind'; intros cfg ch keys s H; cbn [compile level_names] in *.
  - destruct H as [<-|[]]. exists (y_name h). split; [now left|reflexivity].
  - destruct H as [<-|[]]. exists (y_name h). split; [now left|reflexivity].
  - exists (y_name h). split; [now left|]. destruct cs; [destruct (po && pr); [|contradiction]|]; destruct H as [<-|[]]; reflexivity.
  - exists (y_name h). split; [now left|]. destruct cs; [contradiction|]. destruct H as [<-|[]]; reflexivity.
  - apply in_flat_map in H as ([q ss] & Hin & H). apply in_flat_map in H as (y & Hy & H). rewrite Forall_forall in IH. specialize (IH _ Hin). cbn [snd] in IH.
    rewrite Forall_forall in IH. destruct (IH y Hy _ _ _ _ H) as (a & Ha & E). exists a. split; [|assumption]. apply in_flat_map. exists (q, ss). split; [assumption|].
    apply in_flat_map. now exists y.
Qed.
Lemma compile_apart po : forall y cfg ch keys, NoDup (map safe_name (level_names y)) -> NoDup (map (fun s => e_py (s_info s)) (compile po cfg ch keys y)).
Proof.
  induction y as [h lt d yt|h ts yt|h pr cs _|h k od cs _|n c cases IH] using ystmt_ind'; intros cfg ch keys Hd; cbn [compile].
  - constructor; [intros []|constructor].
  - constructor; [intros []|constructor].
  - destruct cs; [destruct (po && pr)|]; (constructor; [intros []|constructor]) || constructor.
  - destruct cs; [constructor|]. constructor; [intros []|constructor].
  - cbn [level_names] in Hd. rewrite map_flat_map in Hd. rewrite map_flat_map.
    apply (nodup_keyed _ (fun a => map safe_name (match a : str * list ystmt with (_, ss) => flat_map level_names ss end)) eq); [congruence| | |assumption].
    + intros [q ss] Hin Hk. rewrite map_flat_map in Hk. rewrite map_flat_map. rewrite Forall_forall in IH. specialize (IH _ Hin). cbn [snd] in IH. rewrite Forall_forall in IH.
      apply (nodup_keyed _ (fun a => map safe_name (level_names a)) eq); [congruence| | |assumption].
      * intros y Hy Hn. now apply IH.
      * intros y b Hy Hb. exists b. split; [|reflexivity]. apply in_map_iff in Hb as (x & <- & Hx). destruct (compile_py _ _ _ _ _ _ Hx) as (a & Ha & E). rewrite E. now apply in_map.
    + intros [q ss] b Hin Hb. exists b. split; [|reflexivity]. apply in_map_iff in Hb as (x & <- & Hx). apply in_flat_map in Hx as (y & Hy & Hx).
      destruct (compile_py _ _ _ _ _ _ Hx) as (a & Ha & E). rewrite E. apply in_map. apply in_flat_map. now exists y.
Qed.
Lemma compile_all_apart po cfg ch keys ss : NoDup (map safe_name (flat_map level_names ss)) -> NoDup (map (fun s => e_py (s_info s)) (flat_map (compile po cfg ch keys) ss)).
Proof.
  intros Hd. rewrite map_flat_map in Hd. rewrite map_flat_map. apply (nodup_keyed _ (fun a => map safe_name (level_names a)) eq); [congruence| | |assumption].
  - intros y _ Hn. now apply compile_apart.
  - intros y b Hy Hb. exists b. split; [|reflexivity]. apply in_map_iff in Hb as (x & <- & Hx). destruct (compile_py _ _ _ _ _ _ Hx) as (a & Ha & E). rewrite E. now apply in_map.
Qed.
Lemma child_compile po ss y : child_of ss y -> forall cfg ch keys, exists ch', forall s, In s (compile po cfg ch' keys y) -> In s (flat_map (compile po cfg ch keys) ss).
Proof.
  induction 1 as [y ss Hin _|n c cases k ss ss' y Hin Hk Hc IH]; intros cfg ch keys.
  - exists ch. intros s Hs. apply in_flat_map. now exists y.
  - destruct (IH cfg (Some (n, k)) keys) as (ch' & H). exists ch'. intros s Hs. apply in_flat_map. exists (YChoice n c cases). split; [assumption|]. cbn [compile].
    apply in_flat_map. exists (k, ss'). split; [assumption|]. now apply H.
Qed.
Lemma compile_child po ss : forall cfg ch keys s, In s (flat_map (compile po cfg ch keys) ss) -> exists y ch', child_of ss y /\ In s (compile po cfg ch' keys y).
Proof.
  assert (G : forall y cfg ch keys s, In s (compile po cfg ch keys y) -> forall ss, In y ss -> exists y' ch', child_of ss y' /\ In s (compile po cfg ch' keys y')).
  { induction y as [h lt d yt|h ts yt|h pr cs _|h k od cs _|n c cases IH] using ystmt_ind'; intros cfg ch keys s Hs ss' Hi;
      try (eexists; exists ch; split; [apply ch_here; [exact Hi|intros; discriminate]|exact Hs]).
    cbn [compile] in Hs. apply in_flat_map in Hs as ([q l] & Hin & Hs). apply in_flat_map in Hs as (y & Hy & Hs). rewrite Forall_forall in IH. specialize (IH _ Hin). cbn [snd] in IH.
    rewrite Forall_forall in IH. destruct (IH y Hy _ _ _ _ Hs l Hy) as (y' & ch' & Hc & Hs'). exists y', ch'. split; [|assumption]. now apply (ch_case n c cases q ss' l). }
  intros cfg ch keys s Hs. apply in_flat_map in Hs as (y & Hy & Hs). now apply (G y cfg ch keys s Hs ss).
Qed.
Lemma apart_child ss y n cs : attrs_apart_all ss -> child_of ss y -> node_of y n cs -> attrs_apart_all cs.
Proof.
  intros [_ Ha] Hc. revert Ha. induction Hc as [y ss Hin Hx|n' c cases k ss ss' y Hin Hk Hc IH]; intros Ha Hn.
  - specialize (Ha y Hin). destruct Hn as [(h & pr & -> & _)|(h & k & od & -> & _)]; inversion Ha; subst; split; assumption.
  - apply IH; [|assumption]. intros s Hs. specialize (Ha _ Hin). inversion Ha as [| | | |? ? ? Hq]; subst. now apply (Hq k ss').
Qed.
Lemma find_py cs s : NoDup (map (fun s => e_py (s_info s)) cs) -> In s cs -> find (fun t => str_eqb (e_py (s_info s)) (e_py (s_info t))) cs = Some s.
Proof.
  induction cs as [|t cs IH]; intros Hd Hi; [contradiction|]. cbn [map] in Hd. inversion Hd as [|? ? Hn Hd']; subst. cbn [find]. destruct Hi as [<-|Hi]; [now rewrite str_eqb_refl|].
  destruct (str_eqb _ _) eqn:E; [|now apply IH]. apply str_eqb_eq in E. exfalso. apply Hn. rewrite <- E. now apply (in_map (fun s => e_py (s_info s))).
Qed.
Lemma one_node po y n : level_names y = [n] -> (forall m c cases, y <> YChoice m c cases) -> kept po y -> forall cfg ch keys, exists s, In s (compile po cfg ch keys y) /\ e_py (s_info s) = safe_name n.
Proof.
  intros Hl Hx Hk cfg ch keys. destruct y as [h lt d yt|h ts yt|h pr cs|h k od cs|m c cases]; cbn [level_names kept compile] in *; try (injection Hl as <-).
  - eexists. split; [now left|reflexivity].
  - eexists. split; [now left|reflexivity].
  - destruct cs; [destruct Hk as [Hk|[-> ->]]; [congruence|]|]; (eexists; split; [now left|reflexivity]).
  - destruct cs; [congruence|]. eexists. split; [now left|reflexivity].
  - exfalso. now apply (Hx m c cases).
Qed.
Lemma child_plain ss y : child_of ss y -> forall m c cases, y <> YChoice m c cases.
Proof. induction 1; assumption. Qed.
Lemma compiled po y cfg ch keys s : (forall m c cases, y <> YChoice m c cases) -> In s (compile po cfg ch keys y) ->
  stands_for po s y /\ kept po y /\ e_rw (s_info s) = cfg && conf y /\ (exists n, level_names y = [n] /\ e_py (s_info s) = safe_name n /\ 
    (forall i pr cs', s = SCont i pr cs' -> exists cs ch' keys', node_of y n cs /\ cs' = flat_map (compile po (cfg && conf y) ch' keys') cs) /\
    (forall i ks od cs', s = SList i ks od cs' -> exists cs ch' keys', node_of y n cs /\ cs' = flat_map (compile po (cfg && conf y) ch' keys') cs)).
Proof.
  intros Hx H. destruct y as [h lt d yt|h ts yt|h pr cs|h k od cs|m c cases]; cbn [compile] in H.
  - destruct H as [<-|[]]. split; [cbn; unfold of_head; repeat split; auto|]. split; [exact I|]. split; [apply andb_comm|]. exists (y_name h). repeat split; try reflexivity; intros; discriminate.
  - destruct H as [<-|[]]. split; [cbn; unfold of_head; repeat split; auto|]. split; [exact I|]. split; [apply andb_comm|]. exists (y_name h). repeat split; try reflexivity; intros; discriminate.
  - destruct cs as [|y cs].
    + destruct (po && pr) eqn:E; [|contradiction]. destruct H as [<-|[]]. split; [cbn; unfold of_head; repeat split; auto|]. apply andb_prop in E as [-> ->]. split; [right; auto|]. split; [apply andb_comm|]. exists (y_name h).
      split; [reflexivity|]. split; [reflexivity|]. split; [|intros; discriminate]. intros i p cs' E. injection E as <- <- <-. exists [], None, []. split; [left; now exists h, true|reflexivity].
    + destruct H as [<-|[]]. split; [cbn; unfold of_head; repeat split; auto|]. split; [left; discriminate|]. split; [apply andb_comm|]. exists (y_name h).
      split; [reflexivity|]. split; [reflexivity|]. split; [|intros; discriminate]. intros i p cs' E. injection E as <- <- <-. exists (y :: cs). do 2 eexists. split; [left; now exists h, pr|reflexivity].
  - destruct cs as [|y cs]; [contradiction|]. destruct H as [<-|[]]. split; [cbn; unfold of_head; repeat split; auto|]. split; [cbn; discriminate|]. split; [apply andb_comm|]. exists (y_name h).
    split; [reflexivity|]. split; [reflexivity|]. split; [intros; discriminate|]. intros i ks o cs' E. injection E as <- <- <- <-. exists (y :: cs). do 2 eexists. split; [right; now exists h, k, od|reflexivity].
  - exfalso. now apply (Hx m c cases).
Qed.
Lemma node_names y n cs : node_of y n cs -> level_names y = [n].
Proof. now intros [(h & pr & -> & <-)|(h & k & od & -> & <-)]. Qed.
Lemma stmt_at_child ctx ss p z b : stmt_at ctx ss p z b -> exists y, child_of ss y.
Proof. destruct 1; eauto. Qed.
Lemma node_det y n cs n' cs' : node_of y n cs -> node_of y n' cs' -> n = n' /\ cs = cs'.
Proof. intros [(h & pr & -> & <-)|(h & k & od & -> & <-)] [(h' & pr' & E & <-)|(h' & k' & od' & E & <-)]; inversion E; subst; auto. Qed.
Lemma declared_there po ss p z b cfg : stmt_at cfg ss p z b -> forall ch keys, attrs_apart_all ss -> kept po z ->
  exists s, attr_at (flat_map (compile po cfg ch keys) ss) (map safe_name p) = Some s /\ stands_for po s z /\ e_rw (s_info s) = b.
Proof.
  intros H. induction H as [cfg ss y n Hc Hl|cfg ss y n cs p z b Hc Hn H IH]; intros ch keys Ha Hk.
  - destruct (child_compile po _ _ Hc cfg ch keys) as (ch' & Hin). destruct (one_node po y n Hl (child_plain _ _ Hc) Hk cfg ch' keys) as (s & Hs & E).
    destruct (compiled po y cfg ch' keys s (child_plain _ _ Hc) Hs) as (Hst & _ & Hb & _).
    exists s. split; [|now split]. cbn [map attr_at]. rewrite <- E. rewrite find_py; [reflexivity| |now apply Hin].
    apply compile_all_apart. apply Ha.
  - assert (Hy : kept po y).
    { destruct (stmt_at_child _ _ _ _ _ H) as (w & Hw). assert (Ne : cs <> []) by (intros ->; inversion Hw; subst; contradiction).
      destruct Hn as [(h & pr & -> & _)|(h & k & od & -> & _)]; [now left|exact Ne]. }
    destruct (child_compile po _ _ Hc cfg ch keys) as (ch' & Hin). destruct (one_node po y n (node_names _ _ _ Hn) (child_plain _ _ Hc) Hy cfg ch' keys) as (s & Hs & E).
    destruct (compiled po y cfg ch' keys s (child_plain _ _ Hc) Hs) as (Hst & _ & _ & n' & _ & _ & H1 & H2).
    assert (G : exists ch'' keys', match s with SCont _ _ cs' | SList _ _ _ cs' => cs' = flat_map (compile po (cfg && conf y) ch'' keys') cs | _ => False end).
    { destruct s as [i lt d yt k|i ts yt|i pr cs'|i ks od cs'].
      - destruct Hn as [(h & pr & -> & _)|(h & k' & od & -> & _)]; contradiction Hst.
      - destruct Hn as [(h & pr & -> & _)|(h & k' & od & -> & _)]; contradiction Hst.
      - destruct (H1 _ _ _ eq_refl) as (c0 & x & c & Hn' & ->). destruct (node_det _ _ _ _ _ Hn Hn') as [_ <-]. now exists x, c.
      - destruct (H2 _ _ _ _ eq_refl) as (c0 & x & c & Hn' & ->). destruct (node_det _ _ _ _ _ Hn Hn') as [_ <-]. now exists x, c. }
    destruct G as (ch'' & keys' & G). destruct (IH ch'' keys' (apart_child _ _ _ _ Ha Hc Hn) Hk) as (t & Ht & Hst').
    exists t. split; [|assumption]. cbn [map attr_at]. rewrite <- E. rewrite find_py; [|now apply compile_all_apart, Ha|now apply Hin].
    destruct p as [|a p]; [now inversion H|]. cbn [map] in *. destruct s; try contradiction; subst; exact Ht.
Qed.
Lemma there_declared po q : forall ss cfg ch keys s, attrs_apart_all ss -> attr_at (flat_map (compile po cfg ch keys) ss) q = Some s ->
  exists p y, q = map safe_name p /\ stmt_at cfg ss p y (e_rw (s_info s)) /\ kept po y /\ stands_for po s y.
Proof.
  induction q as [|a q IH]; intros ss cfg ch keys s Ha H; [discriminate|]. cbn [attr_at] in H.
  destruct (find _ _) as [t|] eqn:E; [|discriminate]. apply find_some in E as [Hi E]. apply str_eqb_eq in E. subst a.
  destruct (compile_child po ss cfg ch keys t Hi) as (y & ch' & Hc & Ht). destruct (compiled po y cfg ch' keys t (child_plain _ _ Hc) Ht) as (Hst & Hk & Hb & n & Hl & Ep & H1 & H2).
  destruct q as [|b q].
  - injection H as <-. exists [n], y. split; [cbn; now rewrite Ep|]. split; [rewrite Hb; now constructor|]. now split.
  - assert (G : exists cs ch'' keys', node_of y n cs /\ attr_at (flat_map (compile po (cfg && conf y) ch'' keys') cs) (b :: q) = Some s).
    { destruct t as [| |i pr cs'|i ks od cs']; try discriminate.
      - destruct (H1 _ _ _ eq_refl) as (cs & x1 & x2 & Hn & ->). now exists cs, x1, x2.
      - destruct (H2 _ _ _ _ eq_refl) as (cs & x1 & x2 & Hn & ->). now exists cs, x1, x2. }
    destruct G as (cs & ch'' & keys' & Hn & G). destruct (IH cs (cfg && conf y) ch'' keys' s (apart_child _ _ _ _ Ha Hc Hn) G) as (p & z & Eq & Hz & Hkz & Hsz).
    exists (n :: p), z. split; [cbn; now rewrite Ep, Eq|]. split; [now apply (SaIn cfg ss y n cs)|]. now split.
Qed.
Lemma declared_attrs po ss : attrs_apart_all ss -> as_declared po ss (compile_module po ss).
Proof.
  intros Ha. split.
  - intros p y b H Hk. now apply declared_there.
  - intros q s H. unfold compile_module in H. now apply (there_declared po q ss true None []).
Qed.

(* ------------------------------------------------------------------ a condition on the names *)
Definition name_of (a : str * list str) : str := match snd a with [] => safe_name (fst a) | _ => class_name (fst a) (last (snd a) []) (snd a) end.
Fixpoint places (po : bool) (path : list str) (s : ystmt) {struct s} : list (list str) :=
  match s with
  | YLeaf _ _ _ _ | YLeafList _ _ _ => []
  | YCont h _ cs | YList h _ _ cs => if has_class po s then flat_map (places po (path ++ [y_name h])) cs ++ [path ++ [y_name h]] else []
  | YChoice _ _ cases => flat_map (fun kc => match kc with (_, ss) => flat_map (places po path) ss end) cases
  end.
Lemma flat_map_ext' {A B} (g h : A -> list B) l : Forall (fun a => g a = h a) l -> flat_map g l = flat_map h l.
Proof. induction 1 as [|a l E _ IH]; [reflexivity|]. cbn. now rewrite E, IH. Qed.
Lemma name_of_node m path n : name_of (m, path ++ [n]) = class_name m n (path ++ [n]).
Proof. unfold name_of. cbn [snd fst]. rewrite last_last. destruct (path ++ [n]) eqn:E; [destruct path; discriminate|reflexivity]. Qed.
Lemma classes_names po m : forall s cfg ch path, map k_name (classes po cfg ch m path s) = map (fun p => name_of (m, p)) (places po path s).
Proof.
  induction s as [h lt d yt|h ts yt|h pr cs IH|h k od cs IH|n c cases IH] using ystmt_ind'; intros cfg ch path; cbn [classes places]; try reflexivity.
  - destruct (has_class _ _); [|reflexivity]. rewrite !map_app, !map_flat_map. f_equal; [|cbn [map k_name class_of]; now rewrite name_of_node].
    apply flat_map_ext'. eapply Forall_impl; [|exact IH]. intros s Hs. apply Hs.
  - destruct (has_class _ _); [|reflexivity]. rewrite !map_app, !map_flat_map. f_equal; [|cbn [map k_name class_of]; now rewrite name_of_node].
    apply flat_map_ext'. eapply Forall_impl; [|exact IH]. intros s Hs. apply Hs.
  - rewrite !map_flat_map. apply flat_map_ext'. eapply Forall_impl; [|exact IH]. intros [q ss] Hs. cbn [snd] in Hs. rewrite !map_flat_map.
    apply flat_map_ext'. eapply Forall_impl; [|exact Hs]. intros s H. apply H.
Qed.
Lemma places_in po : forall s path p, In p (places po path s) -> exists n rest, In n (level_names s) /\ p = path ++ n :: rest.
Proof.
  induction s as [h lt d yt|h ts yt|h pr cs IH|h k od cs IH|n c cases IH] using ystmt_ind'; intros path p H; cbn [places level_names] in *; try contradiction.
  - destruct (has_class _ _); [|contradiction]. exists (y_name h). apply in_app_iff in H as [H|[<-|[]]]; [|exists []; split; [now left|reflexivity]].
    apply in_flat_map in H as (s & Hs & H). rewrite Forall_forall in IH. destruct (IH s Hs _ _ H) as (n & r & _ & ->). exists (n :: r). split; [now left|]. now rewrite <- app_assoc.
  - destruct (has_class _ _); [|contradiction]. exists (y_name h). apply in_app_iff in H as [H|[<-|[]]]; [|exists []; split; [now left|reflexivity]].
    apply in_flat_map in H as (s & Hs & H). rewrite Forall_forall in IH. destruct (IH s Hs _ _ H) as (n & r & _ & ->). exists (n :: r). split; [now left|]. now rewrite <- app_assoc.
  - apply in_flat_map in H as ([q ss] & Hin & H). apply in_flat_map in H as (s & Hs & H). rewrite Forall_forall in IH. specialize (IH _ Hin). cbn [snd] in IH.
    rewrite Forall_forall in IH. destruct (IH s Hs _ _ H) as (a & r & Ha & ->). exists a, r. split; [|reflexivity]. apply in_flat_map. exists (q, ss). split; [assumption|].
    apply in_flat_map. now exists s.
Qed.
Lemma places_plain po : forall s path, alnum_names s -> Forall plain_name path -> Forall (Forall plain_name) (places po path s).
Proof.
  assert (Fm : forall {A} (g : A -> list (list str)) l, (forall a, In a l -> Forall (Forall plain_name) (g a)) -> Forall (Forall plain_name) (flat_map g l)).
  { intros A g l H. apply Forall_forall. intros p Hp. apply in_flat_map in Hp as (a & Ha & Hp). specialize (H a Ha). rewrite Forall_forall in H. now apply H. }
  induction s as [h lt d yt|h ts yt|h pr cs IH|h k od cs IH|n c cases IH] using ystmt_ind'; intros path Ha Hp; cbn [places]; try constructor.
  - inversion Ha as [| |? ? ? Hn Hs| |]; subst. destruct (has_class _ _); [|constructor].
    assert (Hp' : Forall plain_name (path ++ [y_name h])) by (apply Forall_app; split; [assumption|constructor; [assumption|constructor]]).
    apply Forall_app; split; [|constructor; [assumption|constructor]]. apply Fm. intros s Hi. rewrite Forall_forall in IH. apply IH; auto.
  - inversion Ha as [| | |? ? ? ? Hn Hs|]; subst. destruct (has_class _ _); [|constructor].
    assert (Hp' : Forall plain_name (path ++ [y_name h])) by (apply Forall_app; split; [assumption|constructor; [assumption|constructor]]).
    apply Forall_app; split; [|constructor; [assumption|constructor]]. apply Fm. intros s Hi. rewrite Forall_forall in IH. apply IH; auto.
  - inversion Ha as [| | | |? ? ? Hs]; subst. apply Fm. intros [q ss] Hin. apply Fm. intros s Hi. rewrite Forall_forall in IH. specialize (IH _ Hin). cbn [snd] in IH.
    rewrite Forall_forall in IH. apply IH; auto. now apply (Hs q ss).
Qed.
Lemma nodup_unmap {A B} (g : A -> B) l : NoDup (map g l) -> NoDup l.
Proof. induction l as [|a l IH]; intros H; [constructor|]. inversion H; subst. constructor; [|auto]. intros Hi. apply H2. now apply in_map. Qed.
Lemma heads_apart po path (ss : list ystmt) : (forall s, In s ss -> NoDup (level_names s) -> NoDup (places po path s)) -> NoDup (flat_map level_names ss) -> NoDup (flat_map (places po path) ss).
Proof.
  intros H Hd. apply (nodup_keyed _ level_names (fun p n => exists rest, p = path ++ n :: rest)); auto.
  - intros b k k' (r & ->) (r' & E). apply app_inv_head in E. congruence.
  - intros s p Hs Hp. destruct (places_in _ _ _ _ Hp) as (n & r & Hn & ->). exists n. split; [assumption|now exists r].
Qed.
Lemma places_apart po : forall s path, attrs_apart s -> NoDup (level_names s) -> NoDup (places po path s).
Proof.
  assert (Tail : forall path cs n, NoDup (flat_map (places po (path ++ [n])) cs) -> NoDup (flat_map (places po (path ++ [n])) cs ++ [path ++ [n]])).
  { intros path cs n H. apply (NoDup_Add (a := path ++ [n]) (l := flat_map (places po (path ++ [n])) cs)).
    - rewrite <- (app_nil_r (flat_map (places po (path ++ [n])) cs)) at 1. apply Add_app.
    - split; [assumption|]. intros Hi. apply in_flat_map in Hi as (s & _ & Hi). destruct (places_in _ _ _ _ Hi) as (a & r & _ & E).
      rewrite <- (app_nil_r (path ++ [n])) in E at 1. apply app_inv_head in E. discriminate. }
  induction s as [h lt d yt|h ts yt|h pr cs IH|h k od cs IH|n c cases IH] using ystmt_ind'; intros path Ha Hd; cbn [places]; try constructor.
  - inversion Ha as [| |? ? ? Hn Hs| |]; subst. destruct (has_class _ _); [|constructor]. apply Tail. apply heads_apart; [|now apply nodup_unmap in Hn].
    intros s Hi Hl. rewrite Forall_forall in IH. apply IH; auto.
  - inversion Ha as [| | |? ? ? ? Hn Hs|]; subst. destruct (has_class _ _); [|constructor]. apply Tail. apply heads_apart; [|now apply nodup_unmap in Hn].
    intros s Hi Hl. rewrite Forall_forall in IH. apply IH; auto.
  - inversion Ha as [| | | |? ? ? Hs]; subst. cbn [level_names] in Hd.
    apply (nodup_keyed _ (fun kc => match kc with (_, ss) => flat_map level_names ss end) (fun p n => exists rest, p = path ++ n :: rest)); auto.
    + intros b k k' (r & ->) (r' & E). apply app_inv_head in E. congruence.
    + intros [q ss] Hin Hk. apply heads_apart; [|assumption]. intros s Hi Hl. rewrite Forall_forall in IH. specialize (IH _ Hin). cbn [snd] in IH. rewrite Forall_forall in IH.
      apply IH; auto. now apply (Hs q ss).
    + intros [q ss] p Hin Hp. apply in_flat_map in Hp as (s & Hi & Hp). destruct (places_in _ _ _ _ Hp) as (a & r & Hn & ->). exists a. split; [|now exists r].
      apply in_flat_map. now exists s.
Qed.

Lemma split_on_cons c A B : split_on c (A ++ c :: B) = split_on c A ++ split_on c B.
Proof.
  induction A as [|x A IH]; cbn [app split_on]; [now rewrite N.eqb_refl|]. destruct (N.eqb x c); [now rewrite IH|]. rewrite IH.
  destruct (split_on c A) eqn:E; [|reflexivity]. exfalso. clear - E. destruct A as [|y A]; cbn in E; [discriminate|]. destruct (N.eqb y c); [discriminate|]. destruct (split_on c A); discriminate.
Qed.
Lemma last_empty (A B : list str) p q : A ++ [] :: p = B ++ [] :: q -> ~ In [] p -> ~ In [] q -> p = q.
Proof.
  revert B. induction A as [|x A IH]; intros [|y B] E Hp Hq; cbn [app] in E.
  - congruence.
  - injection E as _ E. subst p. exfalso. apply Hp. apply in_app_iff. right. now left.
  - injection E as _ E. subst q. exfalso. apply Hq. apply in_app_iff. right. now left.
  - injection E as _ E. now apply (IH B).
Qed.
Lemma name_of_inj a b : Forall plain_name (snd a) -> Forall plain_name (snd b) -> firstn 3 (safe_name (fst a)) <> lit "yc_" -> firstn 3 (safe_name (fst b)) <> lit "yc_" ->
  name_of a = name_of b -> safe_name (fst a) = safe_name (fst b) /\ snd a = snd b.
Proof.
  destruct a as [m p], b as [m' q]. cbn [fst snd]. intros Hp Hq Hm Hm' E.
  assert (First : forall m e p, firstn 3 (class_name m e p) = lit "yc_") by (intros; reflexivity).
  destruct (rev_ind (fun l => l = [] \/ exists i e, l = i ++ [e]) (or_introl eq_refl) (fun x l _ => or_intror (ex_intro _ l (ex_intro _ x eq_refl))) p) as [->|(i & e & ->)];
  destruct (rev_ind (fun l => l = [] \/ exists i e, l = i ++ [e]) (or_introl eq_refl) (fun x l _ => or_intror (ex_intro _ l (ex_intro _ x eq_refl))) q) as [->|(j & e' & ->)];
  rewrite ?name_of_node in E; unfold name_of in E; cbn [fst snd] in E.
  - auto.
  - exfalso. apply Hm. rewrite E. apply First.
  - exfalso. apply Hm'. rewrite <- E. apply First.
  - unfold class_name in E. rewrite !path_us, !us_path_safe in E by (assumption || (intros E0; apply app_eq_nil in E0; destruct E0; discriminate)).
    apply app_inv_head in E. pose proof Hp as Hp0. pose proof Hq as Hq0. apply Forall_app in Hp0 as [_ He]. apply Forall_app in Hq0 as [_ He'].
    inversion He as [|? ? [_ He1] _]; subst. inversion He' as [|? ? [_ He2] _]; subst.
    assert (Hsplit : forall e R, Forall (fun c => (is_alpha c || is_digit c)%bool = true) e -> exists T, split_on 95 (safe_name e ++ lit "_" ++ R) = e :: T).
    { intros x R Hx. rewrite safe_name_unfold, plain_underscored by assumption. destruct (str_in x escaped_words).
      - rewrite <- app_assoc. cbn [app]. eexists. apply split_on_app. now apply plain_no_us.
      - eexists. apply (split_on_app 95 x). now apply plain_no_us. }
    set (U := flat_map (fun n : list N => 95%N :: n) (i ++ [e])) in *. set (V := flat_map (fun n : list N => 95%N :: n) (j ++ [e'])) in *.
    destruct (Hsplit e (safe_name m ++ lit "_" ++ U) He1) as (T1 & S1). destruct (Hsplit e' (safe_name m' ++ lit "_" ++ V) He2) as (T2 & S2).
    assert (Ee : e = e') by (rewrite E, S2 in S1; congruence). subst e'.
    apply app_inv_head in E. apply app_inv_head in E.
    assert (Q : i ++ [e] = j ++ [e]).
    { pose proof (f_equal (split_on 95) E) as G. change (lit "_" ++ U) with (95%N :: U) in G. change (lit "_" ++ V) with (95%N :: V) in G. rewrite !split_on_cons in G.
      unfold U, V in G. rewrite !split_us_path in G by assumption. apply last_empty in G; [assumption| |].
      - intros Hi. rewrite Forall_forall in Hp. now apply (Hp [] Hi).
      - intros Hi. rewrite Forall_forall in Hq. now apply (Hq [] Hi). }
    split; [|assumption]. unfold U, V in E. rewrite Q in E. now apply app_inv_tail in E.
Qed.

Lemma nodup_map_on {A B} (g : A -> B) l : (forall a b, In a l -> In b l -> g a = g b -> a = b) -> NoDup l -> NoDup (map g l).
Proof.
  induction l as [|a l IH]; intros Hg H; [constructor|]. inversion H; subst. cbn. constructor.
  - intros Hi. apply in_map_iff in Hi as (b & E & Hb). apply H2. rewrite (Hg a b); auto; [now left|now right].
  - apply IH; [|assumption]. intros; apply Hg; auto; now right.
Qed.
Lemma nodup_map_eq {A B} (g : A -> B) l a b : NoDup (map g l) -> In a l -> In b l -> g a = g b -> a = b.
Proof.
  induction l as [|x l IH]; [intros _ []|]; intros H [->|Ha] [->|Hb] E; try reflexivity; cbn in H; inversion H as [|? ? H1 H2]; subst.
  - exfalso. apply H1. rewrite E. now apply in_map.
  - exfalso. apply H1. rewrite <- E. now apply in_map.
  - now apply IH.
Qed.
Definition sites (po : bool) (ys : list ymod) : list (str * list str) :=
  flat_map (fun y => flat_map (fun x => map (fun p => (x, p)) (flat_map (places po []) (ym_data y) ++ [[]])) (ym_name y :: ym_subs y)) ys.
Lemma build_names po ys : map k_name (build po false false ys) = map name_of (sites po ys).
Proof.
  unfold build, sites. rewrite !map_flat_map. apply flat_map_ext. intros y. unfold build_one. rewrite !map_flat_map. apply flat_map_ext. intros x.
  rewrite !app_nil_r. unfold group. rewrite !map_app, !map_flat_map, map_map. f_equal.
  apply flat_map_ext. intros s. rewrite map_map. apply classes_names.
Qed.
Theorem plain_names_coherent po ys :
  let f := build po false false ys in let names := flat_map (fun y => ym_name y :: ym_subs y) ys in
  NoDup (map safe_name names) -> (forall x, In x names -> firstn 3 (safe_name x) <> lit "yc_" /\ ~ In (safe_name x) header_names) ->
  (forall y, In y ys -> attrs_apart_all (ym_data y) /\ forall s, In s (ym_data y) -> alnum_names s) ->
  (forall c d, In c f -> In d f -> k_name c = k_name d -> c = d) /\ (forall c, In c f -> ~ In (k_name c) header_names).
Proof.
  cbv zeta. intros Hn Hx Hy.
  assert (S1 : forall a, In a (sites po ys) -> In (fst a) (flat_map (fun y => ym_name y :: ym_subs y) ys) /\ Forall plain_name (snd a)).
  { intros a Ha. apply in_flat_map in Ha as (y & Hiy & Ha). apply in_flat_map in Ha as (x & Hix & Ha). apply in_map_iff in Ha as (p & <- & Hp). cbn [fst snd]. split.
    - apply in_flat_map. now exists y.
    - apply in_app_iff in Hp as [Hp|[<-|[]]]; [|constructor]. apply in_flat_map in Hp as (s & Hs & Hp). destruct (Hy y Hiy) as [_ Hal].
      pose proof (places_plain po s [] (Hal s Hs) (Forall_nil _)) as G. rewrite Forall_forall in G. now apply G. }
  assert (S2 : NoDup (sites po ys)).
  { apply (nodup_keyed _ (fun y => ym_name y :: ym_subs y) (fun (a : str * list str) x => fst a = x)); [congruence| | |now apply nodup_unmap in Hn].
    - intros y Hiy Hk. rewrite <- (map_id (ym_name y :: ym_subs y)) in Hk.
      apply (nodup_keyed _ (fun x => [x]) (fun (a : str * list str) x => fst a = x)); [congruence| | |].
      + intros x _ _. apply nodup_map_on; [congruence|]. destruct (Hy y Hiy) as [[Ha1 Ha2] _].
        apply (NoDup_Add (a := []) (l := flat_map (places po []) (ym_data y))).
        * rewrite <- (app_nil_r (flat_map (places po []) (ym_data y))) at 1. apply Add_app.
        * split.
          -- apply heads_apart; [|now apply nodup_unmap in Ha1]. intros s Hs Hl. apply places_apart; auto.
          -- intros Hi. apply in_flat_map in Hi as (s & _ & Hi). destruct (places_in _ _ _ _ Hi) as (n & r & _ & E). discriminate.
      + intros x a _ Ha. apply in_map_iff in Ha as (p & <- & _). exists x. split; [now left|reflexivity].
      + revert Hk. generalize (ym_name y :: ym_subs y). intros l. rewrite map_id. induction l as [|x l IH]; intros H; [constructor|]. inversion H; subst. cbn. constructor; [|auto].
        intros Hi. apply in_flat_map in Hi as (z & Hz & Hi). cbn in Hi. destruct Hi as [<-|[]]. contradiction.
    - intros y a _ Ha. apply in_flat_map in Ha as (x & Hix & Ha). apply in_map_iff in Ha as (p & <- & _). exists x. split; [assumption|reflexivity]. }
  assert (S3 : NoDup (map name_of (sites po ys))).
  { apply nodup_map_on; [|assumption]. intros a b Ha Hb E. destruct (S1 a Ha) as [A1 A2], (S1 b Hb) as [B1 B2].
    destruct (name_of_inj a b A2 B2 (proj1 (Hx _ A1)) (proj1 (Hx _ B1)) E) as [E1 E2].
    destruct a as [m p], b as [m' q]. cbn [fst snd] in *. subst q. f_equal. now apply (nodup_map_eq safe_name _ m m' Hn). }
  split.
  - rewrite <- build_names in S3. intros c d Hc Hd E. now apply (nodup_map_eq k_name _ c d S3).
  - intros c Hc Hin. assert (G : In (k_name c) (map name_of (sites po ys))) by (rewrite <- build_names; now apply in_map).
    apply in_map_iff in G as ([m p] & E & Ha). destruct (S1 _ Ha) as [A1 _]. cbn [fst] in A1. unfold name_of in E. cbn [fst snd] in E. destruct p as [|n p].
    + apply (proj2 (Hx _ A1)). now rewrite E.
    + assert (F : forallb (fun w => negb (startswith (lit "yc_") w)) header_names = true) by (vm_compute; reflexivity).
      rewrite forallb_forall in F. specialize (F _ Hin). rewrite <- E in F. discriminate F.
Qed.

Theorem file_makes po rpcs notes ys y : one_class_each (build po rpcs notes ys) -> clear_of_head (build po rpcs notes ys) -> In y ys ->
  (attrs_apart_all (ym_data y) -> forall x, In x (ym_name y :: ym_subs y) -> makes po (build po rpcs notes ys) (safe_name x) (ym_data y)) /\
  (rpcs = true -> ym_rpcs y <> [] -> attrs_apart_all (ym_rpcs y) ->
     makes po (build po rpcs notes ys) (class_name (ym_name y) (ym_name y) [safe_name (ym_name y) ++ lit "_rpc"]) (ym_rpcs y)) /\
  (notes = true -> ym_notes y <> [] -> attrs_apart_all (ym_notes y) ->
     makes po (build po rpcs notes ys) (class_name (ym_name y) (ym_name y) [safe_name (ym_name y) ++ lit "_notification"]) (ym_notes y)).
Proof.
  intros Hc Hh Hy. destruct (file_means po rpcs notes ys y Hc Hh Hy) as (H1 & H2 & H3).
  assert (G : forall cls ss, attrs_apart_all ss -> (exists k, forall fuel, (k <= fuel)%nat -> run_file fuel (build po rpcs notes ys) cls = Ok (compile_module po ss)) ->
            makes po (build po rpcs notes ys) cls ss).
  { intros cls ss Ha (k & Hk). exists (compile_module po ss), k. split; [assumption|]. split; [now apply declared_attrs|reflexivity]. }
  split; [intros; apply G; auto|]. split; intros; apply G; auto.
Qed.
Theorem plain_file_makes po ys :
  NoDup (map safe_name (flat_map (fun y => ym_name y :: ym_subs y) ys)) ->
  (forall x, In x (flat_map (fun y => ym_name y :: ym_subs y) ys) -> firstn 3 (safe_name x) <> lit "yc_" /\ ~ In (safe_name x) header_names) ->
  (forall y, In y ys -> attrs_apart_all (ym_data y) /\ forall s, In s (ym_data y) -> alnum_names s) ->
  forall y x, In y ys -> In x (ym_name y :: ym_subs y) -> makes po (build po false false ys) (safe_name x) (ym_data y).
Proof.
  intros Hn Hx Hs y x Hy Hi. destruct (plain_names_coherent po ys Hn Hx Hs) as [H1 H2].
  apply (file_makes po false false ys y H1 H2 Hy); [now apply Hs|assumption].
Qed.
Lemma instantiate_one fuel f n i k cls e : find_class n f = Some {| k_name := n; k_members := [MNode i k cls] |} ->
  instantiate fuel f cls = Raise e -> instantiate (S fuel) f n = Raise e.
Proof. intros H1 H2. cbn [instantiate]. rewrite H1. unfold attrs, map_res. cbn [k_members fold_left put map snd]. rewrite H2. reflexivity. Qed.
