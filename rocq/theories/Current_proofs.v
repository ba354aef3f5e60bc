(** current() in searches. *)
From Coq Require Import Lia Permutation.
From Verif Require Import PyStr PyStr_facts PyVal PathHelper Spec_Path RegTree RegRef Spec_RegTree Spec_RegRef Current Spec_Current.
From Verif Require Import PathText_proofs PathHelper_proofs PathSim_proofs PathInv_proofs PathSearch_proofs RegTree_proofs Leafref_proofs RegRef_proofs.

(* ------------------------------------------------------------------ texts *)
Lemma raw_tag part n : xml_name (fst n) -> NoDup (map fst (snd n)) -> names part n ->
  exists tag, tag_attrs part = Ok (tag, match snd n with [] => None | d => Some d end) /\ local_name tag = fst n /\ part <> [] /\ startswith (lit ".") part = false.
Proof.
  intros Ht Hd (text & Hs & Hp).
  assert (X : forall tag, tag_ok tag -> (forall rest, tag_attrs (tag ++ rest) = tag_attrs (tag ++ rest)) -> forall txt, (snd n = [] /\ txt = tag \/ exists gs, gs <> [] /\ txt = element_text tag gs /\ pairs gs = snd n /\ Forall (fun g => Forall pred_ok (group_preds g)) gs) ->
     tag_attrs txt = Ok (tag, match snd n with [] => None | d => Some d end)).
  { intros tag Htag _ txt [[E ->]|(gs & Hne & -> & E & Hok)].
    - rewrite E. apply tag_attrs_plain. apply Htag.
    - rewrite tag_attrs_exact; [|assumption..|].
      + rewrite E. destruct gs as [|[p l] gs]; [congruence|]. unfold pairs in E. cbn in E. now rewrite <- E.
      + assert (Em : map p_key (flat_map group_preds gs) = map fst (pairs gs)) by (unfold pairs; now rewrite map_map). rewrite Em, E. exact Hd. }
  assert (Y : forall (p rest : str), xml_name p -> p ++ rest <> [] /\ startswith (lit ".") (p ++ rest) = false).
  { intros p rest (c & r & -> & Hc & _). split; [discriminate|]. change (lit ".") with [46%N]. cbn [app startswith]. rewrite andb_true_r. apply N.eqb_neq. unfold letter in Hc. lia. }
  destruct Hp as [->|(prefix & Hpre & ->)].
  - exists (fst n). split; [apply (X (fst n) (xml_name_tag _ Ht) (fun _ => eq_refl)); exact Hs|]. split; [now apply local_xml|]. destruct Hs as [[_ ->]|(gs & _ & -> & _)]; [rewrite <- (app_nil_r (fst n))|]; now apply Y.
  - exists (prefix ++ lit ":" ++ fst n). assert (Hcolon : forall c, In c [91; 124]%N -> ~ In c (prefix ++ lit ":" ++ fst n)).
    { intros c Hc Hi. apply in_app_or in Hi as [Hi|[Hi|Hi]]; [apply (xml_name_not prefix c); [assumption|cbn in *; tauto|assumption]| |apply (xml_name_not (fst n) c); [assumption|cbn in *; tauto|assumption]].
      destruct Hc as [<-|[<-|[]]]; discriminate. }
    assert (Htag : tag_ok (prefix ++ lit ":" ++ fst n)).
    { split; [destruct Hpre as (c & r & -> & _); discriminate|]. split; [apply Hcolon; cbn; tauto|]. assert (N124 : ~ In 124%N (prefix ++ lit ":" ++ fst n)) by (apply Hcolon; cbn; tauto). split; [now apply free_no|now apply no_end]. }
    split.
    { apply (X _ Htag (fun _ => eq_refl)). destruct Hs as [[E ->]|(gs & Hne & -> & E & Hok)]; [left; now split|]. right. exists gs. split; [assumption|]. split; [|now split]. unfold element_text. now rewrite !app_assoc. }
    split; [|now apply Y].
    unfold local_name. assert (E : ch_in 58 (prefix ++ lit ":" ++ fst n) = true) by (apply ch_in_In; apply in_or_app; right; now left). rewrite E. change (lit ":" ++ fst n) with (58%N :: fst n).
    rewrite split_on_app by (apply xml_name_not; [assumption|cbn; tauto]). rewrite split_on_no by (apply xml_name_not; [assumption|cbn; tauto]). reflexivity.
Qed.
Lemma has_sub_here p s : has_sub p (p ++ s) = true.
Proof. assert (E : startswith p (p ++ s) = true). { induction p as [|c p IH]; [reflexivity|]. cbn [app startswith]. now rewrite N.eqb_refl, IH. } destruct (p ++ s); cbn [has_sub]; now rewrite E. Qed.
Lemma asks_sub raw j ns : asks raw j ns -> has_sub (lit "current()") raw = true.
Proof. intros (parts & _ & _ & ->). apply (has_sub_here (lit "current()") (lit "/" ++ join (lit "/") (repeat (lit "..") j ++ parts))). Qed.
Lemma part_chars part n c : part_name part n -> In c part -> letter c \/ (48 <= c <= 57)%N \/ c = 45%N \/ c = 46%N \/ c = 58%N.
Proof.
  intros [Hn [->|(prefix & Hp & ->)]] Hi.
  - pose proof (xml_name_chars _ _ Hn Hi). tauto.
  - apply in_app_or in Hi as [Hi|Hi]; [pose proof (xml_name_chars _ _ Hp Hi); tauto|]. apply in_app_or in Hi as [[<-|[]]|Hi]; [tauto|]. pose proof (xml_name_chars _ _ Hn Hi). tauto.
Qed.
Lemma in_join (c : N) sep l : In c (join sep l) -> In c sep \/ exists w, In w l /\ In c w.
Proof.
  induction l as [|w l IH]; [intros []|]. destruct l as [|w' l]; [intros H; right; exists w; split; [now left|exact H]|]. cbn [join]. intros H. apply in_app_or in H as [H|H]; [right; exists w; split; [now left|assumption]|].
  apply in_app_or in H as [H|H]; [now left|]. destruct (IH H) as [H1|(x & H1 & H2)]; [now left|right; exists x; split; [now right|assumption]].
Qed.
Lemma part_name_dots part n : part_name part n -> part <> lit "..".
Proof. intros Hp E. assert (X : startswith (lit ".") part = false). { destruct (names_step part (n, [])) as (_ & _ & H); [apply plain_name_ok; apply Hp| |exact H]. destruct Hp as [Hx Hp]. exists n. split; [left; now split|exact Hp]. } subst part. discriminate. Qed.
Lemma asks_path cpath raw j ns : cpath <> [] -> asks raw j ns -> exists parts, parts <> [] /\ Forall2 part_name parts ns /\
  current_path cpath raw = Ok (match j with 0%nat => cpath ++ parts | S j' => removelast cpath ++ repeat (lit "..") j' ++ parts end).
Proof.
  intros Hc (parts & Hne & Hp & ->). exists parts. split; [assumption|]. split; [assumption|]. unfold current_path.
  assert (Hhead : exists p more, repeat (lit "..") j ++ parts = p :: more /\ match j with 0%nat => str_eqb p (lit "..") = false /\ parts = p :: more | S j' => p = lit ".." /\ more = repeat (lit "..") j' ++ parts end).
  { destruct j as [|j].
    - destruct Hp as [|p n parts ns H1 H2]; [congruence|]. exists p, parts. split; [reflexivity|]. split; [|reflexivity]. destruct (str_eqb p (lit "..")) eqn:E; [|reflexivity]. apply str_eqb_eq in E. exfalso. now apply (part_name_dots p n).
    - exists (lit ".."), (repeat (lit "..") j ++ parts). split; [reflexivity|]. now split. }
  set (l := repeat (lit "..") j ++ parts) in *.
  assert (Hl : l <> []) by (destruct Hhead as (p & more & E & _); rewrite E; discriminate).
  assert (Hch : forall w, In w l -> forall c, In c w -> letter c \/ (48 <= c <= 57)%N \/ c = 45%N \/ c = 46%N \/ c = 58%N).
  { intros w Hw. apply in_app_or in Hw as [Hw|Hw]; [apply repeat_spec in Hw; subst w; intros c Hi; cbn in Hi; destruct Hi as [<-|[<-|[]]]; tauto|]. clear Hne Hl Hhead l. induction Hp as [|p n parts ns H1 H2 IH]; [contradiction|]. destruct Hw as [->|Hw]; [intros c; now apply (part_chars w n)|now apply IH]. }
  assert (E10 : ch_in 10 (lit "current()/" ++ join (lit "/") l) = false).
  { apply ch_in_false. intros Hi. apply in_app_or in Hi as [Hi|Hi]; [revert Hi; apply ch_in_false; vm_compute; reflexivity|]. apply in_join in Hi as [[Hi|[]]|(w & Hw & Hi)]; [discriminate|]. pose proof (Hch w Hw _ Hi) as X. unfold letter in X. lia. }
  rewrite E10. clearbody l. assert (Ecut : cut_current (lit "current()/" ++ join (lit "/") l) = 47%N :: join (lit "/") l) by (vm_compute; reflexivity).
  rewrite Ecut. change (47%N :: join (lit "/") l) with ([] ++ 47%N :: join (lit "/") l).
  rewrite split_on_app by (intros []). change (lit "/") with [47%N]. rewrite split_join; [|assumption|].
  - destruct Hhead as (p & more & -> & Hj). destruct cpath; [congruence|]. destruct j as [|j].
    + destruct Hj as [E ->]. now rewrite E.
    + destruct Hj as [-> ->]. assert (Es : str_eqb (lit "..") (lit "..") = true) by (vm_compute; reflexivity). now rewrite Es.
  - apply Forall_forall. intros w Hw Hi. pose proof (Hch w Hw _ Hi) as X. unfold letter in X. lia.
Qed.
Lemma spells_names part n : spells part n -> names part n.
Proof. intros H. exists part. split; [assumption|now left]. Qed.

(* ------------------------------------------------------------------ paths without current() *)
Section Plain.
Context {A : Type} (text : option A -> str).
Lemma part_same caller st part s : part_step part = Ok s -> part_step_in text caller st part = Ok s.
Proof.
  unfold part_step, part_step_in. destruct (tag_attrs part) as [[t [d|]]|e]; cbn [bind fst snd]; try (intros H; exact H). destruct d as [|kv d]; [intros H; exact H|].
  destruct (ncname (local_name t)); cbn [andb]; [|discriminate]. match goal with |- (if ?b then _ else _) = _ -> _ => destruct b eqn:F; [|discriminate] end. intros H.
  assert (E : map_r (pred_value text caller st) (kv :: d) = Ok (kv :: d)).
  { rewrite forallb_forall in F. clear H. revert F. generalize (kv :: d). induction l as [|x l IH]; intros F; [reflexivity|]. cbn [map_r]. pose proof (F x (or_introl eq_refl)) as Hx. apply andb_prop in Hx as [_ Hx]. apply negb_true_iff in Hx.
    assert (Ex : pred_value text caller st x = Ok x) by (unfold pred_value; destruct x as [k v]; cbn [fst snd] in *; now rewrite Hx). rewrite Ex. cbn [bind]. rewrite IH; [reflexivity|]. intros y Hy. apply F. now right. }
  rewrite E. cbn [bind]. assert (F' : forallb (fun kv0 => ncname (fst kv0) && forallb xml_char (snd kv0)) (kv :: d) = true).
  { apply forallb_forall. intros x Hx. rewrite forallb_forall in F. specialize (F x Hx). now apply andb_prop in F as [F _]. }
  now rewrite F'.
Qed.
Lemma map_same caller st l ss : map_r part_step l = Ok ss -> map_r (part_step_in text caller st) l = Ok ss.
Proof.
  revert ss. induction l as [|p l IH]; intros ss; cbn [map_r]; [auto|]. destruct (part_step p) as [s|] eqn:E; [|discriminate]. cbn [bind]. rewrite (part_same caller st p s E). cbn [bind]. destruct (map_r part_step l) as [r|]; [|discriminate]. rewrite (IH r eq_refl). auto.
Qed.
Lemma encode_same caller st path ss : encode_path path = Ok ss -> encode_path_in text caller st path = Ok ss.
Proof. destruct path as [|p path]; [discriminate|]. cbn [encode_path encode_path_in]. apply map_same. Qed.
Theorem get_same caller path st r : get caller path st = Ok r -> get_in text caller path st = Ok r.
Proof.
  unfold get, get_in, get_etree. destruct (relative path).
  - destruct caller as [|p caller]; [discriminate|]. destruct (encode_path (p :: caller)) as [s1|] eqn:E1; [|discriminate]. cbn [bind]. destruct (encode_path path) as [s2|] eqn:E2; [|discriminate].
    rewrite (encode_same (p :: caller) st path s2 E2). cbn [bind]. rewrite (encode_same [] st (p :: caller) s1 E1). auto.
  - destruct (encode_path path) as [s2|] eqn:E2; [|discriminate]. rewrite (encode_same caller st path s2 E2). auto.
Qed.
End Plain.

(* ------------------------------------------------------------------ nobody asks *)
Section Nobody.
Context {A : Type} (text : option A -> str) (st : helper A).
Lemma asks_nobody raw j ns : asks raw j ns -> current_path [] raw = Raise TypeError.
Proof.
  intros Ha. destruct (asks_path [lit "x"] raw j ns) as (parts & _ & _ & E); [discriminate|assumption|]. revert E. unfold current_path. destruct (ch_in 10 raw); [discriminate|].
  destruct (split_on 47 (cut_current raw)) as [|a [|p more]]; [discriminate..|]. intros _. reflexivity.
Qed.
Definition asking (kv : str * str) : Prop := exists j ns, asks (snd kv) j ns.
Definition kv_fine (kv : str * str) : Prop := xml_name (fst kv) /\ xml_text (snd kv) /\ silent (snd kv).
Lemma pred_nobody kv : asking kv -> pred_value text [] st kv = Raise TypeError.
Proof. intros (j & ns & Ha). unfold pred_value, current_value. now rewrite (asks_sub _ _ _ Ha), (asks_nobody _ _ _ Ha). Qed.
Lemma pred_fine kv : kv_fine kv -> pred_value text [] st kv = Ok kv.
Proof. intros (_ & _ & Hs). unfold pred_value. assert (E : has_sub (lit "current()") (snd kv) = false) by (now apply has_sub_false). rewrite E. now destruct kv. Qed.
Lemma preds_nobody d : Forall (fun kv => kv_fine kv \/ asking kv) d ->
  (map_r (pred_value text [] st) d = Ok d /\ Forall kv_fine d) \/ (map_r (pred_value text [] st) d = Raise TypeError).
Proof.
  induction 1 as [|kv d [Hk|Hk] _ IH]; [left; split; [reflexivity|constructor]| |].
  - cbn [map_r]. rewrite (pred_fine kv Hk). cbn [bind]. destruct IH as [[-> IH]| ->]; cbn [bind]; [left; split; [reflexivity|now constructor]|now right].
  - right. cbn [map_r]. now rewrite (pred_nobody kv Hk).
Qed.
Lemma silent_asks raw j ns : silent raw -> asks raw j ns -> False.
Proof. intros Hs (parts & _ & _ & ->). now apply (Hs [] (lit "/" ++ join (lit "/") (repeat (lit "..") j ++ parts))). Qed.
Lemma step_nobody depth part n : names part n -> raw_ok depth n ->
  ((exists s, part_step_in text [] st part = Ok s) /\ Forall kv_fine (snd n)) \/ part_step_in text [] st part = Raise TypeError.
Proof.
  intros Hs (Ht & Hd & Hr). destruct (raw_tag part n Ht Hd Hs) as (tag & E & El & _). unfold part_step_in. rewrite E. cbn [bind fst snd]. rewrite El. pose proof (xml_name_ncname _ Ht) as Hnc.
  assert (Hr' : Forall (fun kv => kv_fine kv \/ asking kv) (snd n)).
  { eapply Forall_impl; [|exact Hr]. intros kv (H1 & _ & [[H2 H3]|(j & ns & _ & H2)]); [left; now repeat split|right; now exists j, ns]. }
  pose proof (preds_nobody (snd n) Hr') as HP. destruct (snd n) as [|kv d] eqn:Es.
  - left. split; [|constructor]. rewrite Hnc. destruct (str_eqb (fst n) (lit "..")); [eexists; reflexivity|]. destruct (str_eqb (fst n) (lit ".")); eexists; reflexivity.
  - destruct HP as [[-> G]| ->]; cbn [bind]; [|now right]. left. split; [|assumption]. rewrite Hnc. cbn [andb].
    assert (Fb : forallb (fun kv0 => ncname (fst kv0) && forallb xml_char (snd kv0)) (kv :: d) = true).
    { apply forallb_forall. intros x Hx. rewrite Forall_forall in G. destruct (G x Hx) as (G1 & G2 & _). now rewrite xml_name_ncname, xml_text_chars by assumption. }
    rewrite Fb. eexists. reflexivity.
Qed.
Lemma steps_nobody depth path raw : Forall2 names path raw -> Forall (raw_ok depth) raw ->
  ((exists ss, map_r (part_step_in text [] st) path = Ok ss) /\ Forall (fun n => Forall kv_fine (snd n)) raw) \/ map_r (part_step_in text [] st) path = Raise TypeError.
Proof.
  induction 1 as [|p n path raw Hp H IH]; intros Hr; [left; split; [eexists; reflexivity|constructor]|]. inversion Hr as [|? ? R1 R2]; subst. cbn [map_r].
  destruct (step_nobody depth p n Hp R1) as [[(s & ->) G]| ->]; cbn [bind]; [|now right]. destruct (IH R2) as [[(ss & ->) G']| ->]; cbn [bind]; [left; split; [eexists; reflexivity|now constructor]|now right].
Qed.
Theorem nobody_asks depth path raw n kv j ns : Forall2 names path raw -> Forall (raw_ok depth) raw -> In n raw -> In kv (snd n) -> asks (snd kv) j ns ->
  get_in text [] path st = Raise TypeError /\ get_in text [] ([] :: path) st = Raise TypeError.
Proof.
  intros Hp Hr Hn Hkv Ha.
  assert (Hparts : Forall (fun p : str => p <> []) path).
  { clear Hn. induction Hp as [|p m path raw Hp H IH]; constructor; inversion Hr as [|? ? (R1 & R2 & _) R3]; subst; [now destruct (raw_tag p m R1 R2 Hp) as (_ & _ & _ & H1 & _)|now apply IH]. }
  assert (E : map_r (part_step_in text [] st) path = Raise TypeError).
  { destruct (steps_nobody depth path raw Hp Hr) as [[_ G]|E]; [|exact E]. exfalso. rewrite Forall_forall in G. specialize (G n Hn). rewrite Forall_forall in G. destruct (G kv Hkv) as (_ & _ & Hs). now apply (silent_asks _ _ _ Hs Ha). }
  assert (Eg : relative path = false /\ encode_path_in text [] st path = map_r (part_step_in text [] st) path /\ encode_path_in text [] st ([] :: path) = map_r (part_step_in text [] st) path).
  { destruct Hp as [|p m path raw Hp0 Ht]; [destruct Hn|]. inversion Hr as [|? ? (R1 & R2 & _) _]; subst. destruct (raw_tag p m R1 R2 Hp0) as (_ & _ & _ & Hpn & Hdot). split; [unfold relative; exact Hdot|].
    unfold encode_path_in. destruct p as [|ch p]; [congruence|]. rewrite no_empty_id by assumption. now split. }
  destruct Eg as (Er & E1 & E2). unfold get_in. rewrite Er. assert (Er2 : relative ([] :: path) = false) by reflexivity. rewrite Er2, E1, E2, E. split; reflexivity.
Qed.
End Nobody.

(* ------------------------------------------------------------------ values that ask *)
Section Asking.
Context {A : Type} (text : option A -> str) (uid : nat -> str) (keys : list str -> list str) (st : helper A) (M : objects (A := A)) (I : inv uid keys st M).
Context (cpath : list str) (c : place) (Hc : Forall2 spells cpath c) (Hok : place_ok keys c).

Lemma removelast2 {X Y} (R : X -> Y -> Prop) l l' : Forall2 R l l' -> Forall2 R (removelast l) (removelast l').
Proof. induction 1 as [|x y l l' H F IH]; [constructor|]. cbn [removelast]. destruct F; [constructor|]. now constructor. Qed.
Lemma removelast_forall {X} (P : X -> Prop) l : Forall P l -> Forall P (removelast l).
Proof. induction 1 as [|x l H F IH]; [constructor|]. cbn [removelast]. destruct F; [constructor|]. now constructor. Qed.
Lemma cpath_ne : cpath <> [].
Proof. destruct Hok as [Hne _]. intros E. rewrite E in Hc. inversion Hc. congruence. Qed.
Lemma parent_keyed : keyed keys [] (removelast c).
Proof. destruct Hok as (Hne & _ & Hk). rewrite (app_removelast_last ([], []) Hne) in Hk. now apply keyed_app in Hk. Qed.
Lemma lookup_up j parts ns : j < length c -> parts <> [] -> Forall2 part_name parts ns ->
  found M (fun q => (j = 0%nat \/ M (removelast c) <> None) /\ beside c (S j) ns q) (get [] (removelast cpath ++ repeat (lit "..") j ++ parts) st).
Proof.
  intros Hj Hne Hp. pose proof Hok as (Hcne & Hcn & Hck). pose proof (removelast2 _ _ _ Hc) as Hs. pose proof (removelast_forall _ _ Hcn) as Hn. destruct (part_names parts ns Hp) as [N1 N2].
  destruct (spelled _ _ Hs Hn) as [E1 F1]. destruct (named_steps _ _ N1 N2) as [E2 F2].
  assert (Em : forall l l' s s', map_r part_step l = Ok s -> map_r part_step l' = Ok s' -> map_r part_step (l ++ l') = Ok (s ++ s')).
  { induction l as [|p l IH]; intros l' s s' H H'; cbn [map_r app] in *; [injection H as <-; exact H'|]. destruct (part_step p) as [x|]; [|discriminate]. cbn [bind] in *. destruct (map_r part_step l) as [r|]; [|discriminate]. injection H as <-. now rewrite (IH l' r s' eq_refl H'). }
  assert (Eup : map_r part_step (repeat (lit "..") j) = Ok (repeat Up j)).
  { assert (Eu : part_step (lit "..") = Ok Up) by (vm_compute; reflexivity). clear Hj. induction j as [|j IH]; [reflexivity|]. cbn [repeat map_r]. rewrite Eu. cbn [bind]. now rewrite IH. }
  assert (Hlen : length (removelast c) = (length c - 1)%nat) by (rewrite (removelast_firstn_len c), firstn_length; lia).
  assert (Eg : get_etree [] (removelast cpath ++ repeat (lit "..") j ++ parts) (h_root st) = Ok (eval_steps (h_root st) (steps (removelast c) ++ repeat Up j ++ steps (plain_place ns)))).
  { assert (Hfirst : exists p rest, removelast cpath ++ repeat (lit "..") j ++ parts = p :: rest /\ p <> [] /\ startswith (lit ".") p = false).
    { destruct (removelast cpath) as [|p rest] eqn:Er.
      - assert (j = 0%nat) as ->. { assert (El : length (@nil str) = length (removelast c)) by (clear -Hs; induction Hs as [|? ? ? ? _ _ IH]; [reflexivity|cbn [length]; now rewrite IH]). cbn [length] in El. lia. }
        cbn [repeat app]. destruct parts as [|p rest]; [congruence|]. exists p, rest. split; [reflexivity|]. inversion N1 as [|? n ? q Hpn _ E1' E2']; subst. rewrite <- E2' in N2. inversion N2 as [|? ? Hnn _]; subst. destruct (names_step p n Hnn Hpn) as (_ & H1 & H2). now split.
      - exists p, (rest ++ repeat (lit "..") j ++ parts). split; [reflexivity|]. inversion Hs as [|? n ? q Hpn _ E1' E2']; subst. rewrite <- E2' in Hn. inversion Hn as [|? ? Hnn _]; subst. destruct (spells_tag p n Hnn Hpn) as (_ & H1 & H2 & _). now split. }
    destruct Hfirst as (p & rest & E & Hpne & Hdot). pose proof (Em _ _ _ _ E1 (Em _ _ _ _ Eup E2)) as Eall.
    assert (Fall : Forall (fun p : str => p <> []) (removelast cpath ++ repeat (lit "..") j ++ parts)). { apply Forall_app. split; [assumption|]. apply Forall_app. split; [|assumption]. apply Forall_forall. intros x Hx. apply repeat_spec in Hx. subst x. discriminate. }
    unfold get_etree, relative. rewrite E in *. rewrite Hdot. unfold encode_path. destruct p as [|ch p]; [congruence|]. rewrite no_empty_id by assumption. now rewrite Eall. }
  unfold get. rewrite Eg. cbn [bind]. apply (found_hit uid keys st M); [assumption| |apply eval_nodup|].
  - unfold eval_steps. rewrite !fold_left_app. fold (eval_steps (h_root st) (steps (removelast c))). pose proof (hit_place keys (h_root st) (i_wt _ _ _ _ I) (removelast c) parent_keyed Hn) as H0. destruct j as [|j].
    + cbn [repeat fold_left]. eapply hit_eq; [|apply (hit_nodes keys (h_root st) (i_wt _ _ _ _ I) (plain_place ns) N2 _ _ H0)]. intros q. cbv beta. unfold beside. replace (length c - 1)%nat with (Nat.pred (length c)) by lia. rewrite <- (removelast_firstn_len c). split.
      * intros (q0 & q1 & -> & -> & Hm). split; [now left|]. exists q1. split; [reflexivity|now apply matching_plain].
      * intros (_ & r & -> & Hr). exists (removelast c), r. split; [reflexivity|]. split; [reflexivity|now apply matching_plain].
    + pose proof (hit_ups (h_root st) (S j) _ _ H0 ltac:(lia)) as H1. eapply hit_eq; [|apply (hit_nodes keys (h_root st) (i_wt _ _ _ _ I) (plain_place ns) N2 _ _ H1)]. intros q. cbv beta. unfold beside.
      assert (Hrne : removelast c <> []) by (intros E; rewrite E in Hlen; cbn [length] in Hlen; lia).
      assert (Efirst : firstn (length c - S (S j)) c = firstn (length (removelast c) - S j) (removelast c)). { rewrite Hlen. rewrite (removelast_firstn_len c), firstn_firstn. f_equal. lia. }
      rewrite Efirst. split.
      * intros (q0 & q1 & -> & (r & Hl & E & Hf) & Hmm). rewrite E in Hf. split.
        -- right. destruct (faddr (removelast c) (h_root st)) as [a|] eqn:Ea; [|congruence]. destruct (object_ptr uid keys st M (removelast c) a I Ea Hrne) as (o & p & _ & EM & _). congruence.
        -- exists q1. split; [|now apply matching_plain]. f_equal. rewrite <- E, app_length, Hl, firstn_app. replace (length q0 + S j - S j - length q0)%nat with 0%nat by lia. replace (length q0 + S j - S j)%nat with (length q0) by lia. now rewrite firstn_all, app_nil_r.
      * intros ([H|HM] & r & -> & Hmm); [discriminate|]. exists (firstn (length (removelast c) - S j) (removelast c)), r. split; [reflexivity|]. split; [|now apply matching_plain]. exists (skipn (length (removelast c) - S j) (removelast c)). split; [rewrite skipn_length; lia|]. rewrite firstn_skipn. split; [reflexivity|].
        intros E. apply HM. apply (absent uid keys st M (removelast c) I E Hrne).
  - intros (_ & r & E & Hr). symmetry in E. apply app_eq_nil in E as [_ ->]. subst ns. inversion Hp; subst; congruence.
Qed.
Lemma lookup_down parts ns : parts <> [] -> Forall2 part_name parts ns -> found M (beside c 0 ns) (get [] (cpath ++ parts) st).
Proof.
  intros Hne Hp. pose proof Hok as (Hcne & Hcn & Hck). destruct (part_names parts ns Hp) as [N1 N2]. destruct (spelled _ _ Hc Hcn) as [E1 F1]. destruct (named_steps _ _ N1 N2) as [E2 F2].
  assert (Em : forall l l' s s', map_r part_step l = Ok s -> map_r part_step l' = Ok s' -> map_r part_step (l ++ l') = Ok (s ++ s')).
  { induction l as [|p l IH]; intros l' s s' H H'; cbn [map_r app] in *; [injection H as <-; exact H'|]. destruct (part_step p) as [x|]; [|discriminate]. cbn [bind] in *. destruct (map_r part_step l) as [r|]; [|discriminate]. injection H as <-. now rewrite (IH l' r s' eq_refl H'). }
  assert (Eg : get_etree [] (cpath ++ parts) (h_root st) = Ok (eval_steps (h_root st) (steps c ++ steps (plain_place ns)))).
  { assert (Hfirst : exists p rest, cpath ++ parts = p :: rest /\ p <> [] /\ startswith (lit ".") p = false).
    { pose proof cpath_ne as Hpn0. revert Hpn0 Hc Hcn. clear. intros Hpn0 F Hcn. destruct F as [|p n rest q Hpn F]; [congruence|]. exists p, (rest ++ parts). split; [reflexivity|]. inversion Hcn as [|? ? Hnn _]; subst. destruct (spells_tag p n Hnn Hpn) as (_ & H1 & H2 & _). now split. }
    destruct Hfirst as (p & rest & E & Hpne & Hdot). pose proof (Em _ _ _ _ E1 E2) as Eall.
    assert (Fall : Forall (fun p : str => p <> []) (cpath ++ parts)) by (apply Forall_app; now split).
    unfold get_etree, relative. rewrite E in *. rewrite Hdot. unfold encode_path. destruct p as [|ch p]; [congruence|]. rewrite no_empty_id by assumption. now rewrite Eall. }
  unfold get. rewrite Eg. cbn [bind]. apply (found_hit uid keys st M); [assumption| |apply eval_nodup|].
  - unfold eval_steps. rewrite !fold_left_app. fold (eval_steps (h_root st) (steps c)). pose proof (hit_place keys (h_root st) (i_wt _ _ _ _ I) c Hck Hcn) as H0.
    eapply hit_eq; [|apply (hit_nodes keys (h_root st) (i_wt _ _ _ _ I) (plain_place ns) N2 _ _ H0)]. intros q. cbv beta. unfold beside. rewrite Nat.sub_0_r, firstn_all. split.
    + intros (q0 & q1 & -> & -> & Hm). exists q1. split; [reflexivity|now apply matching_plain].
    + intros (r & -> & Hr). exists c, r. split; [reflexivity|]. split; [reflexivity|now apply matching_plain].
  - intros (r & E & Hr). symmetry in E. apply app_eq_nil in E as [_ ->]. subst ns. inversion Hp; subst; congruence.
Qed.
Lemma lookup_found j parts ns : j <= length c -> parts <> [] -> Forall2 part_name parts ns ->
  found M (fun q => (j <= 1 \/ M (removelast c) <> None) /\ beside c j ns q) (get [] (match j with 0%nat => cpath ++ parts | S j' => removelast cpath ++ repeat (lit "..") j' ++ parts end) st).
Proof.
  intros Hj Hne Hp. destruct j as [|j].
  - destruct (lookup_down parts ns Hne Hp) as (qs & Hd & Hin & E). exists qs. split; [assumption|]. split; [|assumption]. intros q. rewrite (Hin q). assert (0 <= 1) by lia. tauto.
  - destruct (lookup_up j parts ns ltac:(lia) Hne Hp) as (qs & Hd & Hin & E). exists qs. split; [assumption|]. split; [|assumption]. intros q. rewrite (Hin q). assert (j = 0%nat <-> S j <= 1) by lia. tauto.
Qed.
Lemma asked raw j ns : j <= length c -> asks raw j ns ->
  (exists q, only M c j ns q /\ current_value text cpath st raw = Ok (text (M q))) \/ (current_value text cpath st raw = Raise XPathError /\ forall q, ~ only M c j ns q).
Proof.
  intros Hj Ha. destruct (asks_path cpath raw j ns cpath_ne Ha) as (parts & Hne & Hp & E). unfold current_value. rewrite E. cbn [bind]. destruct (lookup_found j parts ns Hj Hne Hp) as (qs & Hd & Hin & ->). cbn [bind].
  destruct qs as [|q [|q' qs]]; cbn [map].
  - right. split; [reflexivity|]. intros q (H0 & H1 & H2 & _). apply (Hin q). now repeat split.
  - left. exists q. split; [|reflexivity]. destruct (proj1 (Hin q) (or_introl eq_refl)) as [H1 [H2 H3]]. split; [assumption|]. split; [assumption|]. split; [assumption|]. intros q' H4 H5. destruct (proj2 (Hin q') (conj H5 (conj H2 H4))) as [E'|[]]. now symmetry.
  - right. split; [reflexivity|]. intros x (_ & _ & _ & H). assert (H1 : q = x) by (apply H; apply Hin; now left). assert (H2 : q' = x) by (apply H; apply Hin; right; now left). inversion Hd as [|? ? Hx _]; subst. apply Hx. now left.
Qed.

Definition kv_raw_ok (kv : str * str) : Prop := xml_name (fst kv) /\ fst kv <> lit "obj_ptr" /\ ((xml_text (snd kv) /\ silent (snd kv)) \/ exists j ns, j <= length c /\ asks (snd kv) j ns).
Definition kv_answer (kv : str * str) : Prop := forall j ns q, j <= length c -> asks (snd kv) j ns -> beside c j ns q -> M q <> None -> quotable (text (M q)).
Lemma pred_asked kv : kv_raw_ok kv -> kv_answer kv ->
  (exists v, pred_value text cpath st kv = Ok (fst kv, v) /\ stands text M c (snd kv) v /\ xml_text v /\ silent v) \/
  (pred_value text cpath st kv = Raise XPathError /\ exists j ns, j <= length c /\ asks (snd kv) j ns /\ forall q, ~ only M c j ns q).
Proof.
  intros (Hk & _ & [[Ht Hs]|(j & ns & Hj & Ha)]) Hans; unfold pred_value.
  - left. exists (snd kv). assert (E : has_sub (lit "current()") (snd kv) = false) by (now apply has_sub_false). rewrite E. destruct kv as [k v]. split; [reflexivity|]. split; [now constructor|now split].
  - rewrite (asks_sub _ _ _ Ha). destruct (asked (snd kv) j ns Hj Ha) as [(q & Ho & E)|[E Hno]]; rewrite E; cbn [bind].
    + left. exists (text (M q)). destruct Ho as (H0 & H1 & H2 & H3). destruct (Hans j ns q Hj Ha H1 H2) as (Q1 & Q2 & Q3). apply ch_in_false in Q2. rewrite Q2. split; [reflexivity|]. split; [|now split]. apply (stands_current text M c _ j ns q Hj Ha). now repeat split.
    + right. split; [reflexivity|]. exists j, ns. now repeat split.
Qed.
Lemma preds_asked d : Forall kv_raw_ok d -> Forall kv_answer d ->
  (exists d', map_r (pred_value text cpath st) d = Ok d' /\ map fst d' = map fst d /\ Forall2 (fun kv kv' => fst kv = fst kv' /\ stands text M c (snd kv) (snd kv')) d d' /\
     Forall (fun kv => xml_name (fst kv) /\ fst kv <> lit "obj_ptr" /\ xml_text (snd kv) /\ silent (snd kv)) d') \/
  (map_r (pred_value text cpath st) d = Raise XPathError /\ exists kv j ns, In kv d /\ j <= length c /\ asks (snd kv) j ns /\ forall q, ~ only M c j ns q).
Proof.
  induction d as [|kv d IH]; intros Hr Ha; [left; exists []; repeat split; constructor|]. inversion Hr as [|? ? R1 R2]; subst. inversion Ha as [|? ? A1 A2]; subst. cbn [map_r].
  destruct (pred_asked kv R1 A1) as [(v & E & Hs & Ht & Hv)|[E (j & ns & H1 & H2)]]; rewrite E; cbn [bind].
  - destruct (IH R2 A2) as [(d' & Ed & Em & F & G)|[Ed (kv' & j & ns & H0 & H1 & H2)]]; rewrite Ed; cbn [bind].
    + left. exists ((fst kv, v) :: d'). split; [reflexivity|]. split; [cbn [map fst]; now rewrite Em|]. split; [constructor; [now split|assumption]|]. constructor; [|assumption]. destruct R1 as (K1 & K2 & _). now repeat split.
    + right. split; [reflexivity|]. exists kv', j, ns. split; [now right|now split].
  - right. split; [reflexivity|]. exists kv, j, ns. split; [now left|now split].
Qed.
Lemma step_asked part n : names part n -> raw_ok (length c) n -> Forall kv_answer (snd n) ->
  (exists m, part_step_in text cpath st part = Ok (Node (fst m) (snd m)) /\ name_ok m /\ fst n = fst m /\ Forall2 (fun kv kv' => fst kv = fst kv' /\ stands text M c (snd kv) (snd kv')) (snd n) (snd m)) \/
  (part_step_in text cpath st part = Raise XPathError /\ exists kv j ns, In kv (snd n) /\ j <= length c /\ asks (snd kv) j ns /\ forall q, ~ only M c j ns q).
Proof.
  intros Hs (Ht & Hd & Hr) Ha. destruct (raw_tag part n Ht Hd Hs) as (tag & E & El & _). unfold part_step_in. rewrite E. cbn [bind fst snd]. rewrite El. pose proof (xml_name_ncname _ Ht) as Hnc.
  pose proof (preds_asked (snd n) Hr Ha) as HP. destruct (snd n) as [|kv d] eqn:Es.
  - left. exists (fst n, []). cbn [fst snd]. split; [|split; [split; [assumption|split; constructor]|split; [reflexivity|constructor]]]. rewrite Hnc. destruct Ht as (ch & r & -> & Hch & _). unfold letter in Hch. change (lit "..") with [46; 46]%N. change (lit ".") with [46]%N. cbn [str_eqb].
    assert (E46 : N.eqb ch 46 = false) by (apply N.eqb_neq; lia). now rewrite E46.
  - destruct HP as [(d' & Ed & Em & F & G)|[Ed H]]; rewrite Ed; cbn [bind].
    + left. exists (fst n, d'). cbn [fst snd]. rewrite Hnc. cbn [andb]. assert (Fb : forallb (fun kv0 => ncname (fst kv0) && forallb xml_char (snd kv0)) d' = true).
      { apply forallb_forall. intros x Hx. rewrite Forall_forall in G. destruct (G x Hx) as (G1 & _ & G3 & _). now rewrite xml_name_ncname, xml_text_chars by assumption. }
      rewrite Fb. split; [reflexivity|]. split; [|split; [reflexivity|assumption]]. split; [assumption|]. cbn [snd]. split; [now rewrite Em|]. exact G.
    + right. split; [reflexivity|exact H].
Qed.
Lemma steps_asked path raw : Forall2 names path raw -> Forall (raw_ok (length c)) raw -> answers_ok text M c raw ->
  (exists pat, map_r (part_step_in text cpath st) path = Ok (steps pat) /\ Forall name_ok pat /\ means text M c raw pat) \/ (map_r (part_step_in text cpath st) path = Raise XPathError /\ unanswered M c raw).
Proof.
  induction 1 as [|p n path raw Hp H IH]; intros Hr Ha; [left; exists []; repeat split; constructor|]. inversion Hr as [|? ? R1 R2]; subst. cbn [map_r].
  assert (A1 : Forall kv_answer (snd n)). { apply Forall_forall. intros kv Hkv j ns q H0 H1 H2 H3. apply (Ha n kv j ns q (or_introl eq_refl) Hkv H0 H1 H2 H3). }
  assert (A2 : answers_ok text M c raw). { intros m kv j ns q Hm. apply (Ha m kv j ns q). now right. }
  destruct (step_asked p n Hp R1 A1) as [(m & E & Hm & Ef & F)|[E (kv & j & ns & H1 & H2 & H3)]]; rewrite E; cbn [bind].
  - destruct (IH R2 A2) as [(pat & Ep & Hn & Hme)|[Ep (n' & kv & j & ns & H0 & H1)]]; rewrite Ep; cbn [bind].
    + left. exists (m :: pat). split; [reflexivity|]. split; [now constructor|]. constructor; [now split|assumption].
    + right. split; [reflexivity|]. exists n', kv, j, ns. split; [now right|assumption].
  - right. split; [reflexivity|]. exists n, kv, j, ns. split; [now left|now split].
Qed.
Lemma parts_ne path raw : Forall2 names path raw -> Forall (raw_ok (length c)) raw -> Forall (fun p : str => p <> []) path.
Proof. induction 1 as [|p n path raw Hp H IH]; intros Hr; constructor; inversion Hr as [|? ? (R1 & R2 & _) R3]; subst; [now destruct (raw_tag p n R1 R2 Hp) as (_ & _ & _ & H1 & _)|now apply IH]. Qed.
Lemma means_ne raw pat : means text M c raw pat -> raw <> [] -> pat <> [].
Proof. intros H Hne ->. inversion H. now apply Hne. Qed.

Theorem current_search path raw : Forall2 names path raw -> Forall (raw_ok (length c)) raw -> raw <> [] -> answers_ok text M c raw ->
  (exists pat, means text M c raw pat /\ found M (matching pat) (get_in text cpath path st) /\ found M (matching pat) (get_in text cpath ([] :: path) st)) \/
  (get_in text cpath path st = Raise XPathError /\ get_in text cpath ([] :: path) st = Raise XPathError /\ unanswered M c raw).
Proof.
  intros Hp Hr Hne Ha. pose proof (parts_ne path raw Hp Hr) as Hparts.
  assert (Eg : relative path = false /\ encode_path_in text cpath st path = map_r (part_step_in text cpath st) path /\ encode_path_in text cpath st ([] :: path) = map_r (part_step_in text cpath st) path).
  { destruct Hp as [|p n path raw Hp0 Ht]; [congruence|]. inversion Hr as [|? ? (R1 & R2 & _) _]; subst. destruct (raw_tag p n R1 R2 Hp0) as (_ & _ & _ & Hpn & Hdot). split; [unfold relative; exact Hdot|].
    unfold encode_path_in. destruct p as [|ch p]; [congruence|]. rewrite no_empty_id by assumption. now split. }
  destruct Eg as (Er & E1 & E2). unfold get_in. rewrite Er. assert (Er2 : relative ([] :: path) = false) by reflexivity. rewrite Er2, E1, E2.
  destruct (steps_asked path raw Hp Hr Ha) as [(pat & Es & Hn & Hm)|[Es Hu]]; rewrite Es; cbn [bind].
  - left. exists pat. split; [assumption|].
    assert (F : found M (matching pat) (map_r (object_at st) (eval_steps (h_root st) (steps pat)))).
    { apply (found_hit uid keys st M); [assumption| |apply eval_nodup|apply matching_nil; now apply (means_ne raw)].
      eapply hit_eq; [|apply (hit_nodes keys (h_root st) (i_wt _ _ _ _ I) pat Hn _ _ (hit_root (h_root st)))]. intros q. cbv beta. split; [intros (q0 & q1 & -> & -> & H); exact H|intros H; now exists [], q]. }
    now split.
  - right. now repeat split.
Qed.
Theorem current_relative k path raw : (0 < k <= length c)%nat -> Forall2 names path raw -> Forall (raw_ok (length c)) raw -> raw <> [] -> answers_ok text M c raw ->
  (exists pat, means text M c raw pat /\ found M (fun q => M c <> None /\ exists r, q = firstn (length c - k) c ++ r /\ matching pat r) (get_in text cpath (repeat (lit "..") k ++ path) st)) \/
  (get_in text cpath (repeat (lit "..") k ++ path) st = Raise XPathError /\ unanswered M c raw).
Proof.
  intros Hk Hp Hr Hne Ha. pose proof (parts_ne path raw Hp Hr) as Hparts. pose proof Hok as (Hcne & Hcn & Hck). destruct (spelled cpath c Hc Hcn) as [Ec Hcparts].
  assert (Eup : part_step_in text cpath st (lit "..") = Ok Up) by (vm_compute; reflexivity).
  assert (Hall : Forall (fun p : str => p <> []) (repeat (lit "..") k ++ path)). { apply Forall_app. split; [|assumption]. apply Forall_forall. intros x Hx. apply repeat_spec in Hx. subst x. discriminate. }
  assert (E2 : encode_path_in text cpath st (repeat (lit "..") k ++ path) = map_r (part_step_in text cpath st) (repeat (lit "..") k ++ path)).
  { unfold encode_path_in. destruct k as [|k]; [lia|]. cbn [repeat app] in *. change (lit "..") with [46%N; 46%N] at 1. cbv iota beta. change [46%N; 46%N] with (lit ".."). now rewrite no_empty_id. }
  assert (E1 : encode_path_in text [] st cpath = Ok (steps c)).
  { apply encode_same. destruct Hc as [|p n path' q' Hs Ht]; [congruence|]. unfold encode_path. destruct p as [|ch p]; [inversion Hcparts; congruence|]. now rewrite no_empty_id. }
  assert (Eups : forall k, map_r (part_step_in text cpath st) (repeat (lit "..") k ++ path) = (ss <- map_r (part_step_in text cpath st) path ;; Ok (repeat Up k ++ ss))).
  { induction k0 as [|k0 IH]; [cbn [repeat app]; now destruct (map_r _ path)|]. cbn [repeat app map_r]. rewrite Eup. cbn [bind]. rewrite IH. now destruct (map_r _ path). }
  unfold get_in. assert (Er : relative (repeat (lit "..") k ++ path) = true) by (destruct k; [lia|reflexivity]). rewrite Er. destruct cpath as [|c0 cp] eqn:Ecp; [inversion Hc; congruence|]. rewrite <- Ecp in *. rewrite E2, Eups.
  destruct (steps_asked path raw Hp Hr Ha) as [(pat & Es & Hn & Hm)|[Es Hu]]; rewrite Es; cbn [bind].
  - left. exists pat. split; [assumption|]. rewrite E1. cbn [bind]. apply (found_hit uid keys st M); [assumption| |apply eval_nodup|].
    + unfold eval_steps. rewrite !fold_left_app. fold (eval_steps (h_root st) (steps c)). pose proof (hit_place keys (h_root st) (i_wt _ _ _ _ I) c Hck Hcn) as H0. pose proof (hit_ups (h_root st) k _ _ H0 ltac:(lia)) as H1.
      eapply hit_eq; [|apply (hit_nodes keys (h_root st) (i_wt _ _ _ _ I) pat Hn _ _ H1)]. intros q. cbv beta. split.
      * intros (q0 & q1 & -> & (r & Hl & E & Hf) & Hmm). rewrite E in Hf. split.
        -- destruct (faddr c (h_root st)) as [a|] eqn:Ea; [|congruence]. destruct (object_ptr uid keys st M c a I Ea Hcne) as (o & p & _ & EM & _). congruence.
        -- exists q1. split; [|assumption]. f_equal. rewrite <- E, app_length, Hl, firstn_app. replace (length q0 + k - k - length q0)%nat with 0%nat by lia. replace (length q0 + k - k)%nat with (length q0) by lia. now rewrite firstn_all, app_nil_r.
      * intros (HM & r & -> & Hmm). exists (firstn (length c - k) c), r. split; [reflexivity|]. split; [|assumption]. exists (skipn (length c - k) c). split; [rewrite skipn_length; lia|]. rewrite firstn_skipn. split; [reflexivity|].
        intros E. apply HM. apply (absent uid keys st M c I E Hcne).
    + intros (_ & r & E & Hmm). symmetry in E. apply app_eq_nil in E as [_ ->]. now apply (matching_nil pat (means_ne raw pat Hm Hne)).
  - right. now split.
Qed.
End Asking.

(* ------------------------------------------------------------------ after any calls *)
Theorem current_run {A} (text : option A -> str) (oeq : A -> A -> bool) uid keys (cs : list (call (A := A))) cpath c path raw : fresh uid -> Forall (call_ok keys) cs ->
  Forall2 spells cpath c -> place_ok keys c -> Forall2 names path raw -> Forall (raw_ok (length c)) raw -> raw <> [] ->
  let M := fst (map_run oeq cs (fun _ => None)) in let st := fst (helper_run oeq uid cs helper_new) in answers_ok text M c raw ->
  (exists pattern, means text M c raw pattern /\ found M (matching pattern) (get_in text cpath path st) /\ found M (matching pattern) (get_in text cpath ([] :: path) st)) \/
  (get_in text cpath path st = Raise XPathError /\ get_in text cpath ([] :: path) st = Raise XPathError /\ unanswered M c raw).
Proof. intros Hu Hcs Hc Hok Hp Hr Hne M st Ha. destruct (run_sim oeq uid Hu keys cs _ _ Hcs (inv_new uid keys)) as [I _]. now apply (current_search text uid keys st M I cpath c Hc Hok). Qed.
Theorem current_relative_run {A} (text : option A -> str) (oeq : A -> A -> bool) uid keys (cs : list (call (A := A))) cpath c up path raw : fresh uid -> Forall (call_ok keys) cs ->
  Forall2 spells cpath c -> place_ok keys c -> (0 < up <= length c)%nat -> Forall2 names path raw -> Forall (raw_ok (length c)) raw -> raw <> [] ->
  let M := fst (map_run oeq cs (fun _ => None)) in let st := fst (helper_run oeq uid cs helper_new) in answers_ok text M c raw ->
  (exists pattern, means text M c raw pattern /\ found M (fun q => M c <> None /\ exists r, q = firstn (length c - up) c ++ r /\ matching pattern r) (get_in text cpath (repeat (lit "..") up ++ path) st)) \/
  (get_in text cpath (repeat (lit "..") up ++ path) st = Raise XPathError /\ unanswered M c raw).
Proof. intros Hu Hcs Hc Hok Hk Hp Hr Hne M st Ha. destruct (run_sim oeq uid Hu keys cs _ _ Hcs (inv_new uid keys)) as [I _]. now apply (current_relative text uid keys st M I cpath c Hc Hok). Qed.

(* ------------------------------------------------------------------ leafrefs in a data tree *)
(** What is said of leafrefs in RegRef_proofs, for any search. *)
Theorem leaves_at text other cs kids w P key r assign v : found_in cs kids P r ->
  (forall q t, in_tree cs kids q t -> P q -> exists x, t = PLeaf x /\ forall y, py_eq y x = true -> text y = text x) ->
  (key = true \/ exists q1 q2 t1 t2, q1 <> q2 /\ in_tree cs kids q1 t1 /\ in_tree cs kids q2 t2 /\ P q1 /\ P q2) ->
  match (objs <- r ;; reference_new true (Some (map (target_of text other key w) objs)) assign (Some v)) with
  | Ok _ => exists q x, in_tree cs kids q (PLeaf x) /\ P q /\ text x = v
  | Raise e => e = ValueError /\ forall q x, in_tree cs kids q (PLeaf x) -> P q -> text x <> v
  end.
Proof.
  intros (qs & os' & Hnd & Hin & F & Eg) Hleaf Hsingle. rewrite Eg. cbn [bind]. rewrite map_map. set (ts := map (fun x => target_of text other key w (Some x)) os').
  (* every target is a leaf with the text of the leaf in the tree *)
  assert (HT : Forall2 (fun q t => exists x, in_tree cs kids q (PLeaf x) /\ P q /\ t = {| t_text := text x; t_members := None; t_keyval := key; t_list := false |}) qs ts).
  { unfold ts. clear Eg Hnd. assert (Hq : forall q, In q qs -> P q /\ exists o, in_tree cs kids q o) by (intros q; apply Hin). clear Hin. induction F as [|q o' qs os' Ha F IH]; [constructor|]. cbn [map]. constructor; [|apply IH; intros p Hp; apply Hq; now right].
    destruct (Hq q (or_introl eq_refl)) as (Hmq & t & Ht). destruct (Hleaf q t Ht Hmq) as (x & -> & Hx). exists x. split; [assumption|]. split; [assumption|]. pose proof (Ha _ Ht) as Hag. destruct o' as [y| |]; cbn [agrees] in Hag; try discriminate.
    cbn [target_of]. f_equal. destruct Hag as [->|Hag]; [reflexivity|now apply Hx]. }
  assert (Hall : forall q x, in_tree cs kids q (PLeaf x) -> P q -> exists t, In t ts /\ t_text t = text x).
  { intros q x Hqx Hmq. assert (Hiq : In q qs) by (apply Hin; split; [assumption|now exists (PLeaf x)]). clear -F Hiq Hqx Hleaf Hmq. unfold ts. induction F as [|p o' qs os' Ha F IH]; [contradiction|]. cbn [map]. destruct Hiq as [->|Hiq].
    - exists (target_of text other key w (Some o')). split; [now left|]. pose proof (Ha _ Hqx) as Hag. destruct o' as [y| |]; cbn [agrees] in Hag; try discriminate. cbn. destruct (Hleaf q _ Hqx Hmq) as (x' & E & Hx). injection E as <-. destruct Hag as [->|Hag]; [reflexivity|now apply Hx].
    - destruct (IH Hiq) as (t & Ht & Et). exists t. split; [now right|assumption]. }
  assert (Hp : ~ pointer_like ts).
  { intros (t & Et & Hkey & _). destruct Hsingle as [->|(q1 & q2 & t1 & t2 & Hne & H1 & H2 & M1 & M2)].
    - rewrite Et in HT. inversion HT as [|? ? ? ? (x & _ & _ & ->) _]; subst. discriminate.
    - rewrite Et in HT. inversion HT as [|q' ? qs' ? _ HT']; subst. inversion HT'; subst. assert (I1 : In q1 [q']) by (apply Hin; split; [assumption|now exists t1]). assert (I2 : In q2 [q']) by (apply Hin; split; [assumption|now exists t2]).
      destruct I1 as [<-|[]], I2 as [<-|[]]. now apply Hne. }
  assert (Hinst : instance ts v <-> exists q x, in_tree cs kids q (PLeaf x) /\ P q /\ text x = v).
  { assert (G : (exists t, In t ts /\ t_text t = v) <-> exists q x, in_tree cs kids q (PLeaf x) /\ P q /\ text x = v).
    { split.
      - intros (t & Ht & Et). clear -HT Ht Et. induction HT as [|q t' qs ts (x & H1 & H2 & ->) HT IH]; [contradiction|]. destruct Ht as [<-|Ht]; [now exists q, x|now apply IH].
      - intros (q & x & H1 & H2 & H3). destruct (Hall q x H1 H2) as (t & Ht & Et). exists t. split; [assumption|congruence]. }
    rewrite <- G. unfold instance. destruct ts as [|t [|t2 ts']] eqn:Ets; try reflexivity. inversion HT as [|? ? ? ? (x & _ & _ & ->) _]; subst. cbn [t_members t_text]. split.
    - intros E. eexists. split; [now left|exact E].
    - intros (t & [<-|[]] & E). exact E. }
  pose proof (leafref_exact ts assign v Hp) as HE. pose proof (leafref_accepts ts assign v Hp) as HA. destruct (reference_new true (Some ts) assign (Some v)) as [rf|e] eqn:Er.
  - apply Hinst. apply HA. now exists rf.
  - destruct HE as [-> HE]. split; [reflexivity|]. intros q x H1 H2 E. apply HE. apply Hinst. now exists q, x.
Qed.

(** What is above something in the tree is in the tree. *)
Lemma in_parent cs kids q o : in_tree cs kids q o -> removelast q <> [] -> exists o', in_tree cs kids (removelast q) o'.
Proof.
  induction 1 as [| | |cs kids i n cs' id kids' q o H1 H2 H3 IH| |cs kids i n keys cs' es ks id ekids q o H1 H2 H4 H3 IH]; try (cbn; congruence).
  - intros _. destruct q as [|m q]; [inversion H3|]. cbn [removelast]. destruct q as [|m' q].
    + exists (PNode id). now apply (in_cont cs kids i n cs' id kids').
    + destruct IH as (o' & Ho'); [discriminate|]. exists o'. now apply (in_cont_below cs kids i n cs' id kids').
  - intros _. destruct q as [|m q]; [inversion H3|]. cbn [removelast]. destruct q as [|m' q].
    + exists (PNode id). now apply (in_entry cs kids i n keys cs' es ks id ekids).
    + destruct IH as (o' & Ho'); [discriminate|]. exists o'. now apply (in_entry_below cs kids i n keys cs' es ks id ekids).
Qed.
Section Tree.
Context (text : pyval -> str) (other : option pobj -> str) (uid : nat -> str) (Hu : fresh uid) (cs : list rschema) (os : list (list rstep * rop)) (Hm : module_ok cs) (Hos : Forall (tame cs) os).
Let wk := session uid cs os.
Context (cpath : list str) (c : place) (o : pobj) (Hc : in_tree cs (snd wk) c o) (Hcs : Forall2 spells cpath c).
Theorem leafref_current ref up path raw : (up <= length c)%nat -> path_parts ref = match up with 0%nat => [] :: path | _ => repeat (lit "..") up ++ path end ->
  Forall2 names path raw -> Forall (raw_ok (length c)) raw -> raw <> [] -> answered text cs (snd wk) c raw ->
  exists pattern, reads_as text cs (snd wk) c raw pattern /\ found_in cs (snd wk) (wanted c up pattern) (get_in (fun o => t_text (target_of text other false (fst wk) o)) cpath (path_parts ref) (w_help (fst wk))).
Proof.
  intros Hup Eref Hp Hr Hne Hans. set (txt := fun o => t_text (target_of text other false (fst wk) o)).
  destruct (session_ok uid Hu cs true os Hm Hos) as (M & I & Hf & HT). fold wk in I, Hf, HT. pose proof Hm as [Hd Hs]. destruct (in_place cs _ _ _ _ Hc [] [] (ctx_top cs) Hd Hs Hf) as (_ & _ & Hok). cbn [app] in Hok.
  assert (HM1 : forall q o, in_tree cs (snd wk) q o -> exists o', M q = Some o' /\ agrees o' o) by (intros q o0 H0; destruct (proj1 HT q o0 H0 ltac:(reflexivity)) as (o2 & E2 & Ha); cbn [app] in E2; now exists o2).
  assert (HM2 : forall q, q <> [] -> M q <> None -> exists o, in_tree cs (snd wk) q o) by (intros [|n q] Hq H0; [congruence|]; now apply (proj2 HT eq_refl n q)).
  assert (Hb : forall raw0 j ns q, asks raw0 j ns -> beside c j ns q -> q <> []). { intros raw0 j ns q (parts & Hpn & Hpp & _) (r & -> & Hrr) E. apply app_eq_nil in E as [_ ->]. subst ns. inversion Hpp; subst; congruence. }
  assert (Hpar : forall j, j <= length c -> j <= 1 \/ M (removelast c) <> None).
  { intros j Hj. destruct (le_lt_dec j 1) as [Hj0|Hj0]; [now left|right]. destruct (in_parent _ _ _ _ Hc) as (o' & Ho'); [rewrite (removelast_firstn_len c); intros E; apply (f_equal (@length _)) in E; rewrite firstn_length in E; cbn [length] in E; lia|].
    destruct (HM1 _ _ Ho') as (o2 & E2 & _). congruence. }
  assert (Hone : forall n kv j ns, In n raw -> In kv (snd n) -> j <= length c -> asks (snd kv) j ns -> exists q x, sibling cs (snd wk) c j ns q x /\ only M c j ns q /\ txt (M q) = text x /\ quotable (text x)).
  { intros n kv j ns H1 H2 Hj H3. destruct (Hans n kv j ns H1 H2 Hj H3) as (q & x & Hsib & Hq & Hst). pose proof Hsib as (S1 & S2 & S3). exists q, x. split; [assumption|]. destruct (HM1 q _ S2) as (o' & EM & Ha). split; [|split; [|assumption]].
    - split; [now apply Hpar|]. split; [assumption|]. split; [congruence|]. intros q' B' M'. destruct (HM2 q' (Hb _ _ _ _ H3 B') M') as (o'' & Ho''). now apply (S3 q' o'').
    - rewrite EM. unfold txt. destruct o' as [y| |]; cbn [agrees] in Ha; try discriminate. cbn [target_of t_text]. destruct Ha as [->|Ha]; [reflexivity|now apply Hst]. }
  assert (Hok' : answers_ok txt M c raw).
  { intros n kv j ns q H1 H2 Hj H3 B HMq. destruct (Hone n kv j ns H1 H2 Hj H3) as (q0 & x & _ & (_ & _ & _ & Ho) & Et & Hq). rewrite (Ho q B HMq), Et. exact Hq. }
  assert (Hun : ~ unanswered M c raw). { intros (n & kv & j & ns & H1 & H2 & Hj & H3 & Hno). destruct (Hone n kv j ns H1 H2 Hj H3) as (q & x & _ & Ho & _). now apply (Hno q). }
  assert (Hread : forall pat, means txt M c raw pat -> reads_as text cs (snd wk) c raw pat).
  { intros pat. assert (G : forall raw' pat', incl raw' raw -> means txt M c raw' pat' -> reads_as text cs (snd wk) c raw' pat').
    { intros raw' pat' Hi Hme. unfold means, reads_as in *. induction Hme as [|n m raw' pat' [E F] Hme IH]; [constructor|]. constructor; [|apply IH; intros x Hx; apply Hi; now right]. split; [assumption|].
      assert (Hn : In n raw) by (apply Hi; now left). assert (Hk : incl (snd n) (snd n)) by (intros x Hx; exact Hx). revert Hk F. generalize (snd n) at 1 3 4. generalize (snd m). intros d' d Hk F. clear E IH Hme.
      induction F as [|kv kv' d d' [E S] F IH]; constructor; [|apply IH; intros x Hx; apply Hk; now right]. split; [assumption|].
      inversion S as [v Hv E1 E2|rw j ns q Hj Ha Ho E1 E2].
      - left. split; [exact Hv|now rewrite E2].
      - right. destruct (Hone n kv j ns Hn (Hk kv (or_introl eq_refl)) Hj Ha) as (q0 & x & S0 & (_ & _ & _ & O3) & Et & _). destruct Ho as (_ & O1 & O2 & _). exists j, ns, q0, x. split; [assumption|]. split; [assumption|]. rewrite (O3 q O1 O2). exact Et. }
    intros Hme. apply (G raw pat); [|assumption]. intros x Hx. exact Hx. }
  assert (Eq : forall P Q r, (forall q, P q <-> Q q) -> found_in cs (snd wk) P r -> found_in cs (snd wk) Q r).
  { intros P Q r E (qs & os' & H1 & H2 & H3). exists qs, os'. split; [assumption|]. split; [|assumption]. intros q. now rewrite (H2 q), (E q). }
  rewrite Eref. destruct up as [|up].
  - destruct (current_search txt uid (keys_of cs) _ M I cpath c Hcs Hok path raw Hp Hr Hne Hok') as [(pat & Hme & _ & F)|(_ & _ & Hn)]; [|contradiction]. exists pat. split; [now apply Hread|]. apply (found_tree cs _ M); [assumption|cbn [wanted]; apply matching_nil; now apply (means_ne txt M c raw)|exact F].
  - destruct (current_relative txt uid (keys_of cs) _ M I cpath c Hcs Hok (S up) path raw ltac:(lia) Hp Hr Hne Hok') as [(pat & Hme & F)|(_ & Hn)]; [|contradiction]. exists pat. split; [now apply Hread|]. apply (found_tree cs _ M); [assumption| |].
    + cbn [wanted]. intros (r & E & Hmm). symmetry in E. apply app_eq_nil in E as [_ ->]. now apply (matching_nil pat (means_ne txt M c raw pat Hme Hne)).
    + destruct F as (qs & Hnd & Hin & E). exists qs. split; [assumption|]. split; [|assumption]. intros q. rewrite (Hin q). destruct (HM1 c o Hc) as (o2 & E2 & _). assert (M c <> None) by congruence. cbn [wanted]. tauto.
Qed.
Theorem leafref_current_leaves ref up path raw key : (up <= length c)%nat -> path_parts ref = match up with 0%nat => [] :: path | _ => repeat (lit "..") up ++ path end ->
  Forall2 names path raw -> Forall (raw_ok (length c)) raw -> raw <> [] -> answered text cs (snd wk) c raw ->
  exists pattern, reads_as text cs (snd wk) c raw pattern /\
  ((forall q t, in_tree cs (snd wk) q t -> wanted c up pattern q -> exists x, t = PLeaf x /\ forall y, py_eq y x = true -> text y = text x) ->
   (key = true \/ exists q1 q2 t1 t2, q1 <> q2 /\ in_tree cs (snd wk) q1 t1 /\ in_tree cs (snd wk) q2 t2 /\ wanted c up pattern q1 /\ wanted c up pattern q2) ->
   forall assign v,
   match leafref_in text other true key cpath ref (fst wk) assign v with
   | Ok _ => exists q x, in_tree cs (snd wk) q (PLeaf x) /\ wanted c up pattern q /\ text x = v
   | Raise e => e = ValueError /\ forall q x, in_tree cs (snd wk) q (PLeaf x) -> wanted c up pattern q -> text x <> v
   end).
Proof.
  intros Hup Eref Hp Hr Hne Hans. destruct (leafref_current ref up path raw Hup Eref Hp Hr Hne Hans) as (pat & Hrd & F). exists pat. split; [assumption|]. intros Hl Hk assign v. unfold leafref_in. now apply (leaves_at text other cs (snd wk) (fst wk) (wanted c up pat) key).
Qed.
End Tree.

(* ------------------------------------------------------------------ what is asked for is clear *)
Lemma part_name_det part n n' : part_name part n -> part_name part n' -> n = n'.
Proof.
  assert (H58 : forall s, xml_name s -> ~ In 58%N s) by (intros s Hs; apply xml_name_not; [assumption|cbn; tauto]).
  assert (X : forall a b p, xml_name a -> xml_name b -> a = p ++ lit ":" ++ b -> False) by (intros a b p Ha Hb ->; apply (H58 _ Ha); apply in_or_app; right; now left).
  intros [H1 [E1|(p & Hp & E1)]] [H2 [E2|(p' & Hp' & E2)]].
  - congruence.
  - exfalso. apply (X n n' p' H1 H2). congruence.
  - exfalso. apply (X n' n p H2 H1). congruence.
  - assert (E : split_on 58 (p ++ 58%N :: n) = split_on 58 (p' ++ 58%N :: n')) by (f_equal; change (p ++ lit ":" ++ n = p' ++ lit ":" ++ n'); congruence). rewrite !split_on_app, !split_on_no in E by (now apply H58). now injection E.
Qed.
Lemma asks_det raw j ns j' ns' : asks raw j ns -> asks raw j' ns' -> j = j' /\ ns = ns'.
Proof.
  intros (parts & Hne & Hp & E) (parts' & Hne' & Hp' & E'). rewrite E in E'. apply app_inv_head in E'.
  assert (Hno : forall j parts ns, Forall2 part_name parts ns -> Forall (fun w => ~ In 47%N w) (repeat (lit "..") j ++ parts)).
  { clear. intros j parts ns Hp. apply Forall_app. split.
    - apply Forall_forall. intros w Hw. apply repeat_spec in Hw. subst w. cbn. intuition discriminate.
    - induction Hp as [|p n parts ns H1 H2 IH]; constructor; [|assumption]. intros Hi. pose proof (part_chars p n _ H1 Hi) as X. unfold letter in X. lia. }
  assert (Hnn : forall (j : nat) (parts : list str), parts <> [] -> repeat (lit "..") j ++ parts <> []) by (intros [|i] ps H; [exact H|discriminate]).
  apply (f_equal (split_on 47)) in E'. change (lit "/") with [47%N] in E'. rewrite !split_join in E' by (first [now apply Hnn|eapply Hno; eassumption]). clear E Hno Hnn raw.
  revert j' E'. induction j as [|j IH]; intros [|j'] E'; cbn [repeat app] in E'.
  - split; [reflexivity|]. subst parts'. clear Hne Hne'. revert ns' Hp'. induction Hp as [|p n parts ns Hp H IH]; intros ns' Hp'; inversion Hp' as [|? n' ? ns'' Hp2 H2]; subst; [reflexivity|]. f_equal; [now apply (part_name_det p)|now apply IH].
  - exfalso. subst parts. inversion Hp as [|? n ? ? Hx _]; subst. now apply (part_name_dots _ _ Hx).
  - exfalso. subst parts'. inversion Hp' as [|? n ? ? Hx _]; subst. now apply (part_name_dots _ _ Hx).
  - injection E' as E'. destruct (IH j' E') as [-> ->]. now split.
Qed.
