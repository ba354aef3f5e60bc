(** Proofs about paths and the methods attached by path. *)
From Verif Require Import PyStr PyStr_facts PyVal Spec_Path RegTree Spec_RegTree Paths Spec_Paths.
From Coq Require Import Lia.

(* ------------------------------------------------------------------ paths tell objects apart *)
Lemma yang_path_concat a : a <> [] -> yang_path a = concat (map (fun n => lit "/" ++ n) a).
Proof.
  unfold yang_path. induction a as [|x a IH]; [easy|]. intros _. destruct a as [|y a]; [cbn; now rewrite app_nil_r|].
  change (lit "/" ++ x ++ lit "/" ++ join (lit "/") (y :: a) = lit "/" ++ x ++ concat (map (fun n => lit "/" ++ n) (y :: a))). now rewrite IH.
Qed.
Lemma path_from_app N : forall p path cs, (length p <= N)%nat -> path_from path cs p = option_map (app path) (path_from [] cs p).
Proof.
  induction N; intros p path cs H.
  - destruct p; [|cbn in H; lia]. cbn. now rewrite app_nil_r.
  - destruct p as [|[i|ks] p']; [cbn; now rewrite app_nil_r| |reflexivity]. cbn [path_from]. destruct (nth_error cs i) as [s|]; [|reflexivity].
    destruct p' as [|[j|ks] p'']; [reflexivity| |]; cbn in H.
    + destruct s as [| |n cs'|]; try reflexivity. rewrite (IHN (Kid j :: p'') (path ++ [n])), (IHN (Kid j :: p'') ([] ++ [n])) by (cbn; lia).
      destruct (path_from [] cs' (Kid j :: p'')); cbn; [now rewrite <- app_assoc|reflexivity].
    + destruct s as [| | |n keys cs']; try reflexivity. rewrite (IHN p'' (path ++ _)), (IHN p'' ([] ++ _)) by lia.
      destruct (path_from [] cs' p''); cbn; [now rewrite <- app_assoc|reflexivity].
Qed.
(** One step of a path. *)
Lemma path_kid cs i p' a : path_of cs (Kid i :: p') = Some a -> exists s, nth_error cs i = Some s /\
  match p' with
  | [] => a = [r_name s]
  | Ent ks :: p'' => exists n keys cs' a', s = RList n keys cs' /\ path_of cs' p'' = Some a' /\ a = entry_part n keys ks :: a'
  | Kid _ :: _ => exists n cs' a', s = RCont n cs' /\ path_of cs' p' = Some a' /\ a = n :: a'
  end.
Proof.
  unfold path_of. cbn [path_from]. destruct (nth_error cs i) as [s|]; [|easy]. intros H. exists s. split; [reflexivity|].
  destruct p' as [|[j|ks] p'']; [cbn in H; congruence| |]; destruct s; try easy.
  - rewrite (path_from_app _ _ _ _ (le_n _)) in H. destruct (path_from [] _ _) eqn:E; [|easy]. injection H as <-. do 3 eexists. split; [reflexivity|]. split; [exact E|reflexivity].
  - rewrite (path_from_app _ _ _ _ (le_n _)) in H. destruct (path_from [] _ _) eqn:E; [|easy]. injection H as <-. do 4 eexists. split; [reflexivity|]. split; [exact E|reflexivity].
Qed.
Lemma name_no n c : xml_name n -> In c n -> c <> 47%N /\ c <> 91%N.
Proof.
  intros (c0 & r & -> & Hl & Hr) [<-|H]; [unfold letter in Hl; lia|]. rewrite Forall_forall in Hr. specialize (Hr _ H). unfold letter in Hr. lia.
Qed.
Definition opens (r : str) : Prop := r = [] \/ exists c r', r = c :: r' /\ (c = 47%N \/ c = 91%N).
Lemma name_split n : forall m r r', (forall c, In c n -> c <> 47%N /\ c <> 91%N) -> (forall c, In c m -> c <> 47%N /\ c <> 91%N) -> opens r -> opens r' ->
  n ++ r = m ++ r' -> n = m /\ r = r'.
Proof.
  induction n as [|x n IH]; intros [|y m] r r' Hn Hm Hr Hr' E.
  - now split.
  - exfalso. cbn in E. subst r. destruct Hr as [Hr|(c & r1 & Hr & Hc)]; [easy|]. injection Hr as E1 E2. destruct (Hm c); [left; congruence|tauto].
  - exfalso. cbn in E. subst r'. destruct Hr' as [Hx|(c & r1 & Hx & Hc)]; [easy|]. injection Hx as E1 E2. destruct (Hn c); [left; congruence|tauto].
  - injection E as -> E. destruct (IH m r r') as [E1 E2]; auto; [intros c Hc; apply Hn; now right|intros c Hc; apply Hm; now right|]. split; [now f_equal|assumption].
Qed.
Lemma quote_split v : forall w r r', ~ In 39%N v -> ~ In 39%N w -> v ++ 39%N :: r = w ++ 39%N :: r' -> v = w /\ r = r'.
Proof.
  induction v as [|x v IH]; intros [|y w] r r' Hv Hw E.
  - injection E as ->. now split.
  - injection E as <- _. destruct Hw. now left.
  - injection E as -> _. destruct Hv. now left.
  - injection E as -> E. destruct (IH w r r') as [E1 E2]; auto; [intros H; apply Hv; now right|intros H; apply Hw; now right|]. split; [now f_equal|assumption].
Qed.
Lemma preds_split keys : forall ks ks' r r', length ks = length keys -> length ks' = length keys ->
  Forall (fun v => ~ In 39%N v) ks -> Forall (fun v => ~ In 39%N v) ks' ->
  join (lit " ") (map quoted (combine keys ks)) ++ 93%N :: r = join (lit " ") (map quoted (combine keys ks')) ++ 93%N :: r' -> ks = ks' /\ r = r'.
Proof.
  induction keys as [|k keys IH]; intros [|v ks] [|w ks'] r r' Hl Hl' Hq Hq' E; try discriminate.
  - injection E as ->. now split.
  - apply Forall_cons_iff in Hq, Hq'. destruct Hq as [Hv Hq], Hq' as [Hw Hq'].
    assert (F : forall v (ks : list str) r, join (lit " ") (map quoted (combine (k :: keys) (v :: ks))) ++ r =
                (k ++ lit "='") ++ v ++ 39%N :: match combine keys ks with [] => r | _ => 32%N :: join (lit " ") (map quoted (combine keys ks)) ++ r end).
    { intros v0 ks0 r0. cbn [combine map]. destruct (combine keys ks0) as [|kv l] eqn:El; unfold quoted; cbn [map join fst snd].
      - rewrite <- !app_assoc. reflexivity.
      - change (lit " " ++ join (lit " ") (map quoted (kv :: l))) with (32%N :: join (lit " ") (map quoted (kv :: l))). rewrite <- !app_assoc. reflexivity. }
    rewrite !F in E. apply app_inv_head in E. apply quote_split in E as [-> E]; [|assumption|assumption].
    destruct keys as [|k2 keys2].
    + destruct ks, ks'; try discriminate. cbn in E. injection E as ->. now split.
    + destruct ks as [|v2 ks2]; [discriminate|]. destruct ks' as [|w2 ks2']; [discriminate|]. cbn [combine] in E. injection E as E.
      destruct (IH (v2 :: ks2) (w2 :: ks2') r r') as [-> ->]; auto.
Qed.
Lemma names_apart cs i j s t : NoDup (map r_name cs) -> nth_error cs i = Some s -> nth_error cs j = Some t -> r_name s = r_name t -> i = j.
Proof.
  intros Hd Hi Hj E. rewrite NoDup_nth_error in Hd. apply Hd.
  - apply nth_error_Some. rewrite nth_error_map, Hi. discriminate.
  - rewrite !nth_error_map, Hi, Hj. cbn. now rewrite E.
Qed.
Lemma ok_name s : schema_ok s -> xml_name (r_name s).
Proof. now destruct 1. Qed.
Notation cat a := (concat (map (fun n : str => lit "/" ++ n) a)).
Lemma opens_cat a : opens (cat a).
Proof. destruct a as [|x a]; [now left|]. right. exists 47%N, (x ++ cat a). split; [reflexivity|now left]. Qed.
Lemma path_some cs p a : path_of cs p = Some a -> p <> [] -> a <> [].
Proof.
  destruct p as [|[i|ks] p']; [easy| |easy]. intros H _. apply path_kid in H as (s & _ & H). destruct p' as [|[j|ks] p''].
  - subst a. easy.
  - destruct H as (n & cs' & a' & _ & _ & ->). easy.
  - destruct H as (n & keys & cs' & a' & _ & _ & ->). easy.
Qed.
Lemma paths_apart N : forall cs p q a b, (length p <= N)%nat -> module_ok cs -> keys_quoted cs p -> keys_quoted cs q ->
  path_of cs p = Some a -> path_of cs q = Some b -> cat a = cat b -> p = q.
Proof.
  induction N; intros cs p q a b Hl Hm Hp Hq Ha Hb E.
  { destruct p; [|cbn in Hl; lia]. destruct q; [reflexivity|]. cbn in Ha. injection Ha as <-.
    apply path_some in Hb; [|easy]. destruct b; [easy|discriminate]. }
  destruct p as [|[i|ks] p']; [| |discriminate].
  { destruct q; [reflexivity|]. cbn in Ha. injection Ha as <-. apply path_some in Hb; [|easy]. destruct b; [easy|discriminate]. }
  destruct q as [|[j|ks] q']; [| |discriminate].
  { cbn in Hb. injection Hb as <-. apply path_some in Ha; [|easy]. destruct a; [easy|discriminate]. }
  destruct Hm as [Hd Ho]. apply path_kid in Ha as (s & Hs & Ha). apply path_kid in Hb as (t & Ht & Hb).
  pose proof (Ho s (nth_error_In _ _ Hs)) as Hso. pose proof (Ho t (nth_error_In _ _ Ht)) as Hto.
  assert (F : forall s p' (a : list str), schema_ok s -> match p' with
            | [] => a = [r_name s]
            | Ent ks :: p'' => exists n keys cs' a', s = RList n keys cs' /\ path_of cs' p'' = Some a' /\ a = entry_part n keys ks :: a'
            | Kid _ :: _ => exists n cs' a', s = RCont n cs' /\ path_of cs' p' = Some a' /\ a = n :: a'
            end -> exists r, cat a = 47%N :: r_name s ++ r /\ opens r).
  { clear. intros s p' a Ho H. destruct p' as [|[j|ks] p''].
    - subst a. exists []. cbn [map concat]. now split; [rewrite !app_nil_r|left].
    - destruct H as (n & cs' & a' & -> & _ & ->). exists (cat a'). split; [reflexivity|apply opens_cat].
    - destruct H as (n & keys & cs' & a' & -> & _ & ->). inversion Ho; subst. destruct keys as [|k keys]; [easy|].
      exists (key_part (k :: keys) ks ++ cat a'). split; [|right; exists 91%N; eexists; split; [reflexivity|now right]].
      unfold entry_part. cbn [map concat]. rewrite <- !app_assoc. reflexivity. }
  destruct (F _ _ _ Hso Ha) as (r & Er & Or). destruct (F _ _ _ Hto Hb) as (r' & Er' & Or'). pose proof E as E0. rewrite Er, Er' in E0. injection E0 as E0.
  apply name_split in E0 as [En <-]; [|intros c Hc; exact (name_no _ _ (ok_name _ Hso) Hc)|intros c Hc; exact (name_no _ _ (ok_name _ Hto) Hc)|assumption|assumption].
  clear F. assert (i = j) as <- by (apply (names_apart cs i j s t); assumption). rewrite Hs in Ht. injection Ht as <-.
  cbn [keys_quoted] in Hp, Hq. rewrite Hs in Hp, Hq.
  destruct p' as [|[k|ks] p''], q' as [|[k'|ks'] q''].
  - reflexivity.
  - destruct Hb as (n & cs' & a' & -> & Hb & ->). subst a. apply path_some in Hb; [|easy]. destruct a'; [easy|]. cbn [map concat r_name] in E. exfalso.
    apply app_inv_head in E. discriminate.
  - destruct Hb as (n & keys & cs' & a' & -> & Hb & ->). subst a. inversion Hso; subst. destruct keys as [|k keys]; [easy|]. cbn [map concat r_name] in E. exfalso.
    unfold entry_part, key_part in E. rewrite <- !app_assoc in E. do 2 apply app_inv_head in E. discriminate.
  - destruct Ha as (n & cs' & a' & -> & Ha & ->). subst b. apply path_some in Ha; [|easy]. destruct a'; [easy|]. cbn [map concat r_name] in E. exfalso.
    apply app_inv_head in E. discriminate.
  - destruct Ha as (n & cs' & a' & -> & Ha & ->). destruct Hb as (n' & cs2 & b' & [= <- <-] & Hb & ->). f_equal.
    inversion Hso; subst. apply (IHN cs' _ _ a' b'); [cbn in Hl |- *; lia|split; assumption|assumption|assumption|assumption|assumption|].
    cbn [map concat] in E. now apply app_inv_head in E.
  - destruct Ha as (n & cs' & a' & -> & _). destruct Hb as (n' & keys & cs2 & b' & [=] & _).
  - destruct Ha as (n & keys & cs' & a' & -> & Ha & ->). subst b. inversion Hso; subst. destruct keys as [|k keys]; [easy|]. cbn [map concat r_name] in E. exfalso.
    unfold entry_part, key_part in E. rewrite <- !app_assoc in E. do 2 apply app_inv_head in E. discriminate.
  - destruct Ha as (n & keys & cs' & a' & -> & _). destruct Hb as (n' & cs2 & b' & [=] & _).
  - destruct Ha as (n & keys & cs' & a' & -> & Ha & ->). destruct Hb as (n' & keys' & cs2 & b' & [= <- <- <-] & Hb & ->).
    destruct Hp as (L1 & Q1 & Hp). destruct Hq as (L2 & Q2 & Hq). inversion Hso; subst. destruct keys as [|k keys]; [easy|].
    unfold entry_part, key_part in E. cbn [map concat] in E. rewrite <- !app_assoc in E. do 3 apply app_inv_head in E.
    apply (preds_split (k :: keys) ks ks' (cat a') (cat b')) in E as [-> E]; [|assumption|assumption|assumption|assumption].
    f_equal. f_equal. apply (IHN cs' _ _ a' b'); [cbn in Hl |- *; lia|split; assumption|assumption|assumption|assumption|assumption|assumption].
Qed.
Lemma not_root cs q b : module_ok cs -> b <> [] -> path_of cs q = Some b -> yang_path [] <> yang_path b.
Proof.
  intros Hm Hne Hb E. destruct q as [|[j|ks] q']; [cbn in Hb; congruence| |discriminate]. apply path_kid in Hb as (s & Hs & Hb).
  assert (Hn : xml_name (r_name s)) by (apply ok_name; destruct Hm as [_ Ho]; apply Ho; now apply nth_error_In in Hs).
  destruct Hn as (c & r & En & _). rewrite (yang_path_concat b) in E by exact Hne. unfold yang_path in E.
  destruct q' as [|[k|ks] q''].
  - subst b. cbn [map concat join] in E. rewrite <- app_assoc in E. apply app_inv_head in E. rewrite En in E. discriminate.
  - destruct Hb as (n & cs' & a' & -> & _ & ->). cbn in En. cbn [map concat join] in E. rewrite <- app_assoc in E. apply app_inv_head in E. rewrite En in E. discriminate.
  - destruct Hb as (n & keys & cs' & a' & -> & _ & ->). cbn in En. cbn [map concat join] in E. rewrite <- app_assoc in E. apply app_inv_head in E.
    unfold entry_part in E. rewrite En in E. destruct keys; discriminate.
Qed.
Theorem paths_identify cs p q a b : module_ok cs -> keys_quoted cs p -> keys_quoted cs q -> path_of cs p = Some a -> path_of cs q = Some b ->
  a = b \/ yang_path a = yang_path b -> p = q.
Proof.
  intros Hm Hp Hq Ha Hb E. apply (paths_apart _ cs p q a b (le_n _)); try assumption. destruct E as [->|E]; [reflexivity|].
  destruct a as [|x a], b as [|y b]; [reflexivity| | |].
  - destruct (not_root cs q (y :: b)); easy.
  - destruct (not_root cs p (x :: a)); easy.
  - rewrite !yang_path_concat in E by easy. exact E.
Qed.
(** Objects of a tree have a path. *)
Lemma reaches_path cs kids p : reaches cs kids p -> exists a, path_of cs p = Some a.
Proof.
  unfold path_of. induction 1.
  - cbn. rewrite H. eauto.
  - cbn. rewrite H. eauto.
  - destruct IHreaches as [a Ea]. exists ([n] ++ a).
    transitivity (match nth_error cs i with Some (RCont n0 cs0) => path_from ([] ++ [n0]) cs0 (Kid j :: p) | _ => None end); [cbn; destruct (nth_error cs i) as [[]|]; reflexivity|].
    now rewrite H, (path_from_app _ _ _ _ (le_n _)), Ea.
  - destruct IHreaches as [a Ea]. exists ([entry_part n keys ks] ++ a).
    transitivity (match nth_error cs i with Some (RList n0 keys0 cs0) => path_from ([] ++ [entry_part n0 keys0 ks]) cs0 (Kid j :: p) | _ => None end);
      [cbn; destruct (nth_error cs i) as [[]|]; reflexivity|].
    now rewrite H, (path_from_app _ _ _ _ (le_n _)), Ea.
Qed.

(* ------------------------------------------------------------------ methods go by schema path *)
Lemma existsb_no i : ~ In 91%N i -> existsb (N.eqb 91) i = false.
Proof.
  intros H. destruct (existsb (N.eqb 91) i) eqn:E; [|reflexivity]. apply existsb_exists in E as (x & Hx & E). apply N.eqb_eq in E. now subst x.
Qed.
Lemma rpa_name n : xml_name n -> remove_path_attributes [n] = [n].
Proof. intros H. unfold remove_path_attributes. cbn [map]. rewrite existsb_no; [reflexivity|]. intros Hi. destruct (name_no _ _ H Hi). easy. Qed.
Lemma rpa_entry n keys ks : xml_name n -> remove_path_attributes [entry_part n keys ks] = [n].
Proof.
  intros H. destruct keys as [|k keys]; [now apply rpa_name|]. unfold remove_path_attributes, entry_part, key_part. cbn [map].
  rewrite existsb_app. cbn [existsb app]. replace (existsb (N.eqb 91) (lit "[" ++ _)) with true by reflexivity. rewrite Bool.orb_true_r.
  change (lit "[" ++ ?r) with (91%N :: r). rewrite split_on_app; [reflexivity|]. intros Hi. destruct (name_no _ _ H Hi). easy.
Qed.
Lemma rpa_app a b : remove_path_attributes (a ++ b) = remove_path_attributes a ++ remove_path_attributes b.
Proof. apply map_app. Qed.
Lemma named_name s : yang_named s -> xml_name (r_name s).
Proof. now destruct 1. Qed.
Section Ext.
Context (leaf_attrs : str -> list str * list str).
Lemma node_names N : forall p path cs ns, (length p <= N)%nat -> (forall s, In s cs -> yang_named s) -> names_at cs p = Some ns ->
  exists c cp op, node_from leaf_attrs path cs p = Some (c, cp, op) /\ path_from path cs p = Some op /\ ns <> [] /\
    remove_path_attributes cp = remove_path_attributes path ++ ns /\ remove_path_attributes op = remove_path_attributes path ++ ns.
Proof.
  induction N; intros p path cs ns Hl Hn H.
  { destruct p; [discriminate|cbn in Hl; lia]. }
  destruct p as [|[i|ks] p']; [discriminate| |discriminate]. cbn [names_at] in H. cbn [node_from path_from].
  destruct (nth_error cs i) as [s|] eqn:Es; [|discriminate]. pose proof (Hn s (nth_error_In _ _ Es)) as Hs.
  destruct p' as [|[j|ks] p''].
  - assert (ns = [r_name s]) as -> by (destruct s; congruence). do 3 eexists. split; [reflexivity|]. split; [reflexivity|]. split; [discriminate|].
    rewrite !rpa_app, rpa_name by now apply named_name. now split.
  - destruct s as [| |n cs'|]; try discriminate. destruct (names_at cs' (Kid j :: p'')) as [ns'|] eqn:En; [|discriminate]. injection H as <-. inversion Hs; subst.
    destruct (IHN (Kid j :: p'') (path ++ [n]) cs' ns') as (c & cp & op & E1 & E2 & _ & E3 & E4); [cbn in Hl |- *; lia|assumption|assumption|].
    exists c, cp, op. split; [exact E1|]. split; [exact E2|]. split; [discriminate|]. rewrite E3, E4, rpa_app, rpa_name, <- app_assoc by assumption. now split.
  - destruct s as [| | |n keys cs']; try (destruct p''; discriminate). inversion Hs; subst. destruct p'' as [|st p3].
    + injection H as <-. do 3 eexists. split; [reflexivity|]. split; [reflexivity|]. split; [discriminate|]. rewrite !rpa_app, rpa_name, rpa_entry by assumption. now split.
    + destruct (names_at cs' (st :: p3)) as [ns'|] eqn:En; [|discriminate]. injection H as <-.
      destruct (IHN (st :: p3) (path ++ [entry_part n keys ks]) cs' ns') as (c & cp & op & E1 & E2 & _ & E3 & E4); [cbn in Hl |- *; lia|assumption|assumption|].
      exists c, cp, op. split; [exact E1|]. split; [exact E2|]. split; [discriminate|]. rewrite E3, E4, rpa_app, rpa_entry, <- app_assoc by assumption. now split.
Qed.
Lemma schema_path_join ns : ns <> [] -> lit "/" ++ join (lit "/") ns = schema_path ns.
Proof. exact (yang_path_concat ns). Qed.
Lemma node_chk cs p ns : (forall s, In s cs -> yang_named s) -> names_at cs p = Some ns ->
  exists c cp op, node_from leaf_attrs [] cs p = Some (c, cp, op) /\ path_of cs p = Some op /\ chk_path cp = schema_path ns /\ chk_path op = schema_path ns.
Proof.
  intros Hn H. destruct (node_names _ p [] cs ns (le_n _) Hn H) as (c & cp & op & E1 & E2 & Hne & E3 & E4). exists c, cp, op. split; [exact E1|]. split; [exact E2|].
  unfold chk_path. cbn in E3, E4. rewrite E3, E4, schema_path_join by exact Hne. now split.
Qed.
Lemma has_in n l : has n l = true <-> In n l.
Proof.
  unfold has. rewrite existsb_exists. split; [intros (x & H & E); apply str_eqb_eq in E; now subst x|]. intros H. exists n. split; [exact H|apply str_eqb_refl].
Qed.
Lemma ext_get_in x p l : NoDup (map fst x) -> (ext_get p x = Some l <-> In (p, l) x).
Proof.
  induction x as [|[q l'] x IH]; [cbn; split; easy|]. intros Hd. cbn in Hd. apply NoDup_cons_iff in Hd as [Hq Hd]. cbn [ext_get].
  destruct (str_eqb_spec p q) as [->|Hne].
  - split; [intros [= ->]; now left|]. intros [[= ->]|H]; [reflexivity|]. destruct Hq. now apply (in_map fst) in H.
  - rewrite IH by exact Hd. split; [now right|]. intros [[= -> ->]|H]; [easy|exact H].
Qed.
Lemma ext_get_none x p : (forall l, ~ In (p, l) x) -> ext_get p x = None.
Proof.
  induction x as [|[q l'] x IH]; [easy|]. intros H. cbn. destruct (str_eqb_spec p q) as [->|Hne]; [destruct (H l'); now left|]. apply IH. intros l Hl. apply (H l). now right.
Qed.
Lemma ext_slots_get x cp l : ext_get (chk_path cp) x = Some l -> ext_slots x cp = map (fun m => under (fst m)) (public l).
Proof. unfold ext_slots. destruct x; [discriminate|]. now intros ->. Qed.
Lemma ext_slots_none x cp : ext_get (chk_path cp) x = None -> ext_slots x cp = [].
Proof. unfold ext_slots. destruct x; [reflexivity|]. now intros ->. Qed.
(** Where nothing is offered, nothing is attached and nothing changes. *)
Theorem elsewhere x cs p ns : (forall s, In s cs -> yang_named s) -> names_at cs p = Some ns -> (forall l, ~ In (schema_path ns, l) x) ->
  node_methods leaf_attrs x cs p = Some (Ok []) /\ forall n, node_attr leaf_attrs x cs p n = node_attr leaf_attrs [] cs p n.
Proof.
  intros Hn H Hx. destruct (node_chk cs p ns Hn H) as (c & cp & op & E1 & _ & C1 & C2). unfold node_methods, node_attr. rewrite E1.
  apply ext_get_none in Hx. assert (S : ext_slots x cp = []) by (apply ext_slots_none; now rewrite C1).
  assert (E : construct_ext c x cp op = Ok []).
  { unfold construct_ext. rewrite S. cbn [existsb]. rewrite Bool.andb_false_r. destruct x; [reflexivity|]. now rewrite C2, Hx. }
  rewrite E. split; [reflexivity|]. intros n. unfold construct_ext at 1. cbn [ext_slots existsb]. rewrite Bool.andb_false_r. unfold attribute. now rewrite S.
Qed.

Lemma attach_in c slots l : forall done n, In n (attach c slots l done) -> In n done \/ exists m, In (m, true) l /\ n = under m.
Proof.
  induction l as [|[m b] l IH]; intros done n H; [now left|]. cbn [attach] in H.
  assert (R : forall done', In n (attach c slots l done') -> (In n done' -> In n done \/ exists m0, In (m0, true) ((m, b) :: l) /\ n = under m0) ->
            In n done \/ exists m0, In (m0, true) ((m, b) :: l) /\ n = under m0).
  { intros d' H1 H2. apply IH in H1 as [H1|(m0 & H1 & ->)]; [now apply H2|]. right. exists m0. split; [now right|reflexivity]. }
  destruct (has_attr c slots done (under m)); [apply (R done H); now left|].
  destruct (b && negb (has_attr c slots done (lit "_method"))) eqn:E; [|apply (R done H); now left].
  apply (R _ H). intros H1. apply in_app_or in H1 as [H1|[<-|[]]]; [now left|]. apply andb_prop in E as [-> _]. right. exists m. split; [now left|reflexivity].
Qed.
Lemma attach_keeps c slots l : forall done n, In n done -> In n (attach c slots l done).
Proof.
  induction l as [|[m b] l IH]; intros done n H; [exact H|]. cbn [attach]. destruct (has_attr c slots done (under m)); [now apply IH|].
  destruct (b && _); apply IH; [apply in_or_app; now left|exact H].
Qed.
Lemma has_attr_done c slots done n : has_attr c slots done n = has_attr c slots [] n || has n done.
Proof. unfold has_attr. cbn [has existsb]. rewrite Bool.orb_false_r. destruct (has n early_names), (has n body_names), (has n done), (has n (c_base c) && _); reflexivity. Qed.
Lemma has_attr_fewer c slots n : has_attr c slots [] n = true -> has_attr c [] [] n = true.
Proof.
  unfold has_attr. cbn [has existsb]. destruct (has n early_names), (has n body_names); try reflexivity. cbn [orb]. destruct (has n (c_base c)); [|easy]. intros _. cbn. now rewrite Bool.andb_false_r.
Qed.
Lemma under_inj a b : under a = under b -> a = b.
Proof. apply app_inv_head. Qed.
Lemma attach_all c slots l : (forall m b, In (m, b) l -> has_attr c slots [] (under m) = false /\ m <> lit "method") -> has_attr c slots [] (lit "_method") = false ->
  forall done, (forall n, In n done -> n <> lit "_method") -> forall m, In (m, true) l -> In (under m) (attach c slots l done).
Proof.
  intros Hl Hm. induction l as [|[m0 b] l IH]; intros done Hd m H; [easy|]. cbn [attach].
  assert (Q : has_attr c slots done (lit "_method") = false).
  { rewrite has_attr_done, Hm. destruct (has (lit "_method") done) eqn:E; [|reflexivity]. apply has_in in E. now apply Hd in E. }
  assert (Hl' : forall m b, In (m, b) l -> has_attr c slots [] (under m) = false /\ m <> lit "method") by (intros m1 b1 H1; apply (Hl m1 b1); now right).
  destruct (has_attr c slots done (under m0)) eqn:E.
  - destruct H as [[= -> ->]|H]; [|now apply IH]. apply attach_keeps. rewrite has_attr_done in E. destruct (Hl m true (or_introl eq_refl)) as [E1 _]. rewrite E1 in E.
    now apply has_in.
  - rewrite Q. cbn [negb]. destruct H as [[= -> ->]|H].
    + cbn [andb]. apply attach_keeps. apply in_or_app. right. now left.
    + destruct b; cbn [andb]; apply IH; try assumption. intros n Hn. apply in_app_or in Hn as [Hn|[<-|[]]]; [now apply Hd|].
      intros E1. destruct (Hl m0 true (or_introl eq_refl)) as [_ E2]. apply E2. now apply under_inj.
Qed.
Lemma public_in m b l : In (m, b) (public l) <-> In (m, b) l /\ ~ (exists r, m = lit "_" ++ r).
Proof.
  unfold public. rewrite filter_In. cbn [fst]. split.
  - intros [H E]. split; [exact H|]. intros Hr. apply startswith_iff in Hr. now rewrite Hr in E.
  - intros [H E]. split; [exact H|]. destruct (startswith (lit "_") m) eqn:S; [|reflexivity]. apply startswith_iff in S. easy.
Qed.
Lemma offers_get x ns l m b : NoDup (map fst x) -> ext_get (schema_path ns) x = Some l -> (offers x ns m b <-> In (m, b) (public l)).
Proof.
  intros Hd E. rewrite public_in. unfold offers. split.
  - intros (l' & Hl & H). apply ext_get_in in Hl; [|exact Hd]. rewrite Hl in E. now injection E as <-.
  - intros H. exists l. split; [now apply ext_get_in|exact H].
Qed.
Lemma attr_none c n : attribute c [] [] [] n = ANone -> has n (c_late c) = false /\ has_attr c [] [] n = false.
Proof.
  unfold attribute. change (has n []) with false. change (ext_slots [] []) with (@nil str). destruct (has n (c_late c)); [discriminate|].
  destruct (has_attr c [] [] n); [discriminate|]. now split.
Qed.
Lemma attribute_nil c cp n : attribute c [] cp [] n = attribute c [] [] [] n.
Proof. reflexivity. Qed.
Lemma node_attr_nil cs p c cp op n : node_from leaf_attrs [] cs p = Some (c, cp, op) -> node_attr leaf_attrs [] cs p n = Some (attribute c [] [] [] n).
Proof. intros E. unfold node_attr. rewrite E. unfold construct_ext. cbn [ext_slots existsb]. now rewrite Bool.andb_false_r. Qed.

(** All the public methods are attached, and nothing else changes, if their names are free. *)
Theorem attached x cs p ns : (forall s, In s cs -> yang_named s) -> names_at cs p = Some ns -> NoDup (map fst x) ->
  (forall m b, offers x ns m b -> m <> lit "method" /\ node_attr leaf_attrs [] cs p (under m) = Some ANone) ->
  node_attr leaf_attrs [] cs p (lit "_method") = Some ANone ->
  forall n, (node_attr leaf_attrs x cs p n = Some AExt <-> exists m, n = under m /\ offers x ns m true) /\
    ((forall m, n = under m -> ~ offers x ns m true) -> node_attr leaf_attrs x cs p n = node_attr leaf_attrs [] cs p n).
Proof.
  intros Hn H Hd Ho Hme n. destruct (ext_get (schema_path ns) x) as [l|] eqn:El.
  2: { destruct (elsewhere x cs p ns Hn H) as [_ Ee]; [intros l Hl; apply ext_get_in in Hl; [congruence|exact Hd]|]. rewrite Ee. split; [|reflexivity]. split.
       - destruct (node_chk cs p ns Hn H) as (c & cp & op & E1 & _). rewrite (node_attr_nil _ _ _ _ _ _ E1). unfold attribute. change (has n []) with false.
         destruct (has n (c_late c)); [discriminate|]. destruct (has_attr c _ [] n); discriminate.
       - intros (m & _ & l & Hl & _). apply ext_get_in in Hl; [congruence|exact Hd]. }
  destruct (node_chk cs p ns Hn H) as (c & cp & op & E1 & _ & C1 & C2). rewrite (node_attr_nil _ _ _ _ _ _ E1). rewrite (node_attr_nil _ _ _ _ _ _ E1) in Hme.
  assert (Hf : forall m b, In (m, b) (public l) -> m <> lit "method" /\ has (under m) (c_late c) = false /\ has_attr c [] [] (under m) = false).
  { intros m b Hm. apply (offers_get x ns l m b Hd El) in Hm. destruct (Ho m b Hm) as [E2 E3]. split; [exact E2|]. rewrite (node_attr_nil _ _ _ _ _ _ E1) in E3. injection E3 as E3. now apply attr_none. }
  assert (S : ext_slots x cp = map (fun m => under (fst m)) (public l)) by (apply ext_slots_get; now rewrite C1).
  assert (Hfew : forall n, has_attr c [] [] n = false -> has_attr c (ext_slots x cp) [] n = false).
  { intros n0 E. destruct (has_attr c (ext_slots x cp) [] n0) eqn:E2; [|reflexivity]. apply has_attr_fewer in E2. congruence. }
  assert (Ec : construct_ext c x cp op = Ok (attach c (ext_slots x cp) (public l) [])).
  { unfold construct_ext. replace (existsb (fun n0 => has n0 body_names) (ext_slots x cp)) with false.
    - rewrite Bool.andb_false_r. destruct x; [discriminate|]. now rewrite C2, El.
    - symmetry. destruct (existsb _ (ext_slots x cp)) eqn:E; [|reflexivity]. apply existsb_exists in E as (n0 & Hi & Hb). rewrite S in Hi. apply in_map_iff in Hi as ([m b] & <- & Hi).
      destruct (Hf m b Hi) as (_ & _ & E). unfold has_attr in E. cbn [fst] in Hb. rewrite Hb in E. rewrite Bool.orb_true_r in E. discriminate. }
  unfold node_attr. rewrite E1, Ec. injection Hme as Hme. apply attr_none in Hme as [_ Hme]. apply Hfew in Hme.
  assert (Hin : forall m, In (under m) (attach c (ext_slots x cp) (public l) []) <-> In (m, true) (public l)).
  { intros m. split.
    - intros Hi. apply attach_in in Hi as [[]|(m' & Hi & E)]. now apply under_inj in E as <-.
    - intros Hi. apply attach_all; try assumption; [|easy]. intros m' b Hm'. destruct (Hf m' b Hm') as (E2 & _ & E3). split; [now apply Hfew|exact E2]. }
  assert (Hat : In n (attach c (ext_slots x cp) (public l) []) <-> exists m, n = under m /\ offers x ns m true).
  { split.
    - intros Hi. pose proof Hi as Hi2. apply attach_in in Hi as [[]|(m & Hi & ->)]. exists m. split; [reflexivity|]. now apply (offers_get x ns l m true Hd El).
    - intros (m & -> & Hm). apply Hin. now apply (offers_get x ns l m true Hd El). }
  unfold attribute. split.
  - rewrite <- Hat. split.
    + destruct (has n (c_late c)); [discriminate|]. destruct (has n (attach _ _ _ _)) eqn:E; [intros _; now apply has_in|]. destruct (has_attr c _ [] n); discriminate.
    + intros Hi. pose proof Hi as Hi2. apply Hat in Hi2 as (m & -> & Hm). apply (offers_get x ns l m true Hd El) in Hm. destruct (Hf m true Hm) as (_ & E & _). rewrite E.
      apply has_in in Hi. now rewrite Hi.
  - intros Hno. destruct (has n (c_late c)); [reflexivity|]. replace (has n (attach c (ext_slots x cp) (public l) [])) with false.
    + change (has n []) with false. replace (has_attr c (ext_slots x cp) [] n) with (has_attr c (ext_slots [] []) [] n); [reflexivity|].
      destruct (has_attr c (ext_slots [] []) [] n) eqn:E; [|symmetry; now apply Hfew].
      destruct (has_attr c (ext_slots x cp) [] n) eqn:E4; [reflexivity|]. exfalso. unfold has_attr in E, E4. cbn [ext_slots] in E.
      destruct (has n early_names); [discriminate|]. destruct (has n body_names); [discriminate|]. change (has n []) with false in E, E4.
      destruct (has n (c_base c)) eqn:Eb; [|discriminate]. destruct (has n (ext_slots x cp)) eqn:Es; [|rewrite Bool.andb_false_r in E4; discriminate].
      apply has_in in Es. rewrite S in Es. apply in_map_iff in Es as ([m b] & <- & Hi). destruct (Hf m b Hi) as (_ & _ & E2).
      unfold has_attr in E2. cbn [fst] in Eb. rewrite Eb in E2. change (has (under m) []) with false in E2. rewrite Bool.andb_false_r in E2. cbn [negb andb] in E2. rewrite Bool.orb_true_r in E2. discriminate.
    + symmetry. destruct (has n (attach _ _ _ _)) eqn:E; [|reflexivity]. apply has_in, Hat in E as (m & E & Hm). destruct (Hno m E Hm).
Qed.

(** Leaves, leaf-lists and entries without keys keep all that is theirs, whatever is offered. *)
Definition unslotted (cs : list rschema) (p : list rstep) : Prop :=
  exists c cp op, node_from leaf_attrs [] cs p = Some (c, cp, op) /\ c_slots c = false.
Lemma attach_own c slots l n : has_attr c slots [] n = true -> forall done, ~ In n done -> ~ In n (attach c slots l done).
Proof.
  intros Hn. induction l as [|[m b] l IH]; intros done Hd; [exact Hd|]. cbn [attach]. destruct (has_attr c slots done (under m)) eqn:E; [now apply IH|].
  destruct (b && _); [|now apply IH]. apply IH. intros Hi. apply in_app_or in Hi as [Hi|[<-|[]]]; [easy|]. rewrite has_attr_done, Hn in E. discriminate.
Qed.
Theorem unslotted_keeps x cs p : unslotted cs p ->
  exists l, node_methods leaf_attrs x cs p = Some (Ok l) /\ forall n, node_attr leaf_attrs [] cs p n = Some AOwn -> node_attr leaf_attrs x cs p n = Some AOwn.
Proof.
  intros (c & cp & op & E1 & Hs). unfold node_methods. rewrite E1. assert (E : exists l, construct_ext c x cp op = Ok l /\ forall n, has_attr c [] [] n = true -> ~ In n l).
  { unfold construct_ext. rewrite Hs. cbn [andb]. destruct x as [|e x]; [exists []; split; [reflexivity|easy]|]. destruct (ext_get _ _) as [l|]; [|exists []; split; [reflexivity|easy]].
    eexists. split; [reflexivity|]. intros n Hn. apply attach_own; [|easy]. revert Hn. unfold has_attr. now rewrite Hs. }
  destruct E as (l & E & Hl). rewrite E. exists l. split; [reflexivity|]. intros n. rewrite (node_attr_nil _ _ _ _ _ _ E1). unfold node_attr. rewrite E1, E. unfold attribute.
  change (has n []) with false. change (ext_slots [] []) with (@nil str). destruct (has n (c_late c)); [reflexivity|]. destruct (has_attr c [] [] n) eqn:E3; [|discriminate]. intros _. destruct (has n l) eqn:E4; [apply has_in in E4; now apply Hl in E4|].
  replace (has_attr c (ext_slots x cp) [] n) with true; [reflexivity|]. revert E3. unfold has_attr. now rewrite Hs.
Qed.
Lemma node_class N : forall p path cs s, (length p <= N)%nat -> schema_at cs p = Some s -> exists op, node_from leaf_attrs path cs p = Some (class_of leaf_attrs s, op, op).
Proof.
  induction N; intros p path cs s Hl H.
  { destruct p; [discriminate|cbn in Hl; lia]. }
  destruct p as [|[i|ks] p']; [discriminate| |discriminate]. cbn [schema_at] in H. cbn [node_from]. destruct p' as [|[j|ks] p''].
  - rewrite H. eauto.
  - destruct (nth_error cs i) as [[]|]; try discriminate. apply IHN; [cbn in Hl |- *; lia|exact H].
  - destruct (nth_error cs i) as [[]|]; try discriminate. destruct p'' as [|st p3]; [discriminate|]. apply IHN; [cbn in Hl |- *; lia|exact H].
Qed.
Lemma node_entry N : forall p path cs n keys cs' ks, (length p <= N)%nat -> schema_at cs p = Some (RList n keys cs') ->
  exists cp op, node_from leaf_attrs path cs (p ++ [Ent ks]) = Some (entry_class keys cs', cp, op).
Proof.
  induction N; intros p path cs n keys cs' ks Hl H.
  { destruct p; [discriminate|cbn in Hl; lia]. }
  destruct p as [|[i|ks0] p']; [discriminate| |discriminate]. cbn [schema_at] in H. destruct p' as [|[j|ks0] p''].
  - cbn. rewrite H. eauto.
  - cbn [app node_from]. destruct (nth_error cs i) as [[]|]; try discriminate. apply (IHN (Kid j :: p'') _ _ n); [cbn in Hl |- *; lia|exact H].
  - cbn [app node_from]. destruct (nth_error cs i) as [[]|]; try discriminate. destruct p'' as [|st p3]; [discriminate|].
    destruct (IHN (st :: p3) (path ++ [entry_part name keys0 ks0]) _ _ _ _ ks ltac:(cbn in Hl |- *; lia) H) as (cp & op & E). exists cp, op. exact E.
Qed.
Theorem light_keeps x cs p : light cs p ->
  exists l, node_methods leaf_attrs x cs p = Some (Ok l) /\ forall n, node_attr leaf_attrs [] cs p n = Some AOwn -> node_attr leaf_attrs x cs p n = Some AOwn.
Proof.
  intros H. apply unslotted_keeps. destruct H as [(n & v0 & H)|[(n & H)|(q & ks & n & cs' & -> & H)]].
  - destruct (node_class _ p [] cs _ (le_n _) H) as (op & E). do 3 eexists. split; [exact E|reflexivity].
  - destruct (node_class _ p [] cs _ (le_n _) H) as (op & E). do 3 eexists. split; [exact E|reflexivity].
  - destruct (node_entry _ q [] cs _ _ _ ks (le_n _) H) as (cp & op & E). do 3 eexists. split; [exact E|reflexivity].
Qed.

(** Exactly what becomes of a name. *)
Definition kind_class (k : kind) : nclass :=
  match k with
  | KLeaf n => {| c_slots := false; c_base := fst (leaf_attrs n); c_late := snd (leaf_attrs n) |}
  | KLeafList => leaf_list_class
  | KCont cs => cont_class true cs
  | KList => list_class
  | KEntry keys cs => entry_class keys cs
  end.
Lemma node_kind N : forall p path cs k, (length p <= N)%nat -> kind_at cs p = Some k -> exists cp op, node_from leaf_attrs path cs p = Some (kind_class k, cp, op).
Proof.
  induction N; intros p path cs k Hl H.
  { destruct p; [discriminate|cbn in Hl; lia]. }
  destruct p as [|[i|ks] p']; [discriminate| |discriminate]. cbn [kind_at] in H. cbn [node_from]. destruct (nth_error cs i) as [s|]; [|discriminate].
  destruct p' as [|[j|ks] p''].
  - destruct s; injection H as <-; do 2 eexists; reflexivity.
  - destruct s; try discriminate. apply IHN; [cbn in Hl |- *; lia|exact H].
  - destruct s; try discriminate. destruct p'' as [|st p3]; [injection H as <-; do 2 eexists; reflexivity|]. apply IHN; [cbn in Hl |- *; lia|exact H].
Qed.
Lemma kind_names N : forall p cs ns, (length p <= N)%nat -> names_at cs p = Some ns -> exists k, kind_at cs p = Some k.
Proof.
  induction N; intros p cs ns Hl H.
  { destruct p; [discriminate|cbn in Hl; lia]. }
  destruct p as [|[i|ks] p']; [discriminate| |discriminate]. cbn [names_at] in H. cbn [kind_at]. destruct (nth_error cs i) as [s|]; [|discriminate].
  destruct p' as [|[j|ks] p''].
  - destruct s; eauto.
  - destruct s; try discriminate. destruct (names_at cs0 _) as [ns'|] eqn:E; [|discriminate]. refine (IHN _ _ _ _ E); cbn in Hl |- *; lia.
  - destruct s; try discriminate. destruct p'' as [|st p3]; [eauto|]. destruct (names_at cs0 _) as [ns'|] eqn:E; [|discriminate]. refine (IHN _ _ _ _ E); cbn in Hl |- *; lia.
Qed.
Lemma under_in m l : In (under m) (map under l) <-> In m l.
Proof. split; [intros H; apply in_map_iff in H as (m' & E & H); now apply under_inj in E as <-|apply in_map]. Qed.
Lemma same_words a b : forallb (fun n => has n b) a = true -> forallb (fun n => has n a) b = true -> forall n, In n a <-> In n b.
Proof. rewrite !forallb_forall. intros H1 H2 n. split; intros H; apply has_in; auto. Qed.
Lemma wrapper_in m : has (under m) body_names = true <-> In m wrapper_words.
Proof. rewrite has_in, <- (under_in m wrapper_words). generalize (under m). apply same_words; vm_compute; reflexivity. Qed.
Lemma object_in m : has (under m) early_names = true <-> In m object_words.
Proof. rewrite has_in, <- (under_in m object_words). generalize (under m). apply same_words; vm_compute; reflexivity. Qed.
Local Opaque words wrapper_words object_words.
Lemma class_in k m : has (under m) (c_base (kind_class k)) = true <-> class_words leaf_attrs k m.
Proof.
  rewrite has_in. assert (C : forall cs, In (under m) (cont_names cs) <-> class_words leaf_attrs (KCont cs) m).
  { intros cs. unfold cont_names. cbn [class_words]. change (lit "_pyangbind_elements") with (under (lit "pyangbind_elements")). cbn [In].
    assert (E : In (under m) (match cs with [] => [] | _ => lit "_yang_name" :: lit "_yang_namespace" :: lit "_pybind_generated_by" :: flat_map child_names cs end) <->
      (cs <> [] /\ In m (words "yang_name yang_namespace pybind_generated_by")) \/
      exists s, In s cs /\ (m = lit "get_" ++ r_name s \/ m = lit "set_" ++ r_name s \/ m = lit "unset_" ++ r_name s)).
    { destruct cs as [|s0 cs0]; [split; [easy|intros [[H _]|(s & [] & _)]; easy]|]. remember (s0 :: cs0) as cs1 eqn:Ecs.
      assert (W : map under (words "yang_name yang_namespace pybind_generated_by") = [lit "_yang_name"; lit "_yang_namespace"; lit "_pybind_generated_by"]) by (vm_compute; reflexivity).
      change (?a :: ?b :: ?c :: flat_map child_names cs1) with ([a; b; c] ++ flat_map child_names cs1). rewrite <- W. clear W.
      rewrite in_app_iff, under_in, in_flat_map. split.
      - intros [H|(s & Hs & H)]; [left; split; [subst cs1; discriminate|exact H]|]. right. exists s. split; [exact Hs|]. destruct H as [H|[H|[H|[]]]].
        + left. symmetry. exact (under_inj (lit "get_" ++ r_name s) m H).
        + right. left. symmetry. exact (under_inj (lit "set_" ++ r_name s) m H).
        + right. right. symmetry. exact (under_inj (lit "unset_" ++ r_name s) m H).
      - intros [[_ H]|(s & Hs & H)]; [now left|]. right. exists s. split; [exact Hs|]. unfold child_names. cbn [In]. destruct H as [->|[->| ->]]; [now left|right; now left|right; right; now left]. }
    rewrite E. split; (intros [H|H]; [left|now right]); [symmetry; now apply under_inj in H|now subst m]. }
  destruct k; cbn [kind_class class_words].
  - reflexivity.
  - replace (c_base leaf_list_class) with (map under (words "pybind_generated_by list")) by (vm_compute; reflexivity). apply under_in.
  - apply C.
  - replace (c_base list_class) with (map under (words "pybind_generated_by key_to_native_key_type generate_key extract_key new_item item")) by (vm_compute; reflexivity). apply under_in.
  - apply C.
Qed.
Lemma late_in k m : has (under m) (c_late (kind_class k)) = true <-> late_words leaf_attrs k m \/ (match k with KCont _ | KEntry _ _ => In m (words "path_helper extmethods") | _ => False end).
Proof.
  rewrite has_in. destruct k; cbn [kind_class late_words].
  - cbn [c_late]. tauto.
  - replace (c_late leaf_list_class) with (map under (words "unique allowed_type list")) by (vm_compute; reflexivity). rewrite under_in. tauto.
  - replace (c_late (cont_class true cs)) with (map under (words "path_helper extmethods")) by (vm_compute; reflexivity). rewrite under_in. tauto.
  - replace (c_late list_class) with (map under (words "ordered members keyval contained_class path_helper yang_keys")) by (vm_compute; reflexivity). rewrite under_in. tauto.
  - replace (c_late (entry_class keys cs)) with (map under (words "path_helper extmethods")) by (vm_compute; reflexivity). rewrite under_in. tauto.
Qed.
Lemma slotted_in k : c_slots (kind_class k) = true <-> slotted k.
Proof. destruct k as [n| |cs| |keys cs]; cbn; try easy. destruct keys; cbn; easy. Qed.
(** Reserved: those every object has, and the late ones. *)
Lemma attach_iff c slots l : (forall m b, In (m, b) l -> m <> lit "method") -> has_attr c slots [] (lit "_method") = false ->
  forall done, (forall n, In n done -> n <> lit "_method") ->
  forall m, In (under m) (attach c slots l done) <-> In (under m) done \/ (In (m, true) l /\ has_attr c slots [] (under m) = false).
Proof.
  intros Hl Hm. induction l as [|[m0 b] l IH]; intros done Hd m; cbn [attach]; [cbn; tauto|].
  assert (Q : has_attr c slots done (lit "_method") = false).
  { rewrite has_attr_done, Hm. destruct (has (lit "_method") done) eqn:E; [|reflexivity]. apply has_in in E. now apply Hd in E. }
  assert (Hl' : forall m b, In (m, b) l -> m <> lit "method") by (intros m1 b1 H1; apply (Hl m1 b1); now right).
  destruct (has_attr c slots done (under m0)) eqn:E.
  - rewrite (IH Hl' done Hd m). cbn [In]. split; [tauto|]. intros [H|[[[= -> ->]|H] E1]]; [now left| |now right]. rewrite has_attr_done, E1 in E. left. now apply has_in.
  - rewrite has_attr_done in E. apply Bool.orb_false_iff in E as [E E']. rewrite Q. cbn [negb]. rewrite Bool.andb_true_r. destruct b; rewrite IH; try assumption.
    + rewrite in_app_iff. cbn [In]. split.
      * intros [[H|[H|[]]]|[H E1]]; [now left| |right; now split; [right|]]. apply under_inj in H as <-. right. split; [now left|exact E].
      * intros [H|[[[= ->]|H] E1]]; [now left; left|left; right; now left|right; now split].
    + intros n H. apply in_app_or in H as [H|[<-|[]]]; [now apply Hd|]. intros E1. apply (Hl m0 true (or_introl eq_refl)). now apply under_inj.
    + cbn [In]. split; [intros [H|[H E1]]; [now left|right; now split; [right|]]|]. intros [H|[[H|H] E1]]; [now left|discriminate|right; now split].
Qed.
Theorem exactly x cs p ns k : (forall s, In s cs -> yang_named s) -> names_at cs p = Some ns -> kind_at cs p = Some k -> NoDup (map fst x) ->
  (node_methods leaf_attrs x cs p = Some (Raise ValueError) <-> slotted k /\ exists m b, offers x ns m b /\ In m wrapper_words) /\
  (~ (slotted k /\ exists m b, offers x ns m b /\ In m wrapper_words) -> (forall b, ~ offers x ns (lit "method") b) -> ~ class_words leaf_attrs k (lit "method") ->
   forall m, let kept := In m wrapper_words \/ In m object_words \/ late_words leaf_attrs k m in
     (node_attr leaf_attrs x cs p (lit "_" ++ m) = Some AExt <-> offers x ns m true /\ ~ kept /\ (slotted k \/ ~ class_words leaf_attrs k m)) /\
     (node_attr leaf_attrs x cs p (lit "_" ++ m) = Some AOwn <-> kept \/ (class_words leaf_attrs k m /\ ~ (slotted k /\ exists b, offers x ns m b)))).
Proof.
  intros Hn H Hk Hd. destruct (node_chk cs p ns Hn H) as (c & cp & op & E1 & _ & C1 & C2).
  destruct (node_kind _ p [] cs k (le_n _) Hk) as (cp' & op' & E1'). rewrite E1 in E1'. injection E1' as -> _ _.
  set (l := match ext_get (schema_path ns) x with Some l => l | None => [] end).
  assert (Ho : forall m b, offers x ns m b <-> In (m, b) (public l)).
  { intros m b. unfold l. destruct (ext_get (schema_path ns) x) as [l0|] eqn:El; [now apply offers_get|]. split; [|easy]. intros (l' & Hl & _).
    apply ext_get_in in Hl; [congruence|exact Hd]. }
  assert (S : ext_slots x cp = map (fun m => under (fst m)) (public l)).
  { unfold l. destruct (ext_get (schema_path ns) x) as [l0|] eqn:El; [apply ext_slots_get|apply ext_slots_none]; now rewrite C1. }
  assert (Ec : construct_ext (kind_class k) x cp op =
    if c_slots (kind_class k) && existsb (fun n => has n body_names) (ext_slots x cp) then Raise ValueError else Ok (attach (kind_class k) (ext_slots x cp) (public l) [])).
  { unfold construct_ext. destruct (c_slots _ && _); [reflexivity|]. unfold l. destruct x as [|e x]; [reflexivity|]. rewrite C2.
    destruct (ext_get (schema_path ns) (e :: x)) as [l0|]; reflexivity. }
  assert (Hs : forall m, has (under m) (ext_slots x cp) = true <-> exists b, offers x ns m b).
  { intros m. rewrite has_in, S, in_map_iff. split.
    - intros ([m' b] & E & Hi). apply under_inj in E as <-. exists b. now apply Ho.
    - intros (b & Hi). exists (m, b). split; [reflexivity|]. now apply Ho. }
  assert (Hbad : c_slots (kind_class k) && existsb (fun n => has n body_names) (ext_slots x cp) = true <-> slotted k /\ exists m b, offers x ns m b /\ In m wrapper_words).
  { rewrite Bool.andb_true_iff, slotted_in, existsb_exists. split; intros [H1 H2]; (split; [exact H1|]).
    - destruct H2 as (n & Hi & Hb). rewrite S in Hi. apply in_map_iff in Hi as ([m b] & <- & Hi). exists m, b. split; [now apply Ho|]. now apply wrapper_in.
    - destruct H2 as (m & b & Hi & Hw). exists (under m). split; [apply has_in, Hs; now exists b|now apply wrapper_in]. }
  split.
  - unfold node_methods. rewrite E1, Ec, <- Hbad. destruct (c_slots _ && _); split; congruence.
  - intros Hok Hme Hme' m kept. unfold node_attr. rewrite E1, Ec. destruct (c_slots _ && _) eqn:Eb; [destruct Hok; now apply Hbad|]. clear Eb.
    assert (Hha : forall m, has_attr (kind_class k) (ext_slots x cp) [] (under m) = true <->
      In m object_words \/ In m wrapper_words \/ (class_words leaf_attrs k m /\ ~ (slotted k /\ exists b, offers x ns m b))).
    { intros m0. unfold has_attr. change (has (under m0) []) with false. rewrite Bool.orb_false_r, !Bool.orb_true_iff, Bool.andb_true_iff, Bool.negb_true_iff, object_in, wrapper_in, class_in.
      rewrite <- Bool.not_true_iff_false, Bool.andb_true_iff, slotted_in, Hs. tauto. }
    assert (Hat := attach_iff (kind_class k) (ext_slots x cp) (public l)).
    specialize (Hat ltac:(intros m0 b Hi ->; apply (Hme b); now apply Ho)).
    assert (Hw1 : In (lit "method") object_words -> has (lit "method") object_words = true) by apply has_in.
    assert (Hw2 : In (lit "method") wrapper_words -> has (lit "method") wrapper_words = true) by apply has_in.
    replace (has (lit "method") object_words) with false in Hw1 by (vm_compute; reflexivity). replace (has (lit "method") wrapper_words) with false in Hw2 by (vm_compute; reflexivity).
    assert (Hmf : has_attr (kind_class k) (ext_slots x cp) [] (lit "_method") = false).
    { apply Bool.not_true_iff_false. intros E. apply (Hha (lit "method")) in E as [E|[E|[E _]]]; [| |easy].
      - apply Hw1 in E. discriminate E.
      - apply Hw2 in E. discriminate E. }
    specialize (Hat Hmf [] ltac:(easy) m). rewrite <- Ho in Hat. rewrite <- Bool.not_true_iff_false, Hha in Hat. specialize (Hha m).
    change (lit "_" ++ m) with (under m). unfold attribute.
    assert (Hla : has (under m) (c_late (kind_class k)) = true -> kept).
    { intros E. apply late_in in E as [E|E]; [right; now right|]. right. left. destruct k; try easy;
      (assert (G : forall w, In w (words "path_helper extmethods") -> In w object_words) by (intros w Hw; apply has_in; revert w Hw; apply forallb_forall; vm_compute; reflexivity)); now apply G. }
    assert (Hla' : late_words leaf_attrs k m -> has (under m) (c_late (kind_class k)) = true) by (intros E; apply late_in; now left).
    destruct (has (under m) (c_late (kind_class k))) eqn:El.
    { specialize (Hla eq_refl). clear - Hla. split; (split; [|try reflexivity; try discriminate]); try discriminate; [intros (_ & G & _); now destruct G|]. intros _. now left. }
    assert (Hl0 : ~ late_words leaf_attrs k m) by (intros G; now apply Hla' in G). clear Hla Hla'.
    assert (G1 : slotted k \/ ~ slotted k).
    { destruct (c_slots (kind_class k)) eqn:Es; [left; now apply slotted_in|right]. intros G. apply slotted_in in G. congruence. }
    destruct (has (under m) (attach _ _ _ _)) eqn:Ea.
    + apply has_in, Hat in Ea as [[]|[Ea Ef]]. clear Hat Hha. subst kept. split; (split; [|try reflexivity; try discriminate]); try discriminate.
      * intros _. split; [exact Ea|]. split; [clear - Ef Hl0; tauto|]. destruct G1 as [G1|G1]; [now left|]. right. intros G. apply Ef. right. right. split; [exact G|]. intros [G2 _]. now apply G1.
      * intros G. exfalso. apply Ef. clear - G Hl0. tauto.
    + assert (Hna : ~ In (under m) (attach (kind_class k) (ext_slots x cp) (public l) [])) by (intros G; apply has_in in G; congruence). rewrite Hat in Hna. clear Hat.
      assert (N1 : ~ (offers x ns m true /\ ~ kept /\ (slotted k \/ ~ class_words leaf_attrs k m))).
      { intros (G2 & G3 & G4). apply Hna. right. split; [exact G2|]. subst kept. intros [G|[G|[G G5]]]; [apply G3; right; now left|apply G3; now left|].
        destruct G4 as [G4|G4]; [|now apply G4]. apply G5. split; [exact G4|now exists true]. }
      destruct (has_attr (kind_class k) (ext_slots x cp) [] (under m)) eqn:Eh.
      * destruct Hha as [Hha _]. specialize (Hha eq_refl). split; (split; [|try reflexivity; try discriminate]); try discriminate.
        -- intros G. destruct (N1 G).
        -- intros _. subst kept. clear - Hha. tauto.
      * destruct Hha as [_ Hha]. split; (split; [|try reflexivity; try discriminate]); try discriminate.
        -- intros G. destruct (N1 G).
        -- intros G. enough (false = true) by discriminate. apply Hha. subst kept. clear - G Hl0. tauto.
Qed.
End Ext.
