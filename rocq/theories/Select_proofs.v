(** select. *)
From Coq Require Import Lia.
From Verif Require Import PyStr PyStr_facts PyVal Restricted Spec_Lists TypedList TypedList_proofs YList YList_proofs SafeName Tree Spec_Tree Tree_proofs
  Tree_dump Serialise Spec_Serialise Load_proofs Json_proofs Emit_proofs Options Spec_Options Options_proofs.

(* ------------------------------------------------------------------ lists *)
Lemma has_char_In c s : has_char c s = true <-> In c s.
Proof. unfold has_char. rewrite existsb_exists. split; [intros (x & Hx & E); apply N.eqb_eq in E; now subst x|intros H; exists c; split; [assumption|apply N.eqb_refl]]. Qed.
Lemma second_plain n : no_colon n -> second_part n = n.
Proof. intros H. unfold second_part. destruct (has_char 58 n) eqn:E; [|reflexivity]. apply has_char_In in E. contradiction. Qed.
Lemma second_qualified m n : no_colon m -> no_colon n -> second_part (m ++ lit ":" ++ n) = n.
Proof.
  intros Hm Hn. unfold second_part. assert (E : has_char 58 (m ++ lit ":" ++ n) = true) by (apply has_char_In, in_or_app; right; now left).
  rewrite E. change (m ++ lit ":" ++ n) with (join [58%N] [m; n]). rewrite split_join; [reflexivity|discriminate|repeat constructor; assumption].
Qed.
Lemma assoc_nodup {A} n (a : A) l : NoDup (map fst l) -> In (n, a) l -> assoc n l = Some a.
Proof.
  induction l as [|[k b] l IH]; intros Hd Hi; [contradiction|]. inversion Hd as [|? ? Hk Hd']; subst. cbn [assoc]. destruct Hi as [E|Hi].
  - injection E as -> ->. now rewrite str_eqb_refl.
  - rewrite str_neqb; [auto|]. intros ->. apply Hk. now apply (in_map fst) in Hi.
Qed.
Lemma unwanted_picked {E} (keeps : E -> res bool) (P : E -> Prop) es :
  (forall e, In e es -> (P e /\ keeps e = Ok true) \/ (~ P e /\ keeps e = Ok false)) ->
  exists gone kept, unwanted keeps es = Ok gone /\ picked P es kept /\ picked (fun e => ~ P e) es gone.
Proof.
  induction es as [|e es IH]; intros H; [exists [], []; repeat split; constructor|].
  destruct IH as (gone & kept & H1 & H2 & H3); [intros x Hx; apply H; now right|]. cbn [unwanted].
  destruct (H e (or_introl eq_refl)) as [[He ->]|[He ->]]; cbn [bind]; rewrite H1; cbn [bind].
  - exists gone, (e :: kept). split; [reflexivity|]. split; [now constructor|]. constructor; [tauto|assumption].
  - exists (e :: gone), kept. split; [reflexivity|]. split; [now constructor|]. now constructor.
Qed.
Lemma picked_in {A} (P : A -> Prop) l l' : picked P l l' -> forall x, In x l' -> In x l /\ P x.
Proof.
  induction 1 as [|a l l' Ha H IH|a l l' Ha H IH]; intros x Hx; [contradiction| |].
  - destruct Hx as [<-|Hx]; [split; [now left|assumption]|]. destruct (IH x Hx). split; [now right|assumption].
  - destruct (IH x Hx). split; [now right|assumption].
Qed.
Lemma picked_map {A B} (f : A -> B) (P : B -> Prop) l : forall m, picked P (map f l) m ->
  exists l', m = map f l' /\ picked (fun a => P (f a)) l l'.
Proof.
  induction l as [|a l IH]; intros m H; cbn [map] in H; inversion H as [|? ? m' Ha H'|? ? m' Ha H']; subst.
  - exists []. split; [reflexivity|constructor].
  - destruct (IH _ H') as (l' & -> & Hp). exists (a :: l'). split; [reflexivity|now constructor].
  - destruct (IH _ H') as (l' & -> & Hp). exists l'. split; [reflexivity|now constructor].
Qed.
Lemma picked_impl {A} (P Q : A -> Prop) l l' : (forall x, In x l -> (P x <-> Q x)) -> picked P l l' -> picked Q l l'.
Proof.
  intros H Hp. induction Hp as [|a l l' Ha Hp IH|a l l' Ha Hp IH]; [constructor| |].
  - constructor; [apply H; [now left|assumption]|]. apply IH. intros x Hx. apply H. now right.
  - constructor; [|apply IH; intros x Hx; apply H; now right]. intros HQ. apply Ha. apply H; [now left|assumption].
Qed.

(** Deleting the unwanted ones leaves the others; [hit e x]: deleting [e] may hit [x]. *)
Section Del.
Context {E : Type} (hit : E -> E -> bool) (P : E -> Prop).
Fixpoint del_hit (e : E) (l : list E) : list E := match l with [] => [] | x :: l' => if hit e x then l' else x :: del_hit e l' end.
Lemma del_hit_app e l1 l2 : Forall (fun x => hit e x = false) l1 -> del_hit e (l1 ++ l2) = l1 ++ del_hit e l2.
Proof. induction 1 as [|x l1 Hx H IH]; [reflexivity|]. cbn [app del_hit]. now rewrite Hx, IH. Qed.
Lemma del_gone l : (forall x, In x l -> hit x x = true) ->
  (forall i j x y, nth_error l i = Some x -> nth_error l j = Some y -> i <> j -> hit x y = false) ->
  forall kept gone, picked P l kept -> picked (fun e => ~ P e) l gone -> fold_left (fun l e => del_hit e l) gone l = kept.
Proof.
  intros Hr Hd kept gone Hk Hg.
  assert (G : forall pre, (forall x y, In x l -> In y pre -> hit x y = false) -> fold_left (fun l e => del_hit e l) gone (pre ++ l) = pre ++ kept).
  { revert gone Hg. induction Hk as [|a l kept Ha Hk IH|a l kept Ha Hk IH]; intros gone Hg pre Hpre; inversion Hg as [|? ? g' Hna Hg'|? ? g' Hna Hg']; subst; try contradiction.
    - reflexivity.
    - assert (Hd' : forall i j x y, nth_error l i = Some x -> nth_error l j = Some y -> i <> j -> hit x y = false).
      { intros i j x y Hi Hj Hn. apply (Hd (S i) (S j) x y Hi Hj). lia. }
      assert (Hr' : forall x, In x l -> hit x x = true) by (intros x Hx; apply Hr; now right).
      change (pre ++ a :: l) with (pre ++ [a] ++ l). rewrite app_assoc.
      rewrite (IH Hr' Hd' _ Hg'); [now rewrite <- app_assoc|].
      intros x y Hx Hy. apply in_app_iff in Hy as [Hy|[<-|[]]]; [apply Hpre; [now right|assumption]|].
      apply In_nth_error in Hx as (i & Hi). apply (Hd (S i) 0%nat x a Hi eq_refl). lia.
    - assert (Hd' : forall i j x y, nth_error l i = Some x -> nth_error l j = Some y -> i <> j -> hit x y = false).
      { intros i j x y Hi Hj Hn. apply (Hd (S i) (S j) x y Hi Hj). lia. }
      cbn [fold_left]. rewrite del_hit_app by (apply Forall_forall; intros y Hy; apply Hpre; [now left|assumption]).
      cbn [del_hit]. rewrite (Hr a (or_introl eq_refl)). apply IH; auto.
      + intros x Hx. apply Hr. now right.
      + intros x y Hx Hy. apply Hpre; [now right|assumption].
  }
  exact (G [] (fun _ _ _ F => False_ind _ F)).
Qed.
End Del.

(* ------------------------------------------------------------------ default format *)
Section E.
Context (O : oracle) (im : einfo -> str -> option str).

Definition clean (cs : list schema) : Prop := forall p i pr cs', schema_at cs p = Some (SCont i pr cs') -> named_both cs'.
Lemma clean_here cs : clean cs -> named_both cs.
Proof. intros H. exact (H [] plain false cs eq_refl). Qed.
Lemma clean_kid cs n i pr cs' : clean cs -> nth_error cs n = Some (SCont i pr cs') -> clean cs'.
Proof.
  intros H Hn [|p ps] i' pr' cs2 Hp.
  - cbn in Hp. injection Hp as <- <- <-. apply (H [Kid n] i pr cs'). unfold schema_at. cbn. now rewrite Hn.
  - apply (H (Kid n :: p :: ps) i' pr' cs2). unfold schema_at in *. cbn [sub entry_schema]. rewrite Hn.
    destruct p as [m|k]; [exact Hp|discriminate].
Qed.

Lemma names_clean cs kids : named_both cs -> Forall (fun nx => no_colon (fst nx)) (get_kids true cs kids).
Proof.
  intros [_ Hc]. destruct (get_names cs kids) as [Hi _]. apply Forall_forall. intros nx Hn.
  apply (in_map fst) in Hn. apply Hi in Hn. apply in_map_iff in Hn as (s & <- & Hs). rewrite Forall_forall in Hc. now apply Hc.
Qed.
Lemma unresolved_same {A} (l : list (str * A)) : Forall (fun nx => no_colon (fst nx)) l -> map (fun nx => (second_part (fst nx), snd nx)) l = l.
Proof. induction 1 as [|[n x] l Hn H IH]; [reflexivity|]. cbn [map fst snd] in *. now rewrite IH, second_plain. Qed.
Lemma assoc_rev {A} n (l : list (str * A)) : NoDup (map fst l) -> assoc n (rev l) = assoc n l.
Proof.
  intros Hd. destruct (assoc n l) as [a|] eqn:Ea.
  - apply assoc_nodup; [rewrite map_rev; now apply NoDup_rev|]. apply -> in_rev. now apply assoc_in.
  - destruct (assoc n (rev l)) as [a|] eqn:Eb; [|reflexivity]. apply assoc_in, in_rev in Eb. rewrite (assoc_nodup _ _ _ Hd Eb) in Ea. discriminate.
Qed.
Lemma lookup_leaf cs kids path v : clean cs -> leaf_at cs kids path v -> lookup_subdict dump_items path (DDict (get_kids true cs kids)) = Ok (DLeaf v).
Proof.
  intros Hc H. induction H as [cs kids j i lt d yt k v Hs Hx|cs kids j i pr cs' ch pres kids' path v Hs Hx Hl IH]; pose proof (clean_here cs Hc) as Hb;
    pose proof (names_clean cs kids Hb) as Hn; pose proof (yang_dist cs (proj1 Hb)) as Hy; destruct (get_names cs kids) as [_ Hd]; specialize (Hd Hy).
  - cbn [lookup_subdict dump_items bind]. rewrite (unresolved_same _ Hn), (assoc_rev _ _ Hd).
    change (e_yang i) with (e_yang (s_info (SLeaf i lt d yt k))). erewrite (assoc_kid true cs Hy) by eassumption. reflexivity.
  - assert (Ea : assoc (e_yang i) (get_kids true cs kids) = Some (DDict (get_kids true cs' kids'))).
    { change (e_yang i) with (e_yang (s_info (SCont i pr cs'))). erewrite (assoc_kid true cs Hy) by eassumption. rewrite get_cont.
      specialize (IH (clean_kid _ _ _ _ _ Hc Hs)). destruct (get_kids true cs' kids') as [|e l]; [|reflexivity].
      exfalso. inversion Hl; subst; cbn in IH; discriminate. }
    cbn [lookup_subdict dump_items bind]. rewrite (unresolved_same _ Hn), (assoc_rev _ _ Hd), Ea.
    destruct path as [|n path]; [inversion Hl|]. apply IH. eapply clean_kid; eassumption.
Qed.
Lemma leaf_fun cs kids path v w : clean cs -> leaf_at cs kids path v -> leaf_at cs kids path w -> v = w.
Proof. intros Hc H1 H2. apply (lookup_leaf _ _ _ _ Hc) in H1. apply (lookup_leaf _ _ _ _ Hc) in H2. rewrite H1 in H2. now injection H2. Qed.
Lemma leaf_set_fun cs x path v w : clean cs -> leaf_set cs path x v -> leaf_set cs path x w -> v = w.
Proof. intros Hc (c & p & k & -> & H1) (c' & p' & k' & E & H2). injection E as <- <- <-. eapply leaf_fun; eassumption. Qed.

(** What is kept, whatever the format. *)
Lemma keep_exact {T} (items : T -> res (list (str * T))) (show : T -> str) (tree : obj -> T) cs sel x : clean cs ->
  Forall (fun pt => Forall no_dot (fst pt)) sel -> answerable O cs sel x ->
  (forall path t v, In (path, t) sel -> leaf_set cs path x v -> exists y, lookup_subdict items path (tree x) = Ok y /\ show y = py_str O v) ->
  (selected O cs sel x /\ keep items show (wanted sel) (tree x) = Ok true) \/ (~ selected O cs sel x /\ keep items show (wanted sel) (tree x) = Ok false).
Proof.
  intros Hc Hd Ha Hl. induction sel as [|[path t] sel IH]; [left; split; [intros ? ? []|reflexivity]|].
  inversion Hd as [|? ? Hd1 Hd2]; subst. cbn [fst] in Hd1. cbn [wanted map keep fst snd].
  destruct (Ha [] path t sel eq_refl) as (v & Hv); [intros ? ? []|].
  destruct (Hl path t v (or_introl eq_refl) Hv) as (y & Hy & Hs).
  assert (Hne : path <> []) by (intros ->; destruct Hv as (? & ? & ? & _ & Hv); inversion Hv).
  assert (Ed : split_on 46 (dotted path) = path) by (unfold dotted; change (lit ".") with [46%N]; now apply split_join).
  rewrite Ed, Hy. cbn [bind]. rewrite Hs.
  destruct (str_eqb (py_str O v) t) eqn:Et.
  - apply str_eqb_eq in Et. destruct IH as [[IH1 IH2]|[IH1 IH2]]; auto.
    + intros b p' t' a E Hb. apply (Ha ((path, t) :: b) p' t' a); [now rewrite E|]. intros q u [Eq|Hq]; [|now apply Hb]. injection Eq as <- <-. exists v. now split.
    + intros p' t' v' Hi. apply (Hl p' t' v'). now right.
    + left. split; [|exact IH2]. intros q u [Eq|Hq]; [|now apply IH1]. injection Eq as <- <-. exists v. now split.
    + right. split; [|exact IH2]. intros H. apply IH1. intros q u Hq. apply H. now right.
  - right. split; [|reflexivity]. intros H. destruct (H path t (or_introl eq_refl)) as (w & Hw & E).
    rewrite (leaf_set_fun _ _ _ _ _ Hc Hw Hv) in E. rewrite E, str_eqb_refl in Et. discriminate.
Qed.

Theorem select_exact text i keys od cs sel es : python_names cs -> yang_names cs -> all_distinct (map fst es) ->
  Forall (fun pt => Forall no_dot (fst pt)) sel -> Forall (fun e => answerable O cs sel (snd e)) es ->
  exists kept, picked (fun e => selected O cs sel (snd e)) es kept /\
    dumps_select O im text i keys od cs (wanted sel) es = enc_dump O im (SList i keys od cs) (DList (get_entries cs kept)).
Proof.
  intros Hp Hy Hdi Hd Ha. assert (Hc : clean cs) by (intros p i' pr cs' E; split; [eapply Hp|eapply Hy]; exact E).
  set (tree := fun x : obj => match x with OCont _ _ kids => DDict (get_kids true cs kids) | _ => DDict [] end).
  set (kp := fun e : pyval * obj => keep dump_items (dump_text O text) (wanted sel) (tree (snd e))).
  assert (HK : forall e, In e es -> (selected O cs sel (snd e) /\ kp e = Ok true) \/ (~ selected O cs sel (snd e) /\ kp e = Ok false)).
  { intros e He. rewrite Forall_forall in Ha. apply (keep_exact dump_items (dump_text O text) tree cs sel (snd e) Hc Hd (Ha e He)).
    intros path t v _ (c & ps & kids & E & Hv). rewrite E. exists (DLeaf v). split; [now apply lookup_leaf|reflexivity]. }
  destruct (unwanted_picked kp (fun e => selected O cs sel (snd e)) es HK) as (gone & kept & H1 & H2 & H3).
  exists kept. split; [exact H2|]. unfold dumps_select.
  set (f := fun e : pyval * obj => (fst e, tree (snd e))).
  assert (Eu : forall l, unwanted (fun e => keep dump_items (dump_text O text) (wanted sel) (snd e)) (map f l) = (g <- unwanted kp l ;; Ok (map f g))).
  { induction l as [|e l IHl]; [reflexivity|]. cbn [map unwanted]. rewrite IHl. change (keep dump_items (dump_text O text) (wanted sel) (snd (f e))) with (kp e).
    destruct (kp e) as [[]|]; cbn [bind]; [| |reflexivity]; destruct (unwanted kp l); reflexivity. }
  assert (Ef : forall l, get_entries cs l = map f l) by reflexivity.
  rewrite !Ef, Eu, H1. cbn [bind]. f_equal. f_equal. unfold del_all.
  assert (Em : forall g l, fold_left (fun es e => mdel (fst e) es) (map f g) (map f l) = map f (fold_left (fun l e => del_hit (fun a b => py_eq (fst a) (fst b)) e l) g l)).
  { assert (M : forall e l, mdel (fst e) (map f l) = map f (del_hit (fun a b : pyval * obj => py_eq (fst a) (fst b)) e l)).
    { intros e. induction l as [|x l IHl]; [reflexivity|]. cbn [map del_hit f mdel fst]. unfold f at 1. destruct (py_eq (fst e) (fst x)); [reflexivity|]. cbn [map]. now rewrite IHl. }
    induction g as [|e g IHg]; intros l; [reflexivity|]. cbn [map fold_left]. change (fst (f e)) with (fst e). now rewrite M, IHg. }
  rewrite Em. f_equal. eapply (del_gone _ (fun e => selected O cs sel (snd e))); try eassumption.
  - intros x _. apply py_eq_refl.
  - intros a b x y Hx Hy' Hn. apply (Hdi a b); auto; now apply map_nth_error.
Qed.

(** A path that leads to nothing. *)
Lemma lookup_stuck cs kids path e : clean cs -> stuck cs kids path e -> lookup_subdict dump_items path (DDict (get_kids true cs kids)) = Raise e.
Proof.
  intros Hc H. induction H as [cs kids n path H|cs kids j i lt d yt k v path Hs Hx|cs kids j i ts yt ch path Hs Hx|cs kids j i lt d yt k v n path Hs Hx
    |cs kids j i ts yt ch v l n path Hs Hx|cs kids j i pr cs' ch pres kids' q v path e Hs Hx Hl H IH]; pose proof (clean_here cs Hc) as Hb;
    pose proof (names_clean cs kids Hb) as Hn; pose proof (yang_dist cs (proj1 Hb)) as Hy; destruct (get_names cs kids) as [_ Hd]; specialize (Hd Hy);
    cbn [lookup_subdict dump_items bind]; rewrite (unresolved_same _ Hn), (assoc_rev _ _ Hd).
  - rewrite assoc_none; [reflexivity|]. intros Hi. apply in_map_iff in Hi as (s & E & Hs). now apply (H s).
  - change (e_yang i) with (e_yang (s_info (SLeaf i lt d yt k))). erewrite (assoc_kid true cs Hy) by eassumption. reflexivity.
  - change (e_yang i) with (e_yang (s_info (SLeafList i ts yt))). erewrite (assoc_kid true cs Hy) by eassumption. reflexivity.
  - change (e_yang i) with (e_yang (s_info (SLeaf i lt d yt k))). erewrite !(assoc_kid true cs Hy) by eassumption. cbn. now destruct path.
  - change (e_yang i) with (e_yang (s_info (SLeafList i ts yt))). erewrite !(assoc_kid true cs Hy) by eassumption. cbn. now destruct path.
  - assert (Hc' : clean cs') by (eapply clean_kid; eassumption).
    assert (Ea : assoc (e_yang i) (get_kids true cs kids) = Some (DDict (get_kids true cs' kids'))).
    { change (e_yang i) with (e_yang (s_info (SCont i pr cs'))). erewrite (assoc_kid true cs Hy) by eassumption. rewrite get_cont.
      pose proof (lookup_leaf _ _ _ _ Hc' Hl) as L. destruct (get_kids true cs' kids') as [|x l]; [|reflexivity].
      exfalso. inversion Hl; subst; cbn in L; discriminate. }
    rewrite Ea. destruct path as [|n path]; [inversion H|]. now apply IH.
Qed.
Theorem select_refused text i keys od cs sel1 path t sel2 es1 k ch pres kids es2 e : python_names cs -> yang_names cs ->
  Forall (fun pt => Forall no_dot (fst pt)) (sel1 ++ (path, t) :: sel2) -> Forall (fun x => answerable O cs (sel1 ++ (path, t) :: sel2) (snd x)) es1 ->
  selected O cs sel1 (OCont ch pres kids) -> stuck cs kids path e ->
  dumps_select O im text i keys od cs (wanted (sel1 ++ (path, t) :: sel2)) (es1 ++ (k, OCont ch pres kids) :: es2) = Raise e.
Proof.
  intros Hp Hy Hd Ha Hs Hst. assert (Hc : clean cs) by (intros p i' pr cs' E; split; [eapply Hp|eapply Hy]; exact E).
  set (sel := sel1 ++ (path, t) :: sel2) in *.
  set (tree := fun x : obj => match x with OCont _ _ kids => DDict (get_kids true cs kids) | _ => DDict [] end).
  unfold dumps_select. change (get_entries cs) with (map (fun e : pyval * obj => (fst e, tree (snd e)))). rewrite map_app. cbn [map].
  assert (K : keep dump_items (dump_text O text) (wanted sel) (tree (OCont ch pres kids)) = Raise e).
  { subst sel. clear Ha. induction sel1 as [|[q u] sel1 IH].
    - inversion Hd as [|? ? Hd1 _]; subst. cbn [fst] in Hd1. cbn [app wanted map keep fst snd].
      assert (Hne : path <> []) by (intros ->; inversion Hst).
      assert (Ed : split_on 46 (dotted path) = path) by (unfold dotted; change (lit ".") with [46%N]; now apply split_join).
      rewrite Ed. cbn [tree]. now rewrite (lookup_stuck _ _ _ _ Hc Hst).
    - inversion Hd as [|? ? Hd1 Hd2]; subst. cbn [fst] in Hd1. cbn [app wanted map keep fst snd].
      destruct (Hs q u (or_introl eq_refl)) as (v & (c & p & kk & E & Hv) & Ev). injection E as <- <- <-.
      assert (Hne : q <> []) by (intros ->; inversion Hv).
      assert (Ed : split_on 46 (dotted q) = q) by (unfold dotted; change (lit ".") with [46%N]; now apply split_join).
      rewrite Ed. cbn [tree]. rewrite (lookup_leaf _ _ _ _ Hc Hv). cbn [bind dump_text]. rewrite Ev, str_eqb_refl.
      apply IH; [assumption|]. intros q' u' Hq. apply Hs. now right. }
  assert (U : unwanted (fun x => keep dump_items (dump_text O text) (wanted sel) (snd x))
                (map (fun e : pyval * obj => (fst e, tree (snd e))) es1 ++ (k, tree (OCont ch pres kids)) :: map (fun e : pyval * obj => (fst e, tree (snd e))) es2) = Raise e).
  { induction Ha as [|x es1 Hx Ha IH]; [cbn [map app unwanted snd]; now rewrite K|]. cbn [map app unwanted fst snd]. rewrite IH.
    destruct (keep_exact dump_items (dump_text O text) tree cs sel (snd x) Hc Hd Hx) as [[_ ->]|[_ ->]]; try reflexivity.
    intros q u v _ (c & p & kk & -> & Hv). exists (DLeaf v). split; [now apply lookup_leaf|reflexivity]. }
  cbn [fst snd]. now rewrite U.
Qed.

(* ------------------------------------------------------------------ IETF format *)
Inductive deep : itree -> Prop :=
| DpLeaf i lt yt v : deep (ILeaf i lt yt v)
| DpLeafList ts l : deep (ILeafList ts l)
| DpList l : Forall deep l -> deep (IList l)
| DpDict l : NoDup (map fst l) -> Forall (fun nd => deep (snd nd)) l -> deep (IDict l).
Fixpoint deep_ind' (P : itree -> Prop) (h1 : forall i lt yt v, P (ILeaf i lt yt v)) (h2 : forall ts l, P (ILeafList ts l))
  (h3 : forall l, Forall P l -> P (IList l)) (h4 : forall l, NoDup (map fst l) -> Forall (fun nd => P (snd nd)) l -> P (IDict l)) t (H : deep t) {struct H} : P t :=
  match H with
  | DpLeaf i lt yt v => h1 i lt yt v
  | DpLeafList ts l => h2 ts l
  | DpList l Hf => h3 l ((fix go l (Hf : Forall deep l) : Forall P l := match Hf with Forall_nil _ => Forall_nil _ | Forall_cons x Hx Hr => Forall_cons x (deep_ind' P h1 h2 h3 h4 x Hx) (go _ Hr) end) l Hf)
  | DpDict l Hd Hf => h4 l Hd ((fix go l (Hf : Forall (fun nd => deep (snd nd)) l) : Forall (fun nd => P (snd nd)) l := match Hf with Forall_nil _ => Forall_nil _ | Forall_cons x Hx Hr => Forall_cons x (deep_ind' P h1 h2 h3 h4 (snd x) Hx) (go _ Hr) end) l Hf)
  end.
Lemma all_eq_refl l : all_eq l l = true.
Proof. induction l as [|v l IH]; [reflexivity|]. cbn. now rewrite py_eq_refl. Qed.
Lemma teq_refl t : deep t -> teq t t = true.
Proof.
  induction 1 as [i lt yt v|ts l|l H|l Hd H] using deep_ind'.
  - apply py_eq_refl.
  - apply all_eq_refl.
  - cbn. induction H as [|x l Hx H IH]; [reflexivity|]. now rewrite Hx.
  - cbn. rewrite Nat.eqb_refl. cbn [andb]. apply forallb_forall. intros [n x] Hx. cbn [fst snd]. rewrite (assoc_nodup _ _ _ Hd Hx).
    rewrite Forall_forall in H. exact (H _ Hx).
Qed.
Lemma kids_deep cs : named_both cs -> (forall n s, nth_error cs n = Some s -> forall ns x m t, gen_kid true WNone ns s x = Some (m, t) -> deep t) ->
  forall ns kids, deep (IDict (gen_kids true WNone ns cs kids)).
Proof.
  intros [Hnm Hc] HI ns kids. destruct (gen_names ns cs Hc kids) as [_ Hd]. constructor; [apply Hd; now apply yang_dist|]. clear Hd. revert kids.
  assert (G : forall cs2 n0, (forall n s, nth_error cs2 n = Some s -> nth_error cs (n0 + n) = Some s) -> forall kids,
            Forall (fun nd => deep (snd nd)) (gen_kids true WNone ns cs2 kids)); [|now apply (G cs 0%nat)].
  induction cs2 as [|s cs2 IH2]; intros n0 Hsub kids2; destruct kids2 as [|y kids2]; try constructor.
  assert (T : Forall (fun nd => deep (snd nd)) (gen_kids true WNone ns cs2 kids2)).
  { apply (IH2 (S n0)); auto. intros n t Ht. rewrite Nat.add_succ_comm. now apply Hsub. }
  cbn [gen_kids]. destruct (gen_kid true WNone ns s y) as [[m t]|] eqn:Ey; [|assumption]. constructor; [|assumption]. cbn [fst snd].
  pose proof (Hsub 0%nat s eq_refl) as Hs. now apply (HI _ s Hs ns y m t).
Qed.
Lemma gen_deep s : (forall p i pr cs', sub s p = Some (SCont i pr cs') -> named_both cs') -> forall ns x m t, gen_kid true WNone ns s x = Some (m, t) -> deep t.
Proof.
  induction s as [i lt dflt yt k|i ts yt|i pr cs IH|i keys od cs IH] using schema_ind'; intros Hn ns x m t Ht.
  - destruct x; try discriminate. cbn in Ht. destruct ch; [|discriminate]. injection Ht as <- <-. constructor.
  - destruct x; try discriminate. cbn in Ht. destruct ch; [|discriminate]. injection Ht as <- <-. constructor.
  - assert (K : forall ns kids, deep (IDict (gen_kids true WNone ns cs kids))).
    { apply kids_deep; [exact (Hn [] i pr cs eq_refl)|]. intros n s Hs. rewrite Forall_forall in IH. apply (IH s (nth_error_In _ _ Hs)).
      intros p i' pr' cs' Hp. apply (Hn (Kid n :: p) i' pr' cs'). cbn. now rewrite Hs. }
    destruct x as [| |ch pres kids|]; try discriminate. rewrite gen_cont in Ht.
    specialize (K (Some (e_ns i)) kids). destruct (gen_kids true WNone (Some (e_ns i)) cs kids); [destruct pres|]; try discriminate; injection Ht as <- <-; exact K.
  - assert (K : forall ns kids, deep (IDict (gen_kids true WNone ns cs kids))).
    { apply kids_deep; [exact (Hn [Ent VNone] plain false cs eq_refl)|]. intros n s Hs. rewrite Forall_forall in IH. apply (IH s (nth_error_In _ _ Hs)).
      intros p i' pr' cs' Hp. apply (Hn (Ent VNone :: Kid n :: p) i' pr' cs'). cbn. now rewrite Hs. }
    destruct x as [| | |ch es]; try discriminate. rewrite gen_list in Ht. destruct es as [|e es]; [discriminate|]. injection Ht as <- <-. constructor.
    change (entry_itree true WNone i cs e :: map (entry_itree true WNone i cs) es) with (map (entry_itree true WNone i cs) (e :: es)).
    apply Forall_forall. intros y Hy. apply in_map_iff in Hy as (e' & <- & He'). unfold entry_itree. destruct (snd e'); try (constructor; constructor). apply K.
Qed.
Lemma top_deep cs kids : clean cs -> deep (IDict (gen_kids true WNone None cs kids)).
Proof.
  intros Hc. apply kids_deep; [now apply clean_here|]. intros n s Hs. apply gen_deep.
  intros p i pr cs' Hp. apply (Hc (Kid n :: p) i pr cs'). unfold schema_at. cbn. now rewrite Hs.
Qed.

Lemma in_gen ns cs : forall kids j i lt d yt k v, nth_error cs j = Some (SLeaf i lt d yt k) -> nth_error kids j = Some (OLeaf true v) ->
  In (qualified ns i, ILeaf i lt yt v) (gen_kids true WNone ns cs kids).
Proof.
  induction cs as [|s cs IH]; intros kids j i lt d yt k v Hs Hx; [destruct j; discriminate|]. destruct kids as [|x kids]; [destruct j; discriminate|].
  destruct j as [|j]; cbn [nth_error] in *.
  - injection Hs as ->. injection Hx as ->. cbn. now left.
  - cbn [gen_kids]. specialize (IH _ _ _ _ _ _ _ _ Hs Hx). destruct (gen_kid _ _ _ _ _); [now right|assumption].
Qed.
Lemma unresolved_gen cs : named_both cs -> Forall (fun s => no_colon (e_mod (s_info s))) cs -> forall kids,
  map fst (map (fun nx => (second_part (fst nx), snd nx)) (gen_kids true WNone None cs kids)) = map second_part (map fst (gen_kids true WNone None cs kids)) /\
  NoDup (map second_part (map fst (gen_kids true WNone None cs kids))).
Proof.
  intros [Hn Hc] Hm kids. split; [now rewrite !map_map|]. pose proof (yang_dist cs Hn) as Hd. clear Hn.
  enough (G : incl (map second_part (map fst (gen_kids true WNone None cs kids))) (map (fun s => e_yang (s_info s)) cs) /\
              NoDup (map second_part (map fst (gen_kids true WNone None cs kids)))) by apply G.
  revert kids. induction cs as [|s cs IH]; intros [|x kids]; cbn [gen_kids map]; try (split; [easy|constructor]).
  inversion Hc as [|? ? Hc1 Hc2]; inversion Hm as [|? ? Hm1 Hm2]; inversion Hd as [|? ? Hd1 Hd2]; subst.
  destruct (IH Hc2 Hm2 Hd2 kids) as [I1 I2]. destruct (gen_kid true WNone None s x) as [[n t]|] eqn:E.
  - cbn [map fst]. pose proof (gen_name _ _ _ _ _ _ _ E) as ->. unfold qualified. rewrite second_qualified by assumption.
    split; [intros y [<-|Hy]; [now left|right; now apply I1]|]. constructor; [|assumption]. intros Hi. apply Hd1. now apply I1.
  - split; [intros y Hy; right; now apply I1|assumption].
Qed.
Lemma lookup_top cs kids n v : clean cs -> Forall (fun s => no_colon (e_mod (s_info s))) cs -> leaf_at cs kids [n] v ->
  exists i lt yt, lookup_subdict itree_items [n] (IDict (gen_kids true WNone None cs kids)) = Ok (ILeaf i lt yt v) /\
    assoc (qualified None i) (gen_kids true WNone None cs kids) = Some (ILeaf i lt yt v) /\ e_yang i = n /\
    exists j d k, nth_error cs j = Some (SLeaf i lt d yt k).
Proof.
  intros Hc Hm Hl. pose proof (clean_here cs Hc) as Hb. inversion Hl as [? ? j i lt d yt k v' Hs Hx|? ? j i pr cs' ch pres kids' path v' Hs Hx Hl']; subst; [|inversion Hl'].
  exists i, lt, yt. pose proof (in_gen None _ _ _ _ _ _ _ _ _ Hs Hx) as Hi.
  destruct (unresolved_gen cs Hb Hm kids) as [E Hd]. split; [|split; [|split; [reflexivity|now exists j, d, k]]].
  - cbn [lookup_subdict itree_items bind].
    assert (Ei : e_yang i = second_part (qualified None i)).
    { unfold qualified. symmetry. rewrite Forall_forall in Hm. destruct Hb as [_ Hb]. rewrite Forall_forall in Hb. apply nth_error_In in Hs.
      apply second_qualified; [exact (Hm _ Hs)|exact (Hb _ Hs)]. }
    rewrite assoc_rev by now rewrite E. rewrite (assoc_nodup (e_yang i) (ILeaf i lt yt v)); [reflexivity|now rewrite E|].
    apply in_map_iff. exists (qualified None i, ILeaf i lt yt v). split; [cbn [fst snd]; now rewrite <- Ei|assumption].
  - apply assoc_nodup; [|assumption]. destruct (gen_names None cs (proj2 Hb) kids) as [_ G]. apply G. apply yang_dist, Hb.
Qed.
Lemma assoc_gen ns cs : NoDup (map (fun s => qualified ns (s_info s)) cs) -> forall kids n s x, nth_error cs n = Some s -> nth_error kids n = Some x ->
  assoc (qualified ns (s_info s)) (gen_kids true WNone ns cs kids) = option_map snd (gen_kid true WNone ns s x).
Proof.
  induction cs as [|c cs IH]; intros Hd kids n s x Hs Hx; [destruct n; discriminate|].
  cbn [map] in Hd. inversion Hd as [|? ? Hn Hd']; subst. destruct kids as [|y kids]; [destruct n; discriminate|].
  assert (N : forall cs kids m, ~ In m (map (fun s => qualified ns (s_info s)) cs) -> assoc m (gen_kids true WNone ns cs kids) = None).
  { clear. induction cs as [|s cs IH]; intros [|x kids] m Hm; cbn [gen_kids assoc]; auto. cbn [map] in Hm.
    destruct (gen_kid true WNone ns s x) as [[k t]|] eqn:E; [|apply IH; intros H; apply Hm; now right]. rewrite (gen_name _ _ _ _ _ _ _ E). cbn [assoc].
    rewrite Tree_dump.str_eqb_neq by (intros ->; apply Hm; now left). apply IH. intros H. apply Hm. now right. }
  destruct n as [|n]; cbn in Hs, Hx.
  - injection Hs as ->. injection Hx as ->. cbn [gen_kids]. destruct (gen_kid true WNone ns s x) as [[k t]|] eqn:E; [|now apply N].
    rewrite (gen_name _ _ _ _ _ _ _ E). cbn [assoc]. now rewrite str_eqb_refl.
  - assert (Hne : qualified ns (s_info s) <> qualified ns (s_info c)).
    { intros E. apply Hn. rewrite <- E. apply (in_map (fun s => qualified ns (s_info s))). eapply nth_error_In; eassumption. }
    cbn [gen_kids]. destruct (gen_kid true WNone ns c y) as [[k t]|] eqn:E; [|eapply IH; eassumption].
    rewrite (gen_name _ _ _ _ _ _ _ E). cbn [assoc]. rewrite Tree_dump.str_eqb_neq by assumption. eapply IH; eassumption.
Qed.
Lemma all_eq_all l m : all_eq l m = true -> Forall2 (fun v w => py_eq v w = true) l m.
Proof. revert m. induction l as [|v l IH]; intros [|w m] H; try discriminate; constructor; cbn in H; apply andb_prop in H as [H1 H2]; auto. Qed.
Lemma apart_teq cs c p kids c' p' kids' : clean cs -> Forall (fun s => no_colon (e_mod (s_info s))) cs -> apart cs (OCont c p kids) (OCont c' p' kids') ->
  teq (IDict (gen_kids true WNone None cs kids)) (IDict (gen_kids true WNone None cs kids')) = false.
Proof.
  intros Hc Hm (? & ? & kx & ? & ? & ky & E1 & E2 & Hv). injection E1 as _ _ <-. injection E2 as _ _ <-.
  pose proof (clean_here cs Hc) as Hb. pose proof (yang_dist cs (proj1 Hb)) as Hy.
  assert (Hq : NoDup (map (fun s => qualified None (s_info s)) cs)).
  { apply (NoDup_map_inv second_part). rewrite map_map.
    replace (map (fun s => second_part (qualified None (s_info s))) cs) with (map (fun s => e_yang (s_info s)) cs); [exact Hy|].
    apply map_ext_in. intros s Hs. rewrite Forall_forall in Hm. destruct Hb as [_ Hb]. rewrite Forall_forall in Hb. unfold qualified.
    symmetry. apply second_qualified; [exact (Hm _ Hs)|exact (Hb _ Hs)]. }
  assert (Hd : forall k, NoDup (map fst (gen_kids true WNone None cs k))).
  { intros k. destruct (gen_names None cs (proj2 Hb) k) as [_ G]. now apply G. }
  cbn [teq]. destruct (Nat.eqb _ _) eqn:En; [|reflexivity]. apply Nat.eqb_eq in En. cbn [andb]. destruct (forallb _ _) eqn:F; [|reflexivity]. exfalso.
  rewrite forallb_forall in F.
  assert (FA : forall n t, assoc n (gen_kids true WNone None cs kids) = Some t ->
                exists u, assoc n (gen_kids true WNone None cs kids') = Some u /\ teq t u = true).
  { intros n t A. specialize (F _ (assoc_in _ _ _ A)). cbn [fst snd] in F. destruct (assoc n (gen_kids true WNone None cs kids')) as [u|]; [|discriminate]. now exists u. }
  destruct Hv as [j i lt d yt k v w S X Y V|j i lt d yt k b v w S X Y|j i ts yt l m S X Y V].
  - pose proof (assoc_gen None cs Hq _ _ _ _ S X) as A. pose proof (assoc_gen None cs Hq _ _ _ _ S Y) as B. cbn in A, B.
    destruct (FA _ _ A) as (u & U & T). rewrite B in U. injection U as <-. cbn in T. congruence.
  - pose proof (assoc_gen None cs Hq _ _ _ _ S X) as A. pose proof (assoc_gen None cs Hq _ _ _ _ S Y) as B. cbn [s_info] in A, B; remember (qualified None i) as q eqn:Eq; clear Eq; destruct b; cbn in A, B.
    + destruct (FA _ _ A) as (u & U & T). rewrite B in U. discriminate.
    + assert (L : (length (q :: map fst (gen_kids true WNone None cs kids)) <= length (map fst (gen_kids true WNone None cs kids')))%nat).
      { apply NoDup_incl_length.
        - constructor; [|apply Hd]. intros Hi. apply in_map_iff in Hi as ([n t] & E & Hi). cbn [fst] in E. subst n.
          rewrite (assoc_nodup _ _ _ (Hd kids) Hi) in A. discriminate.
        - intros n [<-|Hn]; [apply assoc_in in B; now apply (in_map fst) in B|]. apply in_map_iff in Hn as ([n' t] & <- & Hi). cbn [fst].
          destruct (FA _ _ (assoc_nodup _ _ _ (Hd kids) Hi)) as (u & U & _). apply assoc_in in U. now apply (in_map fst) in U. }
      cbn [length] in L. rewrite !map_length in L. lia.
  - pose proof (assoc_gen None cs Hq _ _ _ _ S X) as A. pose proof (assoc_gen None cs Hq _ _ _ _ S Y) as B. cbn in A, B.
    destruct (FA _ _ A) as (u & U & T). rewrite B in U. injection U as <-. cbn in T. now apply V, all_eq_all.
Qed.

Theorem ietf_select_exact text cs sel es : python_names cs -> yang_names cs -> Forall (fun s => no_colon (e_mod (s_info s))) cs -> all_apart cs (map snd es) ->
  Forall (fun pt => length (fst pt) = 1%nat /\ Forall no_dot (fst pt)) sel -> Forall (fun e => exists ch pres kids, snd e = OCont ch pres kids) es ->
  Forall (fun e => answerable O cs sel (snd e)) es ->
  exists kept, picked (fun e => selected O cs sel (snd e)) es kept /\
    dumps_ietf_select O im text cs (wanted sel) es = dumps_ietf_select O im text cs [] kept.
Proof.
  intros Hp Hy Hm Hap Hd0 Hco Ha. assert (Hc : clean cs) by (intros p i' pr cs' E; split; [eapply Hp|eapply Hy]; exact E).
  assert (Hd : Forall (fun pt : list str * str => Forall no_dot (fst pt)) sel) by (eapply Forall_impl; [|exact Hd0]; now intros pt [_ H]).
  set (tree := fun x : obj => match x with OCont _ _ kids => IDict (gen_kids true WNone None cs kids) | _ => IDict [] end).
  set (kp := fun e : pyval * obj => keep itree_items (itree_text O text) (wanted sel) (tree (snd e))).
  assert (HK : forall e, In e es -> (selected O cs sel (snd e) /\ kp e = Ok true) \/ (~ selected O cs sel (snd e) /\ kp e = Ok false)).
  { intros e He. rewrite Forall_forall in Ha. apply (keep_exact itree_items (itree_text O text) tree cs sel (snd e) Hc Hd (Ha e He)).
    intros path t v Hi (c & ps & kids & E & Hv). rewrite Forall_forall in Hd0. destruct (Hd0 _ Hi) as [Hlen _]. cbn [fst] in Hlen.
    destruct path as [|n [|]]; try discriminate. rewrite E.
    destruct (lookup_top cs kids n v Hc Hm Hv) as (i & lt & yt & L & _). exists (ILeaf i lt yt v). split; [exact L|reflexivity]. }
  destruct (unwanted_picked kp (fun e => selected O cs sel (snd e)) es HK) as (gone & kept & H1 & H2 & H3).
  exists kept. split; [exact H2|]. unfold dumps_ietf_select.
  set (f := fun e : pyval * obj => tree (snd e)).
  assert (Eu : forall l, unwanted (keep itree_items (itree_text O text) (wanted sel)) (map f l) = (g <- unwanted kp l ;; Ok (map f g))).
  { induction l as [|e l IHl]; [reflexivity|]. cbn [map unwanted]. rewrite IHl. change (keep itree_items (itree_text O text) (wanted sel) (f e)) with (kp e).
    destruct (kp e) as [[]|]; cbn [bind]; [| |reflexivity]; destruct (unwanted kp l); reflexivity. }
  assert (E0 : forall l, unwanted (keep itree_items (itree_text O text) []) l = Ok []).
  { induction l as [|e l IHl]; [reflexivity|]. cbn [unwanted]. rewrite IHl. reflexivity. }
  change (fun e : pyval * obj => match snd e with OCont _ _ kids => IDict (gen_kids true WNone None cs kids) | _ => IDict [] end) with f.
  rewrite Eu, H1, E0. cbn [bind fold_left]. f_equal. f_equal.
  set (hit := fun a b : pyval * obj => teq (f b) (f a)).
  assert (Em : forall g l, fold_left (fun l e => remove_first e l) (map f g) (map f l) = map f (fold_left (fun l e => del_hit hit e l) g l)).
  { assert (M : forall e l, remove_first (f e) (map f l) = map f (del_hit hit e l)).
    { intros e. induction l as [|x l IHl]; [reflexivity|]. cbn [map del_hit remove_first]. unfold hit at 1. destruct (teq (f x) (f e)); [reflexivity|]. cbn [map]. now rewrite IHl. }
    induction g as [|e g IHg]; intros l; [reflexivity|]. cbn [map fold_left]. now rewrite M, IHg. }
  rewrite Em. f_equal. eapply (del_gone hit (fun e => selected O cs sel (snd e))); try eassumption.
  - intros x Hx. unfold hit, f, tree. apply teq_refl. destruct (snd x); try (constructor; constructor). now apply top_deep.
  - intros a b x y Hx Hy' Hn. unfold hit, f, tree. rewrite Forall_forall in Hco.
    destruct (Hco x (nth_error_In _ _ Hx)) as (c & p & k & Ex). destruct (Hco y (nth_error_In _ _ Hy')) as (c' & p' & k' & Ey). rewrite Ex, Ey.
    eapply apart_teq; eauto. rewrite <- Ex, <- Ey. apply (Hap b a); auto; now apply map_nth_error.
Qed.
End E.
