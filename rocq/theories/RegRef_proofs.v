(** Searches and leafrefs in a data tree. *)
From Coq Require Import Lia Permutation.
From Verif Require Import PyStr PyStr_facts PyVal PathHelper Spec_Path RegTree RegRef Spec_RegTree Spec_RegRef PathText_proofs PathHelper_proofs PathSim_proofs PathSearch_proofs RegTree_proofs Leafref_proofs.

Lemma found_tree cs kids M P r : tree_inv true [] cs kids M -> ~ P [] -> found M P r -> found_in cs kids P r.
Proof.
  intros [H1 H2] Hnil (qs & Hd & Hin & ->).
  assert (Hq : forall q, In q qs -> exists o', M q = Some o' /\ forall o, in_tree cs kids q o -> agrees o' o).
  { intros q Hq. apply Hin in Hq as [HM HP]. destruct (M q) as [o'|] eqn:E; [|congruence]. exists o'. split; [reflexivity|]. intros o Ho. destruct (H1 q o Ho ltac:(reflexivity)) as (o2 & E2 & Ha). cbn [app] in E2.
    assert (o2 = o') by congruence. now subst. }
  assert (E : exists os, Forall2 (fun q o' => forall o, in_tree cs kids q o -> agrees o' o) qs os /\ map M qs = map Some os).
  { clear Hd Hin. induction qs as [|q qs IH]; [exists []; split; [constructor|reflexivity]|]. destruct (Hq q (or_introl eq_refl)) as (o' & E & Ha). destruct IH as (os & F & Em); [intros p Hp; apply Hq; now right|].
    exists (o' :: os). split; [now constructor|]. cbn [map]. now rewrite E, Em. }
  destruct E as (os & F & ->). exists qs, os. split; [assumption|]. split; [|now split]. intros q. rewrite (Hin q). split; intros [A B].
  - split; [assumption|]. destruct q as [|n q]; [contradiction|]. now apply (H2 eq_refl n q).
  - split; [|assumption]. destruct B as (o & Ho). destruct (H1 q o Ho ltac:(reflexivity)) as (o2 & E2 & _). cbn [app] in E2. congruence.
Qed.

Theorem tree_search uid cs os path pat caller : fresh uid -> module_ok cs -> Forall (tame cs) os -> Forall2 names path pat -> Forall name_ok pat -> pat <> [] ->
  let wk := session uid cs os in found_in cs (snd wk) (matching pat) (get caller path (w_help (fst wk))) /\ found_in cs (snd wk) (matching pat) (get caller ([] :: path) (w_help (fst wk))).
Proof.
  intros Hu Hm Hos Hp Hn Hne wk. destruct (session_ok uid Hu cs true os Hm Hos) as (M & I & Hf & HT). destruct (search_sim uid (keys_of cs) _ M path pat caller I Hp Hn Hne) as [F1 F2].
  split; (apply (found_tree cs _ M); [assumption|now apply matching_nil|assumption]).
Qed.
Theorem tree_relative uid cs os cpath c o k path pat : fresh uid -> module_ok cs -> Forall (tame cs) os -> Forall2 names path pat -> Forall name_ok pat -> pat <> [] ->
  let wk := session uid cs os in in_tree cs (snd wk) c o -> Forall2 spells cpath c -> (0 < k <= length c)%nat ->
  found_in cs (snd wk) (fun q => exists r, q = firstn (length c - k) c ++ r /\ matching pat r) (get cpath (repeat (lit "..") k ++ path) (w_help (fst wk))).
Proof.
  intros Hu Hm Hos Hp Hn Hne wk Hc Hcs Hk. destruct (session_ok uid Hu cs true os Hm Hos) as (M & I & Hf & HT). fold wk in I, Hf, HT. destruct Hm as [Hd Hs]. destruct (in_place cs _ _ _ _ Hc [] [] (ctx_top cs) Hd Hs Hf) as (_ & _ & Hok). cbn [app] in Hok.
  pose proof (relative_sim uid (keys_of cs) _ M cpath c k path pat I Hcs Hok Hk Hp Hn Hne) as F.
  apply (found_tree cs _ M); [assumption| |].
  - intros (r & E & Hr). symmetry in E. apply app_eq_nil in E as [_ ->]. now apply (matching_nil pat Hne).
  - destruct F as (qs & Hnd & Hin & E). exists qs. split; [assumption|]. split; [|assumption]. intros q. rewrite (Hin q). destruct (proj1 HT c o Hc ltac:(reflexivity)) as (o2 & E2 & _). cbn [app] in E2. assert (M c <> None) by congruence. tauto.
Qed.

(* ------------------------------------------------------------------ paths of leafrefs *)
Definition plain_place (ns : list str) : place := map (fun n => (n, [])) ns.
Lemma matching_plain ns q : matching (plain_place ns) q <-> map fst q = ns.
Proof.
  unfold matching, plain_place. split.
  - revert ns. induction q as [|m q IH]; intros [|n ns] H; inversion H as [|? ? ? ? [H1 _] H2]; subst; [reflexivity|]. cbn [map]. f_equal; [now symmetry|]. now apply IH.
  - intros <-. induction q as [|m q IH]; cbn [map]; constructor; [|assumption]. split; [reflexivity|]. intros x [].
Qed.
Lemma part_names parts ns : Forall2 part_name parts ns -> Forall2 names parts (plain_place ns) /\ Forall name_ok (plain_place ns).
Proof.
  induction 1 as [|p n parts ns [Hx Hp] H [I1 I2]]; [split; constructor|]. split; (constructor; [|assumption]).
  - exists n. split; [left; now split|exact Hp].
  - now apply plain_name_ok.
Qed.
Lemma plain_parts parts : parts <> [] -> Forall (Forall (fun c => ~ In c [47; 34; 91; 93]%N)) parts -> path_parts (join (lit "/") parts) = parts.
Proof.
  intros Hne H. assert (E : forall s, part_of (map CPlain s) = s) by (induction s as [|c s IH]; [reflexivity|]; unfold part_of in *; cbn [map chunk_text concat app]; now rewrite IH).
  assert (Em : map part_of (map (map CPlain) parts) = parts) by (rewrite map_map; clear -E; induction parts as [|p parts IH]; [reflexivity|]; cbn [map]; now rewrite E, IH).
  pose proof (parts_split (map (map CPlain) parts)) as P. rewrite Em in P. apply P; [destruct parts; [congruence|discriminate]|]. clear -H. induction H as [|p parts Hp H IH]; cbn [map]; constructor; [|assumption].
  induction Hp as [|c p Hc Hp IHp]; cbn [map]; constructor; assumption.
Qed.
Lemma part_plain part n : part_name part n -> Forall (fun c => ~ In c [47; 34; 91; 93]%N) part.
Proof.
  assert (X : forall s, xml_name s -> Forall (fun c => ~ In c [47; 34; 91; 93]%N) s).
  { intros s Hs. apply Forall_forall. intros c Hc Hi. pose proof (xml_name_chars s c Hs Hc) as H. unfold letter in H. cbn in Hi. lia. }
  intros [Hn [->|(prefix & Hp & ->)]]; [now apply X|]. apply Forall_app. split; [now apply X|]. apply Forall_app. split; [constructor; [cbn; intuition discriminate|constructor]|now apply X].
Qed.
Lemma reads_parts ref up ns : reads ref up ns -> exists parts, parts <> [] /\ Forall2 part_name parts ns /\ path_parts ref = match up with 0%nat => [] :: parts | _ => repeat (lit "..") up ++ parts end.
Proof.
  intros (parts & Hne & Hp & ->). exists parts. split; [assumption|]. split; [assumption|].
  assert (Hpl : Forall (Forall (fun c => ~ In c [47; 34; 91; 93]%N)) parts) by (clear Hne; induction Hp as [|p n parts ns H1 H2 IH]; constructor; [now apply (part_plain p n)|assumption]). destruct up as [|up].
  - change (lit "/" ++ join (lit "/") parts) with ([] ++ lit "/" ++ join (lit "/") parts). assert (Ej : [] ++ lit "/" ++ join (lit "/") parts = join (lit "/") ([] :: parts)) by (destruct parts; [congruence|reflexivity]).
    rewrite Ej. apply plain_parts; [discriminate|]. constructor; [constructor|assumption].
  - apply plain_parts; [discriminate|]. apply Forall_app. split; [|assumption]. apply Forall_forall. intros x Hx. apply repeat_spec in Hx. subst x. repeat (constructor; [cbn; intuition discriminate|]). constructor.
Qed.
(** What the path of a leafref leads to. *)
Theorem ref_search uid cs os c o cpath ref up ns : fresh uid -> module_ok cs -> Forall (tame cs) os ->
  let wk := session uid cs os in in_tree cs (snd wk) c o -> Forall2 spells cpath c -> (up <= length c)%nat -> reads ref up ns ->
  found_in cs (snd wk) (meant c up ns) (get cpath (path_parts ref) (w_help (fst wk))).
Proof.
  intros Hu Hm Hos wk Hc Hcs Hk Hr. destruct (reads_parts ref up ns Hr) as (parts & Hne & Hp & ->). destruct (part_names parts ns Hp) as [N1 N2]. assert (Hpn : plain_place ns <> []) by (inversion Hp; subst; [congruence|discriminate]).
  assert (Eq : forall P Q r, (forall q, P q <-> Q q) -> found_in cs (snd wk) P r -> found_in cs (snd wk) Q r).
  { intros P Q r E (qs & os' & H1 & H2 & H3). exists qs, os'. split; [assumption|]. split; [|assumption]. intros q. now rewrite (H2 q), (E q). }
  destruct up as [|up].
  - destruct (tree_search uid cs os parts (plain_place ns) cpath Hu Hm Hos N1 N2 Hpn) as [_ F]. fold wk in F. revert F. apply Eq. intros q. apply matching_plain.
  - pose proof (tree_relative uid cs os cpath c o (S up) parts (plain_place ns) Hu Hm Hos N1 N2 Hpn Hc Hcs ltac:(lia)) as F. fold wk in F. revert F. apply Eq. intros q. unfold meant. split; intros (r & -> & H); exists r; (split; [reflexivity|now apply matching_plain]).
Qed.

(* ------------------------------------------------------------------ leafrefs *)
Theorem leafref_leaves uid text other cs os c o cpath ref up ns key assign v : fresh uid -> module_ok cs -> Forall (tame cs) os ->
  let wk := session uid cs os in in_tree cs (snd wk) c o -> Forall2 spells cpath c -> (up <= length c)%nat -> reads ref up ns ->
  (forall q t, in_tree cs (snd wk) q t -> meant c up ns q -> exists x, t = PLeaf x /\ forall y, py_eq y x = true -> text y = text x) ->
  (key = true \/ exists q1 q2 t1 t2, q1 <> q2 /\ in_tree cs (snd wk) q1 t1 /\ in_tree cs (snd wk) q2 t2 /\ meant c up ns q1 /\ meant c up ns q2) ->
  match leafref_new text other true key cpath ref (fst wk) assign v with
  | Ok _ => exists q x, in_tree cs (snd wk) q (PLeaf x) /\ meant c up ns q /\ text x = v
  | Raise e => e = ValueError /\ forall q x, in_tree cs (snd wk) q (PLeaf x) -> meant c up ns q -> text x <> v
  end.
Proof.
  intros Hu Hm Hos wk Hc Hcs Hk Hr Hleaf Hsingle. destruct (ref_search uid cs os c o cpath ref up ns Hu Hm Hos Hc Hcs Hk Hr) as (qs & os' & Hnd & Hin & F & Eg). fold wk in Hin, F, Eg.
  unfold leafref_new. rewrite Eg. cbn [bind]. rewrite map_map. set (ts := map (fun x => target_of text other key (fst wk) (Some x)) os').
  (* every target is a leaf with the text of the leaf in the tree *)
  assert (HT : Forall2 (fun q t => exists x, in_tree cs (snd wk) q (PLeaf x) /\ meant c up ns q /\ t = {| t_text := text x; t_members := None; t_keyval := key; t_list := false |}) qs ts).
  { unfold ts. clear Eg Hnd. assert (Hq : forall q, In q qs -> meant c up ns q /\ exists o, in_tree cs (snd wk) q o) by (intros q; apply Hin). clear Hin. induction F as [|q o' qs os' Ha F IH]; [constructor|]. cbn [map]. constructor; [|apply IH; intros p Hp; apply Hq; now right].
    destruct (Hq q (or_introl eq_refl)) as (Hmq & t & Ht). destruct (Hleaf q t Ht Hmq) as (x & -> & Hx). exists x. split; [assumption|]. split; [assumption|]. pose proof (Ha _ Ht) as Hag. destruct o' as [y| |]; cbn [agrees] in Hag; try discriminate.
    cbn [target_of]. f_equal. destruct Hag as [->|Hag]; [reflexivity|now apply Hx]. }
  assert (Hall : forall q x, in_tree cs (snd wk) q (PLeaf x) -> meant c up ns q -> exists t, In t ts /\ t_text t = text x).
  { intros q x Hqx Hmq. assert (Hiq : In q qs) by (apply Hin; split; [assumption|now exists (PLeaf x)]). clear -F Hiq Hqx Hleaf Hmq. unfold ts. induction F as [|p o' qs os' Ha F IH]; [contradiction|]. cbn [map]. destruct Hiq as [->|Hiq].
    - exists (target_of text other key (fst wk) (Some o')). split; [now left|]. pose proof (Ha _ Hqx) as Hag. destruct o' as [y| |]; cbn [agrees] in Hag; try discriminate. cbn. destruct (Hleaf q _ Hqx Hmq) as (x' & E & Hx). injection E as <-. destruct Hag as [->|Hag]; [reflexivity|now apply Hx].
    - destruct (IH Hiq) as (t & Ht & Et). exists t. split; [now right|assumption]. }
  assert (Hp : ~ pointer_like ts).
  { intros (t & Et & Hkey & _). destruct Hsingle as [->|(q1 & q2 & t1 & t2 & Hne & H1 & H2 & M1 & M2)].
    - rewrite Et in HT. inversion HT as [|? ? ? ? (x & _ & _ & ->) _]; subst. discriminate.
    - rewrite Et in HT. inversion HT as [|q' ? qs' ? _ HT']; subst. inversion HT'; subst. assert (I1 : In q1 [q']) by (apply Hin; split; [assumption|now exists t1]). assert (I2 : In q2 [q']) by (apply Hin; split; [assumption|now exists t2]).
      destruct I1 as [<-|[]], I2 as [<-|[]]. now apply Hne. }
  assert (Hinst : instance ts v <-> exists q x, in_tree cs (snd wk) q (PLeaf x) /\ meant c up ns q /\ text x = v).
  { assert (G : (exists t, In t ts /\ t_text t = v) <-> exists q x, in_tree cs (snd wk) q (PLeaf x) /\ meant c up ns q /\ text x = v).
    { split.
      - intros (t & Ht & Et). clear -HT Ht Et. induction HT as [|q t' qs ts (x & H1 & H2 & ->) HT IH]; [contradiction|]. destruct Ht as [<-|Ht]; [now exists q, x|now apply IH].
      - intros (q & x & H1 & H2 & H3). destruct (Hall q x H1 H2) as (t & Ht & Et). exists t. split; [assumption|congruence]. }
    rewrite <- G. unfold instance. destruct ts as [|t [|t2 ts']] eqn:Ets; try reflexivity. inversion HT as [|? ? ? ? (x & _ & _ & ->) _]; subst. cbn [t_members t_text]. split.
    - intros E. eexists. split; [now left|exact E].
    - intros (t & [<-|[]] & E). exact E. }
  pose proof (leafref_exact ts assign v Hp) as HE. pose proof (leafref_accepts ts assign v Hp) as HA. destruct (reference_new true (Some ts) assign (Some v)) as [r|e] eqn:Er.
  - apply Hinst. apply HA. now exists r.
  - destruct HE as [-> HE]. split; [reflexivity|]. intros q x H1 H2 E. apply HE. apply Hinst. now exists q, x.
Qed.
(** One leaf-list. *)
Theorem leafref_leaf_list uid text other cs os c o cpath ref up ns key q id assign v : fresh uid -> module_ok cs -> Forall (tame cs) os ->
  let wk := session uid cs os in in_tree cs (snd wk) c o -> Forall2 spells cpath c -> (up <= length c)%nat -> reads ref up ns ->
  in_tree cs (snd wk) q (PLeafList id) -> meant c up ns q -> (forall q' t, in_tree cs (snd wk) q' t -> meant c up ns q' -> q' = q) ->
  match leafref_new text other true key cpath ref (fst wk) assign v with
  | Ok _ => exists x, In x (members id (w_heap (fst wk))) /\ text x = v
  | Raise e => e = ValueError /\ forall x, In x (members id (w_heap (fst wk))) -> text x <> v
  end.
Proof.
  intros Hu Hm Hos wk Hc Hcs Hk Hr Hq Hmq Hone. destruct (ref_search uid cs os c o cpath ref up ns Hu Hm Hos Hc Hcs Hk Hr) as (qs & os' & Hnd & Hin & F & Eg). fold wk in Hin, F, Eg.
  assert (Eqs : qs = [q]).
  { assert (Hi : In q qs) by (apply Hin; split; [assumption|now exists (PLeafList id)]). assert (Hsame : forall p, In p qs -> p = q) by (intros p Hp; apply Hin in Hp as (H1 & t & H2); now apply (Hone p t)).
    clear -Hi Hsame Hnd. destruct qs as [|a [|b qs]]; [contradiction|now rewrite (Hsame a (or_introl eq_refl))|]. exfalso. inversion Hnd as [|? ? H1 _]; subst. apply H1. left. rewrite (Hsame a (or_introl eq_refl)). apply Hsame. right. now left. }
  subst qs. inversion F as [|? o' ? ? Ha F']; subst. inversion F'; subst. pose proof (Ha _ Hq) as Hag. destruct o' as [| |]; cbn [agrees] in Hag; try discriminate. injection Hag as ->.
  unfold leafref_new. rewrite Eg. cbn [bind map target_of]. set (t := {| t_text := _; t_members := _; t_keyval := _; t_list := _ |}). assert (Hp : ~ pointer_like [t]) by (intros (t' & E & _ & H); injection E as <-; discriminate).
  assert (Hinst : instance [t] v <-> exists x, In x (members id (w_heap (fst wk))) /\ text x = v).
  { cbn [instance t t_members]. rewrite in_map_iff. split; intros (x & H1 & H2); now exists x. }
  pose proof (leafref_exact [t] assign v Hp) as HE. pose proof (leafref_accepts [t] assign v Hp) as HA. destruct (reference_new true (Some [t]) assign (Some v)) as [r|e] eqn:Er.
  - apply Hinst. apply HA. now exists r.
  - destruct HE as [-> HE]. split; [reflexivity|]. intros x H1 E. apply HE. apply Hinst. now exists x.
Qed.

(* ------------------------------------------------------------------ get_unique *)
Theorem unique_found {A} (M : objects (A := A)) P e r : found M P r ->
  match (objs <- r ;; match objs with [] => Raise e | [o] => Ok o | _ => Raise e end) with
  | Ok o => exists q, P q /\ M q = o /\ o <> None /\ forall q', P q' -> M q' <> None -> q' = q
  | Raise e' => e' = e /\ ((forall q, P q -> M q = None) \/ exists q1 q2, q1 <> q2 /\ P q1 /\ P q2 /\ M q1 <> None /\ M q2 <> None)
  end.
Proof.
  intros (qs & Hd & Hin & ->). cbn [bind]. destruct qs as [|q [|q2 qs]]; cbn [map].
  - split; [reflexivity|]. left. intros q Hq. destruct (M q) eqn:E; [|reflexivity]. exfalso. apply (Hin q). split; [congruence|assumption].
  - destruct (proj1 (Hin q) (or_introl eq_refl)) as [H1 H2]. exists q. split; [assumption|]. split; [reflexivity|]. split; [assumption|]. intros q' H3 H4. assert (Hi : In q' [q]) by (apply Hin; now split). now destruct Hi as [<-|[]].
  - split; [reflexivity|]. right. exists q, q2. destruct (proj1 (Hin q) (or_introl eq_refl)) as [H1 H2]. destruct (proj1 (Hin q2) (or_intror (or_introl eq_refl))) as [H3 H4]. inversion Hd as [|? ? Hno _]; subst.
    split; [intros ->; apply Hno; now left|]. now repeat split.
Qed.
Theorem unique_run {A} (oeq : A -> A -> bool) uid keys (cs : list (call (A := A))) e path pat caller : fresh uid -> Forall (call_ok keys) cs -> Forall2 names path pat -> Forall name_ok pat -> pat <> [] ->
  let M := fst (map_run oeq cs (fun _ => None)) in
  match get_unique e caller path (fst (helper_run oeq uid cs helper_new)) with
  | Ok o => exists q, matching pat q /\ M q = o /\ o <> None /\ forall q', matching pat q' -> M q' <> None -> q' = q
  | Raise e' => e' = e /\ ((forall q, matching pat q -> M q = None) \/ exists q1 q2, q1 <> q2 /\ matching pat q1 /\ matching pat q2 /\ M q1 <> None /\ M q2 <> None)
  end.
Proof. intros Hu Hc Hp Hn Hne M. exact (unique_found M (matching pat) e _ (proj1 (search_run oeq uid keys cs path pat caller Hu Hc Hp Hn Hne))). Qed.
