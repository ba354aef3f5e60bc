(** Sequences of register and unregister. *)
From Coq Require Import Lia Permutation.
From Verif Require Import PyStr PyStr_facts PyVal PathHelper Spec_Path PathText_proofs PathHelper_proofs.

Lemma look_set {A} k k' (v : A) d : look k' (dict_set k v d) = if str_eqb k' k then Some v else look k' d.
Proof.
  induction d as [|[m a] d IH]; cbn [dict_set look]; [reflexivity|]. destruct (str_eqb k m) eqn:E.
  - apply str_eqb_eq in E. subst m. cbn [look]. now destruct (str_eqb k' k).
  - cbn [look]. rewrite IH. destruct (str_eqb k' m) eqn:E'; [|reflexivity]. apply str_eqb_eq in E'. subst m. apply str_eqb_neq in E. destruct (str_eqb k' k) eqn:E2; [apply str_eqb_eq in E2; congruence|reflexivity].
Qed.
Lemma look_del {A} k k' (d : list (str * A)) : look k' (dict_del k d) = if str_eqb k' k then None else look k' d.
Proof.
  unfold dict_del. induction d as [|[m a] d IH]; cbn [filter look fst]; [now destruct (str_eqb k' k)|]. destruct (str_eqb k m) eqn:E; cbn [negb].
  - rewrite IH. apply str_eqb_eq in E. subst m. now destruct (str_eqb k' k).
  - cbn [look]. rewrite IH. destruct (str_eqb k' m) eqn:E'; [|reflexivity]. apply str_eqb_eq in E'. subst m. rewrite str_eqb_sym, E. reflexivity.
Qed.
Lemma place_dec_refl {B} q (x y : B) : (if place_dec q q then x else y) = x.
Proof. destruct (place_dec q q); [reflexivity|congruence]. Qed.

Section Tree.
Context (keys : list str -> list str).
Lemma wt_pointer q : forall tags e x, wt keys tags e -> fnode q e = Some x -> q <> [] -> wt keys (tags ++ map fst q) x /\
  exists id r, x_attrs x = (lit "obj_ptr", id) :: r /\ pointer x = Some id.
Proof.
  induction q as [|n q IH]; intros tags e x Hw Hx Hq; [congruence|]. cbn [fnode] in Hx. pose proof (idx_find n (x_kids e)) as Hix. destruct (find_kid n (x_kids e)) as [c|]; [|discriminate].
  destruct (idx n (x_kids e)) as [i|]; [|contradiction]. destruct Hix as [Hc Hn]. pose proof (wt_kid keys tags e i c Hw Hc) as Hwc. cbn [map]. rewrite <- Hn. cbn [name_of fst].
  destruct q as [|m q].
  - cbn [fnode] in Hx. injection Hx as <-. split; [exact Hwc|]. inversion Hw as [t ats ks _ Ha _]; subst. cbn [x_kids] in Hc. rewrite Forall_forall in Ha. destruct (Ha c) as (id & r & Er & _); [now apply nth_error_In in Hc|].
    exists id, r. split; [assumption|]. unfold pointer. rewrite Er. cbn [look]. now rewrite str_eqb_refl.
  - destruct (IH (tags ++ [x_tag c]) c x Hwc Hx ltac:(discriminate)) as [I1 I2]. rewrite <- app_assoc in I1. now split.
Qed.
Lemma fptr_some tags q e : wt keys tags e -> q <> [] -> fptr q e = None -> faddr q e = None.
Proof.
  intros Hw Hq H. pose proof (faddr_fnode q e) as Hf. destruct (faddr q e) as [a|]; [|reflexivity]. destruct (fnode q e) as [x|] eqn:Ex; [|contradiction]. unfold fptr in H. rewrite Ex in H.
  destruct (wt_pointer q tags e x Hw Ex Hq) as (_ & id & r & _ & E). congruence.
Qed.
Lemma faddr_fptr q e a : faddr q e = Some a -> exists x, fnode q e = Some x /\ node_at a e = Some x.
Proof. intros H. pose proof (faddr_fnode q e) as Hf. rewrite H in Hf. destruct (fnode q e) as [x|]; [now exists x|contradiction]. Qed.
Lemma faddr_nil q e a : faddr q e = Some a -> (q = [] <-> a = []).
Proof. destruct q as [|n q]; cbn [faddr]; intros H; [injection H as <-; now split|]. destruct (idx n (x_kids e)); [|discriminate]. destruct (find_kid n (x_kids e)); [|discriminate]. destruct (faddr q x); [|discriminate]. injection H as <-. split; discriminate. Qed.

Lemma fptr_set q a id e q' : wt keys [] e -> q <> [] -> faddr q e = Some a ->
  fptr q' (upd_at a (set_attr (lit "obj_ptr") id) e) = if place_dec q' q then Some id else fptr q' e.
Proof.
  intros Hw Hq Ha. destruct (faddr_fptr q e a Ha) as (x & Hx & _). destruct (wt_pointer q [] e x Hw Hx Hq) as (_ & id0 & r & Er & _).
  rewrite (fptr_upd q a _ e q' Ha).
  - rewrite Hx. destruct (strip q q') as [s|] eqn:E.
    + apply strip_some in E. subst q'. destruct x as [t ats ks]. cbn [x_attrs] in Er. subst ats. destruct s as [|m s].
      * rewrite app_nil_r, place_dec_refl. unfold fptr. cbn [fnode set_attr pointer x_attrs dict_set]. rewrite str_eqb_refl. unfold pointer. cbn [x_attrs look]. now rewrite str_eqb_refl.
      * destruct (place_dec (q ++ m :: s) q) as [E|_]; [apply (f_equal (@length _)) in E; rewrite app_length in E; cbn in E; lia|]. unfold fptr. rewrite (fnode_app q (m :: s) e), Hx. reflexivity.
    + destruct (place_dec q' q) as [-> | _]; [|reflexivity]. assert (E' : strip q q = Some []) by (apply strip_some; now rewrite app_nil_r). congruence.
  - intros x' Hx' _. replace x' with x by congruence. destruct x as [t ats ks]. cbn [x_attrs] in Er. subst ats. cbn [set_attr dict_set]. rewrite str_eqb_refl. reflexivity.
Qed.
Lemma fptr_add q a (n : node_name) id e x q' : faddr q e = Some a -> fnode q e = Some x -> find_kid n (x_kids x) = None ->
  fptr q' (upd_at a (add_kid (El (fst n) ((lit "obj_ptr", id) :: snd n) [])) e) = if place_dec q' (q ++ [n]) then Some id else fptr q' e.
Proof.
  intros Ha Hx Hn. rewrite (fptr_upd q a _ e q' Ha).
  - rewrite Hx. destruct (strip q q') as [s|] eqn:E.
    + apply strip_some in E. subst q'. destruct x as [tx ats ks]. cbn [x_kids] in Hn. destruct s as [|m s].
      * rewrite app_nil_r. destruct (place_dec q (q ++ [n])) as [E|_]; [apply (f_equal (@length _)) in E; rewrite app_length in E; cbn in E; lia|]. unfold fptr. rewrite Hx. reflexivity.
      * unfold fptr at 1. cbn [add_kid fnode x_kids]. rewrite find_app. unfold fptr. rewrite (fnode_app q (m :: s) e), Hx. cbn [fnode x_kids].
        destruct (place_dec (q ++ m :: s) (q ++ [n])) as [E|E].
        -- apply app_inv_head in E. injection E as -> ->. rewrite Hn. cbn [find_kid]. change (name_of (El (fst n) ((lit "obj_ptr", id) :: snd n) [])) with (fst n, snd n). rewrite <- (surjective_pairing n). rewrite name_eqb_refl. cbn [fnode pointer x_attrs look]. unfold pointer. cbn [x_attrs look]. now rewrite str_eqb_refl.
        -- destruct (find_kid m ks) as [c|]; [reflexivity|]. cbn [find_kid]. change (name_of (El (fst n) ((lit "obj_ptr", id) :: snd n) [])) with (fst n, snd n). rewrite <- (surjective_pairing n). destruct (name_eqb n m) eqn:Em; [|reflexivity]. apply name_eqb_eq in Em. subst m.
           destruct s as [|m2 s]; [exfalso; now apply E|]. reflexivity.
    + destruct (place_dec q' (q ++ [n])) as [-> | _]; [|reflexivity]. assert (E' : strip q (q ++ [n]) = Some [n]) by (now apply strip_some). congruence.
  - intros x' Hx' _. now destruct x'.
Qed.
Lemma faddr_last q n e a : faddr (q ++ [n]) e = Some a -> exists a0 i x, a = a0 ++ [i] /\ faddr q e = Some a0 /\ fnode q e = Some x /\ idx n (x_kids x) = Some i.
Proof.
  revert e a. induction q as [|m q IH]; intros e a H; cbn [app faddr] in H.
  - destruct (idx n (x_kids e)) as [i|] eqn:Ei; [|discriminate]. destruct (find_kid n (x_kids e)); [|discriminate]. injection H as <-. exists [], i, e. auto.
  - cbn [faddr fnode]. destruct (idx m (x_kids e)) as [i|] eqn:Ei; [|discriminate]. destruct (find_kid m (x_kids e)) as [c|]; [|discriminate]. destruct (faddr (q ++ [n]) c) as [a'|] eqn:Ea; [|discriminate]. injection H as <-.
    destruct (IH c a' Ea) as (a0 & j & x & -> & H1 & H2 & H3). exists (i :: a0), j, x. rewrite H1. auto.
Qed.
Lemma wt_node q tags e x : wt keys tags e -> fnode q e = Some x -> wt keys (tags ++ map fst q) x.
Proof. intros Hw Hx. destruct q as [|n q]; [cbn in *; injection Hx as <-; now rewrite app_nil_r|]. now apply (wt_pointer (n :: q) tags e x Hw Hx). Qed.
Lemma fptr_drop q a e q' : wt keys [] e -> q <> [] -> faddr q e = Some a -> fptr q' (drop_at a e) = if below q q' then None else fptr q' e.
Proof.
  intros Hw Hq Ha. destruct (exists_last Hq) as (q0 & n & ->). destruct (faddr_last q0 n e a Ha) as (a0 & i & x & -> & Ha0 & Hx & Hi). rewrite drop_upd.
  rewrite (fptr_upd q0 a0 _ e q' Ha0) by (intros x' _ _; now destruct x'). rewrite Hx, strip_below.
  pose proof (wt_node q0 [] e x Hw Hx) as Hwx. destruct x as [t ats ks]. cbn [x_kids] in *. inversion Hwx as [? ? ? Hd _ _]; subst.
  destruct (strip q0 q') as [s|] eqn:E.
  - apply strip_some in E. subst q'. destruct s as [|m s].
    + rewrite app_nil_r. destruct (strip (q0 ++ [n]) q0) as [s|] eqn:E; [apply strip_some in E; apply (f_equal (@length _)) in E; rewrite !app_length in E; cbn in E; lia|]. unfold fptr. rewrite Hx. reflexivity.
    + unfold fptr at 1. cbn [del_kid fnode x_kids]. rewrite (find_del n m i ks Hi Hd). destruct (name_eqb n m) eqn:En.
      * apply name_eqb_eq in En. subst m. destruct (strip (q0 ++ [n]) (q0 ++ n :: s)) as [s'|] eqn:E; [reflexivity|].
        assert (E' : strip (q0 ++ [n]) (q0 ++ n :: s) = Some s) by (apply strip_some; now rewrite <- app_assoc). congruence.
      * destruct (strip (q0 ++ [n]) (q0 ++ m :: s)) as [s'|] eqn:E; [apply strip_some in E; rewrite <- app_assoc in E; apply app_inv_head in E; injection E as -> _; rewrite name_eqb_refl in En; discriminate|].
        unfold fptr. rewrite (fnode_app q0 (m :: s) e), Hx. reflexivity.
  - destruct (strip (q0 ++ [n]) q') as [s'|] eqn:E'; [|reflexivity]. apply strip_some in E'. subst q'. assert (Es : strip q0 ((q0 ++ [n]) ++ s') = Some ([n] ++ s')) by (apply strip_some; now rewrite <- app_assoc). congruence.
Qed.
End Tree.

Lemma same_place_names q q' : same_place q q' -> Forall name_ok q -> Forall name_ok q'.
Proof.
  induction 1 as [|n n' q q' [Ht Hp] H IH]; intros Hq; [constructor|]. inversion Hq as [|? ? (N1 & N2 & N3) Hq']; subst. constructor; [|now apply IH]. split; [now rewrite <- Ht|]. split.
  - apply (Permutation_NoDup (l := map fst (snd n))); [now apply Permutation_map|assumption].
  - apply (Permutation_Forall Hp N3).
Qed.

Section Sim.
Context {A : Type} (oeq : A -> A -> bool) (uid : nat -> str) (Huid : fresh uid) (keys : list str -> list str).
Definition libkey (next : nat) (p : str) : Prop := p = lit "root" \/ exists n, (n < next)%nat /\ p = uid n.
Record inv (st : helper A) (M : objects (A := A)) : Prop := {
  i_wt : wt keys [] (h_root st);
  i_root : pointer (h_root st) = Some (lit "root");
  i_fake : look (lit "root") (h_lib st) = Some None;
  i_keys : forall p, look p (h_lib st) <> None -> libkey (h_next st) p;
  i_ptr : forall q, q <> [] -> match fptr q (h_root st) with Some p => exists o, look p (h_lib st) = Some (Some o) /\ M q = Some o | None => M q = None end;
  i_inj : forall q q' p, fptr q (h_root st) = Some p -> fptr q' (h_root st) = Some p -> q = q'
}.
Lemma inv_new : inv (helper_new (A := A)) (fun _ => None).
Proof.
  constructor; cbn [helper_new h_root h_lib h_next].
  - constructor; [constructor|constructor|intros c []].
  - reflexivity.
  - reflexivity.
  - intros p H. cbn [look] in H. destruct (str_eqb p (lit "root")) eqn:E; [left; now apply str_eqb_eq|congruence].
  - intros [|n q] Hq; [congruence|]. reflexivity.
  - intros [|n q] [|n' q'] p H1 H2; try reflexivity; discriminate.
Qed.
(** Every pointer is a key of the library. *)
Lemma ptr_lib st M q p : inv st M -> fptr q (h_root st) = Some p -> look p (h_lib st) <> None.
Proof.
  intros I H. destruct q as [|n q].
  - unfold fptr in H. cbn [fnode] in H. rewrite (i_root _ _ I) in H. injection H as <-. rewrite (i_fake _ _ I). discriminate.
  - pose proof (i_ptr _ _ I (n :: q) ltac:(discriminate)) as Hp. rewrite H in Hp. destruct Hp as (o & -> & _). discriminate.
Qed.
Lemma new_key st M p : inv st M -> look p (h_lib st) <> None -> p <> uid (h_next st).
Proof. intros I H ->. destruct (i_keys _ _ I _ H) as [E|(n & Hn & E)]; [now apply Huid in E|]. apply Huid in E. lia. Qed.
Lemma libkey_S next p : libkey next p -> libkey (S next) p.
Proof. intros [->|(n & Hn & ->)]; [now left|right; exists n; split; [lia|reflexivity]]. Qed.

Lemma object_ptr st M q a : inv st M -> faddr q (h_root st) = Some a -> q <> [] -> exists o p, object_at st a = Ok (Some o) /\ M q = Some o /\
  fptr q (h_root st) = Some p /\ (exists x, node_at a (h_root st) = Some x /\ pointer x = Some p) /\ look p (h_lib st) = Some (Some o).
Proof.
  intros I Ha Hq. destruct (faddr_fptr q _ a Ha) as (x & Hx & Hn). destruct (wt_pointer keys q [] _ x (i_wt _ _ I) Hx Hq) as (_ & id & r & _ & Hid).
  assert (Hp : fptr q (h_root st) = Some id) by (unfold fptr; now rewrite Hx). pose proof (i_ptr _ _ I q Hq) as Hi. rewrite Hp in Hi. destruct Hi as (o & Ho & HM).
  exists o, id. unfold object_at. rewrite Hn, Hid, Ho. split; [reflexivity|]. split; [assumption|]. split; [assumption|]. split; [now exists x|reflexivity].
Qed.
Lemma absent st M q : inv st M -> faddr q (h_root st) = None -> q <> [] -> M q = None.
Proof.
  intros I Ha Hq. pose proof (faddr_fnode q (h_root st)) as Hf. rewrite Ha in Hf. destruct (fnode q (h_root st)) eqn:E; [contradiction|].
  pose proof (i_ptr _ _ I q Hq) as Hi. unfold fptr in Hi. now rewrite E in Hi.
Qed.

Lemma inv_replace st M q a p o : inv st M -> q <> [] -> faddr q (h_root st) = Some a -> fptr q (h_root st) = Some p ->
  inv {| h_root := upd_at a (set_attr (lit "obj_ptr") (uid (h_next st))) (h_root st);
         h_lib := dict_set (uid (h_next st)) (Some o) (dict_del p (h_lib st)); h_next := S (h_next st) |} (put q o M).
Proof.
  intros I Hq Ha Hp. pose proof (fptr_set keys q a (uid (h_next st)) (h_root st)) as Hf.
  assert (Hroot : p <> lit "root"). { intros ->. apply Hq. apply (i_inj _ _ I q [] (lit "root") Hp). unfold fptr. cbn [fnode]. apply (i_root _ _ I). }
  constructor; cbn [h_root h_lib h_next].
  - apply (wt_upd keys q [] a _ _ Ha (i_wt _ _ I)).
    + intros x _ Hw. now apply wt_set_ptr.
    + intros x _ _ (id & r & Er). destruct x as [t ats ks]. cbn [x_attrs] in Er. subst ats. split; [reflexivity|]. exists id, (uid (h_next st)), r. split; [reflexivity|]. cbn [set_attr x_attrs dict_set]. now rewrite str_eqb_refl.
  - change (fptr [] (upd_at a (set_attr (lit "obj_ptr") (uid (h_next st))) (h_root st)) = Some (lit "root")). rewrite Hf by (auto; apply (i_wt _ _ I)).
    destruct (place_dec [] q); [congruence|]. unfold fptr. cbn [fnode]. apply (i_root _ _ I).
  - rewrite look_set, look_del. destruct (str_eqb (lit "root") (uid (h_next st))) eqn:E; [apply str_eqb_eq in E; symmetry in E; now apply Huid in E|].
    destruct (str_eqb (lit "root") p) eqn:E2; [apply str_eqb_eq in E2; congruence|]. apply (i_fake _ _ I).
  - intros p' H. rewrite look_set, look_del in H. destruct (str_eqb p' (uid (h_next st))) eqn:E; [right; exists (h_next st); split; [lia|now apply str_eqb_eq]|].
    destruct (str_eqb p' p); [congruence|]. apply libkey_S. now apply (i_keys _ _ I).
  - intros q' Hq'. rewrite Hf by (auto; apply (i_wt _ _ I)). unfold put. destruct (place_dec q' q) as [_|Hne].
    + exists o. rewrite look_set, str_eqb_refl. now split.
    + pose proof (i_ptr _ _ I q' Hq') as Hi. destruct (fptr q' (h_root st)) as [p'|] eqn:Ep'; [|assumption]. destruct Hi as (o' & Ho' & HM). exists o'. split; [|assumption].
      assert (N1 : p' <> uid (h_next st)) by (apply (new_key st M p' I); congruence). assert (N2 : p' <> p) by (intros ->; apply Hne; now apply (i_inj _ _ I q' q p)).
      apply str_eqb_neq in N1, N2. now rewrite look_set, look_del, N1, N2.
  - intros q1 q2 p'. rewrite !Hf by (auto; apply (i_wt _ _ I)). destruct (place_dec q1 q) as [-> | H1], (place_dec q2 q) as [-> | H2]; intros E1 E2.
    + reflexivity.
    + injection E1 as <-. exfalso. apply (new_key st M (uid (h_next st)) I); [|reflexivity]. now apply (ptr_lib st M q2 _ I).
    + injection E2 as <-. exfalso. apply (new_key st M (uid (h_next st)) I); [|reflexivity]. now apply (ptr_lib st M q1 _ I).
    + now apply (i_inj _ _ I q1 q2 p').
Qed.
(** An object that is stored but has no place. *)
Lemma inv_orphan st M o : inv st M -> inv {| h_root := h_root st; h_lib := dict_set (uid (h_next st)) (Some o) (h_lib st); h_next := S (h_next st) |} M.
Proof.
  intros I. constructor; cbn [h_root h_lib h_next]; try apply I.
  - rewrite look_set. destruct (str_eqb (lit "root") (uid (h_next st))) eqn:E; [apply str_eqb_eq in E; symmetry in E; now apply Huid in E|]. apply (i_fake _ _ I).
  - intros p' H. rewrite look_set in H. destruct (str_eqb p' (uid (h_next st))) eqn:E; [right; exists (h_next st); split; [lia|now apply str_eqb_eq]|]. apply libkey_S. now apply (i_keys _ _ I).
  - intros q Hq. pose proof (i_ptr _ _ I q Hq) as Hi. destruct (fptr q (h_root st)) as [p|] eqn:Ep; [|assumption]. destruct Hi as (o' & Ho & HM). exists o'. split; [|assumption].
    assert (N1 : p <> uid (h_next st)) by (apply (new_key st M p I); congruence). apply str_eqb_neq in N1. now rewrite look_set, N1.
Qed.
Lemma inv_add st M q a x n o : inv st M -> faddr q (h_root st) = Some a -> fnode q (h_root st) = Some x -> name_ok n -> map fst (snd n) = keys (map fst q ++ [fst n]) ->
  faddr (q ++ [n]) (h_root st) = None ->
  inv {| h_root := upd_at a (add_kid (El (fst n) ((lit "obj_ptr", uid (h_next st)) :: snd n) [])) (h_root st);
         h_lib := dict_set (uid (h_next st)) (Some o) (h_lib st); h_next := S (h_next st) |} (put (q ++ [n]) o M).
Proof.
  intros I Ha Hx (_ & Nd & Nk) Hk Hno.
  assert (Hfk : find_kid n (x_kids x) = None).
  { pose proof (faddr_fnode (q ++ [n]) (h_root st)) as Hf. rewrite Hno in Hf. rewrite fnode_app, Hx in Hf. cbn [fnode] in Hf. destruct (find_kid n (x_kids x)); [contradiction|reflexivity]. }
  assert (Hptr : ~ In (lit "obj_ptr") (map fst (snd n))). { intros Hi. apply in_map_iff in Hi as (kv & E & Hi). rewrite Forall_forall in Nk. destruct (Nk kv Hi) as (_ & H & _). congruence. }
  pose proof (fun q' => fptr_add q a n (uid (h_next st)) (h_root st) x q' Ha Hx Hfk) as Hf.
  assert (Hin : ~ In n (map name_of (x_kids x))). { intros Hi. pose proof (idx_find n (x_kids x)) as Hix. rewrite Hfk in Hix. destruct (idx n (x_kids x)); [contradiction|now apply Hix]. }
  constructor; cbn [h_root h_lib h_next].
  - apply (wt_upd keys q [] a _ _ Ha (i_wt _ _ I)).
    + intros x' Hx' Hw. replace x' with x by congruence. replace x' with x in Hw by congruence. apply wt_add; [assumption| | |].
      * constructor; [constructor|constructor|intros c []].
      * unfold name_of at 1. cbn [x_tag x_attrs tl]. now rewrite <- (surjective_pairing n).
      * exists (uid (h_next st)), (snd n). cbn [x_attrs x_tag app]. auto.
    + intros x' _ _ (id & r' & Er). destruct x' as [t' ats ks]. cbn [x_attrs] in Er. subst ats. split; [reflexivity|]. exists id, id, r'. now split.
  - change (fptr [] (upd_at a (add_kid (El (fst n) ((lit "obj_ptr", uid (h_next st)) :: snd n) [])) (h_root st)) = Some (lit "root")). rewrite Hf.
    destruct (place_dec [] (q ++ [n])) as [E|_]; [destruct q; discriminate|]. unfold fptr. cbn [fnode]. apply (i_root _ _ I).
  - rewrite look_set. destruct (str_eqb (lit "root") (uid (h_next st))) eqn:E; [apply str_eqb_eq in E; symmetry in E; now apply Huid in E|]. apply (i_fake _ _ I).
  - intros p' H. rewrite look_set in H. destruct (str_eqb p' (uid (h_next st))) eqn:E; [right; exists (h_next st); split; [lia|now apply str_eqb_eq]|]. apply libkey_S. now apply (i_keys _ _ I).
  - intros q' Hq'. rewrite Hf. unfold put. destruct (place_dec q' (q ++ [n])) as [_|Hne].
    + exists o. rewrite look_set, str_eqb_refl. now split.
    + pose proof (i_ptr _ _ I q' Hq') as Hi. destruct (fptr q' (h_root st)) as [p'|] eqn:Ep'; [|assumption]. destruct Hi as (o' & Ho' & HM). exists o'. split; [|assumption].
      assert (N1 : p' <> uid (h_next st)) by (apply (new_key st M p' I); congruence). apply str_eqb_neq in N1. now rewrite look_set, N1.
  - intros q1 q2 p'. rewrite !Hf. destruct (place_dec q1 (q ++ [n])) as [-> | H1], (place_dec q2 (q ++ [n])) as [-> | H2]; intros E1 E2.
    + reflexivity.
    + injection E1 as <-. exfalso. apply (new_key st M (uid (h_next st)) I); [|reflexivity]. now apply (ptr_lib st M q2 _ I).
    + injection E2 as <-. exfalso. apply (new_key st M (uid (h_next st)) I); [|reflexivity]. now apply (ptr_lib st M q1 _ I).
    + now apply (i_inj _ _ I q1 q2 p').
Qed.
Lemma below_refl q : below q q = true.
Proof. rewrite strip_below. assert (E : strip q q = Some []) by (apply strip_some; now rewrite app_nil_r). now rewrite E. Qed.
Lemma inv_drop st M q a p : inv st M -> q <> [] -> faddr q (h_root st) = Some a -> fptr q (h_root st) = Some p ->
  inv {| h_root := drop_at a (h_root st); h_lib := dict_del p (h_lib st); h_next := h_next st |} (fun q' => if below q q' then None else M q').
Proof.
  intros I Hq Ha Hp. pose proof (fun q' => fptr_drop keys q a (h_root st) q' (i_wt _ _ I) Hq Ha) as Hf.
  assert (Hroot : p <> lit "root"). { intros ->. apply Hq. apply (i_inj _ _ I q [] (lit "root") Hp). unfold fptr. cbn [fnode]. apply (i_root _ _ I). }
  constructor; cbn [h_root h_lib h_next].
  - destruct (exists_last Hq) as (q0 & n & ->). destruct (faddr_last q0 n _ a Ha) as (a0 & i & x & -> & Ha0 & Hx & Hi). rewrite drop_upd. apply (wt_upd keys q0 [] a0 _ _ Ha0 (i_wt _ _ I)).
    + intros x' _ Hw. now apply wt_del.
    + intros x' _ _ (id & r & Er). destruct x' as [t ats ks]. cbn [x_attrs] in Er. subst ats. split; [reflexivity|]. exists id, id, r. now split.
  - change (fptr [] (drop_at a (h_root st)) = Some (lit "root")). rewrite Hf. destruct q as [|n q]; [congruence|]. cbn [below]. unfold fptr. cbn [fnode]. apply (i_root _ _ I).
  - rewrite look_del. destruct (str_eqb (lit "root") p) eqn:E2; [apply str_eqb_eq in E2; congruence|]. apply (i_fake _ _ I).
  - intros p' H. rewrite look_del in H. destruct (str_eqb p' p); [congruence|]. now apply (i_keys _ _ I).
  - intros q' Hq'. rewrite Hf. destruct (below q q') eqn:Eb; [reflexivity|]. pose proof (i_ptr _ _ I q' Hq') as Hi. destruct (fptr q' (h_root st)) as [p'|] eqn:Ep'; [|assumption].
    destruct Hi as (o' & Ho' & HM). exists o'. split; [|assumption].
    assert (N2 : p' <> p) by (intros ->; assert (q' = q) by (now apply (i_inj _ _ I q' q p)); subst q'; rewrite below_refl in Eb; discriminate). apply str_eqb_neq in N2. now rewrite look_del, N2.
  - intros q1 q2 p'. rewrite !Hf. destruct (below q q1), (below q q2); try discriminate. apply (i_inj _ _ I).
Qed.

Lemma fold_set_attrs t d : forall ats, NoDup (map fst (ats ++ d)) -> fold_left (fun c kv => set_attr (fst kv) (snd kv) c) d (El t ats []) = El t (ats ++ d) [].
Proof.
  induction d as [|[k v] d IH]; intros ats Hd; [now rewrite app_nil_r|]. cbn [fold_left fst snd set_attr]. rewrite look_none_in.
  - rewrite IH; rewrite <- app_assoc; [reflexivity|exact Hd].
  - rewrite map_app in Hd. cbn [map fst] in Hd. apply NoDup_remove_2 in Hd. intros Hi. apply Hd. apply in_or_app. now left.
Qed.
Lemma keyed_app q : forall tags n, keyed keys tags (q ++ [n]) <-> keyed keys tags q /\ map fst (snd n) = keys (tags ++ map fst q ++ [fst n]).
Proof.
  induction q as [|m q IH]; intros tags n; cbn [app keyed map].
  - intuition.
  - rewrite IH. rewrite <- !app_assoc. cbn [app]. intuition.
Qed.
Lemma dot_dot p : startswith (lit ".") p = false -> startswith (lit "..") p = false.
Proof. change (lit ".") with [46%N]. change (lit "..") with [46; 46]%N. destruct p as [|c p]; [reflexivity|]. cbn [startswith]. rewrite andb_true_r. intros ->. reflexivity. Qed.

Lemma register_sim st M path q o : inv st M -> Forall2 spells path q -> place_ok keys q ->
  inv (fst (register oeq uid path o st)) (fst (map_register oeq q o M)) /\
  (match snd (register oeq uid path o st) with Ok _ => true | Raise _ => false end) = snd (map_register oeq q o M).
Proof.
  intros I Hs (Hq & Hn & Hk). destruct (exists_last Hq) as (q0 & n & ->).
  apply Forall2_app_inv_r in Hs as (path0 & l & Hs0 & Hl & ->). inversion Hl as [|part ? l' ? Hpart Hnil]; subst. inversion Hnil; subst.
  assert (Hs : Forall2 spells (path0 ++ [part]) (q0 ++ [n])) by (apply Forall2_app; assumption). apply Forall_app in Hn as [Hn0 Hn1]. inversion Hn1 as [|? ? Hnm _]; subst.
  apply keyed_app in Hk as [Hk0 Hkn]. cbn [app] in Hkn.
  assert (Hnall : Forall name_ok (q0 ++ [n])) by (apply Forall_app; now split). assert (Hkall : keyed keys [] (q0 ++ [n])) by (apply keyed_app; now split).
  pose proof (get_etree_spelled _ _ (h_root st) Hs Hnall Hq) as Eget. rewrite (eval_place keys _ _ (i_wt _ _ I) Hkall Hnall) in Eget.
  assert (Hp : exists p pr, path0 ++ [part] = p :: pr /\ startswith (lit "..") p = false).
  { inversion Hs as [E1 E2|p m pr q' Hm Hr E1 E2]; [destruct path0; discriminate|]. exists p, pr. split; [reflexivity|]. apply dot_dot.
    assert (Hmok : name_ok m) by (rewrite <- E2 in Hnall; now inversion Hnall). now destruct (spells_tag p m Hmok Hm) as (_ & _ & H1 & H2). }
  destruct Hp as (p & pr & Ep & Hdd). unfold register. rewrite Eget, last_last, removelast_last, Ep, Hdd, (i_fake _ _ I).
  assert (Ef : match pr with [] | _ => false end = false) by (now destruct pr). rewrite Ef. clear Ef.
  unfold map_register. rewrite removelast_last.
  destruct (faddr (q0 ++ [n]) (h_root st)) as [a|] eqn:Ea.
  - destruct (object_ptr st M _ a I Ea Hq) as (o' & ptr & Ho & HM & Hptr & (x & Hx & Hxp) & Hlk). rewrite Ho, HM, Hx, Hxp. cbn [same_object].
    destruct (oeq o' o); cbn [fst snd]; [now split|]. split; [|reflexivity]. now apply inv_replace.
  - rewrite (absent st M _ I Ea Hq). destruct (spells_tag part n Hnm Hpart) as (Et & _). rewrite Et.
    assert (Enc : ncname (fst n) = true) by (apply xml_name_ncname; apply Hnm). rewrite Enc.
    assert (Eadd : fold_left (fun c kv => set_attr (fst kv) (snd kv) c) (match match snd n with [] => None | d => Some d end with Some d => d | None => [] end) (El (fst n) [(lit "obj_ptr", uid (h_next st))] []) =
                   El (fst n) ((lit "obj_ptr", uid (h_next st)) :: snd n) []).
    { replace (match match snd n with [] => None | d => Some d end with Some d => d | None => [] end) with (snd n) by (now destruct (snd n)). rewrite fold_set_attrs; [reflexivity|]. cbn [app map fst].
      constructor; [|apply Hnm]. intros Hi. apply in_map_iff in Hi as (kv & E & Hi). destruct Hnm as (_ & _ & Nk). rewrite Forall_forall in Nk. destruct (Nk kv Hi) as (_ & H & _). congruence. }
    rewrite Eadd. destruct q0 as [|n0 q0].
    + inversion Hs0; subst. cbn [fst snd]. split; [|reflexivity]. apply (inv_add st M [] [] (h_root st) n o I eq_refl eq_refl Hnm Hkn Ea).
    + destruct path0 as [|p0 path0]; [inversion Hs0|].
      rewrite (get_etree_spelled _ _ (h_root st) Hs0 Hn0 ltac:(discriminate)), (eval_place keys _ _ (i_wt _ _ I) Hk0 Hn0).
      destruct (faddr (n0 :: q0) (h_root st)) as [a|] eqn:Ea0.
      * destruct (object_ptr st M _ a I Ea0 ltac:(discriminate)) as (o' & ptr & Ho & HM & _). rewrite HM. cbn [fst snd]. split; [|reflexivity].
        destruct (faddr_fptr _ _ a Ea0) as (x & Hx & _). apply (inv_add st M (n0 :: q0) a x n o I Ea0 Hx Hnm Hkn Ea).
      * rewrite (absent st M _ I Ea0 ltac:(discriminate)). cbn [fst snd]. split; [|reflexivity]. now apply inv_orphan.
Qed.
Lemma unregister_sim st M path q : inv st M -> Forall2 spells path q -> place_ok keys q ->
  inv (fst (unregister path st)) (fst (map_unregister q M)) /\
  (match snd (unregister path st) with Ok _ => true | Raise _ => false end) = snd (map_unregister q M).
Proof.
  intros I Hs (Hq & Hn & Hk). pose proof (get_etree_spelled _ _ (h_root st) Hs Hn Hq) as Eget. rewrite (eval_place keys _ _ (i_wt _ _ I) Hk Hn) in Eget.
  unfold unregister, map_unregister. inversion Hs as [E1 E2|p m pr q' Hm Hr E1 E2]; [congruence|]. rewrite E1, E2, Eget.
  assert (Hmok : name_ok m) by (rewrite <- E2 in Hn; now inversion Hn). destruct (spells_tag p m Hmok Hm) as (_ & _ & -> & ->). cbn [orb].
  destruct (faddr q (h_root st)) as [a|] eqn:Ea.
  - destruct (object_ptr st M _ a I Ea Hq) as (o' & ptr & Ho & HM & Hptr & (x & Hx & Hxp) & Hlk). rewrite HM. cbn [unregister_all]. rewrite Hx, Hxp, Hlk.
    destruct a as [|i a]; [exfalso; apply Hq; now apply (faddr_nil q _ _ Ea)|]. cbn [fold_left fst snd]. split; [|reflexivity]. now apply inv_drop.
  - rewrite (absent st M _ I Ea Hq). now split.
Qed.
Lemma run_sim cs : forall st M, Forall (call_ok keys) cs -> inv st M ->
  inv (fst (helper_run oeq uid cs st)) (fst (map_run oeq cs M)) /\ snd (helper_run oeq uid cs st) = snd (map_run oeq cs M).
Proof.
  induction cs as [|c cs IH]; intros st M H I; [now split|]. inversion H as [|? ? Hc Hcs]; subst. cbn [helper_run map_run].
  assert (S : let hr := match c with Register path _ o => register oeq uid path o st | Unregister path _ => unregister path st end in
              let mr := match c with Register _ q o => map_register oeq q o M | Unregister _ q => map_unregister q M end in
              inv (fst hr) (fst mr) /\ (match snd hr with Ok _ => true | Raise _ => false end) = snd mr).
  { destruct c as [path q o|path q]; destruct Hc as [Hs Hp]; [now apply register_sim|now apply unregister_sim]. }
  cbv zeta in S. destruct (match c with Register path _ o => register oeq uid path o st | Unregister path _ => unregister path st end) as [st1 r].
  destruct (match c with Register _ q o => map_register oeq q o M | Unregister _ q => map_unregister q M end) as [M1 b]. cbn [fst snd] in S. destruct S as [I1 Eb].
  specialize (IH st1 M1 Hcs I1). destruct (helper_run oeq uid cs st1) as [st2 bs], (map_run oeq cs M1) as [M2 bs']. cbn [fst snd] in *. destruct IH as [I2 ->]. split; [assumption|]. now rewrite Eb.
Qed.
Lemma get_sim st M path q q' : inv st M -> place_ok keys q -> same_place q q' -> Forall2 spells path q' ->
  get [] path st = Ok (match M q with Some o => [Some o] | None => [] end).
Proof.
  intros I (Hq & Hn & Hk) Hsame Hs. assert (Hq' : q' <> []) by (inversion Hsame; congruence). pose proof (same_place_names q q' Hsame Hn) as Hn'.
  unfold get. rewrite (get_etree_spelled path q' _ Hs Hn' Hq'). unfold eval_steps. rewrite (steps_perm q q' _ _ Hsame). fold (eval_steps (h_root st) (steps q)). rewrite (eval_place keys _ _ (i_wt _ _ I) Hk Hn). cbn [bind].
  destruct (faddr q (h_root st)) as [a|] eqn:Ea.
  - destruct (object_ptr st M _ a I Ea Hq) as (o' & ptr & Ho & HM & _). cbn [map_r]. rewrite Ho, HM. reflexivity.
  - rewrite (absent st M _ I Ea Hq). reflexivity.
Qed.
End Sim.

(** The state that some calls lead to, and the map they amount to. *)
Theorem helper_is_map {A} (oeq : A -> A -> bool) uid keys (cs : list (call (A := A))) : fresh uid -> Forall (call_ok keys) cs ->
  snd (helper_run oeq uid cs helper_new) = snd (map_run oeq cs (fun _ => None)) /\
  forall path q q', place_ok keys q -> same_place q q' -> Forall2 spells path q' ->
    get [] path (fst (helper_run oeq uid cs helper_new)) = Ok (match fst (map_run oeq cs (fun _ => None)) q with Some o => [Some o] | None => [] end).
Proof.
  intros Hu Hc. destruct (run_sim oeq uid Hu keys cs helper_new (fun _ => None) Hc (inv_new uid keys)) as [I E]. split; [exact E|]. intros path q q' Hq Hs Hp. now apply (get_sim uid keys _ _ path q q' I).
Qed.
(** One more call. *)
Lemma run_app {A} (oeq : A -> A -> bool) uid cs : forall c (st : helper A), helper_run oeq uid (cs ++ [c]) st =
  (let (st1, bs) := helper_run oeq uid cs st in
   let (st2, r) := match c with Register path _ o => register oeq uid path o st1 | Unregister path _ => unregister path st1 end in
   (st2, bs ++ [match r with Ok _ => true | Raise _ => false end])).
Proof.
  induction cs as [|c0 cs IH]; intros c st; cbn [app helper_run].
  - destruct (match c with Register path _ o => register oeq uid path o st | Unregister path _ => unregister path st end); reflexivity.
  - destruct (match c0 with Register path _ o => register oeq uid path o st | Unregister path _ => unregister path st end) as [st1 r]. rewrite IH. destruct (helper_run oeq uid cs st1) as [st2 bs].
    destruct (match c with Register path _ o => register oeq uid path o st2 | Unregister path _ => unregister path st2 end). reflexivity.
Qed.
Theorem register_found {A} (oeq : A -> A -> bool) uid keys (cs : list (call (A := A))) path q o : fresh uid -> Forall (call_ok keys) cs -> Forall2 spells path q -> place_ok keys q ->
  let st := fst (helper_run oeq uid cs helper_new) in
  match register oeq uid path o st with
  | (st', Ok _) => (exists o', get [] path st' = Ok [Some o'] /\ (o' = o \/ oeq o' o = true)) /\
                   (forall path2 q2, Forall2 spells path2 q2 -> place_ok keys q2 -> q2 <> q -> get [] path2 st' = get [] path2 st)
  | (st', Raise _) => removelast path <> [] /\ get [] (removelast path) st = Ok [] /\ (forall path2 q2, Forall2 spells path2 q2 -> place_ok keys q2 -> get [] path2 st' = get [] path2 st)
  end.
Proof.
  intros Hu Hc Hs Hq st. destruct (run_sim oeq uid Hu keys cs helper_new (fun _ => None) Hc (inv_new uid keys)) as [I _]. fold st in I. set (M := fst (map_run oeq cs (fun _ => None))) in I.
  assert (R : forall q, same_place q q) by (induction q0; constructor; auto).
  destruct (register_sim oeq uid Hu keys st M path q o I Hs Hq) as [I' E]. unfold map_register in I', E.
  destruct (register oeq uid path o st) as [st' r]. cbn [fst snd] in *.
  assert (G : forall path2 q2, Forall2 spells path2 q2 -> place_ok keys q2 -> get [] path2 st = Ok (match M q2 with Some o => [Some o] | None => [] end)) by (intros path2 q2 H1 H2; now apply (get_sim uid keys st M path2 q2 q2)).
  assert (G' : forall M', inv uid keys st' M' -> forall path2 q2, Forall2 spells path2 q2 -> place_ok keys q2 -> get [] path2 st' = Ok (match M' q2 with Some o => [Some o] | None => [] end)) by (intros M' IM path2 q2 H1 H2; now apply (get_sim uid keys st' M' path2 q2 q2)).
  assert (P : forall q2, q2 <> q -> put q o M q2 = M q2) by (intros q2 Hne; unfold put; destruct (place_dec q2 q); congruence).
  assert (Pq : put q o M q = Some o) by (unfold put; destruct (place_dec q q); congruence).
  assert (New : inv uid keys st' (put q o M) -> (exists o', get [] path st' = Ok [Some o'] /\ (o' = o \/ oeq o' o = true)) /\ (forall path2 q2, Forall2 spells path2 q2 -> place_ok keys q2 -> q2 <> q -> get [] path2 st' = get [] path2 st)).
  { intros IP. split; [exists o; rewrite (G' _ IP path q Hs Hq), Pq; auto|]. intros path2 q2 H1 H2 Hne. now rewrite (G path2 q2), (G' _ IP path2 q2), P. }
  destruct (M q) as [o'|] eqn:EM.
  - cbn [fst snd] in *. destruct r as [[]|e]; [|discriminate]. destruct (oeq o' o) eqn:Eo; [|now apply New]. split.
    + exists o'. rewrite (G' _ I' path q Hs Hq), EM. auto.
    + intros path2 q2 H1 H2 _. now rewrite (G path2 q2), (G' _ I' path2 q2).
  - destruct (removelast q) as [|n0 q0] eqn:Erl; cbn [fst snd] in *; [destruct r as [[]|e]; [|discriminate]; now apply New|].
    destruct (M (n0 :: q0)) as [po|] eqn:EP; cbn [fst snd] in *; destruct r as [[]|e]; try discriminate; [now apply New|].
    destruct Hq as (Hne & Hn & Hk). destruct (exists_last Hne) as (qi & n & ->). rewrite removelast_last in Erl. subst qi. apply Forall2_app_inv_r in Hs as (path0 & l & Hs0 & Hl & ->). inversion Hl as [|part ? l' ? Hpart Hnil]; subst. inversion Hnil; subst.
    rewrite removelast_last. split; [inversion Hs0; discriminate|]. split.
    + rewrite (G path0 (n0 :: q0) Hs0), EP; [reflexivity|]. split; [discriminate|]. apply Forall_app in Hn as [Hn _]. split; [assumption|]. now apply keyed_app in Hk as [Hk _].
    + intros path2 q2 H1 H2. now rewrite (G path2 q2), (G' _ I' path2 q2).
Qed.
Theorem unregister_gone {A} (oeq : A -> A -> bool) uid keys (cs : list (call (A := A))) path q : fresh uid -> Forall (call_ok keys) cs -> Forall2 spells path q -> place_ok keys q ->
  let st := fst (helper_run oeq uid cs helper_new) in
  match unregister path st with
  | (st', Ok _) => (forall path2 r, Forall2 spells path2 (q ++ r) -> place_ok keys (q ++ r) -> get [] path2 st' = Ok []) /\
                   (forall path2 q2, Forall2 spells path2 q2 -> place_ok keys q2 -> (forall r, q2 <> q ++ r) -> get [] path2 st' = get [] path2 st)
  | (st', Raise _) => get [] path st = Ok [] /\ st' = st
  end.
Proof.
  intros Hu Hc Hs Hq st. destruct (run_sim oeq uid Hu keys cs helper_new (fun _ => None) Hc (inv_new uid keys)) as [I _]. fold st in I. set (M := fst (map_run oeq cs (fun _ => None))) in I.
  assert (R : forall q, same_place q q) by (induction q0; constructor; auto).
  assert (G : forall path2 q2, Forall2 spells path2 q2 -> place_ok keys q2 -> get [] path2 st = Ok (match M q2 with Some o => [Some o] | None => [] end)) by (intros path2 q2 H1 H2; now apply (get_sim uid keys st M path2 q2 q2)).
  assert (Same : M q = None -> fst (unregister path st) = st).
  { intros EM. destruct Hq as (Hne & Hn & Hk). pose proof (get_etree_spelled _ _ (h_root st) Hs Hn Hne) as Eget. rewrite (eval_place keys _ _ (i_wt _ _ _ _ I) Hk Hn) in Eget.
    unfold unregister. destruct path as [|p pr]; [reflexivity|]. rewrite Eget. destruct (startswith (lit ".") p || startswith (lit "/") p); [reflexivity|].
    destruct (faddr q (h_root st)) as [a|] eqn:Ea; [|reflexivity]. destruct (object_ptr uid keys st M _ a I Ea Hne) as (o' & ptr & _ & HM & _). congruence. }
  destruct (unregister_sim uid keys st M path q I Hs Hq) as [I' E]. unfold map_unregister in I', E. destruct (unregister path st) as [st' r]. cbn [fst snd] in *.
  destruct (M q) as [o'|] eqn:EM; cbn [fst snd] in *; destruct r as [[]|e]; try discriminate.
  - assert (G' : forall path2 q2, Forall2 spells path2 q2 -> place_ok keys q2 -> get [] path2 st' = Ok (match (if below q q2 then None else M q2) with Some o => [Some o] | None => [] end)) by (intros path2 q2 H1 H2; now apply (get_sim uid keys st' _ path2 q2 q2 I')).
    split.
    + intros path2 r H1 H2. rewrite (G' path2 (q ++ r) H1 H2), strip_below. assert (Es : strip q (q ++ r) = Some r) by (now apply strip_some). now rewrite Es.
    + intros path2 q2 H1 H2 Hno. rewrite (G' path2 q2 H1 H2), (G path2 q2 H1 H2), strip_below. destruct (strip q q2) as [r|] eqn:Er; [|reflexivity]. apply strip_some in Er. now apply Hno in Er.
  - split; [now rewrite (G path q Hs Hq), EM|]. now apply Same.
Qed.
