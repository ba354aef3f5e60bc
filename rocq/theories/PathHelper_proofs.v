(** The helper behaves like a map from places to objects. *)
From Coq Require Import Lia Permutation.
From Verif Require Import PyStr PyStr_facts PyVal PathHelper Spec_Path PathText_proofs Bits_proofs.

(* ------------------------------------------------------------------ texts of places *)
Lemma xml_name_ncname s : xml_name s -> ncname s = true.
Proof.
  intros (c & r & -> & Hc & Hr). cbn [ncname]. apply andb_true_intro. split.
  - unfold name_start, letter in *. rewrite !orb_true_iff, !andb_true_iff, !N.leb_le, !N.eqb_eq. lia.
  - apply forallb_forall. rewrite Forall_forall in Hr. intros x Hx. specialize (Hr x Hx). unfold name_char, name_start, letter in *.
    rewrite !orb_true_iff, !andb_true_iff, !N.leb_le, !N.eqb_eq. lia.
Qed.
Lemma xml_name_chars s c : xml_name s -> In c s -> letter c \/ (48 <= c <= 57)%N \/ c = 45%N \/ c = 46%N.
Proof. intros (x & r & -> & Hx & Hr) [<-|Hc]; [now left|]. rewrite Forall_forall in Hr. now apply Hr. Qed.
Lemma xml_name_not s c : xml_name s -> In c [91; 124; 58]%N -> ~ In c s.
Proof. intros H Hc Hi. pose proof (xml_name_chars s c H Hi) as Hx. unfold letter in Hx. cbn in Hc. lia. Qed.
Lemma xml_name_tag s : xml_name s -> tag_ok s.
Proof.
  intros H. split; [destruct H as (c & r & -> & _); discriminate|]. split; [apply xml_name_not; [assumption|cbn; tauto]|].
  assert (N124 : ~ In 124%N s) by (apply xml_name_not; [assumption|cbn; tauto]). split; [now apply free_no|now apply no_end].
Qed.
Lemma xml_text_chars s : xml_text s -> forallb xml_char s = true.
Proof.
  intros H. apply forallb_forall. unfold xml_text in H. rewrite Forall_forall in H. intros c Hc. specialize (H c Hc). unfold xml_char.
  rewrite !orb_true_iff, !andb_true_iff, !N.leb_le, !N.ltb_lt, !N.eqb_eq. lia.
Qed.
Lemma has_sub_false p s : (forall a b, s <> a ++ p ++ b) -> has_sub p s = false.
Proof.
  induction s as [|c s IH]; intros H; cbn [has_sub].
  - rewrite orb_false_r. apply Bool.not_true_iff_false. intros E. apply startswith_iff in E as (r & E). apply (H [] r). cbn [app]. now rewrite E.
  - rewrite IH.
    + rewrite orb_false_r. apply Bool.not_true_iff_false. intros E. apply startswith_iff in E as (r & E). apply (H [] r). cbn [app]. now rewrite E.
    + intros a b E. apply (H (c :: a) b). now rewrite E.
Qed.
Lemma spells_tag part n : name_ok n -> spells part n -> tag_attrs part = Ok (fst n, match snd n with [] => None | d => Some d end) /\ part <> [] /\ startswith (lit ".") part = false /\ startswith (lit "/") part = false.
Proof.
  intros (Ht & Hd & _) H. pose proof (xml_name_tag _ Ht) as Htag.
  assert (X : forall rest, fst n ++ rest <> [] /\ startswith (lit ".") (fst n ++ rest) = false /\ startswith (lit "/") (fst n ++ rest) = false).
  { intros rest. destruct Ht as (c & r & -> & Hc & _). split; [discriminate|]. cbn [app]. change (lit ".") with [46%N]. change (lit "/") with [47%N]. cbn [startswith]. unfold letter in Hc.
    split; rewrite andb_true_r; apply N.eqb_neq; lia. }
  destruct H as [[E ->]|(gs & Hne & -> & E & Hok)].
  - rewrite E. split; [apply tag_attrs_plain; apply xml_name_not; [assumption|cbn; tauto]|]. rewrite <- (app_nil_r (fst n)). apply X.
  - split; [|apply X]. rewrite tag_attrs_exact; [|assumption..|].
    + rewrite E. destruct gs as [|[p l] gs]; [congruence|]. unfold pairs in E. cbn in E. now rewrite <- E.
    + assert (Em : map p_key (flat_map group_preds gs) = map fst (pairs gs)) by (unfold pairs; now rewrite map_map). rewrite Em, E. exact Hd.
Qed.
Lemma local_xml s : xml_name s -> local_name s = s.
Proof. intros H. unfold local_name. assert (E : ch_in 58 s = false) by (apply ch_in_false; apply xml_name_not; [assumption|cbn; tauto]). now rewrite E. Qed.
Lemma spells_step part n : name_ok n -> spells part n -> part_step part = Ok (Node (fst n) (snd n)).
Proof.
  intros Hn Hs. destruct (spells_tag part n Hn Hs) as (E & _). unfold part_step. rewrite E. cbn [bind fst snd]. destruct Hn as (Ht & Hd & Hk). rewrite local_xml by assumption.
  pose proof (xml_name_ncname _ Ht) as Hnc. rewrite Hnc. destruct (snd n) as [|kv d] eqn:Es.
  - destruct Ht as (c & r & -> & Hc & _). unfold letter in Hc. cbn [str_eqb]. change (lit "..") with [46; 46]%N. change (lit ".") with [46]%N. cbn [str_eqb].
    assert (E46 : N.eqb c 46 = false) by (apply N.eqb_neq; lia). now rewrite E46.
  - cbn [andb]. assert (F : forallb (fun kv => ncname (fst kv) && forallb xml_char (snd kv) && negb (has_sub (lit "current()") (snd kv))) (kv :: d) = true).
    { apply forallb_forall. intros x Hx. rewrite Forall_forall in Hk. destruct (Hk x Hx) as (H1 & _ & H3 & H4).
      rewrite xml_name_ncname, xml_text_chars, has_sub_false by assumption. reflexivity. }
    now rewrite F.
Qed.
Lemma no_empty_id l : Forall (fun p : str => p <> []) l -> no_empty_end l = l.
Proof. induction 1 as [|p l Hp Hl IH]; [reflexivity|]. cbn [no_empty_end]. rewrite IH. destruct p; [congruence|reflexivity]. Qed.
Definition steps (q : place) : list xstep := map (fun n => Node (fst n) (snd n)) q.
Lemma spelled path q : Forall2 spells path q -> Forall name_ok q -> map_r part_step path = Ok (steps q) /\ Forall (fun p : str => p <> []) path.
Proof.
  induction 1 as [|p n path q Hs H IH]; intros Hq; [split; [reflexivity|constructor]|]. inversion Hq as [|? ? Hn Hq']; subst. destruct (IH Hq') as [I1 I2].
  cbn [map_r]. rewrite (spells_step p n Hn Hs). cbn [bind]. rewrite I1. split; [reflexivity|]. constructor; [apply (spells_tag p n Hn Hs)|assumption].
Qed.
Lemma get_etree_spelled path q root : Forall2 spells path q -> Forall name_ok q -> q <> [] -> get_etree [] path root = Ok (eval_steps root (steps q)).
Proof.
  intros H Hq Hne. destruct (spelled path q H Hq) as [E1 E2]. inversion H as [|p n path' q' Hs Ht Ep Eq]; [congruence|]. subst path q. unfold get_etree, relative.
  inversion Hq as [|? ? Hn Hq']; subst. destruct (spells_tag p n Hn Hs) as (_ & Hp & -> & _). unfold encode_path. destruct p as [|c p]; [congruence|]. rewrite no_empty_id by assumption. now rewrite E1.
Qed.

(* ------------------------------------------------------------------ trees *)
Definition name_of (e : xelem) : node_name := (x_tag e, tl (x_attrs e)).
Definition name_eqb (m n : node_name) : bool := if place_dec [m] [n] then true else false.
Lemma name_eqb_eq m n : name_eqb m n = true <-> m = n.
Proof. unfold name_eqb. destruct (place_dec [m] [n]); split; congruence. Qed.
Lemma name_eqb_neq m n : name_eqb m n = false <-> m <> n.
Proof. unfold name_eqb. destruct (place_dec [m] [n]); split; congruence. Qed.
Lemma name_eqb_refl m : name_eqb m m = true.
Proof. now apply name_eqb_eq. Qed.
Fixpoint find_kid (n : node_name) (kids : list xelem) : option xelem :=
  match kids with [] => None | c :: ks => if name_eqb (name_of c) n then Some c else find_kid n ks end.
Fixpoint idx (n : node_name) (kids : list xelem) : option nat :=
  match kids with [] => None | c :: ks => if name_eqb (name_of c) n then Some 0%nat else option_map S (idx n ks) end.
Fixpoint faddr (q : place) (e : xelem) : option (list nat) :=
  match q with
  | [] => Some []
  | n :: q' => match idx n (x_kids e), find_kid n (x_kids e) with Some i, Some c => option_map (cons i) (faddr q' c) | _, _ => None end
  end.
Fixpoint fnode (q : place) (e : xelem) : option xelem :=
  match q with [] => Some e | n :: q' => match find_kid n (x_kids e) with Some c => fnode q' c | None => None end end.
Definition fptr (q : place) (e : xelem) : option str := match fnode q e with Some x => pointer x | None => None end.

Lemma idx_find n ks : match idx n ks, find_kid n ks with Some i, Some c => nth_error ks i = Some c /\ name_of c = n | None, None => ~ In n (map name_of ks) | _, _ => False end.
Proof.
  induction ks as [|c ks IH]; cbn [idx find_kid]; [intros []|]. destruct (name_eqb (name_of c) n) eqn:E.
  - apply name_eqb_eq in E. now split.
  - apply name_eqb_neq in E. destruct (idx n ks), (find_kid n ks); cbn [option_map] in *; try contradiction; [assumption|]. intros [H|H]; contradiction.
Qed.
Lemma find_none n ks : ~ In n (map name_of ks) -> find_kid n ks = None.
Proof. induction ks as [|c ks IH]; intros H; [reflexivity|]. cbn [find_kid]. destruct (name_eqb (name_of c) n) eqn:E; [apply name_eqb_eq in E; exfalso; apply H; now left|]. apply IH. intros Hi. apply H. now right. Qed.
Lemma faddr_fnode q : forall e, match faddr q e, fnode q e with Some a, Some x => node_at a e = Some x | None, None => True | _, _ => False end.
Proof.
  induction q as [|n q IH]; intros e; cbn [faddr fnode]; [reflexivity|]. pose proof (idx_find n (x_kids e)) as H.
  destruct (idx n (x_kids e)) as [i|], (find_kid n (x_kids e)) as [c|]; try contradiction; [|exact I]. destruct H as [H _]. specialize (IH c).
  destruct (faddr q c), (fnode q c); cbn [option_map]; try contradiction; [|exact I]. cbn [node_at]. now rewrite H.
Qed.
Lemma fnode_app q r e : fnode (q ++ r) e = match fnode q e with Some x => fnode r x | None => None end.
Proof. revert e. induction q as [|n q IH]; intros e; [reflexivity|]. cbn [app fnode]. destruct (find_kid n (x_kids e)); [apply IH|reflexivity]. Qed.

(** Changing kids. *)
Lemma find_upd n m i ks g : idx n ks = Some i -> (forall c, find_kid n ks = Some c -> name_of (g c) = name_of c) ->
  find_kid m (upd_nth i g ks) = if name_eqb n m then option_map g (find_kid n ks) else find_kid m ks.
Proof.
  revert i. induction ks as [|c ks IH]; intros i Hi Hg; [discriminate|]. cbn [idx find_kid] in Hi, Hg. cbn [find_kid]. destruct (name_eqb (name_of c) n) eqn:E.
  - injection Hi as <-. cbn [upd_nth find_kid]. rewrite (Hg c eq_refl). apply name_eqb_eq in E. rewrite E. now destruct (name_eqb n m).
  - destruct (idx n ks) as [j|] eqn:Ej; [|discriminate]. injection Hi as <-. cbn [upd_nth find_kid]. rewrite (IH j eq_refl Hg).
    destruct (name_eqb n m) eqn:Enm; [|reflexivity]. apply name_eqb_eq in Enm. subst m. now rewrite E.
Qed.
Lemma find_del n m i ks : idx n ks = Some i -> NoDup (map name_of ks) -> find_kid m (del_nth i ks) = if name_eqb n m then None else find_kid m ks.
Proof.
  revert i. induction ks as [|c ks IH]; intros i Hi Hd; [discriminate|]. cbn [idx] in Hi. cbn [map] in Hd. inversion Hd as [|? ? H1 H2]; subst. cbn [find_kid]. destruct (name_eqb (name_of c) n) eqn:E.
  - injection Hi as <-. cbn [del_nth]. apply name_eqb_eq in E. rewrite E in *. destruct (name_eqb n m) eqn:Enm; [|reflexivity]. apply name_eqb_eq in Enm. subst m. now apply find_none.
  - destruct (idx n ks) as [j|] eqn:Ej; [|discriminate]. injection Hi as <-. cbn [del_nth find_kid]. rewrite (IH j eq_refl H2).
    destruct (name_eqb n m) eqn:Enm; [|reflexivity]. apply name_eqb_eq in Enm. subst m. now rewrite E.
Qed.
Lemma find_app m ks ks' : find_kid m (ks ++ ks') = match find_kid m ks with Some c => Some c | None => find_kid m ks' end.
Proof. induction ks as [|c ks IH]; [reflexivity|]. cbn [app find_kid]. destruct (name_eqb (name_of c) m); [reflexivity|apply IH]. Qed.
Lemma names_upd i g ks : (forall c, nth_error ks i = Some c -> name_of (g c) = name_of c) -> map name_of (upd_nth i g ks) = map name_of ks.
Proof.
  revert i. induction ks as [|c ks IH]; intros i H; [now destruct i|]. destruct i as [|i]; cbn [upd_nth map]; [now rewrite (H c eq_refl)|]. f_equal. apply IH. exact H.
Qed.
Lemma Forall_upd {B} (P : B -> Prop) i g l : Forall P l -> (forall c, nth_error l i = Some c -> P c -> P (g c)) -> Forall P (upd_nth i g l).
Proof.
  intros H. revert i. induction H as [|c l Hc H IH]; intros i Hg; [destruct i; constructor|]. destruct i as [|i]; cbn [upd_nth]; constructor; auto.
Qed.
Lemma del_sub {B} i (l : list B) : forall x, In x (del_nth i l) -> In x l.
Proof. revert i. induction l as [|b l IH]; intros i x H; [destruct i; contradiction|]. destruct i as [|i]; cbn [del_nth] in H; [now right|]. destruct H as [<-|H]; [now left|right; now apply (IH i)]. Qed.
Lemma del_map {B C} (f : B -> C) i l : map f (del_nth i l) = del_nth i (map f l).
Proof. revert i. induction l as [|b l IH]; intros i; [now destruct i|]. destruct i as [|i]; cbn [del_nth map]; [reflexivity|]. f_equal. apply IH. Qed.
Lemma del_nodup {B} i (l : list B) : NoDup l -> NoDup (del_nth i l).
Proof.
  intros H. revert i. induction H as [|b l Hb H IH]; intros i; [destruct i; constructor|]. destruct i as [|i]; cbn [del_nth]; [assumption|]. constructor; [|apply IH]. intros Hi. apply Hb. now apply (del_sub i).
Qed.

(** What is under the place q after the node there has been changed. *)
Fixpoint strip (q q' : place) : option place :=
  match q, q' with
  | [], _ => Some q'
  | n :: r, n' :: r' => if name_eqb n n' then strip r r' else None
  | _ :: _, [] => None
  end.
Lemma strip_some q q' r : strip q q' = Some r <-> q' = q ++ r.
Proof.
  revert q'. induction q as [|n q IH]; intros q'; [cbn [strip app]; split; congruence|]. destruct q' as [|n' q']; cbn [strip app]; [split; discriminate|].
  destruct (name_eqb n n') eqn:E.
  - apply name_eqb_eq in E. subst n'. rewrite IH. split; [intros ->; reflexivity|intros H; now injection H].
  - apply name_eqb_neq in E. split; [discriminate|intros H; injection H as -> _; congruence].
Qed.
Lemma fptr_upd q : forall a f e q', faddr q e = Some a -> (forall x, fnode q e = Some x -> q <> [] -> name_of (f x) = name_of x) ->
  fptr q' (upd_at a f e) = match strip q q' with Some r => match fnode q e with Some x => fptr r (f x) | None => None end | None => fptr q' e end.
Proof.
  induction q as [|n q IH]; intros a f e q' Ha Hf.
  - cbn [faddr] in Ha. injection Ha as <-. reflexivity.
  - cbn [faddr fnode] in *. pose proof (idx_find n (x_kids e)) as Hix. destruct (idx n (x_kids e)) as [i|] eqn:Ei; [|discriminate].
    destruct (find_kid n (x_kids e)) as [c|] eqn:Ec; [|discriminate]. destruct (faddr q c) as [a'|] eqn:Ea; [|discriminate]. injection Ha as <-.
    destruct e as [t ats ks]. cbn [upd_at x_kids] in *. destruct q' as [|m q']; [reflexivity|]. cbn [strip].
    unfold fptr. cbn [fnode x_kids]. rewrite (find_upd n m i ks (upd_at a' f) Ei).
    + destruct (name_eqb n m) eqn:E.
      * rewrite Ec. cbn [option_map]. pose proof (IH a' f c q' Ea) as IHc. unfold fptr in IHc. rewrite IHc by (intros x Hx _; apply (Hf x Hx); discriminate).
        apply name_eqb_eq in E. subst m. rewrite Ec. reflexivity.
      * reflexivity.
    + intros c' Hc'. replace c' with c by congruence. destruct q as [|n2 q].
      * cbn [faddr] in Ea. injection Ea as <-. cbn [upd_at]. apply (Hf c eq_refl). discriminate.
      * cbn [faddr] in Ea. destruct (idx n2 (x_kids c)); [|discriminate]. destruct (find_kid n2 (x_kids c)); [|discriminate]. destruct (faddr q x); [|discriminate]. injection Ea as <-. now destruct c.
Qed.
Lemma strip_below q q' : below q q' = match strip q q' with Some _ => true | None => false end.
Proof.
  revert q'. induction q as [|n q IH]; intros [|n' q']; cbn [below strip]; try reflexivity. unfold name_eqb. destruct (place_dec [n] [n']); [apply IH|reflexivity].
Qed.

(* ------------------------------------------------------------------ trees as the schema has them *)
Section Keys.
Context (keys : list str -> list str).
Inductive wt (tags : list str) : xelem -> Prop :=
| Wt t ats ks : NoDup (map name_of ks) ->
    Forall (fun c => exists id r, x_attrs c = (lit "obj_ptr", id) :: r /\ map fst r = keys (tags ++ [x_tag c]) /\ NoDup (map fst r) /\ ~ In (lit "obj_ptr") (map fst r)) ks ->
    (forall c, In c ks -> wt (tags ++ [x_tag c]) c) -> wt tags (El t ats ks).

Lemma look_pairs (d e : list (str * str)) : map fst d = map fst e -> NoDup (map fst e) ->
  forallb (fun kv => match look (fst kv) e with Some v => str_eqb (snd kv) v | None => false end) d = true <-> d = e.
Proof.
  revert e. induction d as [|[k v] d IH]; intros [|[k' v'] e] Hm Hd; try discriminate; [now split|]. cbn [map fst] in Hm, Hd. injection Hm as -> Hm. inversion Hd as [|? ? H1 H2]; subst.
  cbn [forallb fst snd look]. rewrite str_eqb_refl.
  assert (E : forallb (fun kv => match (if str_eqb (fst kv) k' then Some v' else look (fst kv) e) with Some v => str_eqb (snd kv) v | None => false end) d =
              forallb (fun kv => match look (fst kv) e with Some v => str_eqb (snd kv) v | None => false end) d).
  { clear IH. assert (Hs : forall kv, In kv d -> fst kv <> k') by (intros kv Hi ->%eq_sym; apply H1; rewrite <- Hm; now apply in_map).
    clear Hm. induction d as [|kv d IHd]; [reflexivity|]. cbn [forallb]. assert (En : str_eqb (fst kv) k' = false) by (apply str_eqb_neq; apply Hs; now left). rewrite En. f_equal. apply IHd. intros x Hx. apply Hs. now right. }
  rewrite E, andb_true_iff, str_eqb_eq, (IH e Hm H2). split; [intros [-> ->]; reflexivity|intros H; injection H as -> ->; now split].
Qed.
Lemma matches_name tags t ats ks c n : wt tags (El t ats ks) -> In c ks -> map fst (snd n) = keys (tags ++ [fst n]) -> NoDup (map fst (snd n)) ->
  matches (fst n) (snd n) c = name_eqb (name_of c) n.
Proof.
  intros Hw Hc Hk Hnd. inversion Hw as [? ? ? Hd Ha _]; subst. rewrite Forall_forall in Ha. destruct (Ha c Hc) as (id & r & Er & Hr & Hrd & Hno). unfold matches. rewrite Er.
  destruct (str_eqb (fst n) (x_tag c)) eqn:Et.
  - apply str_eqb_eq in Et. cbn [andb]. assert (Ek : map fst (snd n) = map fst r) by (rewrite Hk, Hr, Et; reflexivity).
    assert (E : forallb (fun kv => match look (fst kv) ((lit "obj_ptr", id) :: r) with Some v => str_eqb (snd kv) v | None => false end) (snd n) =
                forallb (fun kv => match look (fst kv) r with Some v => str_eqb (snd kv) v | None => false end) (snd n)).
    { assert (Hs : forall kv, In kv (snd n) -> str_eqb (fst kv) (lit "obj_ptr") = false). { intros kv Hi. apply str_eqb_neq. intros E. apply Hno. rewrite <- Ek, <- E. now apply in_map. }
      clear Ek Hk Hnd. induction (snd n) as [|kv d IHd]; [reflexivity|]. cbn [forallb look]. rewrite (Hs kv) by now left. f_equal. apply IHd. intros x Hx. apply Hs. now right. }
    rewrite E. unfold name_of. rewrite Er. cbn [tl]. apply Bool.eq_true_iff_eq. rewrite look_pairs by assumption. rewrite name_eqb_eq. destruct n as [nt nd]. cbn [fst snd] in *. subst nt. split; [intros ->; reflexivity|congruence].
  - cbn [andb]. symmetry. apply name_eqb_neq. apply str_eqb_neq in Et. intros <-. now apply Et.
Qed.
Lemma hits_idx tags t ats ks n : wt tags (El t ats ks) -> map fst (snd n) = keys (tags ++ [fst n]) -> NoDup (map fst (snd n)) ->
  child_hits 0 (fst n) (snd n) ks = match idx n ks with Some i => [i] | None => [] end.
Proof.
  intros Hw Hk Hnd. assert (Hm : forall c, In c ks -> matches (fst n) (snd n) c = name_eqb (name_of c) n) by (intros c Hc; now apply (matches_name tags t ats ks)).
  inversion Hw as [? ? ? Hd _ _]; subst. clear Hw Hk Hnd.
  assert (G : forall j, child_hits j (fst n) (snd n) ks = match idx n ks with Some i => [(j + i)%nat] | None => [] end).
  { induction ks as [|c ks IH]; intros j; [reflexivity|]. cbn [child_hits idx]. inversion Hd as [|? ? H1 H2]; subst. rewrite (Hm c) by now left. rewrite IH; [|intros x Hx; apply Hm; now right|assumption].
    destruct (name_eqb (name_of c) n) eqn:E.
    - apply name_eqb_eq in E. pose proof (idx_find n ks) as Hix. destruct (idx n ks) as [i|].
      + destruct (find_kid n ks) as [x|]; [|contradiction]. destruct Hix as [Hx Hn]. exfalso. apply H1. rewrite E, <- Hn. apply in_map. now apply nth_error_In in Hx.
      + now rewrite Nat.add_0_r.
    - destruct (idx n ks); cbn [option_map]; [|reflexivity]. f_equal. lia. }
  rewrite G. destruct (idx n ks); reflexivity.
Qed.
Lemma wt_kid tags e i c : wt tags e -> nth_error (x_kids e) i = Some c -> wt (tags ++ [x_tag c]) c.
Proof. intros H Hc. inversion H as [t ats ks _ _ Hk]; subst. apply Hk. cbn in Hc. now apply nth_error_In in Hc. Qed.
Lemma eval_from q : forall tags a0 e root, node_at a0 root = Some e -> wt tags e -> keyed keys tags q -> Forall name_ok q ->
  fold_left (fun as_ s => step_from root s as_) (steps q) [a0] = match faddr q e with Some a => [a0 ++ a] | None => [] end.
Proof.
  assert (F0 : forall root l, fold_left (fun as_ s => step_from root s as_) (map (fun n : node_name => Node (fst n) (snd n)) l) [] = []) by (induction l as [|n l IH]; [reflexivity|exact IH]).
  induction q as [|n q IH]; intros tags a0 e root Hn Hw Hk Hq; [cbn; now rewrite app_nil_r|]. cbn [keyed] in Hk. destruct Hk as [Hk1 Hk2]. inversion Hq as [|? ? Hnm Hq']; subst.
  cbn [steps map fold_left step_from flat_map]. rewrite Hn, app_nil_r. destruct e as [t ats ks]. cbn [x_kids faddr] in *. rewrite (hits_idx tags t ats ks n Hw Hk1) by apply Hnm. pose proof (idx_find n ks) as Hix.
  destruct (idx n ks) as [i|]; [|apply F0]. destruct (find_kid n ks) as [c|]; [|contradiction]. destruct Hix as [Hc Hcn]. cbn [map].
  fold (steps q). rewrite (IH (tags ++ [x_tag c]) (a0 ++ [i]) c root).
  - destruct (faddr q c); cbn [option_map]; [|reflexivity]. now rewrite <- app_assoc.
  - clear -Hn Hc. revert root Hn. induction a0 as [|j a0 IHa]; intros root Hn; cbn [app node_at] in *; [injection Hn as ->; cbn [x_kids]; now rewrite Hc|]. destruct (nth_error (x_kids root) j); [now apply IHa|discriminate].
  - apply (wt_kid tags (El t ats ks) i c Hw Hc).
  - rewrite <- Hcn in Hk2. exact Hk2.
  - assumption.
Qed.
Lemma eval_place q root : wt [] root -> keyed keys [] q -> Forall name_ok q -> eval_steps root (steps q) = match faddr q root with Some a => [a] | None => [] end.
Proof. intros. unfold eval_steps. now rewrite (eval_from q [] [] root root). Qed.

(** Predicates in another order. *)
Lemma forallb_perm {B} (f : B -> bool) l l' : Permutation l l' -> forallb f l = forallb f l'.
Proof. induction 1 as [|x l l' H IH|x y l|l l' l'' H1 IH1 H2 IH2]; cbn [forallb]; try congruence. now rewrite !andb_assoc, (andb_comm (f y)). Qed.
Lemma steps_perm q q' root as_ : same_place q q' -> fold_left (fun as_ s => step_from root s as_) (steps q') as_ = fold_left (fun as_ s => step_from root s as_) (steps q) as_.
Proof.
  intros H. revert as_. induction H as [|n n' q q' [Ht Hp] H IH]; intros as_; [reflexivity|]. cbn [steps map fold_left]. fold (steps q) (steps q').
  assert (E : step_from root (Node (fst n') (snd n')) as_ = step_from root (Node (fst n) (snd n)) as_).
  { cbn [step_from]. rewrite <- Ht. assert (Ec : forall ks j, child_hits j (fst n) (snd n') ks = child_hits j (fst n) (snd n) ks).
    { induction ks as [|c ks IHk]; intros j; [reflexivity|]. cbn [child_hits]. rewrite !IHk. unfold matches. now rewrite (forallb_perm _ _ _ Hp). }
    induction as_ as [|a as_ IHa]; [reflexivity|]. cbn [flat_map]. rewrite IHa. destruct (node_at a root); [now rewrite Ec|reflexivity]. }
  rewrite E. apply IH.
Qed.

(** Changes keep the shape. *)
Lemma wt_upd q : forall tags a f e, faddr q e = Some a -> wt tags e ->
  (forall x, fnode q e = Some x -> wt (tags ++ map fst q) x -> wt (tags ++ map fst q) (f x)) ->
  (forall x, fnode q e = Some x -> q <> [] -> (exists id r, x_attrs x = (lit "obj_ptr", id) :: r) -> x_tag (f x) = x_tag x /\ exists id id' r, x_attrs x = (lit "obj_ptr", id) :: r /\ x_attrs (f x) = (lit "obj_ptr", id') :: r) ->
  wt tags (upd_at a f e).
Proof.
  induction q as [|n q IH]; intros tags a f e Ha Hw Hf Hn.
  - cbn [faddr] in Ha. injection Ha as <-. cbn [upd_at]. specialize (Hf e eq_refl). rewrite app_nil_r in Hf. now apply Hf.
  - cbn [faddr fnode] in *. pose proof (idx_find n (x_kids e)) as Hix. destruct (idx n (x_kids e)) as [i|] eqn:Ei; [|discriminate].
    destruct (find_kid n (x_kids e)) as [c|] eqn:Ec; [|discriminate]. destruct (faddr q c) as [a'|] eqn:Ea; [|discriminate]. injection Ha as <-. destruct Hix as [Hc Hcn].
    destruct e as [t ats ks]. cbn [upd_at x_kids] in *. inversion Hw as [? ? ? Hd Hat Hk]; subst.
    assert (Hci : In c ks) by (now apply nth_error_In in Hc).
    assert (Hshape : exists id id' r, x_tag (upd_at a' f c) = x_tag c /\ x_attrs c = (lit "obj_ptr", id) :: r /\ x_attrs (upd_at a' f c) = (lit "obj_ptr", id') :: r).
    { rewrite Forall_forall in Hat. destruct (Hat c Hci) as (id & r & Er & _). destruct q as [|n2 q].
      - cbn [faddr] in Ea. injection Ea as <-. cbn [upd_at fnode] in *. destruct (Hn c eq_refl ltac:(discriminate)) as (H1 & i1 & i2 & r' & H2 & H3); [now exists id, r|]. now exists i1, i2, r'.
      - exists id, id, r. cbn [faddr] in Ea. destruct (idx n2 (x_kids c)); [|discriminate]. destruct (find_kid n2 (x_kids c)); [|discriminate]. destruct (faddr q x); [|discriminate]. injection Ea as <-. now destruct c. }
    destruct Hshape as (id & id' & r & S1 & S2 & S3).
    assert (Hwc : wt (tags ++ [x_tag c]) (upd_at a' f c)).
    { apply (IH _ _ _ _ Ea); [now apply Hk| |].
      - intros x Hx Hwx. cbn [map name_of fst] in Hf. rewrite <- app_assoc in *. now apply Hf.
      - intros x Hx _ Hxa. apply Hn; [assumption|discriminate|assumption]. }
    constructor.
    + rewrite names_upd; [assumption|]. intros c' Hc'. replace c' with c by congruence. unfold name_of. now rewrite S1, S2, S3.
    + apply Forall_upd; [assumption|]. intros c' Hc' (id0 & r0 & R1 & R2 & R3 & R4). replace c' with c in * by congruence. rewrite S2 in R1. injection R1 as _ <-. exists id', r. rewrite S1. auto.
    + intros x Hx. assert (Hx' : In x ks \/ x = upd_at a' f c).
      { clear -Hx Hc. revert i Hx Hc. induction ks as [|b ks IHk]; intros i Hx Hc; [destruct i; contradiction|]. destruct i as [|i]; cbn in *.
        - injection Hc as ->. destruct Hx as [<-|Hx]; [now right|left; now right].
        - destruct Hx as [<-|Hx]; [left; now left|]. destruct (IHk i Hx Hc); [left; now right|now right]. }
      destruct Hx' as [Hx'| ->]; [now apply Hk|]. now rewrite S1.
Qed.
Lemma wt_add tags c e : wt tags e -> wt (tags ++ [x_tag c]) c -> ~ In (name_of c) (map name_of (x_kids e)) ->
  (exists id r, x_attrs c = (lit "obj_ptr", id) :: r /\ map fst r = keys (tags ++ [x_tag c]) /\ NoDup (map fst r) /\ ~ In (lit "obj_ptr") (map fst r)) -> wt tags (add_kid c e).
Proof.
  intros Hw Hc Hn Ha. inversion Hw as [t ats ks Hd Hat Hk]; subst. cbn [add_kid x_kids] in *. constructor.
  - rewrite map_app. cbn [map]. apply NoDup_snoc; assumption.
  - apply Forall_app. split; [assumption|]. constructor; [assumption|constructor].
  - intros x Hx. apply in_app_or in Hx as [Hx|[<-|[]]]; [now apply Hk|assumption].
Qed.
Lemma wt_set_ptr tags id e : wt tags e -> wt tags (set_attr (lit "obj_ptr") id e).
Proof. intros H. inversion H; subst. cbn [set_attr]. now constructor. Qed.
Definition del_kid (i : nat) (e : xelem) : xelem := match e with El t ats ks => El t ats (del_nth i ks) end.
Lemma wt_del tags i e : wt tags e -> wt tags (del_kid i e).
Proof.
  intros H. inversion H as [t ats ks Hd Hat Hk]; subst. cbn [del_kid]. constructor.
  - rewrite del_map. now apply del_nodup.
  - apply Forall_forall. rewrite Forall_forall in Hat. intros x Hx. apply Hat. now apply (del_sub i).
  - intros x Hx. apply Hk. now apply (del_sub i).
Qed.
Lemma drop_upd a i e : drop_at (a ++ [i]) e = upd_at a (del_kid i) e.
Proof.
  revert e. induction a as [|j a IH]; intros e; [now destruct e|]. destruct e as [t ats ks]. change (drop_at ((j :: a) ++ [i]) (El t ats ks)) with (match a ++ [i] with [] => El t ats (del_nth j ks) | _ => El t ats (upd_nth j (drop_at (a ++ [i])) ks) end).
  assert (Hne : a ++ [i] <> []) by (destruct a; discriminate). destruct (a ++ [i]) as [|x l]; [congruence|]. cbn [upd_at]. f_equal. clear Hne. revert j. induction ks as [|c ks IHk]; intros j; [now destruct j|]. destruct j; cbn [upd_nth]; [now rewrite IH|now rewrite IHk].
Qed.
End Keys.
