(** Annotations of IETF JSON documents. *)
From Coq Require Import Lia.
From Verif Require Import PyStr PyStr_facts PyVal Restricted YList SafeName
  Tree Spec_Tree Tree_proofs Tree_main Serialise Spec_Serialise Load_proofs Spec_Loading Loading_proofs LoadingIetf_proofs Annotate Spec_Annotate.
Import ListNotations.

Fixpoint json_ind' (P : json -> Prop) (Hs : forall d, (forall l, d <> JArr l) -> (forall ms, d <> JObj ms) -> P d)
  (Ha : forall l, Forall P l -> P (JArr l)) (Ho : forall ms, Forall (fun kj => P (snd kj)) ms -> P (JObj ms)) (d : json) : P d.
Proof.
  destruct d as [|b|z|a e|s|l|ms]; try (apply Hs; discriminate).
  - apply Ha. induction l as [|x l IH]; constructor; [apply json_ind'; auto|exact IH].
  - apply Ho. induction ms as [|[n x] ms IH]; constructor; [apply json_ind'; auto|exact IH].
Qed.

Definition erase (x : astep) : step := (fst (fst x), snd x).
Definition agree (x : astep) (y : step) (w : bool) : Prop := erase x = y \/ (snd x = Raise AttributeError /\ w = false).
Lemma agree_then x y w f g w' : agree x y w -> (forall m, agree (f m) (g m) w') -> agree (athen x f) (andthen y g) (w && w').
Proof.
  destruct x as [[m l] [[]|e]]; intros [H|[H1 H2]] Hf; cbn in *; try subst y; cbn.
  - specialize (Hf m). destruct (f m) as [[m1 l1] r1]. destruct Hf as [<-|[H1 H2]]; [now left|right]. cbn in *. split; [exact H1|]. rewrite H2. apply Bool.andb_false_r.
  - discriminate.
  - now left.
  - right. split; [exact H1|]. now rewrite H2.
Qed.
Lemma agree_same m l r w : agree (m, l, r) (m, r) w.
Proof. now left. Qed.
Lemma agree_marked l s w : agree (marked l s) s w.
Proof. destruct s as [m [[]|e]]; now left. Qed.
Lemma agree_weak x y w w' : agree x y w -> (w = false -> w' = false) -> agree x y w'.
Proof. intros [H|[H1 H2]] Hw; [now left|right; auto]. Qed.
Lemma agree_each {A} (f : A -> list obj -> astep) g w l : (forall a, In a l -> forall m, agree (f a m) (g a m) (w a)) ->
  forall m, agree (aeach f l m) (for_each g l m) (forallb w l).
Proof.
  induction l as [|a l IH]; intros H m; [now left|]. cbn [aeach for_each forallb]. apply agree_then; [apply H; now left|].
  intros m1. apply IH. intros b Hb. apply H. now right.
Qed.
(** Adding annotations does nothing to the data. *)
Lemma agree_check x y w key ms q w' : agree x y w -> (forall j, In (lit "@" ++ key, j) ms -> is_object j = false -> w' = false) ->
  agree (athen x (check_metadata_add key ms q)) y (w && w').
Proof.
  intros H Hw. replace y with (andthen y (fun m => (m, Ok tt))) by now destruct y as [m [[]|e]]. apply agree_then; [exact H|].
  intros m. unfold check_metadata_add. destruct (assoc _ ms) as [j|] eqn:E; [|now left].
  apply assoc_in in E. destruct j; try (right; split; [reflexivity|]; eapply Hw; eauto; fail). now left.
Qed.

Section N.
Context (O : oracle) (uid : list (pyval * obj) -> str) (top : list schema).
Notation note := (note_ietf O uid top).
Notation load := (load_ietf O uid top).
Definition at_top (p : list pstep) : bool := match p with [] => true | _ => false end.

Definition member_ok (whole : bool) (kj : str * json) : bool :=
  match fst kj with
  | [64%N] => is_object (snd kj) && negb (whole && negb (match snd kj with JObj [] => true | _ => false end))
  | 64%N :: _ => is_object (snd kj)
  | _ => metadata (fst kj) || noted_well false (snd kj)
  end.
Lemma beside_ok whole ms key j : In (lit "@" ++ key, j) ms -> is_object j = false -> forallb (member_ok whole) ms = false.
Proof.
  intros Hin Hj. apply Bool.not_true_iff_false. intros H. rewrite forallb_forall in H. specialize (H _ Hin). unfold member_ok in H. cbn [fst snd] in H.
  change (lit "@" ++ key) with (64%N :: key) in H. destruct key as [|c key]; rewrite Hj in H; discriminate.
Qed.

Lemma member_plain whole key j : metadata key = false -> member_ok whole (key, j) = noted_well false j.
Proof.
  intros Hmd. unfold member_ok. cbn [fst snd]. rewrite Hmd. cbn [orb]. destruct key as [|c key]; [reflexivity|].
  destruct c as [|c]; [reflexivity|]. do 6 (destruct c as [c|c|]; try reflexivity). destruct c as [c|c|]; try reflexivity; discriminate.
Qed.

(** One member, and one element of an array for a list. *)
Definition note_elem (ov skip : bool) (key : str) (ms : list (str * json)) (q : list pstep) (keys : list str) (cs' : list schema) (elem : json) (m : list obj) : astep :=
  athen (if ov then note_wipe O top q m else (m, [], Ok tt)) (fun m =>
  match ietf_entry O uid top q keys cs' elem m with
  | (m', Raise e) => (m', [], Raise e)
  | (m', Ok k) =>
      athen (m', if Nat.eqb (length (entries m q)) (length (entries m' q)) then [] else [Told q], Ok tt) (fun m =>
      athen (note ov skip cs' (Some q) (q ++ [Ent k]) elem m) (check_metadata_add key ms (q ++ [Ent k])))
  end).
Definition note_kid (ov skip : bool) (key : str) (ms : list (str * json)) (s : schema) (q : list pstep) (j : json) (m : list obj) : astep :=
  match j with
  | JObj _ =>
      athen (match s with SCont _ true _ => marked [Told q] (run_op O top m q (APresent true)) | _ => (m, [], Ok tt) end) (fun m =>
      athen (check_metadata_add key ms q m) (note ov skip (match s with SCont _ _ cs' => cs' | _ => [] end) (Some q) q j))
  | JArr [] => (m, [], Ok tt)
  | JArr elems =>
      match s with
      | SList _ keys _ cs' => aeach (fun f m => f m) (map (note_elem ov skip key ms q keys cs') elems) m
      | _ => note_set O top key ms q s j m
      end
  | _ => note_set O top key ms q s j m
  end.
Definition unplaced (skip : bool) (j : json) (m : list obj) : astep :=
  match j with
  | JArr [] => (m, [], Ok tt)
  | JArr _ => (m, [], Raise AttributeError)
  | _ => if skip then (m, [], Ok tt) else (m, [], Raise AttributeError)
  end.
Definition note_member (ov skip : bool) (cs : list schema) (p : list pstep) (ms : list (str * json)) (kj : str * json) (m : list obj) : astep :=
  if str_eqb (fst kj) (lit "@") then own_metadata p (snd kj) m
  else if metadata (fst kj) then (m, [], Ok tt)
  else match find_kid (local_name (fst kj)) cs with
       | None => unplaced skip (snd kj) m
       | Some (n, s) => note_kid ov skip (fst kj) ms s (p ++ [Kid n]) (snd kj) m
       end.
Lemma aeach_ext {A} (f g : A -> list obj -> astep) l : (forall a m, f a m = g a m) -> forall m, aeach f l m = aeach g l m.
Proof.
  intros H. induction l as [|a l IH]; intros m; [reflexivity|]. cbn [aeach]. rewrite H.
  destruct (g a m) as [[m1 l1] [[]|e]]; cbn [athen]; [now rewrite IH|reflexivity].
Qed.
Lemma note_obj ov skip cs self p ms m : note ov skip cs self p (JObj ms) m = aeach (note_member ov skip cs p ms) ms m.
Proof.
  cbn [note_ietf]. apply aeach_ext. intros [n j] m0. unfold note_member, note_kid, unplaced. cbn [fst snd].
  change (has_char 64 n) with (metadata n). change (after_colon n) with (local_name n). destruct (str_eqb n (lit "@")); [reflexivity|]. destruct (metadata n); [reflexivity|].
  destruct j as [| | | | |[|e es]|ms']; destruct (find_kid (local_name n) cs) as [[i s0]|]; try reflexivity.
Qed.

Definition erases (d : json) : Prop := forall ov skip cs self p m,
  agree (note ov skip cs self p d m) (load ov skip cs self p d m) (noted_well (at_top p) d).
Definition all_erase (d : json) : Prop := erases d /\ forall es, d = JArr es -> Forall erases es.

Lemma at_top_snoc p (a : pstep) : at_top (p ++ [a]) = false.
Proof. now destruct p. Qed.

Section Members.
Context (ms : list (str * json)) (W : bool) (HW : exists whole, W = forallb (member_ok whole) ms).
Lemma W_beside key j : In (lit "@" ++ key, j) ms -> is_object j = false -> W = false.
Proof. destruct HW as (whole & ->). apply beside_ok. Qed.
Lemma agree_beside x y key q : agree x y W -> agree (athen x (check_metadata_add key ms q)) y W.
Proof.
  intros H. eapply agree_weak; [apply (agree_check x y W key ms q W H); apply W_beside|]. now destruct W.
Qed.
Lemma agree_set key q s j m : agree (note_set O top key ms q s j m) (std_set O top q s j m) W.
Proof.
  unfold note_set. apply agree_beside. unfold std_set. destruct (is_key s); [now left|].
  destruct (ietf_value s j) as [[]|]; try (now left); apply agree_marked.
Qed.
Lemma agree_elem ov skip key q keys cs' elem m : (forall m k, agree (note ov skip cs' (Some q) (q ++ [Ent k]) elem m) (load ov skip cs' (Some q) (q ++ [Ent k]) elem m) W) ->
  agree (note_elem ov skip key ms q keys cs' elem m)
    (andthen (if ov then wipe O top q m else (m, Ok tt)) (fun m =>
       match ietf_entry O uid top q keys cs' elem m with
       | (m, Raise e) => (m, Raise e)
       | (m, Ok k) => load ov skip cs' (Some q) (q ++ [Ent k]) elem m
       end)) W.
Proof.
  intros H. unfold note_elem. eapply agree_weak; [apply (agree_then _ _ W _ _ W)|now destruct W].
  - destruct ov; [unfold note_wipe; apply agree_marked|now left].
  - intros m0. destruct (ietf_entry O uid top q keys cs' elem m0) as [m1 [k|e]]; [|now left].
    cbn [athen]. pose proof (agree_beside _ _ key (q ++ [Ent k]) (H m1 k)) as [G|[G1 G2]].
    + left. rewrite <- G. unfold erase. now destruct (athen _ _) as [[? ?] ?].
    + right. split; [|exact G2]. now destruct (athen _ _) as [[? ?] ?].
Qed.
Lemma agree_kid ov skip key s q j m : all_erase j -> at_top q = false -> In (key, j) ms -> metadata key = false ->
  agree (note_kid ov skip key ms s q j m) (UnknownIetf_proofs.iload_kid O uid top ov skip s q j m) W.
Proof.
  intros [Hj Hes] Hq Hin Hmd.
  assert (Wj : noted_well false j = false -> W = false).
  { destruct HW as (whole & ->). intros Hn. apply Bool.not_true_iff_false. intros Hf. rewrite forallb_forall in Hf. specialize (Hf _ Hin).
    rewrite member_plain in Hf by exact Hmd. congruence. }
  unfold note_kid, UnknownIetf_proofs.iload_kid. destruct j as [| | | | |[|e0 es0]|ms']; try apply agree_set; [now left| |].
  - destruct s as [| | |i keys od cs']; try apply agree_set. specialize (Hes _ eq_refl). set (es := e0 :: es0) in *. clearbody es.
    replace (for_each _ _ m) with (for_each (fun elem m => (andthen (if ov then wipe O top q m else (m, Ok tt)) (fun m =>
       match ietf_entry O uid top q keys cs' elem m with
       | (m, Raise e) => (m, Raise e)
       | (m, Ok k) => load ov skip cs' (Some q) (q ++ [Ent k]) elem m
       end))) es m).
    2:{ clear. revert m. induction es as [|e es IH]; intros m; [reflexivity|]. cbn [for_each map]. match goal with |- andthen ?a _ = andthen ?b _ => change b with a; destruct a as [m1 [[]|ex]] end; cbn [andthen]; [apply IH|reflexivity]. }
    replace (aeach _ _ m) with (aeach (note_elem ov skip key ms q keys cs') es m).
    2:{ clear. revert m. induction es as [|e es IH]; intros m; [reflexivity|]. cbn [aeach map]. destruct (note_elem _ _ _ _ _ _ _ e m) as [[m1 l1] [[]|ex]]; cbn [athen]; [now rewrite IH|reflexivity]. }
    eapply agree_weak; [apply (agree_each _ _ (fun _ => W))|intros Hf; apply Bool.not_true_iff_false; intros ->; revert Hf; clear; induction es; [discriminate|exact IHes]].
    intros e He m0. apply agree_elem. intros m1 k. rewrite Forall_forall in Hes. eapply agree_weak; [apply (Hes e He)|]. rewrite at_top_snoc. intros Hn. apply Wj.
    cbn [noted_well]. apply Bool.not_true_iff_false. intros Hf. rewrite forallb_forall in Hf. specialize (Hf e He). congruence.
  - assert (G : forall m cs', agree (athen (check_metadata_add key ms q m) (note ov skip cs' (Some q) q (JObj ms'))) (load ov skip cs' (Some q) q (JObj ms') m) W).
    { intros m0 cs'. change (load ov skip cs' (Some q) q (JObj ms') m0) with (andthen (m0, Ok tt) (load ov skip cs' (Some q) q (JObj ms'))).
      eapply agree_weak; [apply (agree_then _ _ W _ _ W)|now destruct W].
      - change (check_metadata_add key ms q m0) with ((fun m => check_metadata_add key ms q m) m0).
        pose proof (agree_beside (m0, [], Ok tt) (m0, Ok tt) key q (or_introl eq_refl)) as G. cbn [athen] in G. destruct (check_metadata_add key ms q m0) as [[? ?] ?]. exact G.
      - intros m1. eapply agree_weak; [apply Hj|]. rewrite Hq. exact Wj. }
    assert (G0 : forall cs' m, agree (athen (m, [], Ok tt) (fun m => athen (check_metadata_add key ms q m) (note ov skip cs' (Some q) q (JObj ms'))))
                         (load ov skip cs' (Some q) q (JObj ms') m) W).
    { intros cs' m0. cbn [athen]. destruct (G m0 cs') as [E|[E1 E2]]; [left|right]; destruct (athen _ _) as [[? ?] ?]; auto. }
    destruct s as [i lt d yt k|i ts yt|i [] cs'|i keys od cs']; try apply G0.
    eapply agree_weak; [apply (agree_then _ _ W _ _ W); [apply agree_marked|intros m0; apply G]|now destruct W].
Qed.
End Members.

Lemma all_erased d : all_erase d.
Proof.
  induction d as [d Ha Ho|es IH|ms IH] using json_ind'; (split; [|intros es0 E; try discriminate]).
  - intros ov skip cs self p m. destruct d; try (exfalso; eapply Ha; reflexivity); try (exfalso; eapply Ho; reflexivity);
      cbn [note_ietf load_ietf]; destruct self; try (now left); apply agree_marked.
  - exfalso. eapply Ha; eauto.
  - intros ov skip cs self p m. cbn [note_ietf load_ietf]. destruct self; [apply agree_marked|now left].
  - injection E as <-. eapply Forall_impl; [|exact IH]. now intros a [H _].
  - intros ov skip cs self p m. rewrite note_obj, UnknownIetf_proofs.iload_obj. set (W := noted_well (at_top p) (JObj ms)).
    assert (HW : W = forallb (member_ok (at_top p)) ms) by reflexivity.
    eapply agree_weak; [apply (agree_each _ _ (fun _ => W))|intros Hf; apply Bool.not_true_iff_false; intros E; rewrite E in Hf; revert Hf; clear; induction ms; [discriminate|exact IHms]].
    intros [key j] Hin m0. unfold note_member, UnknownIetf_proofs.iload_member. cbn [fst snd]. destruct (str_eqb key (lit "@")) eqn:Ek.
    + apply str_eqb_eq in Ek. subst key. change (metadata (lit "@")) with true. cbn iota. unfold own_metadata.
      assert (Hno : member_ok (at_top p) (lit "@", j) = false -> W = false).
      { intros Hf. apply Bool.not_true_iff_false. intros E. rewrite HW, forallb_forall in E. specialize (E _ Hin). congruence. }
      destruct j as [| | | | | |[|a0 a]]; try (right; split; [reflexivity|]; apply Hno; reflexivity); [now left|].
      destruct p; [|now left]. right. split; [reflexivity|]. apply Hno. reflexivity.
    + destruct (metadata key) eqn:Em; [now left|]. destruct (find_kid (local_name key) cs) as [[n s]|].
      * apply agree_kid; auto; [eexists; exact HW| |apply at_top_snoc]. rewrite Forall_forall in IH. apply (IH _ Hin).
      * unfold unplaced, UnknownIetf_proofs.lost. destruct j as [| | | | |[]|]; try (now left); destruct skip; now left.
Qed.
Theorem same_data ov skip d m : let x := note_ietf_json O uid top ov skip d m in
  (snd x = Ok tt \/ noted_well true d = true -> load_ietf_json O uid top ov skip d m = (fst (fst x), snd x)) /\
  (snd x <> Ok tt -> snd x = Raise AttributeError \/ load_ietf_json O uid top ov skip d m = (fst (fst x), snd x)).
Proof.
  unfold note_ietf_json, load_ietf_json. destruct (all_erased d) as [H _]. destruct (H ov skip top None [] m) as [E|[E1 E2]]; cbn zeta.
  - unfold erase in E. split; intros _; [now symmetry|right; now symmetry].
  - split; [|intros _; now left]. intros [G|G]; [rewrite E1 in G; discriminate|]. cbn [at_top] in E2. congruence.
Qed.
End N.

(* ------------------------------------------------------------------ marks *)
Lemma athen_ok x f m L : athen x f = (m, L, Ok tt) -> exists m1 l1 m2 l2, x = (m1, l1, Ok tt) /\ f m1 = (m2, l2, Ok tt) /\ L = l1 ++ l2.
Proof.
  destruct x as [[m1 l1] [[]|e]]; cbn; [|discriminate]. destruct (f m1) as [[m2 l2] r] eqn:E. intros H. injection H as <- <- <-. eauto 10.
Qed.
Lemma aeach_ok {A} (f : A -> list obj -> astep) l : forall m m' L, aeach f l m = (m', L, Ok tt) ->
  exists segs, Forall2 (fun a seg => exists m0 m1, f a m0 = (m1, seg, Ok tt)) l segs /\ L = concat segs.
Proof.
  induction l as [|a l IH]; cbn [aeach]; intros m m' L H.
  - injection H as _ <-. exists []. split; [constructor|reflexivity].
  - apply athen_ok in H as (m1 & l1 & m2 & l2 & H1 & H2 & ->). apply IH in H2 as (segs & H2 & ->). exists (l1 :: segs). split; [constructor; eauto|reflexivity].
Qed.
Lemma pairs_app {A} (R : A -> A -> Prop) l l' : ForallOrdPairs R l -> ForallOrdPairs R l' -> (forall a b, In a l -> In b l' -> R a b) -> ForallOrdPairs R (l ++ l').
Proof.
  induction 1 as [|a l Ha _ IH]; cbn; intros H1 H2; [exact H1|]. constructor.
  - apply Forall_app. split; [exact Ha|]. apply Forall_forall. intros b Hb. apply H2; [now left|exact Hb].
  - apply IH; auto.
Qed.
Lemma pairs_concat {A B} (D : A -> A -> Prop) (Q : A -> list B -> Prop) (R : B -> B -> Prop) l segs : Forall2 Q l segs ->
  ForallOrdPairs D l -> (forall a seg, In a l -> Q a seg -> ForallOrdPairs R seg) ->
  (forall a seg a' seg', In a l -> In a' l -> D a a' -> Q a seg -> Q a' seg' -> forall x y, In x seg -> In y seg' -> R x y) ->
  ForallOrdPairs R (concat segs).
Proof.
  induction 1 as [|a seg l segs Ha Hl IH]; intros HD H1 H2; [constructor|]. inversion HD as [|? ? Hd Hds]; subst. cbn [concat]. apply pairs_app.
  - eapply H1; [left; reflexivity|exact Ha].
  - apply IH; [exact Hds| |].
    + intros a0 s0 Hi. apply H1. now right.
    + intros a0 s0 a1 s1 Hi Hi'. apply H2; now right.
  - intros x y Hx Hy. apply in_concat in Hy as (seg' & Hs & Hy).
    assert (G : exists a', In a' l /\ Q a' seg'). { clear -Hl Hs. induction Hl as [|a0 s0 l segs Ha Hl IH]; [destruct Hs|]. destruct Hs as [->|Hs]; [exists a0; split; [now left|exact Ha]|]. destruct (IH Hs) as (a' & G1 & G2). exists a'. split; [now right|exact G2]. }
    destruct G as (a' & G1 & G2). rewrite Forall_forall in Hd. eapply (H2 a seg a' seg'); eauto; [now left|now right].
Qed.
Lemma forall2_in {A B} (P Q : A -> B -> Prop) l l' : Forall2 P l l' -> (forall a b, In a l -> P a b -> Q a b) -> Forall2 Q l l'.
Proof. induction 1 as [|a b l l' H Hl IH]; intros G; constructor; [apply G; [now left|exact H]|]. apply IH. intros a' b' Ha. apply G. now right. Qed.
Lemma segs_in {A B} (Q : A -> list B -> Prop) l segs x : Forall2 Q l segs -> In x (concat segs) -> exists a seg, In a l /\ Q a seg /\ In x seg.
Proof.
  induction 1 as [|a seg l segs Ha Hl IH]; cbn; [intros []|]. intros H. apply in_app_or in H as [H|H]; [exists a, seg; auto|].
  destruct (IH H) as (a' & s' & G1 & G2 & G3). exists a', s'. auto.
Qed.
Lemma segs_of {A B} (Q : A -> list B -> Prop) l segs a : Forall2 Q l segs -> In a l -> exists seg, Q a seg /\ incl seg (concat segs).
Proof.
  induction 1 as [|a0 seg l segs Ha Hl IH]; cbn; [intros []|]. intros [->|H]; [exists seg; split; [exact Ha|now apply incl_appl, incl_refl]|].
  destruct (IH H) as (s' & G1 & G2). exists s'. split; [exact G1|now apply incl_appr].
Qed.

(** Nothing that has been annotated is renewed afterwards. *)
Definition lasting (a b : mark) : Prop :=
  match a, b with Noted q _ _, Renewed q' => apart q' q \/ below q q' | _, _ => True end.
Definition mark_at (e : mark) : list pstep := match e with Noted q _ _ => q | Renewed q => q | Told q => q end.

Lemma check_ok key ms q m m' l : check_metadata_add key ms q m = (m', l, Ok tt) ->
  (forall e, In e l -> exists k v, e = Noted q k v /\ beside ms key k v) /\
  (NoDup (map fst ms) -> forall k v, beside ms key k v -> In (Noted q k v) l).
Proof.
  unfold check_metadata_add. destruct (assoc (lit "@" ++ key) ms) as [j|] eqn:E.
  - apply assoc_in in E. destruct j as [| | | | | |a]; try discriminate. intros H. injection H as _ <-. split.
    + intros e He. apply in_map_iff in He as ([k v] & <- & He). exists k, v. split; [reflexivity|]. exists a. auto.
    + intros Hnd k v (a' & Ha & Hk). assert (JObj a' = JObj a) as G.
      { clear -Hnd Ha E. induction ms as [|[n x] ms IH]; [destruct E|]. inversion Hnd as [|? ? Hn Hnd']; subst. cbn in *.
        destruct Ha as [Ha|Ha], E as [E|E]; try congruence; [| |now apply IH]; exfalso; apply Hn.
        - injection Ha as -> _. now apply (in_map fst) in E.
        - injection E as -> _. now apply (in_map fst) in Ha. }
      injection G as ->. apply in_map_iff. now exists (k, v).
  - intros H. injection H as _ <-. split; [intros e []|]. intros Hnd k v (a & Ha & _). exfalso.
    assert (G : forall n (l : list (str * json)) j, In (n, j) l -> assoc n l <> None).
    { clear. intros n l j. induction l as [|[x y] l IH]; cbn; [intros []|]. destruct (str_eqb n x) eqn:E; [discriminate|]. intros [H|H]; [|now apply IH].
      injection H as -> _. now rewrite str_eqb_refl in E. }
    exact (G _ _ _ Ha E).
Qed.
Lemma only_noted l : (forall e, In e l -> exists q k v, e = Noted q k v) -> ForallOrdPairs lasting l.
Proof.
  induction l as [|a l IH]; intros H; constructor.
  - apply Forall_forall. intros b Hb. destruct (H b) as (q & k & v & ->); [now right|]. now destruct a.
  - apply IH. intros e He. apply H. now right.
Qed.

Section M.
Context (O : oracle) (uid : list (pyval * obj) -> str) (top : list schema).
Notation note := (note_ietf O uid top).

Lemma names_below cs n s : python_names cs -> nth_error cs n = Some s ->
  python_names (match s with SCont _ _ cs' => cs' | SList _ _ _ cs' => cs' | _ => [] end).
Proof.
  intros H Hn p i pr cs' Hp. destruct s as [| |i0 pr0 cs0|i0 keys od cs0].
  1,2: destruct p as [|a p]; [injection Hp as <- <- <-; split; constructor|]; exfalso; revert Hp; unfold schema_at; cbn; destruct a as [k|k]; [destruct k; discriminate|discriminate].
  - destruct p as [|a p]; [injection Hp as <- <- <-|].
    + apply (H [Kid n] i0 pr0). unfold schema_at. cbn. now rewrite Hn.
    + apply (H (Kid n :: a :: p) i pr). unfold schema_at in *. cbn in *. now rewrite Hn.
  - destruct p as [|a p]; [injection Hp as <- <- <-|].
    + eapply (H [Kid n; Ent (VInt 0)]). unfold schema_at. cbn. now rewrite Hn.
    + apply (H (Kid n :: Ent (VInt 0) :: a :: p) i pr). unfold schema_at in *. cbn in *. now rewrite Hn.
Qed.

Lemma entry_key_of q keys cs elem m m' k : keys <> [] -> ietf_entry O uid top q keys cs elem m = (m', Ok k) -> entry_key O cs keys elem k.
Proof.
  intros Hk H. unfold ietf_entry in H. split; [exact Hk|]. revert H. destruct keys as [|k1 [|k2 ks]]; [congruence| |].
  - destruct (elem_keys cs [k1] elem) as [kd|] eqn:E; [|discriminate]. pose proof (elem_keys_values _ _ _ _ Hk E) as Hv.
    destruct kd as [|[n v] [|]]; try discriminate. intros H. exists [(n, v)]. split; [exact Hv|]. cbn. revert H.
    destruct (negb (hashable v)); [discriminate|]. destruct (mhas v _); [congruence|]. destruct (run_op _ _ _ _ _) as [? []]; congruence.
  - destruct (elem_keys cs (k1 :: k2 :: ks) elem) as [kd|] eqn:E; [|discriminate]. pose proof (elem_keys_values _ _ _ _ Hk E) as Hv.
    intros H. exists kd. split; [exact Hv|]. revert H. assert (G : exists a b r, kd = a :: b :: r).
    { destruct Hv as (ms & _ & Hv). inversion Hv as [|? ? ? ? _ H1]; subst. inversion H1; subst. eauto. }
    destruct G as ([? ?] & ? & ? & ->). destruct (mhas _ _); [intros G; injection G as _ <-; now right|]. destruct (run_op _ _ _ _ _) as [? []]; [|discriminate].
    intros G. injection G as _ <-. now left.
Qed.
Lemma one_value (ms : list (str * json)) key j j' : NoDup (map fst ms) -> In (key, j) ms -> In (key, j') ms -> j = j'.
Proof.
  induction ms as [|[n x] ms IH]; [intros _ []|]. intros Hnd Ha E. inversion Hnd as [|? ? Hn Hnd']; subst. cbn in *.
  destruct Ha as [Ha|Ha], E as [E|E]; try congruence; [| |now apply IH]; exfalso; apply Hn.
  - injection Ha as -> _. now apply (in_map fst) in E.
  - injection E as -> _. now apply (in_map fst) in Ha.
Qed.

Definition marks_ok (cs : list schema) (d : json) (p : list pstep) (l : list mark) : Prop :=
  (forall e, In e l -> match e with
                       | Noted q k v => exists r, q = p ++ r /\ says O cs d r k v
                       | _ => exists n r, mark_at e = p ++ Kid n :: r
                       end) /\
  (forall r k v, says O cs d r k v -> In (Noted (p ++ r) k v) l) /\ ForallOrdPairs lasting l.
Definition kid_ok (cs : list schema) (ms : list (str * json)) (n : nat) (p : list pstep) (l : list mark) : Prop :=
  (forall e, In e l -> match e with
                       | Noted q k v => exists r, q = p ++ Kid n :: r /\ says O cs (JObj ms) (Kid n :: r) k v
                       | _ => exists r, mark_at e = p ++ Kid n :: r
                       end) /\
  (forall r k v, says O cs (JObj ms) (Kid n :: r) k v -> In (Noted (p ++ Kid n :: r) k v) l) /\ ForallOrdPairs lasting l.
Definition marks (d : json) : Prop := forall skip cs self p m m' l, tidy O cs d -> python_names cs ->
  note false skip cs self p d m = (m', l, Ok tt) -> marks_ok cs d p l.
Definition all_marks (d : json) : Prop := marks d /\ forall es, d = JArr es -> Forall marks es.

Lemma tidy_obj cs ms : tidy O cs (JObj ms) -> NoDup (map fst ms) /\
    (forall key key' n s s' j j', valued cs ms key n s j -> valued cs ms key' n s' j' -> key = key') /\
    (forall key n s ms', valued cs ms key n s (JObj ms') -> tidy O (match s with SCont _ _ cs' => cs' | _ => [] end) (JObj ms')) /\
    (forall key n i keys od cs' es, valued cs ms key n (SList i keys od cs') (JArr es) ->
       keys <> [] /\
       (forall e k k', In e es -> entry_key O cs' keys e k -> entry_key O cs' keys e k' -> k = k') /\
       (forall e, In e es -> tidy O cs' e) /\
       ForallOrdPairs (fun e e' => forall k k', entry_key O cs' keys e k -> entry_key O cs' keys e' k' ->
                                     py_eq k k' = false /\ py_eq k' k = false) es).
Proof. intros H. inversion H; subst. auto. Qed.
Section Kid.
Context (cs : list schema) (ms : list (str * json)) (Ht : tidy O cs (JObj ms)) (Hn : python_names cs).
Context (key : str) (n : nat) (s : schema) (j : json) (Hv : valued cs ms key n s j).
Context (p : list pstep).
Lemma nodup_ms : NoDup (map fst ms).
Proof. now inversion Ht. Qed.
Lemma valued_same key' s' j' : valued cs ms key' n s' j' -> key' = key /\ s' = s /\ j' = j.
Proof.
  intros H. inversion Ht as [? ? Hnd Hu _ _]; subst. assert (key' = key) as -> by (eapply Hu; eauto). split; [reflexivity|].
  destruct H as (H1 & _ & H2 & _), Hv as (H3 & _ & H4 & _). split; [congruence|]. eapply one_value; eauto.
Qed.
(** What is said about the child and what is in it. *)
Lemma says_kid r k v : says O cs (JObj ms) (Kid n :: r) k v ->
  (r = [] /\ beside ms key k v /\ forall es, j = JArr es -> es <> [] /\ (forall i keys od cs', s <> SList i keys od cs')) \/
  (exists ms', j = JObj ms' /\ says O (match s with SCont _ _ cs' => cs' | _ => [] end) (JObj ms') r k v) \/
  (exists i keys od cs' es e key' r', s = SList i keys od cs' /\ j = JArr es /\ In e es /\ entry_key O cs' keys e key' /\ r = Ent key' :: r' /\
     ((r' = [] /\ beside ms key k v) \/ says O cs' e r' k v)).
Proof.
  intros H. inversion H; subst;
    match goal with G : valued cs ms _ n _ _ |- _ => destruct (valued_same _ _ _ G) as (-> & G2 & G3) end.
  - left. subst. auto.
  - right. left. subst. eauto.
  - right. right. subst. do 8 eexists. repeat (split; [eauto; fail|]). left. auto.
  - right. right. subst. do 8 eexists. repeat (split; [eauto; fail|]). right. auto.
Qed.
Lemma set_marks m m' l : (forall es, j = JArr es -> es <> [] /\ (forall i keys od cs', s <> SList i keys od cs')) -> (forall ms', j <> JObj ms') ->
  note_set O top key ms (p ++ [Kid n]) s j m = (m', l, Ok tt) -> kid_ok cs ms n p l.
Proof.
  intros Ha Ho H. unfold note_set in H. apply athen_ok in H as (m1 & l1 & m2 & l2 & H1 & H2 & ->).
  apply check_ok in H2 as [Hs Hc]. specialize (Hc nodup_ms).
  assert (L1 : l1 = [] \/ l1 = [Renewed (p ++ [Kid n])]).
  { destruct (is_key s); [injection H1 as _ <-; now left|]. destruct (ietf_value s j) as [jv|]; [|discriminate].
    destruct jv; try (injection H1 as _ <-; now left); destruct (run_op _ _ _ _ _) as [? [[]|]]; cbn in H1; try discriminate; injection H1 as _ <-; now right. }
  split; [|split].
  - intros e He. apply in_app_or in He as [He|He].
    + destruct L1 as [->| ->]; [destruct He|]. destruct He as [<-|[]]. exists []. reflexivity.
    + destruct (Hs e He) as (k & v & -> & Hb). exists []. split; [reflexivity|]. eapply SayChild; eauto.
  - intros r k v Hsay. apply in_or_app. right. apply says_kid in Hsay as [(-> & Hb & _)|[(ms' & E & _)|(i & keys & od & cs' & es & e & key' & r' & E & E' & _)]].
    + auto.
    + exfalso. eapply Ho; eauto.
    + exfalso. destruct (Ha es E') as [_ G]. eapply G; eauto.
  - apply pairs_app; [destruct L1 as [->| ->]; repeat constructor| |].
    + apply only_noted. intros e He. destruct (Hs e He) as (k & v & -> & _). eauto.
    + intros a b Ha' Hb. destruct L1 as [->| ->]; [destruct Ha'|]. destruct Ha' as [<-|[]]. exact I.
Qed.

Lemma names_nil : python_names [].
Proof.
  intros q i pr cs' Hp. destruct q as [|[k|k] q]; [injection Hp as <- <- <-; split; constructor| |discriminate].
  exfalso. unfold schema_at in Hp. cbn in Hp. destruct k; discriminate.
Qed.
Lemma apart_app (q a b : list pstep) : apart a b -> apart (q ++ a) (q ++ b).
Proof. intros H. induction q as [|x q IH]; [exact H|]. cbn. now right. Qed.
Lemma apart_kids (q : list pstep) n1 n2 r1 r2 : n1 <> n2 -> apart (q ++ Kid n1 :: r1) (q ++ Kid n2 :: r2).
Proof. intros H. apply apart_app. left. intros E. inversion E. congruence. Qed.
Lemma apart_ents (q : list pstep) n0 k1 k2 r1 r2 : py_eq k1 k2 = false -> apart (q ++ Kid n0 :: Ent k1 :: r1) (q ++ Kid n0 :: Ent k2 :: r2).
Proof. intros H. apply apart_app. right. left. intros E. inversion E. congruence. Qed.

Lemma obj_marks skip ms' m m' l : j = JObj ms' -> marks j -> note_kid O uid top false skip key ms s (p ++ [Kid n]) j m = (m', l, Ok tt) -> kid_ok cs ms n p l.
Proof.
  intros Ej Hj H. assert (Hsub : marks_ok (match s with SCont _ _ cs' => cs' | _ => [] end) j (p ++ [Kid n]) [] -> True) by auto. clear Hsub.
  unfold note_kid in H. rewrite Ej in H. rewrite <- Ej in H.
  apply athen_ok in H as (m1 & lt & m2 & l' & H1 & H2 & ->). apply athen_ok in H2 as (m3 & lc & m4 & ln & H2 & H3 & ->).
  apply check_ok in H2 as [Hs Hc]. specialize (Hc nodup_ms).
  assert (Lt : lt = [] \/ lt = [Told (p ++ [Kid n])]).
  { destruct s as [| |i [] cs'|]; try (injection H1 as _ <-; now left). destruct (run_op _ _ _ _ _) as [? [[]|]]; cbn in H1; try discriminate. injection H1 as _ <-. now right. }
  set (cs' := match s with SCont _ _ cs' => cs' | _ => [] end) in *.
  assert (Hts : tidy O cs' j). { destruct (tidy_obj _ _ Ht) as (_ & _ & Hto & _). unfold cs'. rewrite Ej. eapply Hto. rewrite <- Ej. exact Hv. }
  assert (Hns : python_names cs'). { unfold cs'. destruct Hv as (_ & _ & Hnth & _). pose proof (names_below _ _ _ Hn Hnth). destruct s; auto; apply names_nil. }
  destruct (Hj _ _ _ _ _ _ _ Hts Hns H3) as (M1 & M2 & M3).
  split; [|split].
  - intros e He. apply in_app_or in He as [He|He]; [|apply in_app_or in He as [He|He]].
    + destruct Lt as [->| ->]; [destruct He|]. destruct He as [<-|[]]. exists []. reflexivity.
    + destruct (Hs e He) as (k & v & -> & Hb). exists []. split; [reflexivity|]. eapply SayChild; eauto. intros es E. congruence.
    + specialize (M1 e He). destruct e as [q k v|q|q].
      * destruct M1 as (r & -> & Hr). exists r. split; [now rewrite <- app_assoc|]. eapply SayIn; [rewrite <- Ej; exact Hv|]. rewrite <- Ej. exact Hr.
      * destruct M1 as (n' & r & E). exists (Kid n' :: r). rewrite E. now rewrite <- app_assoc.
      * destruct M1 as (n' & r & E). exists (Kid n' :: r). rewrite E. now rewrite <- app_assoc.
  - intros r k v Hsay. apply in_or_app. right. apply in_or_app.
    apply says_kid in Hsay as [(-> & Hb & _)|[(ms1 & E & Hr)|(i & keys & od & cs1 & es & e & key' & r' & E & E' & _)]]; [| |congruence].
    + left. auto.
    + right. specialize (M2 r k v). rewrite <- app_assoc in M2. apply M2. rewrite E. exact Hr.
  - apply pairs_app; [destruct Lt as [->| ->]; repeat constructor| |].
    + apply pairs_app; [|exact M3|].
      * apply only_noted. intros e He. destruct (Hs e He) as (k & v & -> & _). eauto.
      * intros a b Ha Hb. destruct (Hs a Ha) as (k & v & -> & _). specialize (M1 b Hb). destruct b as [|q'|]; try exact I.
        destruct M1 as (n' & r & E). cbn in E. subst q'. right. exists (Kid n'), r. reflexivity.
    + intros a b Ha _. destruct Lt as [->| ->]; [destruct Ha|]. destruct Ha as [<-|[]]. exact I.
Qed.

Lemma arr_marks skip i keys od cs' es m m' l : s = SList i keys od cs' -> j = JArr es -> es <> [] -> Forall marks es ->
  note_kid O uid top false skip key ms s (p ++ [Kid n]) j m = (m', l, Ok tt) -> kid_ok cs ms n p l.
Proof.
  intros Es Ej Hne Hes H. assert (H' : aeach (note_elem O uid top false skip key ms (p ++ [Kid n]) keys cs') es m = (m', l, Ok tt)).
  { unfold note_kid in H. rewrite Ej, Es in H. destruct es as [|e0 es0]; [congruence|]. set (es := e0 :: es0) in *. clearbody es. rewrite <- H. clear.
    revert m. induction es as [|e es IH]; intros m; [reflexivity|]. cbn [aeach map]. destruct (note_elem _ _ _ _ _ _ _ _ _ _ e m) as [[m1 l1] [[]|ex]]; cbn [athen]; [now rewrite IH|reflexivity]. }
  clear H. destruct (tidy_obj _ _ Ht) as (_ & _ & _ & Htl). assert (Hv1 : valued cs ms key n (SList i keys od cs') (JArr es)) by (rewrite <- Es, <- Ej; exact Hv). destruct (Htl _ _ _ _ _ _ _ Hv1) as (Hk & Hone & Htidy & Hdis).
  assert (Hns : python_names cs'). { destruct Hv1 as (_ & _ & Hnth & _). apply (names_below _ _ _ Hn Hnth). }
  apply aeach_ok in H' as (segs & H2 & ->).
  set (Q := fun e seg => In e es /\ exists k, entry_key O cs' keys e k /\
    (forall x, In x seg -> match x with
       | Noted q a v => exists r, q = p ++ Kid n :: Ent k :: r /\ says O cs (JObj ms) (Kid n :: Ent k :: r) a v
       | Renewed q => exists n' r, q = p ++ Kid n :: Ent k :: Kid n' :: r
       | Told q => exists r, q = p ++ Kid n :: r
       end) /\
    (forall r a v, says O cs' e r a v -> In (Noted (p ++ Kid n :: Ent k :: r) a v) seg) /\
    (forall a v, beside ms key a v -> In (Noted (p ++ [Kid n; Ent k]) a v) seg) /\ ForallOrdPairs lasting seg).
  assert (HQ : Forall2 Q es segs).
  { assert (G : forall e seg, In e es -> (exists m0 m1, note_elem O uid top false skip key ms (p ++ [Kid n]) keys cs' e m0 = (m1, seg, Ok tt)) -> Q e seg).
    { clear H2. intros e seg Hin (m0 & m1 & He). split; [exact Hin|]. unfold note_elem in He.
      apply athen_ok in He as (m2 & l1 & m3 & l2 & E1 & E2 & ->). injection E1 as <- <-. cbn [app].
      destruct (ietf_entry O uid top (p ++ [Kid n]) keys cs' e m0) as [m4 [k|ex]] eqn:Ee; [|discriminate].
      pose proof (entry_key_of _ _ _ _ _ _ _ Hk Ee) as Hek. exists k. split; [exact Hek|].
      apply athen_ok in E2 as (m5 & lt & m6 & l3 & E2 & E3 & ->). apply athen_ok in E3 as (m7 & ln & m8 & lc & E3 & E4 & ->).
      assert (Lt : lt = [] \/ lt = [Told (p ++ [Kid n])]). { injection E2 as _ <-. destruct (Nat.eqb _ _); auto. }
      apply check_ok in E4 as [Hs Hc]. specialize (Hc nodup_ms). rewrite Forall_forall in Hes.
      destruct (Hes e Hin _ _ _ _ _ _ _ (Htidy e Hin) Hns E3) as (M1 & M2 & M3).
      assert (Hp : (p ++ [Kid n]) ++ [Ent k] = p ++ [Kid n; Ent k]) by now rewrite <- app_assoc.
      rewrite Hp in *. assert (Hp' : forall r, (p ++ [Kid n; Ent k]) ++ r = p ++ Kid n :: Ent k :: r) by (intros r; now rewrite <- app_assoc).
      split; [|split; [|split]].
      - intros x Hx. apply in_app_or in Hx as [Hx|Hx]; [|apply in_app_or in Hx as [Hx|Hx]].
        + destruct Lt as [->| ->]; [destruct Hx|]. destruct Hx as [<-|[]]. exists []. reflexivity.
        + specialize (M1 x Hx). destruct x as [q a v|q|q].
          * destruct M1 as (r & -> & Hr). exists r. split; [apply Hp'|]. eapply SayEntry; eauto.
          * destruct M1 as (n' & r & E). exists n', r. cbn in E. now rewrite E, Hp'.
          * destruct M1 as (n' & r & E). cbn in E. rewrite Hp' in E. eauto.
        + destruct (Hs x Hx) as (a & v & -> & Hb). exists []. split; [reflexivity|]. eapply SayEach; eauto.
      - intros r a v Hr. apply in_or_app. right. apply in_or_app. left. rewrite <- Hp'. now apply M2.
      - intros a v Hb. apply in_or_app. right. apply in_or_app. right. auto.
      - apply pairs_app; [destruct Lt as [->| ->]; repeat constructor| |].
        + apply pairs_app; [exact M3| |].
          * apply only_noted. intros x Hx. destruct (Hs x Hx) as (a & v & -> & _). eauto.
          * intros a b _ Hb. destruct (Hs b Hb) as (a' & v & -> & _). now destruct a.
        + intros a b Ha _. destruct Lt as [->| ->]; [destruct Ha|]. destruct Ha as [<-|[]]. exact I. }
    eapply forall2_in; [exact H2|exact G]. }
  split; [|split].
  - intros x Hx. destruct (segs_in _ _ _ _ HQ Hx) as (e & seg & _ & (_ & k & _ & Q1 & _) & Hxs). specialize (Q1 x Hxs).
    destruct x as [q a v|q|q].
    + destruct Q1 as (r & E & Hr). exists (Ent k :: r). auto.
    + destruct Q1 as (n' & r & E). exists (Ent k :: Kid n' :: r). exact E.
    + destruct Q1 as (r & E). exists r. exact E.
  - intros r a v Hsay. apply says_kid in Hsay as [(_ & _ & Hb)|[(ms1 & E & _)|(i1 & keys1 & od1 & cs1 & es1 & e & key' & r' & E & E' & Hin & Hek & -> & Hor)]].
    + exfalso. destruct (Hb es Ej) as [_ G]. eapply G; eauto.
    + congruence.
    + rewrite Es in E. injection E as <- <- <- <-. rewrite Ej in E'. injection E' as <-.
      destruct (segs_of _ _ _ _ HQ Hin) as (seg & (_ & k & Hek' & _ & Q2 & Q3 & _) & Hincl). apply Hincl.
      rewrite (Hone e key' k Hin Hek Hek'). destruct Hor as [(-> & Hb)|Hr]; auto.
  - eapply (pairs_concat _ Q); [exact HQ|exact Hdis|intros e seg _ (_ & k & _ & _ & _ & _ & G); exact G|].
    intros e seg e' seg' _ _ Hd (_ & k & Hek & Q1 & _) (_ & k' & Hek' & Q1' & _) x y Hx Hy. specialize (Q1 x Hx). specialize (Q1' y Hy).
    destruct x as [q a v|q|q]; try exact I. destruct y as [|q'|]; try exact I. destruct Q1 as (r & -> & _). destruct Q1' as (n' & r' & ->).
    left. apply apart_ents. apply (Hd k k' Hek Hek').
Qed.
End Kid.

Lemma all_marked d : all_marks d.
Proof.
  induction d as [d Ha Ho|es IH|ms IH] using json_ind'; (split; [|intros es0 E; try discriminate]).
  - intros skip cs self p m m' l Ht. inversion Ht; subst. exfalso. eapply Ho; reflexivity.
  - exfalso. eapply Ha; eauto.
  - intros skip cs self p m m' l Ht. inversion Ht.
  - injection E as <-. eapply Forall_impl; [|exact IH]. now intros a [H _].
  - intros skip cs self p m m' l Ht Hn H. rewrite note_obj in H. apply aeach_ok in H as (segs & H & ->).
    destruct (tidy_obj _ _ Ht) as (Hnd & Huniq & _ & _).
    set (Q := fun kj seg => In kj ms /\
      ((fst kj = lit "@" /\ (forall e, In e seg -> exists k v, e = Noted p k v /\ says O cs (JObj ms) [] k v) /\
        forall a k v, snd kj = JObj a -> In (k, v) a -> In (Noted p k v) seg) \/
       (fst kj <> lit "@" /\ (forall n s, ~ valued cs ms (fst kj) n s (snd kj)) /\ seg = []) \/
       (fst kj <> lit "@" /\ exists n s, valued cs ms (fst kj) n s (snd kj) /\ kid_ok cs ms n p seg))).
    assert (HQ : Forall2 Q ms segs).
    { assert (G : forall kj seg, In kj ms -> (exists m0 m1, note_member O uid top false skip cs p ms kj m0 = (m1, seg, Ok tt)) -> Q kj seg).
      { clear H segs. intros [key j] seg Hin (m0 & m1 & He). split; [exact Hin|]. unfold note_member in He. cbn [fst snd] in *.
        destruct (str_eqb key (lit "@")) eqn:Ek.
        - left. apply str_eqb_eq in Ek. split; [exact Ek|]. subst key. unfold own_metadata in He. destruct j as [| | | | | |a]; try discriminate.
          assert (G : seg = map (fun kv => Noted p (fst kv) (snd kv)) a). { destruct a as [|a0 a]; [now injection He as _ <-|]. destruct p; [discriminate|]. now injection He as _ <-. }
          subst seg. split.
          + intros e He'. apply in_map_iff in He' as ([k v] & <- & Hkv). exists k, v. split; [reflexivity|]. eapply SayOwn; eauto.
          + intros a' k v E Hkv. injection E as <-. apply in_map_iff. now exists (k, v).
        - assert (Hk : key <> lit "@") by (intros ->; now rewrite str_eqb_refl in Ek). right. destruct (metadata key) eqn:Em.
          + left. split; [exact Hk|]. split; [|now injection He as _ <-]. intros n s (_ & Hno & _). apply Hno. unfold metadata in Em. apply existsb_exists in Em as (c & Hc & E). apply N.eqb_eq in E. now subst c.
          + destruct (find_kid (local_name key) cs) as [[n s]|] eqn:Ef.
            * right. split; [exact Hk|]. pose proof (find_spelt _ _ _ _ Ef) as Hsp. exists n, s.
              assert (Hv : valued cs ms key n s j) by (split; [exact Hin|]; split; [now apply metadata_in|exact Hsp]). split; [exact Hv|].
              rewrite Forall_forall in IH. destruct (IH _ Hin) as [Hj Hes]. cbn [snd] in Hj, Hes.
              destruct j as [| | | | |[|e0 es0]|ms'].
              8:{ eapply obj_marks; eauto. }
              7:{ destruct s as [| | |i keys od cs'].
                  4:{ eapply arr_marks; eauto; try discriminate. }
                  all: eapply set_marks; eauto; try discriminate; intros es E; injection E as <-; split; intros; discriminate. }
              6:{ unfold note_kid in He. injection He as _ <-. split; [intros e []|]. split; [|constructor]. intros r k v Hsay. exfalso.
                  destruct (says_kid cs ms Ht _ _ _ _ Hv _ _ _ Hsay) as [(_ & _ & Hb)|[(ms1 & E & _)|(i1 & keys1 & od1 & cs1 & es1 & e & key' & r' & _ & E' & Hi & _)]].
                  - destruct (Hb [] eq_refl) as [G _]. congruence.
                  - discriminate.
                  - injection E' as <-. destruct Hi. }
              all: eapply set_marks; eauto; try discriminate; intros es E; discriminate.
            * left. split; [exact Hk|]. split.
              { intros n s (_ & _ & Hsp). unfold find_kid in Ef. destruct Hsp as [Hnth Hpy]. change (after_colon key) with (local_name key) in Hpy.
                destruct (kid_index (safe_name (local_name key)) cs) as [n'|] eqn:Ei.
                - destruct (kid_index_some _ _ _ Ei) as (s' & Hs' & _). rewrite Hs' in Ef. discriminate.
                - pose proof (kid_index_nth cs (proj1 (Hn [] _ _ _ eq_refl)) n s Hnth) as G. rewrite Hpy in G. congruence. }
              { unfold unplaced in He. destruct j as [| | | | |[]|]; try (now injection He as _ <-); try discriminate; destruct skip; try discriminate; now injection He as _ <-. } }
    eapply forall2_in; [exact H|exact G]. }
    split; [|split].
    + intros x Hx. destruct (segs_in _ _ _ _ HQ Hx) as (kj & seg & _ & (_ & [(_ & Q1 & _)|[(_ & _ & ->)|(_ & n & s & _ & Q1 & _)]]) & Hxs); [| |].
      * destruct (Q1 x Hxs) as (k & v & -> & Hs). exists []. split; [now rewrite app_nil_r|exact Hs].
      * destruct Hxs.
      * specialize (Q1 x Hxs). destruct x as [q k v|q|q]; destruct Q1 as (r & Q1); [exists (Kid n :: r)|exists n, r|exists n, r]; exact Q1.
    + intros r k v Hsay. assert (Hcase : (r = [] /\ exists a, In (lit "@", JObj a) ms /\ In (k, v) a) \/ exists key n s j r', r = Kid n :: r' /\ valued cs ms key n s j).
      { inversion Hsay; subst; [left; eauto|right..]; do 5 eexists; (split; [reflexivity|eassumption]). }
      destruct Hcase as [(-> & a & Ha & Hkv)|(key & n & s & j & r' & -> & Hv)].
      * destruct (segs_of _ _ _ _ HQ Ha) as (seg & (_ & [(_ & _ & Q2)|[(E & _)|(E & _)]]) & Hincl); [|now contradiction E..].
        apply Hincl. rewrite app_nil_r. now apply (Q2 a).
      * pose proof Hv as (Hin & Hno & _). destruct (segs_of _ _ _ _ HQ Hin) as (seg & (_ & [(E & _)|[(_ & E & _)|(_ & n' & s' & Hv' & _ & Q2 & _)]]) & Hincl).
        -- exfalso. cbn in E. subst key. apply Hno. now left.
        -- exfalso. eapply E; eauto.
        -- apply Hincl. assert (n' = n) as ->; [|now apply Q2]. cbn [fst] in Hv'. destruct Hv as (_ & _ & Hn1 & Hp1), Hv' as (_ & _ & Hn2 & Hp2).
           pose proof (proj1 (Hn [] _ _ _ eq_refl)) as Hnd'. pose proof (kid_index_nth cs Hnd' _ _ Hn1) as G1. pose proof (kid_index_nth cs Hnd' _ _ Hn2) as G2. congruence.
    + eapply (pairs_concat (fun a b => fst a <> fst b) Q); [exact HQ| | |].
      * clear -Hnd. induction ms as [|a l IH]; constructor; inversion Hnd as [|? ? Hx Hl]; subst; [|now apply IH].
        apply Forall_forall. intros b Hb E. apply Hx. rewrite E. now apply in_map.
      * intros kj seg _ (_ & [(_ & Q1 & _)|[(_ & _ & ->)|(_ & n & s & _ & _ & _ & Q3)]]); [|constructor|exact Q3].
        apply only_noted. intros e He. destruct (Q1 e He) as (k & v & -> & _). eauto.
      * intros kj seg kj' seg' _ _ Hd (_ & Qa) (_ & Qb) x y Hx Hy. destruct y as [|q'|]; [now destruct x| |now destruct x]. destruct x as [q k v| |]; try exact I.
        assert (Hy' : exists n s r, q' = p ++ Kid n :: r /\ valued cs ms (fst kj') n s (snd kj')).
        { destruct Qb as [(_ & Q1 & _)|[(_ & _ & ->)|(_ & n & s & Hv & Q1 & _)]]; [destruct (Q1 _ Hy) as (k' & v' & E & _); discriminate|destruct Hy|].
          destruct (Q1 _ Hy) as (r & E). exists n, s, r. auto. }
        destruct Hy' as (n & s & r & -> & Hv). destruct Qa as [(_ & Q1 & _)|[(_ & _ & ->)|(_ & n' & s' & Hv' & Q1 & _)]]; [|destruct Hx|].
        -- destruct (Q1 _ Hx) as (k' & v' & E & _). injection E as -> _ _. right. exists (Kid n), r. reflexivity.
        -- destruct (Q1 _ Hx) as (r' & -> & _). left. apply apart_kids. intros <-. apply Hd. symmetry. eapply Huniq; eauto.
Qed.

(** Different nodes that are annotated are different nodes. *)
Lemma said_apart cs d p k v : says O cs d p k v -> tidy O cs d -> forall p' k' v', says O cs d p' k' v' ->
  p = p' \/ apart p' p \/ below p p' \/ below p' p.
Proof.
  assert (Hdeep : forall a (p p' : list pstep), p = p' \/ apart p' p \/ below p p' \/ below p' p ->
    a :: p = a :: p' \/ apart (a :: p') (a :: p) \/ below (a :: p) (a :: p') \/ below (a :: p') (a :: p)).
  { intros a p0 p' [->|[H|[(s & r & ->)|(s & r & ->)]]]; [now left|right; left; now right|right; right; left; now exists s, r|right; right; right; now exists s, r]. }
  assert (Hkid : forall cs ms p k v, says O cs (JObj ms) p k v -> p = [] \/ exists n r key s j, p = Kid n :: r /\ valued cs ms key n s j).
  { intros cs0 ms p0 k0 v0 H. inversion H; subst; [now left|right..]; do 5 eexists; (split; [reflexivity|eassumption]). }
  assert (Hup : forall (p : list pstep), p = [] \/ below [] p) by (intros [|a p0]; [now left|right; exists a, p0; reflexivity]).
  induction 1 as [cs ms a k v Ha Hk|cs ms key n s j k v Hv Hno Hb|cs ms key n s ms' p k v Hv Hs IH
    |cs ms key n i keys od cs' es e key' k v Hv Hin Hek Hb|cs ms key n i keys od cs' es e key' p k v Hv Hin Hek Hs IH]; intros Ht p' k' v' H'.
  - destruct (Hup p') as [->|H]; auto.
  - destruct (Hkid _ _ _ _ _ H') as [->|(n' & r & key1 & s1 & j1 & -> & Hv1)]; [right; right; right; exists (Kid n), []; reflexivity|].
    destruct (Nat.eq_dec n' n) as [->|Hne]; [|right; left; now apply (apart_kids [])].
    apply Hdeep. destruct (Hup r) as [->|G]; auto.
  - destruct (Hkid _ _ _ _ _ H') as [->|(n' & r & key1 & s1 & j1 & -> & Hv1)]; [right; right; right; exists (Kid n), p; reflexivity|].
    destruct (Nat.eq_dec n' n) as [->|Hne]; [|right; left; now apply (apart_kids [])]. apply Hdeep.
    destruct (tidy_obj _ _ Ht) as (_ & _ & Hto & _).
    apply (says_kid cs ms Ht _ _ _ _ Hv) in H' as [(-> & _)|[(ms1 & E & Hr)|(? & ? & ? & ? & ? & ? & ? & ? & _ & E & _)]]; [| |discriminate].
    + destruct (Hup p) as [->|G]; auto.
    + injection E as <-. eapply IH; eauto.
  - destruct (Hkid _ _ _ _ _ H') as [->|(n' & r & key1 & s1 & j1 & -> & Hv1)]; [right; right; right; exists (Kid n), [Ent key']; reflexivity|].
    destruct (Nat.eq_dec n' n) as [->|Hne]; [|right; left; now apply (apart_kids [])].
    destruct (tidy_obj _ _ Ht) as (_ & _ & _ & Htl). destruct (Htl _ _ _ _ _ _ _ Hv) as (_ & Hone & _ & Hdis).
    apply (says_kid cs ms Ht _ _ _ _ Hv) in H' as [(-> & _ & Hb')|[(ms1 & E & Hr)|(i1 & keys1 & od1 & cs1 & es1 & e1 & key2 & r' & E1 & E2 & Hin1 & Hek1 & -> & _)]]; [|discriminate|].
    + exfalso. destruct (Hb' _ eq_refl) as [_ G]. eapply G; reflexivity.
    + injection E1 as <- <- <- <-. injection E2 as <-. destruct (ForallOrdPairs_In Hdis e e1 Hin Hin1) as [->|[G|G]].
      * rewrite (Hone _ _ _ Hin1 Hek Hek1). apply Hdeep, Hdeep. destruct (Hup r') as [->|G]; auto.
      * right. left. apply (apart_ents []). apply (G _ _ Hek Hek1).
      * right. left. apply (apart_ents []). apply (G _ _ Hek1 Hek).
  - destruct (Hkid _ _ _ _ _ H') as [->|(n' & r & key1 & s1 & j1 & -> & Hv1)]; [right; right; right; exists (Kid n), (Ent key' :: p); reflexivity|].
    destruct (Nat.eq_dec n' n) as [->|Hne]; [|right; left; now apply (apart_kids [])].
    destruct (tidy_obj _ _ Ht) as (_ & _ & _ & Htl). destruct (Htl _ _ _ _ _ _ _ Hv) as (_ & Hone & Hti & Hdis).
    apply (says_kid cs ms Ht _ _ _ _ Hv) in H' as [(-> & _ & Hb')|[(ms1 & E & Hr)|(i1 & keys1 & od1 & cs1 & es1 & e1 & key2 & r' & E1 & E2 & Hin1 & Hek1 & -> & Hor)]]; [|discriminate|].
    + exfalso. destruct (Hb' _ eq_refl) as [_ G]. eapply G; reflexivity.
    + injection E1 as <- <- <- <-. injection E2 as <-. destruct (ForallOrdPairs_In Hdis e e1 Hin Hin1) as [->|[G|G]].
      * rewrite (Hone _ _ _ Hin1 Hek Hek1). apply Hdeep, Hdeep. destruct Hor as [[-> _]|Hor]; [destruct (Hup p) as [->|G]; auto|]. eapply IH; eauto.
      * right. left. apply (apart_ents []). apply (G _ _ Hek Hek1).
      * right. left. apply (apart_ents []). apply (G _ _ Hek1 Hek).
Qed.

(** What is annotated in the end is what the document says. *)
Theorem annotations skip d m m' l : choice_free top -> python_names top -> tidy O top d -> consistent O top d ->
  note_ietf_json O uid top false skip d m = (m', l, Ok tt) -> forall p k v, annotated top l p k v <-> says O top d p k v.
Proof.
  intros Hcf Hn Ht Hco H p k v. unfold note_ietf_json in H. destruct (all_marked d) as [G _]. destruct (G _ _ _ _ _ _ _ Ht Hn H) as (M1 & M2 & M3).
  assert (Hri : forall q r, ~ rival top q r). { intros q r (s & c & k' & t & st & k0 & _ & _ & Hs & Hg & _). rewrite (Hcf _ _ Hs) in Hg. discriminate. }
  split.
  - intros (l1 & l2 & -> & _). destruct (M1 (Noted p k v)) as (r & -> & Hr); [apply in_or_app; right; now left|exact Hr].
  - intros Hs. pose proof (M2 _ _ _ Hs) as Hin. cbn [app] in Hin. apply in_split in Hin as (l1 & l2 & E). exists l1, l2. split; [exact E|].
    apply Forall_forall. intros e He. split.
    + destruct e as [q k' v'|q|q]; [exact I| |intros r _; apply Hri]. split; [|intros r _; apply Hri].
      clear -M3 E He. subst l. induction l1 as [|a l1 IH]; cbn in M3; inversion M3 as [|? ? Hf Hr]; subst; [|now apply IH].
      rewrite Forall_forall in Hf. exact (Hf _ He).
    + destruct e as [q k' v'| |]; try exact I. intros ->. destruct (M1 (Noted q k v')) as (r & -> & Hr); [rewrite E; apply in_or_app; right; now right|]. cbn [app].
      destruct (said_apart _ _ _ _ _ Hs Ht _ _ _ Hr) as [->|[G0|[G0|G0]]]; auto. right. right. right. exact (Hco _ _ _ _ Hr Hs).
Qed.
End M.

(* ------------------------------------------------------------------ for the cases *)
Lemma valued_find cs ms key n s j : NoDup (map (fun s => e_py (s_info s)) cs) -> valued cs ms key n s j ->
  In (key, j) ms /\ metadata key = false /\ find_kid (after_colon key) cs = Some (n, s).
Proof.
  intros Hnd (Hin & Hno & Hn & Hpy). split; [exact Hin|]. split.
  - apply Bool.not_true_iff_false. intros E. apply Hno. unfold metadata in E. apply existsb_exists in E as (c & Hc & E). apply N.eqb_eq in E. now subst c.
  - unfold find_kid. rewrite <- Hpy, (kid_index_nth cs Hnd n s Hn), Hn. reflexivity.
Qed.
(** The marks of a run show whether a document is consistent. *)
Lemma consistent_by O uid top skip d m m' l : python_names top -> tidy O top d -> note_ietf_json O uid top false skip d m = (m', l, Ok tt) ->
  (forall p k v v', In (Noted p k v) l -> In (Noted p k v') l -> v = v') -> consistent O top d.
Proof.
  intros Hn Ht H Hl p k v v' H1 H2. unfold note_ietf_json in H. destruct (all_marked O uid top d) as [G _]. destruct (G _ _ _ _ _ _ _ Ht Hn H) as (_ & M2 & _).
  exact (Hl _ _ _ _ (M2 _ _ _ H1) (M2 _ _ _ H2)).
Qed.
Lemma entry_text O cs k s n e key : nth_error cs n = Some s -> NoDup (map (fun s => e_py (s_info s)) cs) -> e_py (s_info s) = k -> entry_key O cs [k] e key ->
  exists ms j, e = JObj ms /\ In (e_yang (s_info s), j) ms /\ key = jval j.
Proof.
  intros Hn Hnd Hk (_ & kd & (ms & -> & H) & Hkey). inversion H as [|? [n0 v] ? kd' (E & n' & s' & j & Hn' & Hk' & Hin & Hv) H']; subst. inversion H'; subst. cbn in *. subst.
  assert (n' = n) as ->. { pose proof (kid_index_nth cs Hnd _ _ Hn) as G1. pose proof (kid_index_nth cs Hnd _ _ Hn') as G2. rewrite Hk' in G2. congruence. }
  rewrite Hn in Hn'. injection Hn' as <-. eauto.
Qed.
