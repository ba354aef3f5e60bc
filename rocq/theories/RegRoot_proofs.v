(** The root object of the path helper, and get_list. *)
From Coq Require Import Lia.
From Verif Require Import PyStr PyStr_facts PyVal SafeName PathHelper Spec_Path RegTree RegRef RegRoot Spec_RegTree Spec_RegRoot PathHelper_proofs PathInv_proofs PathSim_proofs RegTree_proofs.

(* ------------------------------------------------------------------ identities *)
Lemma below_all s : forall x, nodes s x = match s, x with
  | RCont _ cs, TCont id kids => (id, (cs, kids)) :: all_nodes cs kids
  | RList _ _ cs, TList es => flat_map (fun e => (fst (snd e), (cs, snd (snd e))) :: all_nodes cs (snd (snd e))) es
  | _, _ => []
  end.
Proof.
  assert (E : forall cs kids, (fix below cs kids := match cs, kids with s' :: cs', x' :: kids' => nodes s' x' ++ below cs' kids' | _, _ => [] end) cs kids = all_nodes cs kids).
  { reflexivity. }
  intros x. destruct s as [| |n cs|n keys cs], x as [| |id kids|es]; try reflexivity.
Qed.
Definition ids (s : rschema) (x : robj) : list nat := map fst (nodes s x).
Definition all_ids (cs : list rschema) (kids : list robj) : list nat := map fst (all_nodes cs kids).
Definition entry_ids (cs : list rschema) (e : list str * (nat * list robj)) : list nat := fst (snd e) :: all_ids cs (snd (snd e)).
Lemma all_ids_cons s cs x kids : all_ids (s :: cs) (x :: kids) = ids s x ++ all_ids cs kids.
Proof. unfold all_ids, ids. cbn [all_nodes]. apply map_app. Qed.
Lemma ids_cont n cs id kids : ids (RCont n cs) (TCont id kids) = id :: all_ids cs kids.
Proof. unfold ids. now rewrite below_all. Qed.
Lemma ids_list n keys cs es : ids (RList n keys cs) (TList es) = flat_map (entry_ids cs) es.
Proof. unfold ids. rewrite below_all. induction es as [|e es IH]; [reflexivity|]. cbn [flat_map]. rewrite map_app, IH. reflexivity. Qed.

(** Different, and all of them drawn between [lo] and [hi]. *)
Definition drawn (lo hi : nat) (l : list nat) : Prop := NoDup l /\ forall i, In i l -> lo <= i < hi.
(** Different, and all of them old or drawn since. *)
Definition since (old : list nat) (lo hi : nat) (l : list nat) : Prop := NoDup l /\ forall i, In i l -> In i old \/ lo <= i < hi.
Lemma drawn_app lo mid hi l m : lo <= mid <= hi -> drawn lo mid l -> drawn mid hi m -> drawn lo hi (l ++ m).
Proof.
  intros H [L1 L2] [M1 M2]. split.
  - induction l as [|a l IH]; [assumption|]. cbn [app]. inversion L1 as [|? ? La Ll]; subst. constructor.
    + intros Hi. apply in_app_or in Hi as [Hi|Hi]; [contradiction|]. specialize (L2 a ltac:(now left)). specialize (M2 a Hi). lia.
    + apply IH; [assumption|]. intros i Hi. apply L2. now right.
  - intros i Hi. apply in_app_or in Hi as [Hi|Hi]; [specialize (L2 i Hi)|specialize (M2 i Hi)]; lia.
Qed.
Lemma drawn_wider lo hi lo' hi' l : lo' <= lo -> hi <= hi' -> drawn lo hi l -> drawn lo' hi' l.
Proof. intros H1 H2 [L1 L2]. split; [assumption|]. intros i Hi. specialize (L2 i Hi). lia. Qed.
Lemma nodup_app {A} (l m : list A) : NoDup (l ++ m) <-> NoDup l /\ NoDup m /\ forall a, In a l -> ~ In a m.
Proof.
  induction l as [|a l IH]; cbn [app].
  - split; [intros H; split; [constructor|]; split; [assumption|intros ? []]|tauto].
  - split.
    + intros H. inversion H as [|? ? Hn Hd]; subst. apply IH in Hd as (D1 & D2 & D3). split; [constructor; [intros Hi; apply Hn, in_or_app; now left|assumption]|]. split; [assumption|]. intros b [<-|Hb]; [intros Hi; apply Hn, in_or_app; now right|now apply D3].
    + intros (H1 & H2 & H3). inversion H1 as [|? ? Hn Hd]; subst. constructor.
      * intros Hi. apply in_app_or in Hi as [Hi|Hi]; [contradiction|]. apply (H3 a); [now left|assumption].
      * apply IH. split; [assumption|]. split; [assumption|]. intros b Hb. apply H3. now right.
Qed.
(** A child is replaced. *)
Lemma set_ids cs : forall kids i s x y lo hi, nth_error cs i = Some s -> nth_error kids i = Some x -> NoDup (all_ids cs kids) -> (forall j, In j (all_ids cs kids) -> j < lo) ->
  since (ids s x) lo hi (ids s y) -> since (all_ids cs kids) lo hi (all_ids cs (set_nth i y kids)).
Proof.
  induction cs as [|s0 cs IH]; intros [|x0 kids] [|i] s x y lo hi Hs Hx Hd Hlt [Y1 Y2]; try discriminate; cbn [nth_error set_nth] in *; rewrite !all_ids_cons in *; apply nodup_app in Hd as (D1 & D2 & D3).
  - injection Hs as ->. injection Hx as ->. split.
    + apply nodup_app. split; [assumption|]. split; [assumption|]. intros a Ha Hb. destruct (Y2 a Ha) as [H|H]; [now apply (D3 a)|]. specialize (Hlt a ltac:(apply in_or_app; now right)). lia.
    + intros a Ha. apply in_app_or in Ha as [Ha|Ha]; [destruct (Y2 a Ha) as [H|H]; [left; apply in_or_app; now left|now right]|left; apply in_or_app; now right].
  - destruct (IH kids i s x y lo hi Hs Hx D2 ltac:(intros j Hj; apply Hlt, in_or_app; now right) (conj Y1 Y2)) as [R1 R2]. split.
    + apply nodup_app. split; [assumption|]. split; [assumption|]. intros a Ha Hb. destruct (R2 a Hb) as [H|H]; [now apply (D3 a)|]. specialize (Hlt a ltac:(apply in_or_app; now left)). lia.
    + intros a Ha. apply in_app_or in Ha as [Ha|Ha]; [left; apply in_or_app; now left|]. destruct (R2 a Ha) as [H|H]; [left; apply in_or_app; now right|now right].
Qed.
Lemma set_ids_out {A} : forall (kids : list A) i y, nth_error kids i = None -> set_nth i y kids = kids.
Proof. intros kids. induction kids as [|x kids IH]; intros [|i] y H; try reflexivity; try discriminate. cbn [set_nth]. f_equal. now apply (IH i). Qed.
(** An entry is replaced or added. *)
Lemma put_ids cs ks e es lo hi : NoDup (flat_map (entry_ids cs) es) -> (forall j, In j (flat_map (entry_ids cs) es) -> j < lo) ->
  since (match entry ks es with Some e0 => entry_ids cs (ks, e0) | None => [] end) lo hi (entry_ids cs (ks, e)) ->
  since (flat_map (entry_ids cs) es) lo hi (flat_map (entry_ids cs) (put_entry ks e es)).
Proof.
  induction es as [|[k y] es IH]; intros Hd Hlt [Y1 Y2]; cbn [put_entry flat_map entry] in *.
  - rewrite app_nil_r. split; [assumption|]. intros i Hi. destruct (Y2 i Hi) as [[]|H]. now right.
  - apply nodup_app in Hd as (D1 & D2 & D3). destruct (texts_eqb k ks) eqn:Ek.
    + assert (Ee : forall z, entry_ids cs (k, z) = entry_ids cs (ks, z)) by reflexivity. cbn [flat_map]. rewrite (Ee e), (Ee y) in *. split.
      * apply nodup_app. split; [assumption|]. split; [assumption|]. intros a Ha Hb. destruct (Y2 a Ha) as [H|H]; [now apply (D3 a)|]. specialize (Hlt a ltac:(apply in_or_app; now right)). lia.
      * intros a Ha. apply in_app_or in Ha as [Ha|Ha]; [destruct (Y2 a Ha) as [H|H]; [left; apply in_or_app; now left|now right]|left; apply in_or_app; now right].
    + cbn [flat_map]. destruct (IH D2 ltac:(intros j Hj; apply Hlt, in_or_app; now right) (conj Y1 Y2)) as [R1 R2]. split.
      * apply nodup_app. split; [assumption|]. split; [assumption|]. intros a Ha Hb. destruct (R2 a Hb) as [H|H]; [now apply (D3 a)|]. specialize (Hlt a ltac:(apply in_or_app; now left)). lia.
      * intros a Ha. apply in_app_or in Ha as [Ha|Ha]; [left; apply in_or_app; now left|]. destruct (R2 a Ha) as [H|H]; [left; apply in_or_app; now right|now right].
Qed.
Lemma del_ids cs ks es lo hi : NoDup (flat_map (entry_ids cs) es) -> since (flat_map (entry_ids cs) es) lo hi (flat_map (entry_ids cs) (del_entry ks es)).
Proof.
  unfold del_entry. induction es as [|e es IH]; intros Hd; cbn [filter flat_map] in *; [split; [assumption|intros i []]|]. apply nodup_app in Hd as (D1 & D2 & D3). destruct (IH D2) as [R1 R2].
  destruct (negb (texts_eqb (fst e) ks)); cbn [flat_map].
  - split.
    + apply nodup_app. split; [assumption|]. split; [assumption|]. intros a Ha Hb. 
      assert (In a (flat_map (entry_ids cs) es)); [|now apply (D3 a)]. clear - Hb. induction es as [|e' es IH]; [assumption|]. cbn [filter flat_map] in *. apply in_or_app. destruct (negb (texts_eqb (fst e') ks)); [|right; now apply IH]. apply in_app_or in Hb as [Hb|Hb]; [now left|right; now apply IH].
    + intros a Ha. apply in_app_or in Ha as [Ha|Ha]; [left; apply in_or_app; now left|]. destruct (R2 a Ha) as [H|H]; [left; apply in_or_app; now right|now right].
  - split; [assumption|]. intros a Ha. destruct (R2 a Ha) as [H|H]; [left; apply in_or_app; now right|now right].
Qed.

Lemma andthen_run {A B} (m : act A) (k : A -> act B) w : andthen m k w = match m w with (w1, Ok a) => k a w1 | (w1, Raise e) => (w1, Raise e) end.
Proof. unfold andthen. now destruct (m w) as [w1 [a|e]]. Qed.
Section Ids.
Context (uid : nat -> str).
(** What constructions draw. *)
Definition draws {A} (ids_of : A -> list nat) (m : act A) : Prop := forall w, w_next w <= w_next (fst (m w)) /\ forall a, snd (m w) = Ok a -> drawn (w_next w) (w_next (fst (m w))) (ids_of a).
Lemma reg_next path o w : w_next (fst (reg uid path o w)) = w_next w.
Proof. unfold reg. now destruct (register _ _ _ _ _). Qed.
Lemma drawn_nil lo hi : drawn lo hi [].
Proof. split; [constructor|intros i []]. Qed.
Lemma mapA_cons {A B} (f : A -> act B) a l : mapA f (a :: l) = andthen (f a) (fun b => andthen (mapA f l) (fun bs => ret (b :: bs))).
Proof. reflexivity. Qed.
Lemma mapA_draws path cs : (forall s, In s cs -> draws (ids s) (build uid path s)) -> draws (all_ids cs) (mapA (build uid path) cs).
Proof.
  induction cs as [|s cs IH]; intros H w.
  - cbn. split; [lia|]. intros a E. injection E as <-. apply drawn_nil.
  - rewrite mapA_cons. unfold andthen. destruct (H s ltac:(now left) w) as [N1 D1]. destruct (build uid path s w) as [w1 [x|e]]; cbn [fst snd] in *; [|split; [assumption|discriminate]].
    destruct (IH ltac:(intros s' Hs'; apply H; now right) w1) as [N2 D2]. destruct (mapA (build uid path) cs w1) as [w2 [kids|e]]; cbn [fst snd ret] in *; [|split; [lia|discriminate]].
    split; [lia|]. intros a E. injection E as <-. rewrite all_ids_cons. apply (drawn_app _ (w_next w1)); [lia|now apply D1|now apply D2].
Qed.
Lemma build_draws s : forall path, draws (ids s) (build uid path s).
Proof.
  induction s as [n v0|n|n cs IH|n keys cs IH] using rschema_ind'; intros path w; cbn [build].
  - unfold andthen. pose proof (reg_next (path ++ [n]) (PLeaf v0) w) as E. destruct (reg uid (path ++ [n]) (PLeaf v0) w) as [w1 [[]|e]]; cbn [fst snd ret] in *; (split; [lia|]); [|discriminate]. intros a Ea. injection Ea as <-. apply drawn_nil.
  - unfold andthen, new_id, set_members. match goal with |- context [reg uid ?p ?o ?v] => pose proof (reg_next p o v) as E; destruct (reg uid p o v) as [w1 [[]|e]] end; cbn [fst snd ret w_next] in *; (split; [lia|]); [|discriminate]. intros a Ea. injection Ea as <-. apply drawn_nil.
  - rewrite andthen_run. unfold new_id. rewrite andthen_run. match goal with |- context [reg uid ?p ?o ?v] => pose proof (reg_next p o v) as E; destruct (reg uid p o v) as [w1 [[]|e]] end; cbn [fst snd w_next] in *; [|split; [lia|discriminate]].
    unfold andthen. destruct (mapA_draws (path ++ [n]) cs (fun s Hs => IH s Hs _) w1) as [N D]. destruct (mapA (build uid (path ++ [n])) cs w1) as [w2 [kids|e]]; cbn [fst snd ret] in *; (split; [lia|]); [|discriminate].
    intros a Ea. injection Ea as <-. rewrite ids_cont. destruct (D kids eq_refl) as [D1 D2]. split; [constructor; [|assumption]|].
    + intros Hi. specialize (D2 _ Hi). lia.
    + intros i [<-|Hi]; [lia|]. specialize (D2 i Hi). lia.
  - cbn. split; [lia|]. intros a Ea. injection Ea as <-. apply drawn_nil.
Qed.
Lemma mapA_all path cs : draws (all_ids cs) (mapA (build uid path) cs).
Proof. apply mapA_draws. intros s _. apply build_draws. Qed.
(** Changed children are put in place of children just built. *)
Definition keeps (lo : nat) (cs : list rschema) (kids : list robj) (m : act (list robj)) : Prop := forall w, lo <= w_next w -> drawn lo (w_next w) (all_ids cs kids) ->
  w_next w <= w_next (fst (m w)) /\ forall kids', snd (m w) = Ok kids' -> drawn lo (w_next (fst (m w))) (all_ids cs kids').
Lemma drawn_set lo cs kids i s y mid hi : nth_error cs i = Some s -> lo <= mid <= hi -> drawn lo mid (all_ids cs kids) -> drawn mid hi (ids s y) -> drawn lo hi (all_ids cs (set_nth i y kids)).
Proof.
  intros Hs Hm [D1 D2] [Y1 Y2]. destruct (nth_error kids i) as [x|] eqn:Ex.
  - destruct (set_ids cs kids i s x y mid hi Hs Ex D1 ltac:(intros j Hj; specialize (D2 j Hj); lia) (conj Y1 (fun j Hj => or_intror (Y2 j Hj)))) as [R1 R2]. split; [assumption|]. intros j Hj. destruct (R2 j Hj) as [H|H]; [specialize (D2 j H)|]; lia.
  - rewrite (set_ids_out kids i y Ex). apply (drawn_wider lo mid); [lia|lia|now split].
Qed.
Lemma copy_keeps lo path cs : (forall i v s, nth_error cs i = Some s -> draws (ids s) (construct uid path s v)) -> forall ch kids, keeps lo cs kids (copy_into uid path cs ch kids).
Proof.
  intros H. induction ch as [|[i v] ch IH]; intros kids w Hlo Hd; cbn [copy_into].
  - split; [cbn; lia|]. intros k E. injection E as <-. assumption.
  - destruct (nth_error cs i) as [s|] eqn:Es; [|split; [cbn; lia|discriminate]]. unfold andthen. destruct (H i v s Es w) as [N D]. destruct (construct uid path s v w) as [w1 [y|e]]; cbn [fst snd] in *; [|split; [lia|discriminate]].
    destruct (IH (set_nth i y kids) w1 ltac:(lia)) as [N2 D2]; [apply (drawn_set lo cs kids i s y (w_next w)); [assumption|lia|assumption|now apply D]|]. split; [lia|assumption].
Qed.
Lemma construct_draws s : forall v path, draws (ids s) (construct uid path s v).
Proof.
  induction s as [n v0|n|n cs IH|n keys cs IH] using rschema_ind'; intros v path w.
  - destruct v as [[x|e|x e]| | |]; cbn [construct]; try (cbn; split; [lia|discriminate]); unfold andthen;
      (match goal with |- context [reg uid ?p ?o ?v] => pose proof (reg_next p o v) as E; destruct (reg uid p o v) as [w1 [[]|e']] end; cbn [fst snd ret fail] in *; (split; [lia|]); try discriminate).
    intros a Ea. injection Ea as <-. apply drawn_nil.
  - destruct v as [|r| |]; cbn [construct]; try (cbn; split; [lia|discriminate]). unfold andthen, new_id, set_members.
    match goal with |- context [reg uid ?p ?o ?v] => pose proof (reg_next p o v) as E; destruct (reg uid p o v) as [w1 [[]|e]] end; cbn [fst snd w_next] in *; [|split; [lia|discriminate]]. destruct r as [l|e]; cbn; (split; [lia|]); [|discriminate]. intros a Ea. injection Ea as <-. apply drawn_nil.
  - assert (Hcopy : forall lo ch kids, keeps lo cs kids (copy_into uid (path ++ [n]) cs ch kids)). { intros lo. apply copy_keeps. intros i v' s Hi. apply IH. now apply nth_error_In in Hi. }
    assert (Hk : forall r : nat -> list robj -> act robj, (forall id kids w, id < w_next w -> drawn (S id) (w_next w) (all_ids cs kids) -> w_next w <= w_next (fst (r id kids w)) /\ forall a, snd (r id kids w) = Ok a -> exists kids', a = TCont id kids' /\ drawn (S id) (w_next (fst (r id kids w))) (all_ids cs kids')) ->
      draws (ids (RCont n cs)) (andthen new_id (fun id => andthen (reg uid (path ++ [n]) (PNode id)) (fun _ => andthen (mapA (build uid (path ++ [n])) cs) (r id))))).
    { intros r Hr w0. rewrite andthen_run. unfold new_id. rewrite andthen_run. match goal with |- context [reg uid ?p ?o ?v] => pose proof (reg_next p o v) as E; destruct (reg uid p o v) as [w1 [[]|e]] end; cbn [fst snd w_next] in *; [|split; [lia|discriminate]].
      unfold andthen. destruct (mapA_all (path ++ [n]) cs w1) as [N D]. destruct (mapA (build uid (path ++ [n])) cs w1) as [w2 [kids|e]]; cbn [fst snd] in *; [|split; [lia|discriminate]].
      destruct (Hr (w_next w0) kids w2 ltac:(lia) (drawn_wider (w_next w1) (w_next w2) (S (w_next w0)) (w_next w2) _ ltac:(lia) (le_n _) (D kids eq_refl))) as [N2 D2]. split; [lia|]. intros a Ea. destruct (D2 a Ea) as (kids' & -> & D3 & D4). rewrite ids_cont. split; [constructor; [|assumption]|].
      - intros Hi. specialize (D4 _ Hi). lia.
      - intros i [<-|Hi]; [lia|]. specialize (D4 i Hi). lia. }
    destruct v as [o|l|ch|].
    1,2,4: apply (Hk (fun _ _ => fail ValueError)); intros id kids w' _ _; cbn; split; [lia|discriminate].
    cbn [construct]. apply (Hk (fun id kids => andthen (copy_into uid (path ++ [n]) cs ch kids) (fun kids => ret (TCont id kids)))). intros id kids w' Hid Hd. destruct (Hcopy (S id) ch kids w' ltac:(lia) Hd) as [N D]. unfold andthen. destruct (copy_into uid (path ++ [n]) cs ch kids w') as [w3 [kids'|e]]; cbn [fst snd ret] in *; (split; [lia|]); [|discriminate].
    intros a Ea. injection Ea as <-. exists kids'. split; [reflexivity|]. now apply D.
  - assert (E : construct uid path (RList n keys cs) v = ret (TList [])) by (now destruct v as [[]| | |]). rewrite E. cbn. split; [lia|]. intros a Ea. injection Ea as <-. apply drawn_nil.
Qed.
Lemma keys_keeps lo path cs : forall keys ko kids, keeps lo cs kids (set_keys uid path cs keys ko kids).
Proof.
  induction keys as [|k keys IH]; intros [|o ko] kids w Hlo Hd; cbn [set_keys]; try (split; [cbn; lia|]; intros k' E; injection E as <-; assumption).
  destruct (index_of k cs) as [i|]; [|split; [cbn; lia|discriminate]]. destruct (nth_error cs i) as [s|] eqn:Es; [|split; [cbn; lia|discriminate]].
  unfold andthen. destruct (construct_draws s (VLeaf o) path w) as [N D]. destruct (construct uid path s (VLeaf o) w) as [w1 [y|e]]; cbn [fst snd] in *; [|split; [lia|discriminate]].
  destruct (IH ko (set_nth i y kids) w1 ltac:(lia)) as [N2 D2]; [apply (drawn_set lo cs kids i s y (w_next w)); [assumption|lia|assumption|now apply D]|]. split; [lia|assumption].
Qed.
Definition made_ids (cs : list rschema) (e : nat * list robj) : list nat := fst e :: all_ids cs (snd e).
Lemma made_draws lo hi cs id kids : lo <= id -> id < hi -> drawn (S id) hi (all_ids cs kids) -> drawn lo hi (made_ids cs (id, kids)).
Proof.
  intros H1 H2 [D1 D2]. unfold made_ids. cbn [fst snd]. split; [constructor; [|assumption]|].
  - intros Hi. specialize (D2 _ Hi). lia.
  - intros i [<-|Hi]; [lia|]. specialize (D2 i Hi). lia.
Qed.
Lemma entry_draws path n keys cs ks ko arg : draws (made_ids cs) (make_entry uid path n keys cs ks ko arg).
Proof.
  intros w. unfold make_entry. cbv zeta. set (ep := path ++ [n ++ key_part keys ks]). rewrite andthen_run. unfold new_id. rewrite andthen_run. match goal with |- context [reg uid ?p ?o ?v] => pose proof (reg_next p o v) as E; destruct (reg uid p o v) as [w1 [[]|e]] end; cbn [fst snd w_next] in *; [|split; [lia|discriminate]].
  rewrite andthen_run. destruct (mapA_all ep cs w1) as [N D]. destruct (mapA (build uid ep) cs w1) as [w2 [kids|e]]; cbn [fst snd] in *; [|split; [lia|discriminate]]. specialize (D kids eq_refl).
  assert (Hcopy : forall ch kids, keeps (w_next w1) cs kids (copy_into uid ep cs ch kids)). { apply copy_keeps. intros i v' s Hi. apply construct_draws. }
  assert (Hs : forall w3 kids3, w_next w2 <= w_next w3 -> drawn (w_next w1) (w_next w3) (all_ids cs kids3) -> 
    let m := andthen (set_keys uid ep cs keys ko kids3) (fun kids => ret (w_next w, kids)) w3 in w_next w <= w_next (fst m) /\ forall a, snd m = Ok a -> drawn (w_next w) (w_next (fst m)) (made_ids cs a)).
  { intros w3 kids3 N3 D3. cbv zeta. unfold andthen. destruct (keys_keeps (w_next w1) ep cs keys ko kids3 w3 ltac:(lia) D3) as [N4 D4]. destruct (set_keys uid ep cs keys ko kids3 w3) as [w4 [kids4|e]]; cbn [fst snd ret] in *; (split; [lia|]); [|discriminate].
    intros a Ea. injection Ea as <-. apply made_draws; [lia|lia|]. apply (drawn_wider (w_next w1) (w_next w4)); [lia|lia|now apply D4]. }
  destruct arg as [[ch|]|]; rewrite andthen_run.
  - destruct (Hcopy ch kids w2 N D) as [N3 D3]. destruct (copy_into uid ep cs ch kids w2) as [w3 [kids3|e]]; cbn [fst snd] in *; [|split; [lia|discriminate]]. apply Hs; [assumption|now apply D3].
  - cbn. split; [lia|discriminate].
  - apply (Hs w2 kids); [lia|assumption].
Qed.
Lemma keyless_draws path n cs : draws (made_ids cs) (make_keyless uid path n cs).
Proof.
  intros w. unfold make_keyless. rewrite andthen_run. unfold new_id. set (w1 := {| w_help := _; w_next := _; w_heap := _; w_root := _; w_gets := _ |}). unfold andthen. destruct (mapA_all (path ++ [n]) cs w1) as [N D]. destruct (mapA (build uid (path ++ [n])) cs w1) as [w2 [kids|e]]; cbn [fst snd ret w_next] in *; (split; [subst w1; cbn in *; lia|]); [|discriminate].
  intros a Ea. injection Ea as <-. apply made_draws; [lia|subst w1; cbn in *; lia|now apply D].
Qed.

(** One operation on a child. *)
Lemma since_refl l lo hi : NoDup l -> since l lo hi l.
Proof. intros H. split; [assumption|]. intros i Hi. now left. Qed.
Lemma since_drawn l lo hi m : drawn lo hi m -> since l lo hi m.
Proof. intros [H1 H2]. split; [assumption|]. intros i Hi. right. now apply H2. Qed.
Lemma apply_ids path s x o w : NoDup (ids s x) -> (forall i, In i (ids s x) -> i < w_next w) ->
  let '(w', y, _) := apply uid path s x o w in w_next w <= w_next w' /\ since (ids s x) (w_next w) (w_next w') (ids s y).
Proof.
  intros Hd Hlt. assert (Same : w_next w <= w_next w /\ since (ids s x) (w_next w) (w_next w) (ids s x)) by (split; [lia|now apply since_refl]).
  assert (Store : forall m : act robj, draws (ids s) m -> let '(w', y, _) := match m w with (w', Ok y) => (w', y, Ok tt) | (w', Raise e) => (w', x, Raise e) end in w_next w <= w_next w' /\ since (ids s x) (w_next w) (w_next w') (ids s y)).
  { intros m Hm. destruct (Hm w) as [N D]. destruct (m w) as [w' [y|e]]; cbn [fst snd] in *; (split; [assumption|]); [apply since_drawn; now apply D|now apply since_refl]. }
  destruct o as [v| |l|ks ko|ks ko arg|ks|ks]; cbn [apply].
  - apply Store. apply construct_draws.
  - apply Store. apply build_draws.
  - destruct x; exact Same.
  - destruct s as [|n|n cs|n keys cs]; try exact Same. destruct x as [| | |es]; try exact Same. destruct (entry ks es) eqn:Ee; [exact Same|]. unfold andthen.
    assert (Hm : draws (made_ids cs) (match keys with [] => make_keyless uid path n cs | _ => make_entry uid path n keys cs ks ko None end)) by (destruct keys; [apply keyless_draws|apply entry_draws]).
    destruct (Hm w) as [N D]. destruct (match keys with [] => make_keyless uid path n cs | _ => make_entry uid path n keys cs ks ko None end w) as [w' [e|e]]; cbn [fst snd ret] in *; (split; [assumption|]); [|now apply since_refl].
    rewrite !ids_list in *. apply put_ids; [assumption|assumption|]. apply since_drawn. exact (D e eq_refl).
  - destruct s as [|n|n cs|n keys cs]; try exact Same. destruct x as [| | |es]; try exact Same. cbv zeta. unfold andthen. set (how := match arg with Some ch => Some (Some ch) | None => _ end).
    assert (Hm : draws (made_ids cs) (match keys with [] => make_keyless uid path n cs | _ => make_entry uid path n keys cs ks ko how end)) by (destruct keys; [apply keyless_draws|apply entry_draws]).
    destruct (Hm w) as [N D]. destruct (match keys with [] => make_keyless uid path n cs | _ => make_entry uid path n keys cs ks ko how end w) as [w' [e|e]]; cbn [fst snd ret] in *; (split; [assumption|]); [|now apply since_refl].
    rewrite !ids_list in *. apply put_ids; [assumption|assumption|]. apply since_drawn. exact (D e eq_refl).
  - destruct s as [|n|n cs|n keys cs]; try exact Same. destruct keys as [|k keys]; destruct x as [| | |es]; try exact Same. destruct (entry ks es); [|exact Same]. destruct (unregister _ _) as [h r]. cbn [w_next]. split; [lia|]. rewrite !ids_list in *. now apply del_ids.
  - destruct s as [|n|n cs|n keys cs]; try exact Same. destruct x as [| | |es]; try exact Same. destruct (entry ks es); [|exact Same]. split; [lia|]. rewrite !ids_list in *. now apply del_ids.
Qed.
Lemma kid_ids cs : forall kids i s x, nth_error cs i = Some s -> nth_error kids i = Some x -> NoDup (all_ids cs kids) -> NoDup (ids s x) /\ incl (ids s x) (all_ids cs kids).
Proof.
  induction cs as [|s0 cs IH]; intros [|x0 kids] [|i] s x Hs Hx Hd; try discriminate; cbn [nth_error] in *; rewrite all_ids_cons in *; apply nodup_app in Hd as (D1 & D2 & D3).
  - injection Hs as ->. injection Hx as ->. split; [assumption|]. intros a Ha. apply in_or_app. now left.
  - destruct (IH kids i s x Hs Hx D2) as [H1 H2]. split; [assumption|]. intros a Ha. apply in_or_app. right. now apply H2.
Qed.
Lemma entry_of_ids cs ks es e : entry ks es = Some e -> NoDup (flat_map (entry_ids cs) es) -> NoDup (made_ids cs e) /\ incl (made_ids cs e) (flat_map (entry_ids cs) es).
Proof.
  induction es as [|[k y] es IH]; cbn [entry flat_map]; [discriminate|]. intros He Hd. apply nodup_app in Hd as (D1 & D2 & D3). destruct (texts_eqb k ks).
  - injection He as ->. split; [exact D1|]. intros a Ha. apply in_or_app. now left.
  - destruct (IH He D2) as [H1 H2]. split; [assumption|]. intros a Ha. apply in_or_app. right. now apply H2.
Qed.
Lemma since_cons id l lo hi m : id < lo -> ~ In id l -> since l lo hi m -> since (id :: l) lo hi (id :: m).
Proof.
  intros H1 H2 [S1 S2]. split; [constructor; [|assumption]|].
  - intros Hi. destruct (S2 id Hi) as [H|H]; [contradiction|lia].
  - intros i [<-|Hi]; [left; now left|]. destruct (S2 i Hi) as [H|H]; [left; now right|now right].
Qed.
Lemma exec_ids o : forall k p, length p <= k -> forall path cs kids w, NoDup (all_ids cs kids) -> (forall i, In i (all_ids cs kids) -> i < w_next w) ->
  let '(w', kids', _) := exec uid path cs kids p o w in w_next w <= w_next w' /\ since (all_ids cs kids) (w_next w) (w_next w') (all_ids cs kids').
Proof.
  induction k as [|k IH]; intros p Hk path cs kids w Hd Hlt; assert (Same : w_next w <= w_next w /\ since (all_ids cs kids) (w_next w) (w_next w) (all_ids cs kids)) by (split; [lia|now apply since_refl]).
  { destruct p; [exact Same|cbn in Hk; lia]. }
  destruct p as [|[i|ks] p']; [exact Same| |exact Same]. cbn [exec]. destruct (nth_error cs i) as [s|] eqn:Es; [|exact Same]. destruct (nth_error kids i) as [x|] eqn:Ex; [|exact Same].
  destruct (kid_ids cs kids i s x Es Ex Hd) as [K1 K2]. assert (K3 : forall j, In j (ids s x) -> j < w_next w) by (intros j Hj; apply Hlt; now apply K2).
  destruct p' as [|[j|ks] p''].
  - pose proof (apply_ids path s x o w K1 K3) as H. destruct (apply uid path s x o w) as [[w' y] r]. destruct H as [N S]. split; [assumption|]. now apply (set_ids cs kids i s x).
  - destruct s as [n v0|n|n cs'|n keys cs']; try exact Same. destruct x as [| |id kids'|]; try exact Same. rewrite ids_cont in K1, K3. inversion K1 as [|? ? Kn Kd]; subst.
    pose proof (IH (Kid j :: p'') ltac:(cbn [length] in *; lia) (path ++ [n]) cs' kids' w Kd ltac:(intros a Ha; apply K3; now right)) as H. 
    destruct (exec uid (path ++ [n]) cs' kids' (Kid j :: p'') o w) as [[w' kids2] r]. destruct H as [N S]. split; [assumption|]. apply (set_ids cs kids i _ _ _ _ _ Es Ex Hd Hlt). rewrite !ids_cont. apply since_cons; [apply K3; now left|assumption|assumption].
  - destruct s as [n v0|n|n cs'|n keys cs']; try exact Same. destruct x as [| | |es]; try exact Same. destruct (entry ks es) as [[id ek]|] eqn:Ee; [|exact Same]. rewrite ids_list in K1, K3. destruct (entry_of_ids cs' ks es (id, ek) Ee K1) as [E1 E2]. unfold made_ids in E1, E2. cbn [fst snd] in E1, E2. inversion E1 as [|? ? En Ed]; subst. cbv zeta.
    pose proof (IH p'' ltac:(cbn [length] in *; lia) (path ++ [match keys with [] => n | _ => n ++ key_part keys ks end]) cs' ek w Ed ltac:(intros a Ha; apply K3, E2; now right)) as H.
    destruct (exec uid (path ++ [match keys with [] => n | _ => n ++ key_part keys ks end]) cs' ek p'' o w) as [[w' ek'] r]. destruct H as [N S]. split; [assumption|]. apply (set_ids cs kids i _ _ _ _ _ Es Ex Hd Hlt). rewrite !ids_list. apply put_ids; [assumption|assumption|]. rewrite Ee.
    apply (since_cons id (all_ids cs' ek)); [apply K3, E2; now left|assumption|assumption].
Qed.
Lemma run_ids cs os : forall w kids, NoDup (all_ids cs kids) -> (forall i, In i (all_ids cs kids) -> i < w_next w) -> NoDup (all_ids cs (snd (run uid cs w kids os))).
Proof.
  induction os as [|[p o] os IH]; intros w kids Hd Hlt; [assumption|]. cbn [run]. pose proof (exec_ids o (length p) p (le_n _) [] cs kids w Hd Hlt) as H. destruct (exec uid [] cs kids p o w) as [[w' kids'] r]. destruct H as [N [S1 S2]].
  apply IH; [assumption|]. intros i Hi. destruct (S2 i Hi) as [H|H]; [specialize (Hlt i H)|]; lia.
Qed.
Theorem session_ids cs os : NoDup (all_ids cs (snd (session uid cs os))).
Proof.
  unfold session, module_new. pose proof (mapA_all [] cs world_new) as [N D]. destruct (mapA (build uid []) cs world_new) as [w [kids|e]]; cbn [fst snd] in *.
  - destruct (D kids eq_refl) as [D1 D2]. apply run_ids; [assumption|]. intros i Hi. specialize (D2 i Hi). lia.
  - assert (E : all_ids cs [] = []) by (now destruct cs). apply run_ids; rewrite E; [constructor|intros i []].
Qed.
End Ids.
