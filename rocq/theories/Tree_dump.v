(** What get() returns, node by node. *)
From Verif Require Import PyStr PyStr_facts PyVal Restricted Spec_Lists TypedList TypedList_proofs YList YList_proofs
  Tree Spec_Tree Tree_proofs Tree_frame Tree_main.
From Coq Require Import Lia.
Import ListNotations.

Section T.
Definition dlook_opt (d : option dump) (p : list dstep) : option dump :=
  match d with Some e => dlook e p | None => None end.

Lemma get_cont f i pr cs ch pres kids :
  get_kid f (SCont i pr cs) (OCont ch pres kids) =
  match f, get_kids f cs kids with
  | true, [] => if pr && pres then Some (DDict []) else None
  | _, d => Some (DDict d)
  end.
Proof.
  cbn [get_kid].
  assert (E : forall cs kids,
    (fix get cs kids := match cs, kids with
                        | s :: cs', x :: kids' =>
                            match get_kid f s x with
                            | Some d => (e_yang (s_info s), d) :: get cs' kids'
                            | None => get cs' kids'
                            end
                        | _, _ => []
                        end) cs kids = get_kids f cs kids).
  { clear. induction cs as [|s cs IH]; intros [|x kids]; cbn; auto. rewrite IH. reflexivity. }
  destruct f; rewrite E; reflexivity.
Qed.

Definition get_entry (f : bool) (cs : list schema) (x : obj) : dump :=
  DDict (match x with OCont _ _ kids => get_kids f cs kids | _ => [] end).
Lemma get_list f i keys od cs ch es :
  get_kid f (SList i keys od cs) (OList ch es) =
  match f, es with
  | true, [] => None
  | _, _ => Some (DList (map (fun e => (fst e, get_entry f cs (snd e))) es))
  end.
Proof.
  cbn [get_kid].
  assert (E : forall cs kids,
    (fix get cs kids := match cs, kids with
                        | s :: cs', x :: kids' =>
                            match get_kid f s x with
                            | Some d => (e_yang (s_info s), d) :: get cs' kids'
                            | None => get cs' kids'
                            end
                        | _, _ => []
                        end) cs kids = get_kids f cs kids).
  { clear. induction cs as [|s cs IH]; intros [|x kids]; cbn; auto. rewrite IH. reflexivity. }
  assert (E2 : forall es, map (fun '(k, x) =>
                  (k, match x with
                      | OCont _ _ kids =>
                          DDict ((fix get cs kids := match cs, kids with
                                    | s :: cs', x :: kids' =>
                                        match get_kid f s x with
                                        | Some d => (e_yang (s_info s), d) :: get cs' kids'
                                        | None => get cs' kids'
                                        end
                                    | _, _ => []
                                    end) cs kids)
                      | _ => DDict []
                      end)) es = map (fun e : pyval * obj => (fst e, get_entry f cs (snd e))) es).
  { intros es0. apply map_ext. intros [k x]. cbn [fst snd]. unfold get_entry. destruct x; rewrite ?E; reflexivity. }
  destruct f; rewrite E2; reflexivity.
Qed.

Lemma str_eqb_neq a b : a <> b -> str_eqb a b = false.
Proof. intros H. destruct (str_eqb a b) eqn:E; auto. apply str_eqb_eq in E. contradiction. Qed.

Lemma assoc_none f cs : forall kids n, ~ In n (map (fun s => e_yang (s_info s)) cs) -> assoc n (get_kids f cs kids) = None.
Proof.
  induction cs as [|s cs IH]; intros [|x kids] n Hn; cbn [get_kids assoc]; auto.
  cbn [map] in Hn. destruct (get_kid f s x); cbn [assoc].
  - rewrite str_eqb_neq by (intros ->; apply Hn; now left). apply IH. intros H; apply Hn; now right.
  - apply IH. intros H; apply Hn; now right.
Qed.

Lemma assoc_kid f cs : NoDup (map (fun s => e_yang (s_info s)) cs) -> forall kids n s x,
  nth_error cs n = Some s -> nth_error kids n = Some x ->
  assoc (e_yang (s_info s)) (get_kids f cs kids) = get_kid f s x.
Proof.
  induction cs as [|c cs IH]; intros Hd kids n s x Hs Hx; [destruct n; discriminate|].
  cbn [map] in Hd. inversion Hd as [|? ? Hn Hd']; subst.
  destruct kids as [|y kids]; [destruct n; discriminate|].
  destruct n as [|n]; cbn in Hs, Hx.
  - injection Hs as ->. injection Hx as ->. cbn [get_kids]. destruct (get_kid f s x) as [d|].
    + cbn [assoc]. now rewrite str_eqb_refl.
    + now apply assoc_none.
  - cbn [get_kids]. assert (Hne : e_yang (s_info s) <> e_yang (s_info c)).
    { intros E. apply Hn. rewrite <- E. change (e_yang (s_info s)) with ((fun s => e_yang (s_info s)) s).
      apply in_map. eapply nth_error_In; eassumption. }
    destruct (get_kid f c y); cbn [assoc]; [rewrite str_eqb_neq by assumption|]; eapply IH; eassumption.
Qed.

Lemma mget_map {A B} (g : A -> B) k (es : list (pyval * A)) :
  mget k (map (fun e => (fst e, g (snd e))) es) = option_map g (mget k es).
Proof. induction es as [|[k' a] es IH]; cbn; auto. destruct (py_eq k k'); auto. Qed.

Lemma distinct_here cs : distinct_names cs -> NoDup (map (fun s => e_yang (s_info s)) cs).
Proof. intros H. exact (H [] plain false cs eq_refl). Qed.
Lemma distinct_cont cs n i pr cs' : distinct_names cs -> nth_error cs n = Some (SCont i pr cs') -> distinct_names cs'.
Proof.
  intros H Hn p i0 pr0 cs0 Hp. destruct p as [|a p].
  - injection Hp as <- <- <-. apply (H [Kid n] i pr). unfold schema_at. cbn [sub entry_schema]. now rewrite Hn.
  - apply (H (Kid n :: a :: p) i0 pr0). rewrite (schema_cont cs n i pr cs') by (auto; discriminate). exact Hp.
Qed.
Lemma distinct_ent cs n i keys od cs' : distinct_names cs -> nth_error cs n = Some (SList i keys od cs') -> distinct_names cs'.
Proof.
  intros H Hn p i0 pr0 cs0 Hp. apply (H (Kid n :: Ent VNone :: p) i0 pr0). now rewrite (schema_ent cs n i keys od cs').
Qed.

(** The dump of the node at a path, entries included. *)
Definition shown (f : bool) (p : list pstep) (t : schema) (y : obj) : option dump :=
  match last p (Kid 0), t with
  | Ent _, SCont _ _ cs => Some (get_entry f cs y)
  | _, _ => get_kid f t y
  end.

Lemma dlook_main f : forall N p cs kids t y dp, (length p <= N)%nat -> p <> [] ->
  shaped cs kids -> distinct_names cs -> schema_at cs p = Some t -> at_path kids p = Some y ->
  named_at cs p = Some dp -> dlook (DDict (get_kids f cs kids)) dp = shown f p t y.
Proof.
  induction N as [|N IH]; intros p cs kids t y dp Hl Hp Hs Hd Ht Hy Hn; [destruct p; [contradiction|cbn in Hl; lia]|].
  destruct p as [|[n|k] p]; [contradiction| |discriminate].
  unfold schema_at in Ht; unfold at_path in Hy; unfold named_at in Hn. cbn [sub node named entry_schema] in Ht, Hy, Hn.
  destruct (nth_error cs n) as [s|] eqn:Es; [|discriminate].
  destruct (nth_error kids n) as [x|] eqn:Ex; [|discriminate].
  destruct (named s p) as [dp'|] eqn:En; [|discriminate]. cbn [option_map] in Hn. injection Hn as <-.
  cbn [dlook]. rewrite (assoc_kid f cs (distinct_here cs Hd) kids n s x Es Ex).
  assert (Hcx : conf s x). { destruct (Forall2_nth _ _ _ _ _ Hs Es) as (z & Hz & Hc). congruence. }
  destruct p as [|[m|k] p].
  - injection Ht as <-. injection Hy as <-. injection En as <-. unfold shown. cbn [last].
    destruct (get_kid f _ _); reflexivity.
  - destruct s as [| |i pr cs'|]; try discriminate. inversion Hcx as [| |? ? ? ch pres kids' Hf|]; subst.
    assert (E : dlook (DDict (get_kids f cs' kids')) dp' = shown f (Kid m :: p) t y).
    { apply (IH (Kid m :: p) cs' kids'); auto; [cbn in *; lia|discriminate|eapply distinct_cont; eauto]. }
    change (shown f (Kid n :: Kid m :: p) t y) with (shown f (Kid m :: p) t y). rewrite <- E.
    assert (Hdp : exists a l, dp' = DName a :: l).
    { cbn [named] in En. destruct (nth_error cs' m) as [u|]; [|discriminate].
      destruct (named u p); [|discriminate]. injection En as <-. eauto. }
    destruct Hdp as (a & l & ->). rewrite get_cont. destruct f; [|reflexivity].
    destruct (get_kids true cs' kids'); [|reflexivity]. destruct (pr && pres); reflexivity.
  - destruct s as [| | |i keys od cs']; try discriminate. inversion Hcx as [| | |? ? ? ? ch es Hf]; subst.
    cbn [sub node named] in Ht, Hy, En. destruct (mget k es) as [z|] eqn:Ez; [|discriminate].
    destruct (named (entry_schema cs') p) as [dp''|] eqn:En'; [|discriminate]. cbn [option_map] in En. injection En as <-.
    rewrite get_list.
    assert (E : (match f, es with true, [] => None | _, _ => Some (DList (map (fun e => (fst e, get_entry f cs' (snd e))) es)) end)
                = Some (DList (map (fun e => (fst e, get_entry f cs' (snd e))) es))).
    { destruct f, es; try reflexivity. discriminate. }
    rewrite E. cbn [dlook]. rewrite mget_map, Ez. cbn [option_map].
    pose proof (mget_conf (conf (entry_schema cs')) k z es Hf Ez) as Hcz.
    inversion Hcz as [| |? ? ? ech epres ekids Hfe|]; subst. unfold get_entry.
    destruct p as [|a p].
    + injection Ht as <-. injection Hy as <-. injection En' as <-. reflexivity.
    + change (shown f (Kid n :: Ent k :: a :: p) t y) with (shown f (a :: p) t y).
      apply (IH (a :: p) cs' ekids); auto; [cbn in *; lia|discriminate|eapply distinct_ent; eauto].
Qed.

Lemma dlook_node f p cs kids t y dp : p <> [] ->
  shaped cs kids -> distinct_names cs -> schema_at cs p = Some t -> at_path kids p = Some y ->
  named_at cs p = Some dp -> dlook (DDict (get_kids f cs kids)) dp = shown f p t y.
Proof. intros. eapply dlook_main; eauto. Qed.

Lemma inhabited_iff l : inhabited (DDict l) <-> l <> [].
Proof.
  split.
  - intros [n H] ->. now apply H.
  - destruct l as [|[n d] l]; [contradiction|]. intros _. exists n. cbn. now rewrite str_eqb_refl.
Qed.

Theorem filtered_main cs kids p t y dp : p <> [] ->
  shaped cs kids -> distinct_names cs -> schema_at cs p = Some t -> at_path kids p = Some y ->
  named_at cs p = Some dp ->
  filtered t y (is_entry p) (dlook (DDict (get_kids true cs kids)) dp).
Proof.
  intros Hp Hs Hd Ht Hy Hn. rewrite (dlook_node true p cs kids t y dp Hp Hs Hd Ht Hy Hn).
  destruct (at_path_conf cs kids p y Hs Hy) as (t' & Ht' & Hc). rewrite Ht in Ht'. injection Ht' as <-.
  unfold shown, is_entry. destruct Hc as [i lt dd yy k ch v|i ts yy ch l|i pr cs0 ch pres kk Hf|i keys od cs0 ch es Hf].
  - destruct (last p (Kid 0)); cbn [get_kid filtered]; destruct ch; reflexivity.
  - destruct (last p (Kid 0)); cbn [get_kid filtered]; destruct l; reflexivity.
  - destruct (last p (Kid 0)) as [n|k]; cbn [filtered].
    + rewrite get_cont. destruct (get_kids true cs0 kk) as [|e l] eqn:E.
      * destruct (pr && pres) eqn:Ep; auto.
      * left. apply inhabited_iff. discriminate.
    + unfold get_entry. right. now left.
  - destruct (last p (Kid 0)) as [n|k]; rewrite get_list; cbn [filtered]; (destruct es as [|e es]; [reflexivity|]);
      (split; [discriminate|]); rewrite map_map; reflexivity.
Qed.

(** Nothing else is in a dump. *)
Lemma assoc_inv f cs : forall kids n d, assoc n (get_kids f cs kids) = Some d ->
  exists j s x, nth_error cs j = Some s /\ nth_error kids j = Some x /\ n = e_yang (s_info s) /\ get_kid f s x = Some d.
Proof.
  induction cs as [|s cs IH]; intros [|x kids] n d H; try discriminate. cbn [get_kids] in H.
  destruct (get_kid f s x) as [e|] eqn:E.
  - cbn [assoc] in H. destruct (str_eqb n (e_yang (s_info s))) eqn:En.
    + injection H as <-. apply str_eqb_eq in En. exists 0%nat, s, x. repeat split; auto.
    + destruct (IH kids n d H) as (j & s' & x' & A). exists (S j), s', x'. exact A.
  - destruct (IH kids n d H) as (j & s' & x' & A). exists (S j), s', x'. exact A.
Qed.

Lemma dlook_inv f : forall N dp cs kids d, (length dp <= N)%nat ->
  shaped cs kids -> dlook (DDict (get_kids f cs kids)) dp = Some d ->
  exists p, named_at cs p = Some dp /\ at_path kids p <> None.
Proof.
  induction N as [|N IH]; intros dp cs kids d Hl Hs H.
  { destruct dp; [|cbn in Hl; lia]. exists []. split; [reflexivity|discriminate]. }
  destruct dp as [|[n|k] dp]; [exists []; split; [reflexivity|discriminate]| |discriminate].
  cbn [dlook] in H. destruct (assoc n (get_kids f cs kids)) as [e|] eqn:E; [|discriminate].
  destruct (assoc_inv f cs kids n e E) as (j & s & x & Hj & Hx & -> & He).
  assert (Hcx : conf s x). { destruct (Forall2_nth _ _ _ _ _ Hs Hj) as (z & Hz & Hc). congruence. }
  assert (Hgo : forall p dp', named s p = Some dp' -> node x p <> None ->
                named_at cs (Kid j :: p) = Some (DName (e_yang (s_info s)) :: dp') /\ at_path kids (Kid j :: p) <> None).
  { intros p dp' H1 H2. unfold named_at, at_path. cbn [named node entry_schema]. rewrite Hj, Hx, H1. split; [reflexivity|exact H2]. }
  destruct dp as [|[m|k] dp].
  - exists [Kid j]. apply Hgo; [reflexivity|discriminate].
  - destruct Hcx as [i lt dd yy k ch v|i ts yy ch l|i pr cs0 ch pres kk Hf|i keys od cs0 ch es Hf].
    + cbn [get_kid] in He. destruct ch; [injection He as <-; discriminate|destruct f; [discriminate|injection He as <-; discriminate]].
    + cbn [get_kid] in He. destruct f, l; try discriminate; injection He as <-; discriminate.
    + assert (Hd : dlook (DDict (get_kids f cs0 kk)) (DName m :: dp) = Some d).
      { rewrite get_cont in He. destruct f; [|injection He as <-; exact H].
        destruct (get_kids true cs0 kk); [|injection He as <-; exact H].
        destruct (pr && pres); [|discriminate]. injection He as <-. exact H. }
      destruct (IH (DName m :: dp) cs0 kk d) as (p & Hp1 & Hp2); auto; [cbn in *; lia|].
      destruct p as [|a p]; [discriminate|].
      exists (Kid j :: a :: p). apply Hgo.
      * unfold named_at in Hp1. exact Hp1.
      * rewrite (at_node ch pres kk) by discriminate. exact Hp2.
    + rewrite get_list in He. destruct f, es; try discriminate; injection He as <-; discriminate.
  - destruct Hcx as [i lt dd yy k' ch v|i ts yy ch l|i pr cs0 ch pres kk Hf|i keys od cs0 ch es Hf].
    + cbn [get_kid] in He. destruct ch; [injection He as <-; discriminate|destruct f; [discriminate|injection He as <-; discriminate]].
    + cbn [get_kid] in He. destruct f, l; try discriminate; injection He as <-; discriminate.
    + rewrite get_cont in He. destruct f; [|injection He as <-; discriminate].
      destruct (get_kids true cs0 kk); [|injection He as <-; discriminate].
      destruct (pr && pres); [|discriminate]. injection He as <-. discriminate.
    + assert (He' : e = DList (map (fun e => (fst e, get_entry f cs0 (snd e))) es)).
      { rewrite get_list in He. destruct f, es; try discriminate; injection He as <-; reflexivity. }
      subst e. cbn [dlook] in H. rewrite mget_map in H. destruct (mget k es) as [z|] eqn:Ez; [|discriminate].
      cbn [option_map] in H. pose proof (mget_conf (conf (entry_schema cs0)) k z es Hf Ez) as Hcz.
      inversion Hcz as [| |? ? ? ech epres ekids Hfe|]; subst. unfold get_entry in H.
      destruct (IH dp cs0 ekids d) as (p & Hp1 & Hp2); auto; [cbn in *; lia|].
      exists (Kid j :: Ent k :: p). apply Hgo.
      * cbn [named]. unfold named_at in Hp1. rewrite Hp1. reflexivity.
      * cbn [node]. rewrite Ez. destruct p as [|a p]; [discriminate|].
        rewrite (at_node ech epres ekids) by discriminate. exact Hp2.
Qed.

Lemma unfiltered_some s x : conf s x -> exists d, get_kid false s x = Some d.
Proof. intros [ ]; [destruct ch| | |]; rewrite ?get_cont, ?get_list; cbn; eauto. Qed.
Lemma unfiltered_names cs kids : shaped cs kids -> map fst (get_kids false cs kids) = map (fun s => e_yang (s_info s)) cs.
Proof.
  induction 1 as [|s x cs kids Hc Hs IH]; [reflexivity|]. cbn [get_kids].
  destruct (unfiltered_some s x Hc) as [d ->]. cbn [map fst]. now rewrite IH.
Qed.

Theorem unfiltered_main cs kids p t y dp : p <> [] ->
  shaped cs kids -> distinct_names cs -> schema_at cs p = Some t -> at_path kids p = Some y ->
  named_at cs p = Some dp ->
  unfiltered t y (dlook (DDict (get_kids false cs kids)) dp).
Proof.
  intros Hp Hs Hd Ht Hy Hn. rewrite (dlook_node false p cs kids t y dp Hp Hs Hd Ht Hy Hn).
  destruct (at_path_conf cs kids p y Hs Hy) as (t' & Ht' & Hc). rewrite Ht in Ht'. injection Ht' as <-.
  unfold shown. destruct Hc as [i lt dd yy k ch v|i ts yy ch l|i pr cs0 ch pres kk Hf|i keys od cs0 ch es Hf].
  - destruct (last p (Kid 0)), ch, dd as [w|]; cbn [get_kid unfiltered]; try reflexivity; destruct (truthy w); reflexivity.
  - destruct (last p (Kid 0)); reflexivity.
  - destruct (last p (Kid 0)) as [n|k]; cbn [unfiltered].
    + rewrite get_cont. eexists. split; [reflexivity|]. now apply unfiltered_names.
    + eexists. split; [reflexivity|]. now apply unfiltered_names.
  - destruct (last p (Kid 0)) as [n|k]; rewrite get_list; cbn [unfiltered]; (eexists; split; [reflexivity|]);
      rewrite map_map; reflexivity.
Qed.
End T.
