(** User ordering: the order of the members of a list's object does not matter. *)
From Coq Require Import Lia Permutation.
From Verif Require Import PyStr PyStr_facts PyVal Restricted Spec_Lists YList SafeName
  Tree Spec_Tree Tree_proofs Tree_dump Serialise Spec_Serialise Load_proofs.
Local Open Scope Z_scope.

Lemma put_order_comm {A} z z' (x x' : A) l : z <> z' ->
  put_order z x (put_order z' x' l) = put_order z' x' (put_order z x l).
Proof.
  intros Hz. induction l as [|[y v] l IH]; cbn.
  - destruct (Z.eqb_spec z z'); [lia|]. destruct (Z.eqb_spec z' z); [lia|].
    destruct (Z.ltb_spec z z'), (Z.ltb_spec z' z); try lia; reflexivity.
  - destruct (Z.eqb_spec z' y) as [E1|E1], (Z.eqb_spec z y) as [E2|E2]; try lia; cbn.
    + subst y. destruct (Z.eqb_spec z z'); [lia|]. destruct (Z.ltb_spec z z'); cbn.
      * destruct (Z.eqb_spec z' z); [lia|]. destruct (Z.ltb_spec z' z); [lia|]. now rewrite Z.eqb_refl.
      * now rewrite Z.eqb_refl.
    + subst y. destruct (Z.eqb_spec z' z); [lia|]. destruct (Z.ltb_spec z' z); cbn.
      * destruct (Z.eqb_spec z z'); [lia|]. destruct (Z.ltb_spec z z'); [lia|]. now rewrite Z.eqb_refl.
      * now rewrite Z.eqb_refl.
    + destruct (Z.ltb_spec z' y), (Z.ltb_spec z y); cbn.
      * destruct (Z.eqb_spec z z'); [lia|]. destruct (Z.eqb_spec z' z); [lia|].
        destruct (Z.ltb_spec z z'), (Z.ltb_spec z' z); try lia; cbn;
          repeat match goal with |- context [?a =? ?b] => destruct (Z.eqb_spec a b); [lia|] end;
          repeat match goal with |- context [?a <? ?b] => destruct (Z.ltb_spec a b); try lia end; reflexivity.
      * destruct (Z.eqb_spec z z'); [lia|]. destruct (Z.ltb_spec z z'); [lia|].
        repeat match goal with |- context [?a =? ?b] => destruct (Z.eqb_spec a b); [lia|] end;
          repeat match goal with |- context [?a <? ?b] => destruct (Z.ltb_spec a b); try lia end; reflexivity.
      * destruct (Z.eqb_spec z' z); [lia|]. destruct (Z.ltb_spec z' z); [lia|].
        repeat match goal with |- context [?a =? ?b] => destruct (Z.eqb_spec a b); [lia|] end;
          repeat match goal with |- context [?a <? ?b] => destruct (Z.ltb_spec a b); try lia end; reflexivity.
      * repeat match goal with |- context [?a =? ?b] => destruct (Z.eqb_spec a b); [lia|] end;
          repeat match goal with |- context [?a <? ?b] => destruct (Z.ltb_spec a b); try lia end. now rewrite IH.
Qed.

Definition placing {A} (es : list (Z * A)) : list (res (option Z) * A) := map (fun p => (Ok (Some (fst p)), snd p)) es.
Lemma in_order_fold {A} (es : list (Z * A)) : forall pl,
  in_order (placing es) pl [] = Ok (map snd (fold_left (fun pl p => put_order (fst p) (snd p) pl) es pl)).
Proof. induction es as [|[z x] es IH]; intros pl; cbn; [now rewrite app_nil_r|]. apply IH. Qed.
Lemma fold_perm {A} (es es' : list (Z * A)) : Permutation es es' -> NoDup (map fst es) -> forall pl,
  fold_left (fun pl p => put_order (fst p) (snd p) pl) es pl = fold_left (fun pl p => put_order (fst p) (snd p) pl) es' pl.
Proof.
  induction 1 as [|x l l' H IH|x y l|l l' l'' H1 IH1 H2 IH2]; intros Hnd pl; cbn.
  - reflexivity.
  - apply IH. now inversion Hnd.
  - inversion Hnd as [|? ? Hx _]; subst. rewrite put_order_comm; [reflexivity|]. cbn in Hx. intros E. apply Hx. now left.
  - rewrite IH1, IH2; auto. eapply Permutation_NoDup; [|exact Hnd]. now apply Permutation_map.
Qed.

(** Acting alike. *)
Definition alike (a b : list obj -> step) : Prop := forall m, a m = b m.
Lemma put_order_alike z a b : alike a b -> forall l l', Forall2 (fun p p' => fst p = fst p' /\ alike (snd p) (snd p')) l l' ->
  Forall2 (fun p p' => fst p = fst p' /\ alike (snd p) (snd p')) (put_order z a l) (put_order z b l').
Proof.
  intros Hab l l' H. induction H as [|[y u] [y' u'] l l' [Hy Hu] Hl IH]; cbn in *.
  - repeat constructor. exact Hab.
  - subst y'. destruct (z =? y); [repeat constructor; auto|]. destruct (z <? y); repeat constructor; auto.
Qed.
Lemma in_order_alike es es' : Forall2 (fun p p' => fst p = fst p' /\ alike (snd p) (snd p')) es es' ->
  forall pl pl' r r', Forall2 (fun p p' => fst p = fst p' /\ alike (snd p) (snd p')) pl pl' -> Forall2 alike r r' ->
  match in_order es pl r, in_order es' pl' r' with
  | Ok l, Ok l' => Forall2 alike l l'
  | Raise e, Raise e' => e = e'
  | _, _ => False
  end.
Proof.
  induction 1 as [|[o a] [o' b] es es' [Ho Hab] Hes IH]; intros pl pl' r r' Hpl Hr; cbn in *.
  - apply Forall2_app; [|assumption]. induction Hpl as [|? ? ? ? [_ H]]; cbn; constructor; auto.
  - subst o'. destruct o as [[z|]|e]; cbn; [|apply IH; auto|reflexivity].
    apply IH; auto. now apply put_order_alike.
Qed.
Lemma acts_alike l l' : Forall2 alike l l' -> forall m, for_each (fun act m => act m) l m = for_each (fun act m => act m) l' m.
Proof.
  induction 1 as [|a b l l' Hab Hl IH]; intros m; cbn; [reflexivity|]. rewrite Hab. destruct (b m) as [m1 [[]|e]]; cbn; auto.
Qed.

Section Sh.
Context (O : oracle) (uid : list (pyval * obj) -> str) (top : list schema) (Hnm : python_names top).

(** Positions are integers and differ. *)
Inductive placed : schema -> json -> Prop :=
| PlLeaf i lt d yt k j : placed (SLeaf i lt d yt k) j
| PlLeafList i ts yt j : placed (SLeafList i ts yt) j
| PlCont i pr cs ms : Forall (fun kj => forall s, In s cs -> e_yang (s_info s) = fst kj -> placed s (snd kj)) ms ->
    placed (SCont i pr cs) (JObj ms)
| PlList i keys od cs es : Forall (fun e => placed (entry_schema cs) (snd e)) es ->
    (od = true -> exists zs, Forall2 (fun e z => order_of (snd e) = Ok (Some z)) es zs /\ NoDup zs) ->
    placed (SList i keys od cs) (JObj es).

Definition same_load (s : schema) : Prop := forall j j', shuffled s j j' -> placed s j -> forall ov skip q m,
  load_kid O uid top ov skip s q j' m = load_kid O uid top ov skip s q j m.

Lemma find_in cs s : named_ok cs -> In s cs -> exists n, find_kid (e_yang (s_info s)) cs = Some (n, s).
Proof. intros Hn Hi. apply In_nth_error in Hi as [n H]. exists n. now apply find_own. Qed.

Lemma obj_same cs i pr : named_ok cs -> Forall same_load cs -> forall j j', shuffled (SCont i pr cs) j j' ->
  placed (SCont i pr cs) j -> forall ov skip strip self p m,
  load O uid top ov skip strip cs self p j' m = load O uid top ov skip strip cs self p j m.
Proof.
  intros Hn HP j j' Hs Hp ov skip strip self p m. inversion Hs as [| ? ? ? ms ms' Hms|]; subst; [reflexivity|].
  inversion Hp as [| |? ? ? ? Hpl|]; subst. rewrite !load_obj. clear Hs Hp. revert m.
  induction Hms as [|kj kj' ms ms' [Hk Hj] Hms IH]; intros m; [reflexivity|].
  inversion Hpl as [|? ? Hp1 Hpl']; subst. cbn [for_each].
  assert (E : load_member O uid top ov skip strip cs p kj' m = load_member O uid top ov skip strip cs p kj m).
  { unfold load_member. rewrite <- Hk. destruct (strip && str_eqb (fst kj) order_key); [reflexivity|].
    destruct Hj as [->|(s & Hi & Hy & Hsh)]; [reflexivity|].
    destruct (find_in cs s Hn Hi) as [n Hf]. rewrite Hy in Hf. rewrite Hf.
    rewrite Forall_forall in HP. apply (HP s Hi); auto. }
  rewrite E. destruct (load_member O uid top ov skip strip cs p kj m) as [m1 [[]|e]]; cbn [andthen]; auto.
Qed.

Lemma order_same cs i pr j j' : named_ok cs -> shuffled (SCont i pr cs) j j' -> order_of j' = order_of j.
Proof.
  intros [_ Hn] H. inversion H as [|? ? ? ms ms' Hms|]; subst; [reflexivity|]. cbn [order_of].
  assert (assoc order_key ms' = assoc order_key ms) as ->; [|reflexivity]. clear H.
  induction Hms as [|[k j] [k' j'] ms ms' [Hk Hj] Hms IH]; [reflexivity|]. cbn [fst snd] in Hk, Hj. subst k'. cbn [assoc].
  destruct (str_eqb order_key k) eqn:E; [|exact IH]. apply str_eqb_eq in E. subst k.
  destruct Hj as [->|(s & Hi & Hy & _)]; [reflexivity|]. rewrite Forall_forall in Hn. destruct (Hn s Hi) as [_ Hne]. congruence.
Qed.

Lemma str_in_perm x l l' : Permutation l l' -> str_in x l = str_in x l'.
Proof.
  unfold str_in. induction 1; cbn; auto; [now f_equal| |congruence].
  rewrite !orb_assoc. f_equal. apply orb_comm.
Qed.
Lemma prune_names q n1 n2 : (forall s, str_in s n1 = str_in s n2) -> forall ks m, prune O top q n1 ks m = prune O top q n2 ks m.
Proof.
  intros H. induction ks as [|k ks IH]; intros m; cbn [prune]; [reflexivity|].
  assert ((match k with VStr s => str_in s n1 | _ => false end) = match k with VStr s => str_in s n2 | _ => false end) as ->.
  { destruct k; auto. }
  destruct (match k with VStr s => _ | _ => _ end); auto.
Qed.

Lemma fst_map2 (R : (str * json) -> (str * json) -> Prop) l l' : Forall2 (fun e e' => fst e = fst e' /\ R e e') l l' -> map fst l' = map fst l.
Proof. induction 1 as [|e e' l l' [H _] Hl IH]; cbn; congruence. Qed.

Lemma same_loads s : forall q0, schema_at top q0 = Some s -> same_load s.
Proof.
  induction s as [i lt d yt k|i ts yt|i pr cs IH|i keys od cs IH] using schema_ind'; intros q0 Hq j j' Hs Hp ov skip q m.
  - inversion Hs; subst. reflexivity.
  - inversion Hs; subst. reflexivity.
  - assert (HP : Forall same_load cs).
    { apply Forall_forall. intros s Hi. apply In_nth_error in Hi as [n Hn]. rewrite Forall_forall in IH.
      apply (IH s (nth_error_In _ _ Hn) (q0 ++ [Kid n])). now rewrite (schema_kid top q0 i pr cs). }
    cbn [load_kid]. destruct (if pr then _ else _) as [m1 [[]|e]]; cbn [andthen]; [|reflexivity].
    destruct (if ov then _ else _) as [m2 [[]|e]]; cbn [andthen]; [|reflexivity].
    apply (obj_same cs i pr); auto. exact (Hnm _ _ _ _ Hq).
  - pose proof (schema_entry top q0 i keys od cs VNone Hq) as Hq'.
    assert (HP : Forall same_load cs).
    { apply Forall_forall. intros s Hi. apply In_nth_error in Hi as [n Hn]. rewrite Forall_forall in IH.
      apply (IH s (nth_error_In _ _ Hn) ((q0 ++ [Ent VNone]) ++ [Kid n])). now rewrite (schema_kid top _ plain false cs). }
    pose proof (Hnm _ _ _ _ Hq') as Hn.
    inversion Hs as [| |? ? ? ? es es1 es' Hes Hperm]; subst; [reflexivity|].
    inversion Hp as [| | |? ? ? ? ? Hpe Hpo]; subst.
    set (act := fun kj : str * json => load_entry O uid top q (fst kj)
                  (load O uid top false skip od cs (Some q) (q ++ [Ent (VStr (fst kj))]) (snd kj))).
    cbn [load_kid].
    change (map (fun kj => (order_of (snd kj), load_entry O uid top q (fst kj)
                  (load O uid top false skip od cs (Some q) (q ++ [Ent (VStr (fst kj))]) (snd kj)))) es)
      with (map (fun kj => (order_of (snd kj), act kj)) es).
    change (map (fun kj => (order_of (snd kj), load_entry O uid top q (fst kj)
                  (load O uid top false skip od cs (Some q) (q ++ [Ent (VStr (fst kj))]) (snd kj)))) es')
      with (map (fun kj => (order_of (snd kj), act kj)) es').
    assert (Hact : Forall2 (fun p p' => fst p = fst p' /\ alike (snd p) (snd p'))
                     (map (fun kj => (order_of (snd kj), act kj)) es) (map (fun kj => (order_of (snd kj), act kj)) es1)).
    { clear -Hes Hpe HP Hn. induction Hes as [|e e1 es es1 [He Hj] Hes IH]; cbn [map]; constructor.
      - cbn [fst snd]. split.
        + symmetry. exact (order_same cs _ _ _ _ Hn Hj).
        + intros m. unfold act, load_entry. rewrite <- He.
          destruct (if mhas (VStr (fst e)) (entries m q) then _ else _) as [m1 [[]|ex]]; cbn [andthen]; [|reflexivity].
          destruct (mhas (VStr (fst e)) (entries m1 q)); [|reflexivity]. symmetry.
          apply (obj_same cs plain false Hn HP); auto. inversion Hpe; auto.
      - apply IH. now inversion Hpe. }
    assert (Hnames : map fst es1 = map fst es).
    { clear -Hes. induction Hes as [|e e' l l' [H _] Hl IH]; cbn; congruence. }
    assert (Htodo : match (if od then in_order (map (fun kj => (order_of (snd kj), act kj)) es) [] []
                           else Ok (map snd (map (fun kj => (order_of (snd kj), act kj)) es))),
                          (if od then in_order (map (fun kj => (order_of (snd kj), act kj)) es') [] []
                           else Ok (map snd (map (fun kj => (order_of (snd kj), act kj)) es'))) with
                    | Ok l, Ok l' => Forall2 alike l l'
                    | Raise e, Raise e' => e = e'
                    | _, _ => False
                    end).
    { destruct od.
      - assert (E : in_order (map (fun kj => (order_of (snd kj), act kj)) es') [] [] =
                    in_order (map (fun kj => (order_of (snd kj), act kj)) es1) [] []).
        { destruct (Hpo eq_refl) as (zs & Hz & Hnd).
          assert (Hz1 : Forall2 (fun e z => order_of (snd e) = Ok (Some z)) es1 zs).
          { clear -Hes Hz Hn. revert zs Hz. induction Hes as [|e e1 es es1 [He Hj] Hes IH]; intros zs Hz; inversion Hz; subst; constructor; auto.
            rewrite (order_same cs _ _ _ _ Hn Hj). assumption. }
          assert (Hplc : exists pz1, map (fun kj => (order_of (snd kj), act kj)) es1 = placing pz1 /\ map fst pz1 = zs /\
                           pz1 = map (fun kj => (match order_of (snd kj) with Ok (Some z) => z | _ => 0 end, act kj)) es1).
          { eexists. split; [|split; [|reflexivity]].
            - unfold placing. rewrite map_map. cbn. clear -Hz1. induction Hz1 as [|e z l zs H Hl IH]; cbn; [reflexivity|]. rewrite H. cbn. now f_equal.
            - rewrite map_map. cbn. clear -Hz1. induction Hz1 as [|e z l zs H Hl IH]; cbn; [reflexivity|]. rewrite H. now f_equal. }
          destruct Hplc as (pz1 & E1 & E2 & E3).
          set (pz' := map (fun kj => (match order_of (snd kj) with Ok (Some z) => z | _ => 0 end, act kj)) es').
          assert (Hpp : Permutation pz1 pz') by (rewrite E3; now apply Permutation_map).
          assert (E4 : map (fun kj => (order_of (snd kj), act kj)) es' = placing pz').
          { unfold pz', placing. rewrite map_map. cbn. apply map_ext_in. intros kj Hi.
            apply (Permutation_in _ (Permutation_sym Hperm)) in Hi. clear -Hz1 Hi.
            induction Hz1 as [|e z l zs H Hl IH]; [destruct Hi|]. destruct Hi as [<-|Hi]; [now rewrite H|auto]. }
          rewrite E1, E4, !in_order_fold. f_equal. f_equal. symmetry. apply fold_perm; auto. now rewrite E2. }
        rewrite E. apply in_order_alike; auto; constructor.
      - subst es'. rewrite !map_map. cbn. clear -Hact. revert Hact.
        generalize (fun kj : str * json => order_of (snd kj)). revert es1. induction es as [|e es IH]; intros [|e1 es1] o H; cbn in *; inversion H; subst; constructor.
        + tauto.
        + eapply IH; eassumption. }
    destruct (if od then in_order (map _ es) [] [] else _) as [l|e], (if od then in_order (map _ es') [] [] else _) as [l'|e'];
      try contradiction; [|now subst].
    rewrite (acts_alike _ _ Htodo). destruct (for_each (fun act m => act m) l' m) as [m1 [[]|e]]; cbn [andthen]; [|reflexivity].
    assert (Hin : forall s, str_in s (map fst es') = str_in s (map fst es)).
    { intros s. rewrite <- Hnames. destruct od; [|now subst]. apply str_in_perm, Permutation_map. now apply Permutation_sym. }
    rewrite (prune_names q _ _ Hin).
    destruct (if ov then _ else _) as [m2 [[]|e]]; cbn [andthen]; [|reflexivity].
    destruct es as [|e es]; inversion Hes; subst.
    + destruct od; [apply Permutation_nil in Hperm|]; now subst.
    + destruct es' as [|e' es']; [|reflexivity]. destruct od; [apply Permutation_sym, Permutation_nil in Hperm|]; discriminate.
Qed.

(** What dumps writes is placed. *)
Context (im : einfo -> str -> option str).
Definition enc_placed_at (s : schema) : Prop := forall d j, enc_dump O im s d = Ok j -> placed s j.

Lemma child_in n cs s : child_named n cs = Some s -> In s cs /\ e_yang (s_info s) = n.
Proof.
  induction cs as [|t cs IH]; cbn; [discriminate|]. destruct (str_eqb n (e_yang (s_info t))) eqn:E.
  - intros H. injection H as <-. apply str_eqb_eq in E. auto.
  - intros H. destruct (IH H). auto.
Qed.

Lemma enc_obj cs i pr d j : named_ok cs -> Forall enc_placed_at cs -> enc_dump O im (SCont i pr cs) d = Ok j ->
  exists ms, j = JObj ms /\ Forall (fun kj => fst kj <> order_key) ms /\
    Forall (fun kj => forall s, In s cs -> e_yang (s_info s) = fst kj -> placed s (snd kj)) ms.
Proof.
  intros Hn HP H. destruct d as [v|l|dd|es]; try discriminate. cbn [enc_dump] in H.
  destruct (map_res _ dd) as [ms|e] eqn:Hms; [|discriminate]. cbn in H. injection H as <-. exists ms. split; [reflexivity|].
  revert ms Hms. induction dd as [|[n d] dd IH]; intros ms Hms.
  - cbn in Hms. injection Hms as <-. split; constructor.
  - rewrite map_res_cons in Hms. cbn [fst snd] in Hms. destruct (child_named n cs) as [t|] eqn:Ht; [|discriminate].
    destruct (enc_dump O im t d) as [j|e] eqn:Hj; [|discriminate]. cbn [bind] in Hms.
    destruct (map_res _ dd) as [ms'|e] eqn:Hms'; [|discriminate]. cbn [bind] in Hms. injection Hms as <-.
    destruct (IH ms' eq_refl) as [I1 I2]. destruct (child_in n cs t Ht) as [Hi Hy]. split; constructor; auto; cbn [fst snd].
    + destruct Hn as [_ Hf]. rewrite Forall_forall in Hf. destruct (Hf t Hi) as [_ Hne]. congruence.
    + intros s Hs Hsy. assert (s = t) as ->.
      { destruct (find_in cs s Hn Hs) as [a Ha], (find_in cs t Hn Hi) as [b Hb]. rewrite Hsy in Ha. rewrite Hy in Hb. congruence. }
      rewrite Forall_forall in HP. exact (HP t Hi _ _ Hj).
Qed.

Lemma enc_placed s : forall q0, schema_at top q0 = Some s -> enc_placed_at s.
Proof.
  induction s as [i lt d yt k|i ts yt|i pr cs IH|i keys od cs IH] using schema_ind'; intros q0 Hq d0 j H.
  - constructor.
  - constructor.
  - assert (HP : Forall enc_placed_at cs).
    { apply Forall_forall. intros s Hi. apply In_nth_error in Hi as [n Hn]. rewrite Forall_forall in IH.
      apply (IH s (nth_error_In _ _ Hn) (q0 ++ [Kid n])). now rewrite (schema_kid top q0 i pr cs). }
    destruct (enc_obj cs i pr d0 j (Hnm _ _ _ _ Hq) HP H) as (ms & -> & _ & Hms). now constructor.
  - pose proof (schema_entry top q0 i keys od cs VNone Hq) as Hq'.
    assert (HP : Forall enc_placed_at cs).
    { apply Forall_forall. intros s Hi. apply In_nth_error in Hi as [n Hn]. rewrite Forall_forall in IH.
      apply (IH s (nth_error_In _ _ Hn) ((q0 ++ [Ent VNone]) ++ [Kid n])). now rewrite (schema_kid top _ plain false cs). }
    pose proof (Hnm _ _ _ _ Hq') as Hnok.
    destruct d0 as [v|l|dd|es]; try discriminate. cbn [enc_dump] in H.
    set (go := fix go n es := match es with
                   | [] => Ok []
                   | (k, d') :: es' =>
                       j <- enc_dump O im (entry_schema cs) d' ;;
                       kt <- json_key O k ;;
                       r <- go (S n) es' ;;
                       Ok ((kt, if od then add_order j n else j) :: r)
                   end) in H.
    destruct (go 0%nat es) as [ms|e] eqn:Hgo; [|discriminate]. cbn [bind] in H. injection H as <-.
    assert (G : forall n ms, go n es = Ok ms -> Forall (fun e => placed (entry_schema cs) (snd e)) ms /\
              (od = true -> Forall2 (fun e z => order_of (snd e) = Ok (Some z)) ms (map Z.of_nat (seq n (length ms))))).
    { clear ms Hgo. induction es as [|[k d'] es IHe]; intros n ms Hgo.
      - cbn in Hgo. injection Hgo as <-. split; [constructor|]. intros _. constructor.
      - change (go n ((k, d') :: es)) with (j <- enc_dump O im (entry_schema cs) d' ;; kt <- json_key O k ;;
                       r <- go (S n) es ;; Ok ((kt, if od then add_order j n else j) :: r)) in Hgo.
        destruct (enc_dump O im (entry_schema cs) d') as [j|e] eqn:Hj; [|discriminate]. cbn [bind] in Hgo.
        destruct (json_key O k) as [kt|e]; [|discriminate]. cbn [bind] in Hgo.
        destruct (go (S n) es) as [r|e] eqn:Hr; [|discriminate]. cbn [bind] in Hgo. injection Hgo as <-.
        destruct (IHe (S n) r Hr) as [I1 I2].
        destruct (enc_obj cs _ _ d' j Hnok HP Hj) as (ms & -> & Hne & Hms). split.
        + constructor; auto. cbn [snd]. destruct od; [|now constructor]. cbn [add_order]. constructor.
          apply Forall_app. split; auto. constructor; [|constructor]. cbn [fst snd]. intros s Hs Hy. exfalso.
          destruct Hnok as [_ Hf]. rewrite Forall_forall in Hf. now destruct (Hf s Hs).
        + intros ->. cbn [length seq map]. constructor; [|now apply I2]. cbn [snd add_order]. now apply (order_placed ms n). }
    destruct (G 0%nat ms Hgo) as [G1 G2]. constructor; auto. intros Hod. eexists. split; [exact (G2 Hod)|].
    apply FinFun.Injective_map_NoDup; [intros a b; apply Nat2Z.inj|apply seq_NoDup].
Qed.

Theorem shuffled_load kids j j' : dumps O im top kids = Ok j -> shuffled (entry_schema top) j j' ->
  forall ov skip m, load_json O uid top ov skip j' m = load_json O uid top ov skip j m.
Proof.
  intros Hd Hs ov skip m.
  assert (HP : Forall enc_placed_at top).
  { apply Forall_forall. intros s Hi. apply In_nth_error in Hi as [n Hn]. apply (enc_placed s [Kid n]).
    change [Kid n] with (([] : list pstep) ++ [Kid n]). now rewrite (schema_kid top [] plain false top). }
  assert (HL : Forall same_load top).
  { apply Forall_forall. intros s Hi. apply In_nth_error in Hi as [n Hn]. apply (same_loads s [Kid n]).
    change [Kid n] with (([] : list pstep) ++ [Kid n]). now rewrite (schema_kid top [] plain false top). }
  assert (Hn : named_ok top) by exact (Hnm [] plain false top eq_refl).
  destruct (enc_obj top plain false _ j Hn HP Hd) as (ms & -> & _ & Hms).
  unfold load_json. apply (obj_same top plain false Hn HL); auto. now constructor.
Qed.
End Sh.
