(** Members the schema does not have. *)
From Coq Require Import Lia.
From Verif Require Import PyStr PyStr_facts PyVal Restricted Spec_Lists YList SafeName
  Tree Spec_Tree Tree_proofs Serialise Spec_Serialise Load_proofs.
Local Open Scope Z_scope.

Lemma find_node n cs : match find_kid n cs with Some (k, s) => node_for n cs = Some s /\ nth_error cs k = Some s | None => node_for n cs = None end.
Proof.
  unfold find_kid, node_for. induction cs as [|c cs IH]; [reflexivity|]. cbn [kid_index find].
  rewrite (str_eqb_sym (safe_name n)). destruct (str_eqb (e_py (s_info c)) (safe_name n)); [cbn; auto|].
  destruct (kid_index (safe_name n) cs) as [k|]; cbn [option_map]; [|exact IH]. cbn [nth_error].
  destruct (nth_error cs k); exact IH.
Qed.

(** What [cleaned] does to the value of a member for [s]. *)
Definition clean1 (s : schema) (j : json) : json :=
  match s with
  | SCont _ _ cs' => cleaned false cs' j
  | SList _ _ od cs' => match j with JObj es => JObj (map (fun e => (fst e, cleaned od cs' (snd e))) es) | _ => j end
  | _ => j
  end.
Definition clean_member (od : bool) (cs : list schema) (kj : str * json) : list (str * json) :=
  if is_position od (fst kj) then [kj]
  else match node_for (fst kj) cs with None => [] | Some s => [(fst kj, clean1 s (snd kj))] end.
Lemma cleaned_obj od cs ms : cleaned od cs (JObj ms) = JObj (flat_map (clean_member od cs) ms).
Proof.
  cbn [cleaned]. f_equal. apply flat_map_ext. intros [n j]. unfold clean_member. cbn [fst snd].
  destruct (is_position od n); [reflexivity|]. destruct (node_for n cs) as [[]|]; try reflexivity. destruct j; reflexivity.
Qed.
Lemma order_cleaned cs j : order_of (cleaned true cs j) = order_of j.
Proof.
  destruct j as [| | | | | |ms]; try reflexivity. rewrite cleaned_obj. cbn [order_of].
  assert (assoc order_key (flat_map (clean_member true cs) ms) = assoc order_key ms) as ->; [|reflexivity].
  induction ms as [|[n j] ms IH]; [reflexivity|]. cbn [flat_map]. unfold clean_member at 1. unfold is_position. cbn [fst snd andb].
  fold order_key. rewrite (str_eqb_sym n). cbn [assoc]. destruct (str_eqb order_key n) eqn:E.
  - cbn [app assoc]. now rewrite E.
  - destruct (node_for n cs); cbn [app assoc]; [rewrite E|]; exact IH.
Qed.

Section U.
Context (O : oracle) (uid : list (pyval * obj) -> str) (top : list schema).
Local Notation load := (load O uid top).
Local Notation load_kid := (load_kid O uid top).
Local Notation load_member := (load_member O uid top).

(* ------------------------------------------------------------------ skipping *)
Definition skips (s : schema) : Prop := forall ov q j m, load_kid ov true s q j m = load_kid ov false s q (clean1 s j) m.

Lemma skips_obj cs : Forall skips cs -> forall ov strip self p d m,
  load ov true strip cs self p d m = load ov false strip cs self p (cleaned strip cs d) m.
Proof.
  intros HP ov strip self p d m. destruct d as [| | | | | |ms]; try reflexivity.
  rewrite cleaned_obj, !load_obj. revert m. induction ms as [|kj ms IH]; intros m; [reflexivity|].
  cbn [flat_map]. rewrite for_each_app. cbn [for_each].
  assert (E : load_member ov true strip cs p kj m = for_each (load_member ov false strip cs p) (clean_member strip cs kj) m).
  { unfold clean_member, Load_proofs.load_member, is_position. destruct (strip && str_eqb (fst kj) (lit "__yang_order")) eqn:Ep.
    - change (lit "__yang_order") with order_key in Ep. cbn [for_each]. rewrite Ep. reflexivity.
    - pose proof (find_node (fst kj) cs) as Hf. change (lit "__yang_order") with order_key in Ep. rewrite Ep.
      destruct (find_kid (fst kj) cs) as [[k s]|] eqn:Ef; [|now rewrite Hf]. destruct Hf as [-> Hn].
      cbn [for_each fst snd]. rewrite Ep, Ef. rewrite Forall_forall in HP. rewrite (HP s (nth_error_In _ _ Hn)).
      now destruct (load_kid ov false s (p ++ [Kid k]) (clean1 s (snd kj)) m) as [m1 [[]|e]]. }
  rewrite E. destruct (for_each _ (clean_member strip cs kj) m) as [m1 [[]|e]]; cbn [andthen]; [apply IH|reflexivity].
Qed.

Lemma acts_ext {A} (f g : A -> list obj -> step) l : (forall a m, f a m = g a m) -> forall m,
  for_each (fun act m => act m) (map f l) m = for_each (fun act m => act m) (map g l) m.
Proof.
  intros H. induction l as [|a l IH]; intros m; [reflexivity|]. cbn [map for_each]. rewrite H.
  destruct (g a m) as [m1 [[]|e]]; cbn [andthen]; auto.
Qed.
End U.

(** Actions in order, up to a relation. *)
Section Rel.
Context {A B : Type} (R : A -> B -> Prop).
Lemma put_order_rel z a b : R a b -> forall l l', Forall2 (fun p p' => fst p = fst p' /\ R (snd p) (snd p')) l l' ->
  Forall2 (fun p p' => fst p = fst p' /\ R (snd p) (snd p')) (put_order z a l) (put_order z b l').
Proof.
  intros Hab l l' H. induction H as [|[y u] [y' u'] l l' [Hy Hu] Hl IH]; cbn in *.
  - repeat constructor. exact Hab.
  - subst y'. destruct (z =? y); [repeat constructor; auto|]. destruct (z <? y); repeat constructor; auto.
Qed.
Lemma in_order_rel es es' : Forall2 (fun p p' => fst p = fst p' /\ R (snd p) (snd p')) es es' ->
  forall pl pl' r r', Forall2 (fun p p' => fst p = fst p' /\ R (snd p) (snd p')) pl pl' -> Forall2 R r r' ->
  match in_order es pl r, in_order es' pl' r' with
  | Ok l, Ok l' => Forall2 R l l'
  | Raise e, Raise e' => e = e'
  | _, _ => False
  end.
Proof.
  induction 1 as [|[o a] [o' b] es es' [Ho Hab] Hes IH]; intros pl pl' r r' Hpl Hr; cbn in *.
  - apply Forall2_app; [|assumption]. induction Hpl as [|? ? ? ? [_ H]]; cbn; constructor; auto.
  - subst o'. destruct o as [[z|]|e]; cbn; [|apply IH; auto|reflexivity].
    apply IH; auto. now apply put_order_rel.
Qed.
End Rel.

(** What is placed stays. *)
Lemma put_keeps {A} z z' (x x' : A) l : z' <> z -> In (z, x) l -> In (z, x) (put_order z' x' l).
Proof.
  intros Hz. induction l as [|[y v] l IH]; cbn; [tauto|]. destruct (Z.eqb_spec z' y); [|destruct (z' <? y); cbn; tauto].
  cbn. intros [E|E]; [injection E as -> ->; congruence|tauto].
Qed.
Lemma put_in {A} z (x : A) l : In (z, x) (put_order z x l).
Proof. induction l as [|[y v] l IH]; cbn; auto. destruct (z =? y); cbn; auto. destruct (z <? y); cbn; auto. Qed.
Lemma in_order_rest {A} (es : list (res (option Z) * A)) x : forall pl r l, In x r -> in_order es pl r = Ok l -> In x l.
Proof.
  induction es as [|[o y] es IH]; intros pl r l Hx H; cbn in H.
  - injection H as <-. apply in_app_iff. auto.
  - destruct o as [[z|]|e]; cbn in H; [| |discriminate]; (eapply IH; [|exact H]); cbn; auto.
Qed.
Lemma in_order_placed {A} (es : list (res (option Z) * A)) z x : Forall (fun p => fst p <> Ok (Some z)) es ->
  forall pl r l, In (z, x) pl -> in_order es pl r = Ok l -> In x l.
Proof.
  induction 1 as [|[o y] es Ho Hes IH]; intros pl r l Hx H; cbn in H.
  - injection H as <-. apply in_app_iff. left. change x with (snd (z, x)). now apply in_map.
  - destruct o as [[z'|]|e]; cbn in H; [| |discriminate]; (eapply IH; [|exact H]); auto. apply put_keeps; auto. cbn in Ho. congruence.
Qed.
Lemma in_order_keeps {A} (es1 es2 : list (res (option Z) * A)) o x : (forall z, o = Ok (Some z) -> Forall (fun p => fst p <> Ok (Some z)) es2) ->
  forall pl r l, in_order (es1 ++ (o, x) :: es2) pl r = Ok l -> In x l.
Proof.
  intros Ho. induction es1 as [|[o1 y] es1 IH]; intros pl r l H; cbn in H.
  - destruct o as [[z|]|e]; cbn in H; [| |discriminate].
    + eapply in_order_placed; [exact (Ho z eq_refl)| |exact H]. apply put_in.
    + eapply in_order_rest; [|exact H]. now left.
  - destruct o1 as [[z|]|e]; cbn in H; [| |discriminate]; eapply IH; exact H.
Qed.

Section U2.
Context (O : oracle) (uid : list (pyval * obj) -> str) (top : list schema).
Local Notation load := (load O uid top).
Local Notation load_kid := (load_kid O uid top).
Local Notation load_member := (load_member O uid top).

Lemma all_skip s : skips O uid top s.
Proof.
  induction s as [i lt d yt k|i ts yt|i pr cs IH|i keys od cs IH] using schema_ind'; intros ov q j m; try reflexivity.
  - cbn [Load_proofs.load_kid clean1]. destruct (if pr then _ else _) as [m1 [[]|e]]; cbn [andthen]; [|reflexivity].
    destruct (if ov then _ else _) as [m2 [[]|e]]; cbn [andthen]; [|reflexivity]. now apply skips_obj.
  - destruct j as [| | | | | |es]; try reflexivity. cbn [Load_proofs.load_kid clean1].
    set (act := fun kj : str * json => load_entry O uid top q (fst kj)
                  (load false true od cs (Some q) (q ++ [Ent (VStr (fst kj))]) (snd kj))).
    set (act' := fun kj : str * json => load_entry O uid top q (fst kj)
                  (load false false od cs (Some q) (q ++ [Ent (VStr (fst kj))]) (snd kj))).
    change (map (fun kj => (order_of (snd kj), load_entry O uid top q (fst kj)
                  (load false true od cs (Some q) (q ++ [Ent (VStr (fst kj))]) (snd kj)))) es)
      with (map (fun kj => (order_of (snd kj), act kj)) es).
    assert (Ha : forall kj m, act kj m = act' (fst kj, cleaned od cs (snd kj)) m).
    { intros kj m0. unfold act, act', load_entry. cbn [fst snd].
      destruct (if mhas (VStr (fst kj)) (entries m0 q) then _ else _) as [m1 [[]|e]]; cbn [andthen]; [|reflexivity].
      destruct (mhas _ (entries m1 q)); [|reflexivity]. now apply skips_obj. }
    rewrite (map_map (fun e : str * json => (fst e, cleaned od cs (snd e)))). cbn [fst snd].
    change (map (fun x : str * json => (order_of (cleaned od cs (snd x)), load_entry O uid top q (fst x)
                  (load false false od cs (Some q) (q ++ [Ent (VStr (fst x))]) (cleaned od cs (snd x))))) es)
      with (map (fun kj => (order_of (cleaned od cs (snd kj)), act' (fst kj, cleaned od cs (snd kj)))) es).
    assert (Htodo : match (if od then in_order (map (fun kj => (order_of (snd kj), act kj)) es) [] []
                           else Ok (map snd (map (fun kj => (order_of (snd kj), act kj)) es))),
                          (if od then in_order (map (fun kj => (order_of (cleaned od cs (snd kj)), act' (fst kj, cleaned od cs (snd kj)))) es) [] []
                           else Ok (map snd (map (fun kj => (order_of (cleaned od cs (snd kj)), act' (fst kj, cleaned od cs (snd kj)))) es))) with
                    | Ok l, Ok l' => Forall2 (fun a b : list obj -> step => forall m, a m = b m) l l'
                    | Raise e, Raise e' => e = e'
                    | _, _ => False
                    end).
    { destruct od.
      - apply in_order_rel; try constructor. clear -Ha. induction es as [|e es IH]; cbn [map]; constructor; auto.
        cbn [fst snd]. split; [now rewrite order_cleaned|]. apply Ha.
      - rewrite !map_map. cbn [snd]. clear -Ha. induction es as [|e es IH]; cbn [map]; constructor; [apply Ha|apply IH]. }
    destruct (if od then in_order (map _ es) [] [] else _) as [l|e], (if od then in_order (map (fun kj => (order_of (cleaned _ _ _), _)) es) [] [] else _) as [l'|e'];
      try contradiction; [|now subst].
    assert (El : for_each (fun act m => act m) l m = for_each (fun act m => act m) l' m).
    { clear -Htodo. revert m. induction Htodo as [|a b l l' Hab Hl IH]; intros m; [reflexivity|]. cbn [for_each].
      rewrite Hab. destruct (b m) as [m1 [[]|e]]; cbn [andthen]; auto. }
    rewrite El. destruct (for_each (fun act m => act m) l' m) as [m1 [[]|e]]; cbn [andthen]; [|reflexivity].
    rewrite map_map. cbn [fst]. destruct (if ov then _ else _) as [m2 [[]|e]]; cbn [andthen]; [|reflexivity]. now destruct es.
Qed.

Theorem skip_unknown ov d m : load_json O uid top ov true d m = load_json O uid top ov false (cleaned false top d) m.
Proof. apply skips_obj. apply Forall_forall. intros s _. apply all_skip. Qed.

(* ------------------------------------------------------------------ not skipping *)
Definition agrees (r r' : step) : Prop := r' = r \/ exists m2, r' = (m2, Raise AttributeError).
Lemma agrees_refl r : agrees r r.
Proof. now left. Qed.
Lemma agrees_then r r' k k' : agrees r r' -> (forall m, agrees (k m) (k' m)) -> agrees (andthen r k) (andthen r' k').
Proof.
  intros [->|[m2 ->]] Hk; [|right; now exists m2]. destruct r as [m1 [[]|e]]; cbn; [apply Hk|now left].
Qed.
Lemma agrees_each l l' : Forall2 (fun a b : list obj -> step => forall m, agrees (a m) (b m)) l l' -> forall m,
  agrees (for_each (fun act m => act m) l m) (for_each (fun act m => act m) l' m).
Proof.
  induction 1 as [|a b l l' Hab Hl IH]; intros m; cbn [for_each]; [apply agrees_refl|]. now apply agrees_then.
Qed.
Definition strict (s : schema) : Prop := forall ov q j m, agrees (load_kid ov true s q j m) (load_kid ov false s q j m).
Lemma strict_obj cs : Forall strict cs -> forall ov strip self p d m,
  agrees (load ov true strip cs self p d m) (load ov false strip cs self p d m).
Proof.
  intros HP ov strip self p d m. destruct d as [| | | | | |ms]; try apply agrees_refl.
  rewrite !load_obj. revert m. induction ms as [|kj ms IH]; intros m; [apply agrees_refl|].
  cbn [for_each]. apply agrees_then; [|exact IH]. unfold Load_proofs.load_member.
  destruct (strip && _); [apply agrees_refl|]. pose proof (find_node (fst kj) cs) as Hf.
  destruct (find_kid (fst kj) cs) as [[k s]|]; [|right; now exists m]. destruct Hf as [_ Hn].
  rewrite Forall_forall in HP. apply (HP s). eapply nth_error_In; eassumption.
Qed.
Lemma all_strict s : strict s.
Proof.
  induction s as [i lt d yt k|i ts yt|i pr cs IH|i keys od cs IH] using schema_ind'; intros ov q j m; try apply agrees_refl.
  - cbn [Load_proofs.load_kid]. apply agrees_then; [apply agrees_refl|]. intros m1.
    apply agrees_then; [apply agrees_refl|]. intros m2. now apply strict_obj.
  - destruct j as [| | | | | |es]; try apply agrees_refl. cbn [Load_proofs.load_kid].
    assert (Hact : Forall2 (fun p p' => fst p = fst p' /\ forall m, agrees (snd p m) (snd p' m))
      (map (fun kj => (order_of (snd kj), load_entry O uid top q (fst kj)
         (load false true od cs (Some q) (q ++ [Ent (VStr (fst kj))]) (snd kj)))) es)
      (map (fun kj => (order_of (snd kj), load_entry O uid top q (fst kj)
         (load false false od cs (Some q) (q ++ [Ent (VStr (fst kj))]) (snd kj)))) es)).
    { clear -IH. induction es as [|e es IHe]; cbn [map]; constructor; auto. cbn [fst snd]. split; [reflexivity|]. intros m.
      unfold load_entry. apply agrees_then; [apply agrees_refl|]. intros m1.
      destruct (mhas _ _); [now apply strict_obj|apply agrees_refl]. }
    assert (Htodo := in_order_rel (fun a b : list obj -> step => forall m, agrees (a m) (b m)) _ _ Hact [] [] [] [] (Forall2_nil _) (Forall2_nil _)).
    destruct od.
    + destruct (in_order (map _ es) [] []) as [l|e], (in_order (map (fun kj => (_, load_entry O uid top q _ (load _ false _ _ _ _ _))) es) [] []) as [l'|e'];
        try contradiction; [|subst; apply agrees_refl].
      apply agrees_then; [now apply agrees_each|]. intros m1. apply agrees_refl.
    + apply agrees_then; [|intros m1; apply agrees_refl]. apply agrees_each. clear -Hact.
      induction Hact as [|a b l l' [_ H] Hl IH]; cbn [map]; constructor; auto.
Qed.

Definition unknown1 (s : schema) (j : json) : Prop :=
  match s with
  | SCont _ _ cs' => unknown false cs' j
  | SList _ _ od cs' => exists es1 k j0 es2, j = JObj (es1 ++ (k, j0) :: es2) /\ unknown od cs' j0 /\
      (od = true -> position j0 <> None -> Forall (fun e => position (snd e) <> position j0) es2)
  | _ => False
  end.
Definition refuses (s : schema) : Prop := forall ov q j m, unknown1 s j -> snd (load_kid ov false s q j m) <> Ok tt.

Lemma each_refuses {A} (f : A -> list obj -> step) l a : In a l -> (forall m, snd (f a m) <> Ok tt) -> forall m, snd (for_each f l m) <> Ok tt.
Proof.
  intros Hi Ha. induction l as [|b l IH]; [destruct Hi|]. intros m. cbn [for_each]. destruct Hi as [->|Hi].
  - specialize (Ha m). destruct (f a m) as [m1 [[]|e]]; cbn in *; [congruence|discriminate].
  - destruct (f b m) as [m1 [[]|e]]; cbn [andthen]; [now apply IH|discriminate].
Qed.
Lemma then_refuses r k : snd r <> Ok tt -> snd (andthen r k) <> Ok tt.
Proof. destruct r as [m [[]|e]]; cbn; congruence. Qed.
Lemma then_refuses2 r k : (forall m, snd (k m) <> Ok tt) -> snd (andthen r k) <> Ok tt.
Proof. destruct r as [m [[]|e]]; cbn; [auto|congruence]. Qed.

Lemma position_of j z : order_of j = Ok (Some z) -> position j = Some (JInt z).
Proof.
  destruct j as [| | | |t|l|ms]; try discriminate; unfold order_of, position; fold order_key; try (destruct (infix _ _); discriminate); try (destruct (existsb _ _); discriminate).
  destruct (assoc order_key ms) as [[]|]; try discriminate. intros H. now injection H as ->.
Qed.
Lemma refuses_obj cs : Forall refuses cs -> forall ov strip self p d m, unknown strip cs d ->
  snd (load ov false strip cs self p d m) <> Ok tt.
Proof.
  intros HP ov strip self p d m Hu.
  assert (Hu' : exists ms kj, d = JObj ms /\ In kj ms /\ is_position strip (fst kj) = false /\
            (node_for (fst kj) cs = None \/ exists s, node_for (fst kj) cs = Some s /\ unknown1 s (snd kj))).
  { inversion Hu as [? ? ms n j Hi Hp Hn|? ? ms n j i pr cs' Hi Hp Hn H|? ? ms n i keys od' cs' es1 k j es2 Hi Hp Hn H Hpos]; subst.
    - exists ms, (n, j). auto.
    - exists ms, (n, j). cbn [fst snd]. split; [reflexivity|]. split; [assumption|]. split; [assumption|]. right. eexists. split; [exact Hn|exact H].
    - eexists ms, (n, _). cbn [fst snd]. split; [reflexivity|]. split; [exact Hi|]. split; [assumption|]. right. eexists. split; [exact Hn|].
      cbn [unknown1]. exists es1, k, j, es2. auto. }
  destruct Hu' as (ms & kj & -> & Hi & Hp & Hk). rewrite load_obj. eapply each_refuses; [exact Hi|]. clear m. intros m.
  unfold Load_proofs.load_member. change (strip && str_eqb (fst kj) order_key) with (is_position strip (fst kj)). rewrite Hp.
  pose proof (find_node (fst kj) cs) as Hf. destruct (find_kid (fst kj) cs) as [[k s]|]; [|discriminate]. destruct Hf as [Hf Hn].
  destruct Hk as [Hk|(s' & Hk & H1)]; [congruence|]. assert (s' = s) by congruence. subst s'.
  rewrite Forall_forall in HP. apply (HP s); auto. eapply nth_error_In; eassumption.
Qed.
Lemma all_refuse s : refuses s.
Proof.
  induction s as [i lt d yt k|i ts yt|i pr cs IH|i keys od cs IH] using schema_ind'; intros ov q j m Hu; try contradiction.
  - cbn [Load_proofs.load_kid]. apply then_refuses2. intros m1. apply then_refuses2. intros m2. now apply refuses_obj.
  - destruct Hu as (es1 & k & j0 & es2 & -> & Hu & Hpos). cbn [Load_proofs.load_kid].
    set (act := fun kj : str * json => load_entry O uid top q (fst kj)
                  (load false false od cs (Some q) (q ++ [Ent (VStr (fst kj))]) (snd kj))).
    change (map (fun kj => (order_of (snd kj), load_entry O uid top q (fst kj)
                  (load false false od cs (Some q) (q ++ [Ent (VStr (fst kj))]) (snd kj)))) (es1 ++ (k, j0) :: es2))
      with (map (fun kj => (order_of (snd kj), act kj)) (es1 ++ (k, j0) :: es2)).
    assert (Hbad : forall m, snd (act (k, j0) m) <> Ok tt).
    { intros m0. unfold act, load_entry. cbn [fst snd]. apply then_refuses2. intros m1.
      destruct (mhas _ _); [|discriminate]. now apply refuses_obj. }
    destruct od.
    + destruct (in_order (map _ (es1 ++ (k, j0) :: es2)) [] []) as [l|e] eqn:E; [|discriminate].
      apply then_refuses. apply each_refuses with (act (k, j0)); [|exact Hbad].
      rewrite map_app in E. cbn [map] in E. eapply in_order_keeps; [|exact E].
      cbn [snd]. intros z Hz. assert (Hp0 : position j0 = Some (JInt z)).
      { exact (position_of j0 z Hz). }
      assert (Hne : position j0 <> None) by congruence. specialize (Hpos eq_refl Hne).
      apply Forall_map. eapply Forall_impl; [|exact Hpos]. cbn [fst]. intros e He Hz'. apply He. rewrite Hp0.
      exact (position_of _ z Hz').
    + apply then_refuses. apply each_refuses with (act (k, j0)); [|exact Hbad].
      rewrite map_map. cbn [snd]. apply in_map, in_elt.
Qed.

Theorem unknown_raises ov d m : unknown false top d ->
  exists m' e, load_json O uid top ov false d m = (m', Raise e) /\
    (forall m2, load_json O uid top ov true d m = (m2, Ok tt) -> e = AttributeError).
Proof.
  intros Hu.
  assert (H1 : snd (load_json O uid top ov false d m) <> Ok tt).
  { apply refuses_obj; auto. apply Forall_forall. intros s _. apply all_refuse. }
  assert (H2 : agrees (load_json O uid top ov true d m) (load_json O uid top ov false d m)).
  { apply strict_obj. apply Forall_forall. intros s _. apply all_strict. }
  destruct (load_json O uid top ov false d m) as [m' [[]|e]]; [cbn in H1; congruence|]. exists m', e. split; [reflexivity|].
  intros m2 H. rewrite H in H2. destruct H2 as [E|[m3 E]]; [discriminate|]. now injection E.
Qed.
End U2.
