(** Members the schema does not have, IETF format. *)
From Coq Require Import Lia.
From Verif Require Import PyStr PyStr_facts PyVal Restricted Spec_Lists YList SafeName
  Tree Spec_Tree Tree_proofs Serialise Spec_Serialise Load_proofs Unknown_proofs.
Local Open Scope Z_scope.

Definition iclean1 (s : schema) (j : json) : json :=
  match s with
  | SCont _ _ cs' => match j with JObj _ => cleaned_ietf cs' j | _ => j end
  | SList _ _ _ cs' => match j with JArr es => JArr (map (cleaned_ietf cs') es) | _ => j end
  | _ => j
  end.
Definition iclean_member (cs : list schema) (kj : str * json) : list (str * json) :=
  if metadata (fst kj) then [kj]
  else match node_for (local_name (fst kj)) cs with None => [] | Some s => [(fst kj, iclean1 s (snd kj))] end.
Lemma icleaned_obj cs ms : cleaned_ietf cs (JObj ms) = JObj (flat_map (iclean_member cs) ms).
Proof.
  cbn [cleaned_ietf]. f_equal. apply flat_map_ext. intros [n j]. unfold iclean_member. cbn [fst snd].
  destruct (metadata n); [reflexivity|]. destruct (node_for (local_name n) cs) as [[]|]; destruct j; reflexivity.
Qed.

Section U.
Context (O : oracle) (uid : list (pyval * obj) -> str) (top : list schema).
Local Notation load_ietf := (load_ietf O uid top).

(** One member whose node is [s]. *)
Definition iload_kid (ov skip : bool) (s : schema) (q : list pstep) (j : json) (m : list obj) : step :=
  match j with
  | JObj _ =>
      match s with
      | SCont _ pr cs' => andthen (if pr then run_op O top m q (APresent true) else (m, Ok tt)) (load_ietf ov skip cs' (Some q) q j)
      | _ => load_ietf ov skip [] (Some q) q j m
      end
  | JArr [] => (m, Ok tt)
  | JArr elems =>
      match s with
      | SList _ keys _ cs' =>
          for_each (fun f m => f m)
            (map (fun elem m =>
               andthen (if ov then wipe O top q m else (m, Ok tt)) (fun m =>
               match ietf_entry O uid top q keys cs' elem m with
               | (m, Raise e) => (m, Raise e)
               | (m, Ok k) => load_ietf ov skip cs' (Some q) (q ++ [Ent k]) elem m
               end)) elems) m
      | _ => std_set O top q s j m
      end
  | _ => std_set O top q s j m
  end.
Definition lost (skip : bool) (j : json) (m : list obj) : step :=
  match j with
  | JArr [] => (m, Ok tt)
  | JArr _ => (m, Raise AttributeError)
  | _ => if skip then (m, Ok tt) else (m, Raise AttributeError)
  end.
Definition iload_member (ov skip : bool) (cs : list schema) (p : list pstep) (kj : str * json) (m : list obj) : step :=
  if metadata (fst kj) then (m, Ok tt)
  else match find_kid (local_name (fst kj)) cs with
       | None => lost skip (snd kj) m
       | Some (n, s) => iload_kid ov skip s (p ++ [Kid n]) (snd kj) m
       end.
Lemma each_ext {A} (f g : A -> list obj -> step) l : (forall a m, f a m = g a m) -> forall m, for_each f l m = for_each g l m.
Proof.
  intros H. induction l as [|a l IH]; intros m; [reflexivity|]. cbn [for_each]. rewrite H.
  destruct (g a m) as [m1 [[]|e]]; cbn [andthen]; auto.
Qed.
Lemma iload_obj ov skip cs self p ms m :
  load_ietf ov skip cs self p (JObj ms) m = for_each (iload_member ov skip cs p) ms m.
Proof.
  cbn [Serialise.load_ietf]. apply each_ext. clear. intros [n j] m. unfold iload_member, iload_kid, lost. cbn [fst snd].
  change (has_char 64 n) with (metadata n). change (after_colon n) with (local_name n).
  destruct (metadata n); [reflexivity|].
  destruct j as [| | | | |[|e l]|ms0]; destruct (find_kid (local_name n) cs) as [[k []]|]; reflexivity.
Qed.

(* ------------------------------------------------------------------ not skipping *)
Definition istrict (s : schema) : Prop := forall ov q j m, agrees (iload_kid ov true s q j m) (iload_kid ov false s q j m).
Lemma istrict_obj cs : Forall istrict cs -> forall ov self p d m,
  agrees (load_ietf ov true cs self p d m) (load_ietf ov false cs self p d m).
Proof.
  intros HP ov self p d m. destruct d as [| | | | | |ms]; try apply agrees_refl.
  rewrite !iload_obj. revert m. induction ms as [|kj ms IH]; intros m; [apply agrees_refl|].
  cbn [for_each]. apply agrees_then; [|exact IH]. unfold iload_member.
  destruct (metadata (fst kj)); [apply agrees_refl|]. pose proof (find_node (local_name (fst kj)) cs) as Hf.
  destruct (find_kid (local_name (fst kj)) cs) as [[k s]|].
  - destruct Hf as [_ Hn]. rewrite Forall_forall in HP. apply (HP s). eapply nth_error_In; eassumption.
  - unfold lost. destruct (snd kj) as [| | | | |l|]; try (right; now exists m). destruct l; apply agrees_refl.
Qed.
Lemma agrees_map {A} (f g : A -> list obj -> step) l : (forall a m, agrees (f a m) (g a m)) -> forall m,
  agrees (for_each (fun f m => f m) (map f l) m) (for_each (fun f m => f m) (map g l) m).
Proof.
  intros H m. apply agrees_each. induction l; cbn [map]; constructor; auto.
Qed.
Lemma all_istrict s : istrict s.
Proof.
  induction s as [i lt d yt k|i ts yt|i pr cs IH|i keys od cs IH] using schema_ind'; intros ov q j m;
    (destruct j as [| | | | |l|ms]; [apply agrees_refl|apply agrees_refl|apply agrees_refl|apply agrees_refl|apply agrees_refl| |]).
  - destruct l; apply agrees_refl.
  - apply istrict_obj. constructor.
  - destruct l; apply agrees_refl.
  - apply istrict_obj. constructor.
  - destruct l; apply agrees_refl.
  - cbn [iload_kid]. apply agrees_then; [apply agrees_refl|]. intros m1. now apply istrict_obj.
  - destruct l as [|j l]; [apply agrees_refl|]. cbn [iload_kid]. apply agrees_map. intros elem m0.
    apply agrees_then; [apply agrees_refl|]. intros m1. destruct (ietf_entry O uid top q keys cs elem m1) as [m2 [k|e]]; [|apply agrees_refl].
    now apply istrict_obj.
  - apply istrict_obj. constructor.
Qed.

Definition iunknown1 (s : schema) (j : json) : Prop :=
  match s with
  | SCont _ _ cs' => unknown_ietf cs' j
  | SList _ _ _ cs' => exists es j0, j = JArr es /\ In j0 es /\ unknown_ietf cs' j0
  | _ => False
  end.
Definition irefuses (s : schema) : Prop := forall ov q j m, iunknown1 s j -> snd (iload_kid ov false s q j m) <> Ok tt.
Lemma irefuses_obj cs : Forall irefuses cs -> forall ov self p d m, unknown_ietf cs d ->
  snd (load_ietf ov false cs self p d m) <> Ok tt.
Proof.
  intros HP ov self p d m Hu.
  assert (Hu' : exists ms kj, d = JObj ms /\ In kj ms /\ metadata (fst kj) = false /\
            (node_for (local_name (fst kj)) cs = None /\ snd kj <> JArr [] \/
             exists s, node_for (local_name (fst kj)) cs = Some s /\ iunknown1 s (snd kj))).
  { inversion Hu as [? ms n j Hi Hp Hn|? ms n j i pr cs' Hi Hp Hn H|? ms n i keys od' cs' es j Hi Hp Hn H1 H2]; subst.
    - exists ms, (n, j). cbn [fst snd]. auto 10.
    - exists ms, (n, j). cbn [fst snd]. split; [reflexivity|]. split; [assumption|]. split; [assumption|]. right. eexists. split; [exact Hn|exact H].
    - eexists ms, (n, _). cbn [fst snd]. split; [reflexivity|]. split; [exact Hi|]. split; [assumption|]. right. eexists. split; [exact Hn|].
      cbn [iunknown1]. exists es, j. auto. }
  destruct Hu' as (ms & kj & -> & Hi & Hp & Hk). rewrite iload_obj. eapply each_refuses; [exact Hi|]. clear m. intros m.
  unfold iload_member. rewrite Hp.
  pose proof (find_node (local_name (fst kj)) cs) as Hf. destruct (find_kid (local_name (fst kj)) cs) as [[k s]|].
  - destruct Hf as [Hf Hn]. destruct Hk as [[Hk _]|(s' & Hk & H1)]; [congruence|]. assert (s' = s) by congruence. subst s'.
    rewrite Forall_forall in HP. apply (HP s); auto. eapply nth_error_In; eassumption.
  - destruct Hk as [[_ Hne]|(s' & Hk & H1)]; [|congruence]. unfold lost.
    destruct (snd kj) as [| | | | |[|? ?]|]; cbn; congruence.
Qed.
Lemma all_irefuse s : irefuses s.
Proof.
  induction s as [i lt d yt k|i ts yt|i pr cs IH|i keys od cs IH] using schema_ind'; intros ov q j m Hu; try contradiction.
  - cbn [iunknown1] in Hu. assert (exists ms, j = JObj ms) as [ms ->] by (inversion Hu; eauto).
    cbn [iload_kid]. apply then_refuses2. intros m1. now apply irefuses_obj.
  - destruct Hu as (es & j0 & -> & Hi & Hu). destruct es as [|e es]; [destruct Hi|]. cbn [iload_kid].
    set (f := fun elem m => andthen (if ov then wipe O top q m else (m, Ok tt)) (fun m =>
               match ietf_entry O uid top q keys cs elem m with
               | (m, Raise e) => (m, Raise e)
               | (m, Ok k) => load_ietf ov false cs (Some q) (q ++ [Ent k]) elem m
               end)).
    apply (each_refuses (fun f m => f m) _ (f j0)); [now apply in_map|]. intros m0. unfold f. apply then_refuses2. intros m1.
    destruct (ietf_entry O uid top q keys cs j0 m1) as [m2 [k|ex]]; [now apply irefuses_obj|discriminate].
Qed.

Theorem iunknown_raises ov d m : unknown_ietf top d ->
  exists m' e, load_ietf_json O uid top ov false d m = (m', Raise e) /\
    (forall m2, load_ietf_json O uid top ov true d m = (m2, Ok tt) -> e = AttributeError).
Proof.
  intros Hu.
  assert (H1 : snd (load_ietf_json O uid top ov false d m) <> Ok tt).
  { apply irefuses_obj; auto. apply Forall_forall. intros s _. apply all_irefuse. }
  assert (H2 : agrees (load_ietf_json O uid top ov true d m) (load_ietf_json O uid top ov false d m)).
  { apply istrict_obj. apply Forall_forall. intros s _. apply all_istrict. }
  destruct (load_ietf_json O uid top ov false d m) as [m' [[]|e]]; [cbn in H1; congruence|]. exists m', e. split; [reflexivity|].
  intros m2 H. rewrite H in H2. destruct H2 as [E|[m3 E]]; [discriminate|]. now injection E.
Qed.

(* ------------------------------------------------------------------ skipping *)
Definition ifits (s : schema) (j : json) : Prop :=
  match s, j with
  | SCont _ _ cs', JObj ms' => fitting cs' (JObj ms')
  | SList _ _ _ cs', JArr es => Forall (fitting cs') es
  | _, JObj _ => False
  | _, _ => True
  end.
Definition iskips (s : schema) : Prop := forall ov q j m, ifits s j ->
  iload_kid ov true s q j m = iload_kid ov false s q (iclean1 s j) m.

Lemma iskips_obj cs : Forall iskips cs -> forall ov self p d m, fitting cs d ->
  load_ietf ov true cs self p d m = load_ietf ov false cs self p (cleaned_ietf cs d) m.
Proof.
  intros HP ov self p d m Hfit. inversion Hfit as [? ms Hms|? j Hj]; subst.
  - clear Hfit. rewrite icleaned_obj, !iload_obj. revert m. induction Hms as [|kj ms Hkj Hms IH]; intros m; [reflexivity|].
    cbn [flat_map]. rewrite for_each_app. cbn [for_each].
    assert (E : iload_member ov true cs p kj m = for_each (iload_member ov false cs p) (iclean_member cs kj) m).
    { unfold iclean_member. unfold iload_member at 1. destruct (metadata (fst kj)) eqn:Em.
      - cbn [for_each]. unfold iload_member. rewrite Em. reflexivity.
      - assert (Hfm : fitting_member (node_for (local_name (fst kj)) cs) (snd kj)) by (destruct Hkj; [congruence|assumption]).
        clear Hkj. pose proof (find_node (local_name (fst kj)) cs) as Hf.
        destruct (find_kid (local_name (fst kj)) cs) as [[k s]|] eqn:Ef.
        + destruct Hf as [Hf Hn]. rewrite Hf in Hfm. rewrite Hf. cbn [for_each]. unfold iload_member. cbn [fst snd]. rewrite Em, Ef.
          rewrite Forall_forall in HP. rewrite (HP s (nth_error_In _ _ Hn)).
          * now destruct (iload_kid ov false s (p ++ [Kid k]) (iclean1 s (snd kj)) m) as [m1 [[]|e]].
          * clear -Hfm. destruct kj as [n j]. cbn [snd] in *. unfold ifits.
            destruct s; destruct j; auto; inversion Hfm; subst; auto;
              match goal with H : forall _, _ <> _ |- _ => now destruct (H _ eq_refl) end.
        + rewrite Hf in Hfm. rewrite Hf. cbn [for_each]. unfold lost. inversion Hfm as [j Hl Ej| | | | |]; subst.
          destruct (snd kj); try reflexivity. now rewrite (Hl _ eq_refl). }
    rewrite E. destruct (for_each _ (iclean_member cs kj) m) as [m1 [[]|e]]; cbn [andthen]; [apply IH|reflexivity].
  - destruct d; try reflexivity. now destruct (Hj ms).
Qed.

Lemma cleaned_assoc cs s k ms : nth_error cs k = Some s -> named_ok cs -> (exists i lt d yt key, s = SLeaf i lt d yt key) ->
  local_name (e_yang (s_info s)) = e_yang (s_info s) -> metadata (e_yang (s_info s)) = false ->
  assoc (e_yang (s_info s)) (flat_map (iclean_member cs) ms) = assoc (e_yang (s_info s)) ms.
Proof.
  intros Hk Hn Hl Hloc Hmd.
  assert (Hf : node_for (e_yang (s_info s)) cs = Some s).
  { pose proof (find_node (e_yang (s_info s)) cs) as H. rewrite (find_own cs k s Hn Hk) in H. tauto. }
  induction ms as [|[n j] ms IH]; [reflexivity|]. cbn [flat_map assoc]. destruct (str_eqb (e_yang (s_info s)) n) eqn:E.
  - apply str_eqb_eq in E. subst n. unfold iclean_member at 1. cbn [fst snd]. rewrite Hmd, Hloc, Hf.
    cbn [app assoc]. rewrite str_eqb_refl. destruct Hl as (? & ? & ? & ? & ? & ->). reflexivity.
  - unfold iclean_member at 1. cbn [fst snd]. destruct (metadata n); [cbn [app assoc]; rewrite E; exact IH|].
    destruct (node_for (local_name n) cs); [cbn [app assoc]; rewrite E; exact IH|exact IH].
Qed.

Context (Hnm : python_names top) (Hkp : keys_plain top).

Lemma entry_cleaned q0 i keys od cs q elem m : schema_at top q0 = Some (SList i keys od cs) ->
  ietf_entry O uid top q keys cs (cleaned_ietf cs elem) m = ietf_entry O uid top q keys cs elem m.
Proof.
  intros Hq0.
  assert (E : elem_keys cs keys (cleaned_ietf cs elem) = elem_keys cs keys elem).
  { unfold elem_keys. assert (Hin : forall k, In k keys -> In k keys) by auto. revert Hin.
    generalize keys at 1 3 4 as ks. induction ks as [|k ks IH]; intros Hin; [reflexivity|]. rewrite !map_res_cons.
    rewrite IH by (intros; apply Hin; now right). f_equal. unfold yang_key.
    destruct (kid_index k cs) as [n|] eqn:Ek; [|reflexivity]. destruct (nth_error cs n) as [s|] eqn:En; [|reflexivity]. cbn [bind].
    f_equal. destruct (Hkp _ _ _ _ _ k n s Hq0 (Hin k (or_introl eq_refl)) Ek En) as (Hl & Hloc & Hmd).
    destruct elem as [| | | | | |ms]; try reflexivity. rewrite icleaned_obj. cbn [elem_get].
    rewrite (cleaned_assoc cs s n ms En); auto.
    exact (Hnm _ _ _ _ (schema_entry top q0 i keys od cs VNone Hq0)). }
  unfold ietf_entry. rewrite E. reflexivity.
Qed.

Lemma all_iskip s : forall q0, schema_at top q0 = Some s -> iskips s.
Proof.
  induction s as [i lt d yt k|i ts yt|i pr cs IH|i keys od cs IH] using schema_ind'; intros q0 Hq ov q j m Hfit.
  - destruct j as [| | | | |l|]; try reflexivity. destruct Hfit.
  - destruct j as [| | | | |l|]; try reflexivity. destruct Hfit.
  - assert (HP : Forall iskips cs).
    { apply Forall_forall. intros s Hi. apply In_nth_error in Hi as [n Hn]. rewrite Forall_forall in IH.
      apply (IH s (nth_error_In _ _ Hn) (q0 ++ [Kid n])). now rewrite (schema_kid top q0 i pr cs). }
    destruct j as [| | | | |l|ms]; try reflexivity. unfold iclean1. rewrite icleaned_obj. unfold iload_kid.
    destruct (if pr then _ else _) as [m1 [[]|e]]; cbn [andthen]; [|reflexivity]. rewrite <- icleaned_obj.
    now apply iskips_obj.
  - pose proof (schema_entry top q0 i keys od cs VNone Hq) as Hq'.
    assert (HP : Forall iskips cs).
    { apply Forall_forall. intros s Hi. apply In_nth_error in Hi as [n Hn]. rewrite Forall_forall in IH.
      apply (IH s (nth_error_In _ _ Hn) ((q0 ++ [Ent VNone]) ++ [Kid n])). now rewrite (schema_kid top _ plain false cs). }
    destruct j as [| | | | |l|]; try reflexivity; [|destruct Hfit]. cbn [ifits] in Hfit.
    destruct l as [|j l]; [reflexivity|].
    set (f := fun skip elem m => andthen (if ov then wipe O top q m else (m, Ok tt)) (fun m =>
               match ietf_entry O uid top q keys cs elem m with
               | (m, Raise e) => (m, Raise e)
               | (m, Ok k) => load_ietf ov skip cs (Some q) (q ++ [Ent k]) elem m
               end)).
    change (iload_kid ov true (SList i keys od cs) q (JArr (j :: l)) m) with (for_each (fun f m => f m) (map (f true) (j :: l)) m).
    change (iload_kid ov false (SList i keys od cs) q (iclean1 (SList i keys od cs) (JArr (j :: l))) m)
      with (for_each (fun f m => f m) (map (f false) (map (cleaned_ietf cs) (j :: l))) m).
    revert m. induction Hfit as [|a l' Ha Hl' IHl]; intros m; [reflexivity|]. cbn [map for_each].
    assert (E : f true a m = f false (cleaned_ietf cs a) m).
    { unfold f. destruct (if ov then wipe O top q m else (m, Ok tt)) as [m1 [[]|e]]; cbn [andthen]; [|reflexivity].
      rewrite (entry_cleaned q0 i keys od cs q a m1 Hq). destruct (ietf_entry O uid top q keys cs a m1) as [m2 [k|e]]; [|reflexivity].
      now apply iskips_obj. }
    rewrite E. destruct (f false (cleaned_ietf cs a) m) as [m1 [[]|e]]; cbn [andthen]; [apply IHl|reflexivity].
Qed.

Theorem iskip_unknown ov d m : fitting top d ->
  load_ietf_json O uid top ov true d m = load_ietf_json O uid top ov false (cleaned_ietf top d) m.
Proof.
  intros Hf. apply iskips_obj; auto. apply Forall_forall. intros s Hi. apply In_nth_error in Hi as [n Hn].
  apply (all_iskip s [Kid n]). change [Kid n] with (([] : list pstep) ++ [Kid n]). now rewrite (schema_kid top [] plain false top).
Qed.
End U.
