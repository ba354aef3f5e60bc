(** Loading as a series of operations: the default JSON format. *)
From Coq Require Import Lia.
From Verif Require Import PyStr PyStr_facts PyVal Restricted Spec_Lists TypedList YList SafeName
  Tree Spec_Tree Tree_proofs Tree_past Serialise Load_proofs Spec_Loading Loading_proofs.

Section J.
Context (O : oracle) (uid : list (pyval * obj) -> str) (top : list schema).
Notation run_op := (run_op O top).
Notation never := (fun (_ : list pstep) (_ : op) (_ : list (list pstep * op)) => False).
Notation does := (does O top never).
Notation asks := (asks O j_part j_elem j_whole false).
Notation load := (load O uid top).
Notation load_kid := (load_kid O uid top).

Notation want := (want O uid j_part j_elem j_whole false).
Notation by_uid := (by_uid uid).

Lemma in_order_in {A} (es : list (res (option Z) * A)) : forall placed rest l, in_order es placed rest = Ok l ->
  forall x, In x l -> In x (map snd placed) \/ In x rest \/ In x (map snd es).
Proof.
  assert (Hput : forall z (x : A) l y, In y (map snd (put_order z x l)) -> y = x \/ In y (map snd l)).
  { intros z x l. induction l as [|[z' x'] l IH]; cbn; intros y; [intros [<-|[]]; auto|].
    destruct (z =? z')%Z; [cbn; intros [<-|H]; auto|]. destruct (z <? z')%Z; cbn; [intros [<-|[<-|H]]; auto|].
    intros [<-|H]; auto. destruct (IH _ H); auto. }
  induction es as [|[o x] es IH]; cbn; intros placed rest l H y Hy.
  - injection H as <-. apply in_app_iff in Hy as [Hy|Hy]; auto.
  - destruct o as [[z|]|e]; cbn in H; [| |discriminate].
    + destruct (IH _ _ _ H y Hy) as [G|[G|G]]; auto. destruct (Hput _ _ _ _ G) as [->|G']; auto.
    + destruct (IH _ _ _ H y Hy) as [G|[[->|G]|G]]; auto.
Qed.

Definition kid_does (s : schema) : Prop := forall cs d n j, j_part cs d n s j -> forall ov skip at_ m,
  does (want at_ ov cs d) m (load_kid ov skip s (at_ ++ [Kid n]) j m).

Lemma obj_does cs ms : Forall kid_does cs -> forall ov skip strip self at_ m,
  does (want at_ ov cs (JObj ms)) m (load ov skip strip cs self at_ (JObj ms) m).
Proof.
  intros HP ov skip strip self at_ m. rewrite load_obj. apply does_each; [intros ? ? ? ? []|]. intros [key j] m0 Hin.
  unfold load_member. cbn [fst snd]. destruct (strip && _); [apply does_ok|].
  destruct (find_kid key cs) as [[n s]|] eqn:Ef; [|destruct skip; [apply does_ok|apply does_raise]].
  pose proof (find_spelt _ _ _ _ Ef) as Hsp. rewrite Forall_forall in HP. apply (HP s); [|now exists ms, key].
  destruct Hsp as [Hn _]. eapply nth_error_In; eauto.
Qed.

Lemma all_do s : kid_does s.
Proof.
  induction s as [i lt d yt k|i ts yt|i pr cs IH|i keys od cs IH] using schema_ind'; intros cs0 d0 n j Hp ov skip at_ m; cbn [Load_proofs.load_kid].
  - apply does_op. exists [Kid n]. split; [reflexivity|]. split; [|apply no_list; discriminate]. eapply AVals; eauto; exact I.
  - destruct ov.
    + apply does_op. exists [Kid n]. split; [reflexivity|]. split; [|apply no_list; discriminate]. eapply AVals; eauto; exact I.
    + assert (G : forall lo m, want at_ false cs0 d0 m (at_ ++ [Kid n]) (ALeafList lo)).
      { intros lo m1. exists [Kid n]. split; [reflexivity|]. split; [|apply no_list; discriminate]. eapply AVals; eauto; exact I. }
      destruct j; try apply does_raise; cbn [load_members]; (apply does_then; [intros ? ? ? ? []| |]).
      1,3,5: unfold append_missing; apply does_each; [intros ? ? ? ? []|]; intros a m1 _; destruct (py_in _ _); [apply does_ok|]; now apply does_op.
      all: intros m1; apply does_each; [intros ? ? ? ? []|]; intros a m2 _; try (destruct (py_in _ _); [apply does_ok|]; now apply does_op).
      destruct a; try apply does_raise. destruct (infix _ _); [apply does_ok|]. now apply does_op.
  - apply does_then; [intros ? ? ? ? []| |intros m1; apply does_then; [intros ? ? ? ? []| |intros m2]].
    + destruct pr; [|apply does_ok]. apply does_op. exists [Kid n]. split; [reflexivity|]. split; [|apply no_list; discriminate]. eapply AFlag; eauto.
    + destruct ov; [|apply does_ok]. unfold unset_kids. apply does_each; [intros ? ? ? ? []|]. intros a m2 _. apply does_op.
      exists [Kid n; Kid a]. rewrite <- app_assoc. split; [reflexivity|]. split; [|apply no_list; discriminate]. eapply AClear; eauto.
    + assert (Hd : (exists ms, j = JObj ms) \/ no_object j) by (destruct j; [right; intros ms; discriminate ..|left; eauto] || idtac).
      destruct Hd as [(ms & ->)|Hno].
      * eapply does_mono; [|apply obj_does; exact IH]. intros m3 p o. intros H. eapply want_deeper; [exact Hp|]. now rewrite andb_false_r.
      * replace (load false skip false cs (Some (at_ ++ [Kid n])) (at_ ++ [Kid n]) j m2) with (run_op m2 (at_ ++ [Kid n]) (ASet (Priv false) (AVal (jval j)))).
        2:{ destruct j; try reflexivity. exfalso. eapply Hno; eauto. }
        apply does_op. exists [Kid n]. split; [reflexivity|]. split; [|apply no_list; discriminate]. eapply AWhole; eauto.
  - destruct j as [| | | | | |es]; try apply does_raise.
    set (acts := map _ es).
    assert (Hact : forall act, In act (map snd acts) -> forall m, does (want at_ ov cs0 d0) m (act m)).
    { intros act Hin m1. unfold acts in Hin. rewrite map_map in Hin. apply in_map_iff in Hin as ([t e] & <- & Hin). cbn [fst snd].
      assert (He : j_elem (SList i keys od cs) (JObj es) (VStr t) e) by (exists es, t; auto).
      unfold load_entry. apply does_then; [intros ? ? ? ? []| |].
      - destruct (mhas _ _); [apply does_ok|]. apply does_op. exists [Kid n]. split; [reflexivity|]. split.
        + eapply AAdd; eauto; [exact I|]. intros _ k' ->. eauto.
        + intros u yo E _. now injection E as <- _.
      - intros m2. destruct (mhas _ _); [|apply does_raise].
        assert (Hd : (exists ms, e = JObj ms) \/ no_object e) by (destruct e; [right; intros ms; discriminate ..|left; eauto] || idtac).
        destruct Hd as [(ms & ->)|Hno].
        + eapply does_mono; [|apply obj_does; exact IH]. intros m3 p o. rewrite <- app_assoc. intros H. eapply want_entry; [exact Hp|exact He|]. now rewrite andb_false_r.
        + replace (load false skip od cs (Some (at_ ++ [Kid n])) ((at_ ++ [Kid n]) ++ [Ent (VStr t)]) e m2) with (run_op m2 (at_ ++ [Kid n]) (ASet (Priv false) (AVal (jval e)))).
          2:{ destruct e; try reflexivity. exfalso. eapply Hno; eauto. }
          apply does_op. exists [Kid n]. split; [reflexivity|]. split; [|apply no_list; discriminate]. eapply AWhole; eauto.
          right. eauto. }
    assert (Htodo : forall todo, (if od then in_order acts [] [] else Ok (map snd acts)) = Ok todo -> forall act, In act todo -> In act (map snd acts)).
    { intros todo Ht act Hin. destruct od; [|now injection Ht as <-]. destruct (in_order_in _ _ _ _ Ht _ Hin) as [[]|[[]|G]]; exact G. }
    destruct (if od then in_order acts [] [] else Ok (map snd acts)) as [todo|e]; [|apply does_raise].
    apply does_then; [intros ? ? ? ? []| |intros m1; apply does_then; [intros ? ? ? ? []| |intros m2]].
    + apply does_each; [intros ? ? ? ? []|]. intros act m1 Hin. apply Hact. now apply (Htodo todo).
    + destruct ov; [|apply does_ok]. generalize (map fst (entries m1 (at_ ++ [Kid n]))). intros ks. revert m1.
      induction ks as [|k ks IHk]; intros m1; cbn [prune]; [apply does_ok|]. destruct (match k with VStr _ => _ | _ => _ end); [apply IHk|].
      apply does_then; [intros ? ? ? ? []| |].
      * apply does_op. exists [Kid n]. split; [reflexivity|]. split; [eapply ADelete; eauto|]. intros u yo E Ha. injection E as _ <-. contradiction.
      * intros m2. destruct ks; [apply does_ok|apply does_raise].
    + destruct es; [|apply does_ok]. apply does_op. exists [Kid n]. split; [reflexivity|]. split; [|apply no_list; discriminate]. eapply AWhole; eauto. now left.
Qed.

Theorem json_does ov skip d m : does (fun m p o => asks ov top d p o /\ by_uid m p o) m (load_json O uid top ov skip d m).
Proof.
  unfold load_json. destruct d; try apply does_raise.
  eapply does_mono; [|apply obj_does; apply Forall_forall; intros; apply all_do]. intros m0 p o (p1 & -> & H). exact H.
Qed.
End J.
