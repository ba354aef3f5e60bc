(** Proofs about the extensions of data nodes. *)
From Verif Require Import PyStr PyStr_facts PyVal Restricted SafeName Extensions Spec_Extensions.

Lemma dget_put {A} k k' (a : A) d : dget k (dput k' a d) = if str_eqb k k' then Some a else dget k d.
Proof.
  induction d as [|[k2 b] d IH]; cbn; [reflexivity|]. destruct (str_eqb k' k2) eqn:E.
  - apply str_eqb_eq in E. subst k2. cbn. now destruct (str_eqb k k').
  - cbn. rewrite IH. destruct (str_eqb k k2) eqn:E2; [|reflexivity]. apply str_eqb_eq in E2. subst k2. destruct (str_eqb k k') eqn:E3; [|reflexivity].
    apply str_eqb_eq in E3. subst. rewrite str_eqb_refl in E. discriminate.
Qed.
Lemma str_dec (a b : str) : {a = b} + {a <> b}.
Proof. destruct (str_eqb a b) eqn:E; [left; now apply str_eqb_eq|right; intros ->; rewrite str_eqb_refl in E; discriminate]. Qed.
Lemma eqb_neq (a b : str) : a <> b -> str_eqb a b = false.
Proof. intros H. destruct (str_eqb a b) eqn:E; [apply str_eqb_eq in E; contradiction|reflexivity]. Qed.
Lemma in_str (x : str) l : str_in x l = true <-> In x l.
Proof. unfold str_in. rewrite existsb_exists. split; [intros (y & H & E); apply str_eqb_eq in E; now subst|intros H; exists x; split; [exact H|apply str_eqb_refl]]. Qed.

Section E.
Context (ints : list str) (Hints : forall m, In m ints -> length m <> 1%nat).

Definition get2 (d : exts) (m n : str) : option (option str) := match dget m d with Some e => dget n e | None => None end.
Lemma put_full {A} k (a : A) d : dput k a d <> [].
Proof. destruct d as [|[k' b] d]; cbn; [discriminate|]. destruct (str_eqb k k'); discriminate. Qed.
(** One substatement. *)
Lemma step_ok d s : exists d', ext_step ints d s = Ok d' /\
  match sb_kw s with
  | Ext m n => if str_in m ints then (forall m' n', get2 d' m' n' = if (str_eqb m' m && str_eqb n' n)%bool then Some (sb_arg s) else get2 d m' n') /\ d' <> [] else d' = d
  | Word _ _ => d' = d
  end.
Proof.
  destruct s as [[c w|m n] a]; unfold ext_step; cbn [sb_kw sb_arg kw_at nth_error bind].
  - destruct (str_in [c] ints) eqn:E; [apply in_str in E; destruct (Hints _ E eq_refl)|]. eauto.
  - destruct (str_in m ints); [|eauto]. eexists. split; [reflexivity|]. split; [|apply put_full]. intros m' n'. unfold get2. rewrite dget_put.
    destruct (str_eqb m' m) eqn:E; cbn [andb].
    + apply str_eqb_eq in E. subst m'. rewrite dget_put. destruct (str_eqb n' n); [reflexivity|]. destruct (dget m d) as [e|] eqn:Ed; [now rewrite Ed|]. rewrite dget_put, str_eqb_refl. reflexivity.
    + destruct (dget m d); [reflexivity|]. now rewrite dget_put, E.
Qed.
Definition given (ss : list sub) (m n : str) (a : option str) : Prop := exists s1 s2, ss = s1 ++ {| sb_kw := Ext m n; sb_arg := a |} :: s2 /\ forall b, ~ In {| sb_kw := Ext m n; sb_arg := b |} s2.
Lemma given_cons s ss m n a : given (s :: ss) m n a <-> given ss m n a \/ s = {| sb_kw := Ext m n; sb_arg := a |} /\ forall b, ~ In {| sb_kw := Ext m n; sb_arg := b |} ss.
Proof.
  split.
  - intros ([|s0 s1] & s2 & E & H); injection E as -> ->; [now right|left; now exists s1, s2].
  - intros [(s1 & s2 & -> & H)|[-> H]]; [now exists (s :: s1), s2|now exists [], ss].
Qed.
Lemma loop_ok ss : forall d, exists d', ext_loop ints d ss = Ok d' /\
  (forall m n a, In m ints -> given ss m n a -> get2 d' m n = Some a) /\
  (forall m n, ~ In m ints \/ (forall b, ~ In {| sb_kw := Ext m n; sb_arg := b |} ss) -> get2 d' m n = get2 d m n) /\
  (d' = [] <-> d = [] /\ says_nothing ints ss).
Proof.
  induction ss as [|s ss IH]; intros d.
  { exists d. split; [reflexivity|]. split; [intros m n a _ ([|? ?] & ? & E & _); discriminate|]. split; [reflexivity|]. split; [intros ->; split; [reflexivity|intros m n a []]|now intros [-> _]]. }
  destruct (step_ok d s) as (d1 & E1 & H1). destruct (IH d1) as (d' & E2 & H2 & H3 & H4). exists d'. cbn [ext_loop]. rewrite E1. cbn [bind]. split; [exact E2|].
  assert (Hsame : forall m n, (~ In m ints \/ forall a, s <> {| sb_kw := Ext m n; sb_arg := a |}) -> get2 d1 m n = get2 d m n).
  { intros m n Hm. destruct s as [[c w|m0 n0] a0]; cbn [sb_kw sb_arg] in H1; [now subst|]. destruct (str_in m0 ints) eqn:Em; [|now subst]. apply in_str in Em. destruct H1 as [H1 _]. rewrite H1.
    destruct (str_eqb m m0) eqn:E3; [|reflexivity]. apply str_eqb_eq in E3. subst m0. destruct (str_eqb n n0) eqn:E4; [|reflexivity]. apply str_eqb_eq in E4. subst n0. destruct Hm as [Hm|Hm]; [contradiction|destruct (Hm a0); reflexivity]. }
  split; [|split].
  - intros m n a Hm Hg. apply given_cons in Hg. destruct Hg as [Hg|[-> Hn]]; [now apply H2|]. rewrite H3 by (now right). cbn [sb_kw sb_arg] in H1. apply in_str in Hm. rewrite Hm in H1. destruct H1 as [H1 _]. now rewrite H1, !str_eqb_refl.
  - intros m n [Hm|Hm]; [rewrite H3 by (now left); apply Hsame; now left|]. rewrite H3 by (right; intros b Hb; apply (Hm b); now right). apply Hsame. right. intros a ->. apply (Hm a). now left.
  - rewrite H4. destruct s as [[c w|m0 n0] a0]; cbn [sb_kw sb_arg] in H1.
    + subst d1. split; intros [-> H]; (split; [reflexivity|]).
      * intros m n a [E|Hi]; [discriminate|]. exact (H m n a Hi).
      * intros m n a Hi. apply (H m n a). now right.
    + destruct (str_in m0 ints) eqn:Em.
      * apply in_str in Em. split; [intros [-> _]; now destruct H1|]. intros [_ H]. destruct (H m0 n0 a0 (or_introl eq_refl) Em).
      * assert (Hm0 : ~ In m0 ints) by (rewrite <- in_str, Em; discriminate). subst d1. split; intros [-> H]; (split; [reflexivity|]).
        -- intros m n a [E|Hi]; [injection E as <- _ _; exact Hm0|]. exact (H m n a Hi).
        -- intros m n a Hi. apply (H m n a). now right.
Qed.
Lemma given_or ss m n : (exists a, given ss m n a) \/ forall b, ~ In {| sb_kw := Ext m n; sb_arg := b |} ss.
Proof.
  induction ss as [|s ss [[a IH]|IH]]; [right; intros b []|left; exists a; apply given_cons; now left|].
  destruct s as [[c w|m0 n0] a0]; [right; intros b [E|H]; [discriminate|exact (IH b H)]|]. destruct (str_dec m0 m) as [->|Hm]; [destruct (str_dec n0 n) as [->|Hn]|].
  - left. exists a0. apply given_cons. right. now split.
  - right. intros b [E|H]; [injection E as E _; contradiction|exact (IH b H)].
  - right. intros b [E|H]; [injection E as E _ _; contradiction|exact (IH b H)].
Qed.
Theorem arg_ok ss : exists x, ext_arg ints ss = Ok x /\ (forall m n a, found x m n = Some a <-> says ints ss m n a) /\ (x = None <-> says_nothing ints ss).
Proof.
  destruct (loop_ok ss []) as (d & E & H1 & H2 & H3). unfold ext_arg. rewrite E. cbn [bind]. eexists. split; [reflexivity|].
  assert (Hf : forall m n, found (match d with [] => None | _ => Some d end) m n = get2 d m n) by (intros m n; destruct d; reflexivity). split.
  - intros m n a. rewrite Hf. split.
    + intros Hg. destruct (in_dec str_dec m ints) as [Hm|Hm]; [|rewrite H2 in Hg by (now left); discriminate]. split; [exact Hm|].
      destruct (given_or ss m n) as [[b Hb]|Hn]; [rewrite (H1 m n b Hm Hb) in Hg; injection Hg as <-; exact Hb|rewrite H2 in Hg by (now right); discriminate].
    + intros [Hm Hg]. now apply H1.
  - destruct d as [|x d]; split; try discriminate.
    + intros _. now apply H3.
    + reflexivity.
    + intros H. exfalso. assert (x :: d = []) by (apply H3; now split). discriminate.
Qed.

(** The classes. *)
Context (po : bool).
Notation gather := (gather ints po).
Notation gather_all := (gather_all ints po).
Fixpoint gather_cases (cs : list (list ynode)) : res (list elem) :=
  match cs with [] => Ok [] | c :: cs' => e <- gather_all c ;; r <- gather_cases cs' ;; Ok (e ++ r) end.
Lemma all_eq l : (fix all l := match l with [] => Ok [] | s :: l' => e <- gather s ;; r <- all l' ;; Ok (e ++ r) end) l = gather_all l.
Proof. induction l as [|s l IH]; [reflexivity|]. cbn [Extensions.gather_all]. now rewrite <- IH. Qed.
Lemma gather_choice cases : gather (NChoice cases) = gather_cases cases.
Proof. cbn [Extensions.gather]. induction cases as [|c cs IH]; [reflexivity|]. cbn [gather_cases]. rewrite <- IH, <- all_eq. reflexivity. Qed.
Lemma gather_cont n ss pr ks : gather (NCont n ss pr ks) =
  (x <- ext_arg ints ss ;; match ks with [] => Ok (if (po && pr)%bool then [Elem (safe_name n) x (CCont [])] else []) | _ => es <- gather_all ks ;; Ok [Elem (safe_name n) x (CCont es)] end).
Proof. cbn [Extensions.gather]. destruct ks as [|k ks]; [reflexivity|]. rewrite <- all_eq. reflexivity. Qed.
Lemma gather_list n ss ks : gather (NList n ss ks) =
  (x <- ext_arg ints ss ;; match ks with [] => Ok [] | _ => es <- gather_all ks ;; Ok [Elem (safe_name n) x (CList es)] end).
Proof. cbn [Extensions.gather]. destruct ks as [|k ks]; [reflexivity|]. rewrite <- all_eq. reflexivity. Qed.

Fixpoint ynode_ind' (P : ynode -> Prop) (H1 : forall n ss, P (NLeaf n ss)) (H2 : forall n ss pr ks, Forall P ks -> P (NCont n ss pr ks))
  (H3 : forall n ss ks, Forall P ks -> P (NList n ss ks)) (H4 : forall cs, Forall (Forall P) cs -> P (NChoice cs)) (s : ynode) {struct s} : P s :=
  let all := fix all l : Forall P l := match l with [] => Forall_nil _ | s :: l' => Forall_cons s (ynode_ind' P H1 H2 H3 H4 s) (all l') end in
  match s with
  | NLeaf n ss => H1 n ss
  | NCont n ss pr ks => H2 n ss pr ks (all ks)
  | NList n ss ks => H3 n ss ks (all ks)
  | NChoice cs => H4 cs ((fix alls l : Forall (Forall P) l := match l with [] => Forall_nil _ | c :: l' => Forall_cons c (all c) (alls l') end) cs)
  end.

Lemma all_made l : Forall (fun s => exists es, gather s = Ok es) l -> exists es, gather_all l = Ok es.
Proof.
  induction 1 as [|s l (e & He) _ (r & Hr)]; [now exists []|]. exists (e ++ r). cbn [Extensions.gather_all]. rewrite He. cbn [bind]. now rewrite Hr.
Qed.
Lemma made s : exists es, gather s = Ok es.
Proof.
  induction s as [n ss|n ss pr ks IH|n ss ks IH|cs IH] using ynode_ind'.
  - destruct (arg_ok ss) as (x & E & _). cbn [Extensions.gather]. rewrite E. cbn [bind]. eauto.
  - rewrite gather_cont. destruct (arg_ok ss) as (x & E & _). rewrite E. cbn [bind]. destruct ks as [|k ks]; [eauto|]. destruct (all_made _ IH) as (es & ->). cbn [bind]. eauto.
  - rewrite gather_list. destruct (arg_ok ss) as (x & E & _). rewrite E. cbn [bind]. destruct ks as [|k ks]; [eauto|]. destruct (all_made _ IH) as (es & ->). cbn [bind]. eauto.
  - rewrite gather_choice. induction IH as [|c cs Hc _ (r & Hr)]; [now exists []|]. destruct (all_made _ Hc) as (e & He). exists (e ++ r). cbn [gather_cases]. rewrite He. cbn [bind]. now rewrite Hr.
Qed.
Lemma mades l : exists es, gather_all l = Ok es.
Proof. apply all_made. apply Forall_forall. intros s _. apply made. Qed.

Lemma all_in l es s : gather_all l = Ok es -> In s l -> exists e, gather s = Ok e /\ incl e es.
Proof.
  revert es. induction l as [|s0 l IH]; intros es H [].
  - subst s0. cbn [Extensions.gather_all] in H. destruct (gather s) as [e|]; [|discriminate]. cbn [bind] in H. destruct (gather_all l) as [r|]; [|discriminate]. injection H as <-. exists e. split; [reflexivity|]. apply incl_appl, incl_refl.
  - cbn [Extensions.gather_all] in H. destruct (gather s0) as [e|]; [|discriminate]. cbn [bind] in H. destruct (gather_all l) as [r|]; [|discriminate]. injection H as <-. destruct (IH r eq_refl H0) as (e' & E & Hi). exists e'. split; [exact E|]. apply incl_appr, Hi.
Qed.
Lemma cases_in cs es c : gather_cases cs = Ok es -> In c cs -> exists e, gather_all c = Ok e /\ incl e es.
Proof.
  revert es. induction cs as [|c0 cs IH]; intros es H [].
  - subst c0. cbn [gather_cases] in H. destruct (gather_all c) as [e|]; [|discriminate]. cbn [bind] in H. destruct (gather_cases cs) as [r|]; [|discriminate]. injection H as <-. exists e. split; [reflexivity|]. apply incl_appl, incl_refl.
  - cbn [gather_cases] in H. destruct (gather_all c0) as [e|]; [|discriminate]. cbn [bind] in H. destruct (gather_cases cs) as [r|]; [|discriminate]. injection H as <-. destruct (IH r eq_refl H0) as (e' & E & Hi). exists e'. split; [exact E|]. apply incl_appr, Hi.
Qed.
Lemma within_in l s : within l s -> forall es, gather_all l = Ok es -> exists e, gather s = Ok e /\ incl e es.
Proof.
  induction 1 as [l s Hi|l cases c s Hi Hc _ IH]; intros es H; [now apply (all_in l)|].
  destruct (all_in _ _ _ H Hi) as (e & E & He). rewrite gather_choice in E. destruct (cases_in _ _ _ E Hc) as (e' & E' & He'). destruct (IH e' E') as (e2 & E2 & H2). exists e2. split; [exact E2|]. intros z Hz. auto.
Qed.

(** Names of elements are among the names of the statements, in order. *)
Inductive Sub {A} : list A -> list A -> Prop := SubNil : Sub [] [] | SubKeep a l l' : Sub l l' -> Sub (a :: l) (a :: l') | SubDrop a l l' : Sub l l' -> Sub l (a :: l').
Lemma sub_refl {A} (l : list A) : Sub l l.
Proof. induction l; now constructor. Qed.
Lemma sub_app {A} (a a' b b' : list A) : Sub a a' -> Sub b b' -> Sub (a ++ b) (a' ++ b').
Proof. induction 1; intros; cbn; [assumption|constructor; auto|apply SubDrop; auto]. Qed.
Lemma sub_in {A} (l l' : list A) : Sub l l' -> incl l l'.
Proof. induction 1; intros z Hz; [exact Hz|destruct Hz as [->|Hz]; [now left|right; auto]|right; auto]. Qed.
Lemma sub_nodup {A} (l l' : list A) : Sub l l' -> NoDup l' -> NoDup l.
Proof. induction 1 as [|a l l' H IH|a l l' H IH]; intros Hn; [constructor|inversion Hn; subst; constructor; [intros Hi; apply (sub_in _ _ H) in Hi; contradiction|auto]|inversion Hn; auto]. Qed.
Definition subnames (s : ynode) : Prop := forall es, gather s = Ok es -> Sub (map el_py es) (map safe_name (data_names s)).
Lemma subs_all l : Forall subnames l -> forall es, gather_all l = Ok es -> Sub (map el_py es) (map safe_name (flat_map data_names l)).
Proof.
  induction 1 as [|s l Hs _ IH]; intros es H; [injection H as <-; constructor|]. cbn [Extensions.gather_all] in H. destruct (gather s) as [e|] eqn:E; [|discriminate]. cbn [bind] in H. destruct (gather_all l) as [r|] eqn:Er; [|discriminate]. injection H as <-.
  cbn [flat_map]. rewrite !map_app. apply sub_app; auto.
Qed.
Lemma one_name (n : str) x c : Sub (map el_py [Elem (safe_name n) x c]) (map safe_name [n]).
Proof. apply sub_refl. Qed.
Lemma choice_names cs : data_names (NChoice cs) = flat_map (flat_map data_names) cs.
Proof. cbn [data_names]. induction cs as [|c cs IH]; [reflexivity|]. cbn [flat_map]. now rewrite IH. Qed.
Lemma subs s : subnames s.
Proof.
  induction s as [n ss|n ss pr ks _|n ss ks _|cs IH] using ynode_ind'; intros es H.
  - cbn [Extensions.gather] in H. destruct (ext_arg ints ss) as [x|]; [|discriminate]. injection H as <-. apply one_name.
  - rewrite gather_cont in H. destruct (ext_arg ints ss) as [x|]; [|discriminate]. cbn [bind] in H. destruct ks as [|k ks]; [destruct (po && pr)%bool; injection H as <-; [apply one_name|repeat constructor]|].
    destruct (gather_all (k :: ks)) as [es'|]; [|discriminate]. injection H as <-. apply one_name.
  - rewrite gather_list in H. destruct (ext_arg ints ss) as [x|]; [|discriminate]. cbn [bind] in H. destruct ks as [|k ks]; [injection H as <-; repeat constructor|].
    destruct (gather_all (k :: ks)) as [es'|]; [|discriminate]. injection H as <-. apply one_name.
  - rewrite choice_names. rewrite gather_choice in H. revert es H. induction IH as [|c cs Hc _ IHc]; intros es H; [injection H as <-; constructor|].
    cbn [gather_cases] in H. destruct (gather_all c) as [e|] eqn:E; [|discriminate]. cbn [bind] in H. destruct (gather_cases cs) as [r|]; [|discriminate]. injection H as <-. cbn [flat_map]. rewrite !map_app. apply sub_app; [|auto]. now apply subs_all.
Qed.
Lemma named_in es e : NoDup (map el_py es) -> In e es -> named (el_py e) es = Some e.
Proof.
  induction es as [|e0 es IH]; intros Hn []; cbn [map] in Hn; inversion Hn as [|? ? H1 H2]; subst; cbn [named].
  - destruct (named (el_py e) es) as [x|] eqn:E; [|now rewrite str_eqb_refl]. exfalso. apply H1. clear - E. induction es as [|a es IH]; [discriminate|]. cbn [named] in E. destruct (named (el_py e) es) as [y|]; [right; auto|].
    destruct (str_eqb (el_py a) (el_py e)) eqn:Ea; [|discriminate]. apply str_eqb_eq in Ea. now left.
  - now rewrite (IH H2 H).
Qed.

Theorem extensions_ok top : apart top -> forall p ss, stands po top p ss ->
  exists es x, gather_all top = Ok es /\ extensions_at es p = Some x /\ (forall m n a, found x m n = Some a <-> says ints ss m n a) /\ (x = None <-> says_nothing ints ss).
Proof.
  intros Ha p ss Hst. assert (G : forall l p ss, stands po l p ss -> level top l -> forall es, gather_all l = Ok es -> exists x, extensions_at es p = Some x /\ (forall m n a, found x m n = Some a <-> says ints ss m n a) /\ (x = None <-> says_nothing ints ss)).
  2: { destruct (mades top) as (es & E). destruct (G top p ss Hst (LvTop _) es E) as (x & H1 & H2). exists es, x. auto. }
  clear p ss Hst. assert (Hnamed : forall l es e, level top l -> gather_all l = Ok es -> In e es -> named (el_py e) es = Some e).
  { intros l es e Hl E Hi. apply named_in; [|exact Hi]. apply (sub_nodup _ _ (subs_all l (proj2 (Forall_forall _ _) (fun s _ => subs s)) es E)), Ha, Hl. }
  assert (Hcont : forall l n ss pr ks es, level top l -> gather_all l = Ok es -> within l (NCont n ss pr ks) -> has_class po (NCont n ss pr ks) ->
    exists x ks', ext_arg ints ss = Ok x /\ gather_all ks = Ok ks' /\ named (safe_name n) es = Some (Elem (safe_name n) x (CCont ks'))).
  { intros l n ss pr ks es Hl E Hw Hc. destruct (within_in _ _ Hw es E) as (e & He & Hi). rewrite gather_cont in He. destruct (arg_ok ss) as (x & Ex & _). rewrite Ex in He. cbn [bind] in He. exists x.
    destruct ks as [|k ks].
    - destruct Hc as [Hc|[-> ->]]; [congruence|]. cbn [andb] in He. injection He as <-. exists []. split; [exact Ex|]. split; [reflexivity|]. exact (Hnamed l es _ Hl E (Hi _ (or_introl eq_refl))).
    - destruct (gather_all (k :: ks)) as [ks'|]; [|discriminate]. injection He as <-. exists ks'. split; [exact Ex|]. split; [reflexivity|]. exact (Hnamed l es _ Hl E (Hi _ (or_introl eq_refl))). }
  assert (Hlist : forall l n ss ks es, level top l -> gather_all l = Ok es -> within l (NList n ss ks) -> ks <> [] ->
    exists x ks', ext_arg ints ss = Ok x /\ gather_all ks = Ok ks' /\ named (safe_name n) es = Some (Elem (safe_name n) x (CList ks'))).
  { intros l n ss ks es Hl E Hw Hc. destruct (within_in _ _ Hw es E) as (e & He & Hi). rewrite gather_list in He. destruct (arg_ok ss) as (x & Ex & _). rewrite Ex in He. cbn [bind] in He. exists x.
    destruct ks as [|k ks]; [congruence|]. destruct (gather_all (k :: ks)) as [ks'|]; [|discriminate]. injection He as <-. exists ks'. split; [exact Ex|]. split; [reflexivity|]. exact (Hnamed l es _ Hl E (Hi _ (or_introl eq_refl))). }
  assert (Hfull : forall l p ss, stands po l p ss -> l <> [] /\ exists n p', p = Child n :: p').
  { intros l p ss H. assert (Hw : forall l s, within l s -> l <> []) by (intros ? ? []; intros ->; contradiction). destruct H; (split; [eapply Hw; eassumption|eauto]). }
  intros l p ss H. induction H as [l n ss Hw|l n ss pr ks Hw Hc|l n ss pr ks p ss' Hw Hst IH|l n ss ks Hw Hc|l n ss ks Hw Hc|l n ss ks p ss' Hw Hst IH]; intros Hl es E.
  - destruct (within_in _ _ Hw es E) as (e & He & Hi). cbn [Extensions.gather] in He. destruct (arg_ok ss) as (x & Ex & Hx). rewrite Ex in He. injection He as <-. exists x. split; [|exact Hx].
    cbn [extensions_at]. pose proof (Hnamed l es _ Hl E (Hi _ (or_introl eq_refl))) as N. cbn [el_py] in N. now rewrite N.
  - destruct (Hcont _ _ _ _ _ _ Hl E Hw Hc) as (x & ks' & Ex & _ & N). destruct (arg_ok ss) as (x' & Ex' & Hx). rewrite Ex in Ex'. injection Ex' as <-. exists x. split; [|exact Hx]. cbn [extensions_at]. now rewrite N.
  - destruct (Hfull _ _ _ Hst) as (Hk & n' & p' & Ep). destruct (Hcont _ _ _ _ _ _ Hl E Hw (or_introl Hk)) as (x & ks' & _ & Ek & N). destruct (IH (LvCont _ _ _ _ _ _ Hl Hw) ks' Ek) as (y & Hy & H). exists y. split; [|exact H]. subst p. cbn [extensions_at] in *. now rewrite N.
  - destruct (Hlist _ _ _ _ _ Hl E Hw Hc) as (x & ks' & Ex & _ & N). destruct (arg_ok ss) as (x' & Ex' & Hx). rewrite Ex in Ex'. injection Ex' as <-. exists x. split; [|exact Hx]. cbn [extensions_at]. now rewrite N.
  - destruct (Hlist _ _ _ _ _ Hl E Hw Hc) as (x & ks' & Ex & _ & N). destruct (arg_ok ss) as (x' & Ex' & Hx). rewrite Ex in Ex'. injection Ex' as <-. exists x. split; [|exact Hx]. cbn [extensions_at]. now rewrite N.
  - destruct (Hfull _ _ _ Hst) as (Hk & n' & p' & Ep). destruct (Hlist _ _ _ _ _ Hl E Hw Hk) as (x & ks' & _ & Ek & N). destruct (IH (LvList _ _ _ _ _ Hl Hw) ks' Ek) as (y & Hy & H). exists y. split; [|exact H]. subst p. cbn [extensions_at] in *. now rewrite N.
Qed.
End E.
