(** skip_subtrees. *)
From Coq Require Import Lia.
From Verif Require Import PyStr PyStr_facts PyVal Restricted Spec_Lists TypedList YList YList_proofs SafeName Tree Spec_Tree Tree_proofs
  Tree_dump Serialise Spec_Serialise Load_proofs Json_proofs Emit_proofs Options Spec_Options.

(* ------------------------------------------------------------------ names *)
Lemma str_neqb a b : a <> b -> str_eqb a b = false.
Proof. intros H. destruct (str_eqb a b) eqn:E; [|reflexivity]. apply str_eqb_eq in E. contradiction. Qed.
Lemma assoc_del {A} n (l : list (str * A)) m : NoDup (map fst l) -> assoc m (del_name n l) = if str_eqb m n then None else assoc m l.
Proof.
  induction l as [|[k a] l IH]; cbn [map fst del_name assoc]; intros Hd; [now destruct (str_eqb m n)|].
  inversion Hd as [|? ? Hk Hd']; subst. destruct (str_eqb n k) eqn:E.
  - apply str_eqb_eq in E. subst k. destruct (str_eqb m n) eqn:Em; [|reflexivity]. apply str_eqb_eq in Em. subst m.
    clear -Hk. induction l as [|[k a] l IH]; [reflexivity|]. cbn [assoc]. rewrite str_neqb; [apply IH; intros H; apply Hk; now right|].
    intros ->. apply Hk. now left.
  - cbn [assoc]. destruct (str_eqb m k) eqn:Em.
    + apply str_eqb_eq in Em. subst k. rewrite str_neqb; [reflexivity|]. intros ->. rewrite str_eqb_refl in E. discriminate.
    + now apply IH.
Qed.
Lemma assoc_put {A} n (a b : A) (l : list (str * A)) m : assoc n l = Some b -> assoc m (put_name n a l) = if str_eqb m n then Some a else assoc m l.
Proof.
  induction l as [|[k c] l IH]; cbn [put_name assoc]; intros H; [discriminate|]. destruct (str_eqb n k) eqn:E.
  - apply str_eqb_eq in E. subst k. cbn [assoc]. now destruct (str_eqb m n).
  - cbn [assoc]. destruct (str_eqb m k) eqn:Em.
    + apply str_eqb_eq in Em. subst k. rewrite str_neqb; [reflexivity|]. intros ->. rewrite str_eqb_refl in E. discriminate.
    + now apply IH.
Qed.
Lemma del_names {A} n (l : list (str * A)) : incl (map fst (del_name n l)) (map fst l).
Proof.
  induction l as [|[k a] l IH]; cbn; [easy|]. destruct (str_eqb n k); [now apply incl_tl|].
  cbn. intros x [->|H]; [now left|]. right. now apply IH.
Qed.
Lemma del_nodup {A} n (l : list (str * A)) : NoDup (map fst l) -> NoDup (map fst (del_name n l)).
Proof.
  induction l as [|[k a] l IH]; cbn; intros H; [constructor|]. inversion H as [|? ? Hk Hd]; subst.
  destruct (str_eqb n k); [assumption|]. cbn. constructor; auto. intros Hi. apply Hk. now apply (del_names n).
Qed.
Lemma del_forall {A} (P : str * A -> Prop) n l : Forall P l -> Forall P (del_name n l).
Proof. induction 1 as [|[k a] l Ha Hl IH]; cbn; [constructor|]. destruct (str_eqb n k); auto. Qed.
Lemma put_names {A} n (a : A) l : map fst (put_name n a l) = map fst l.
Proof. induction l as [|[k b] l IH]; cbn; [reflexivity|]. destruct (str_eqb n k); cbn; [reflexivity|]. now rewrite IH. Qed.
Lemma put_forall {A} (P : str * A -> Prop) n a l : Forall P l -> (forall b, P (n, b) -> P (n, a)) -> Forall P (put_name n a l).
Proof.
  intros H Ha. induction H as [|[k b] l Hb Hl IH]; cbn; [constructor|]. destruct (str_eqb n k) eqn:E; constructor; auto.
  apply str_eqb_eq in E. subst k. eapply Ha; eassumption.
Qed.
Lemma assoc_in {A} n (a : A) l : assoc n l = Some a -> In (n, a) l.
Proof.
  induction l as [|[k b] l IH]; cbn; [discriminate|]. destruct (str_eqb n k) eqn:E; intros H.
  - injection H as ->. apply str_eqb_eq in E. subst k. now left.
  - right. now apply IH.
Qed.

(** Encoding member by member. *)
Lemma enc_del {A B} (f : str * A -> res (str * B)) n l ms : (forall e m, f e = Ok m -> fst m = fst e) ->
  map_res f l = Ok ms -> map_res f (del_name n l) = Ok (del_name n ms).
Proof.
  intros Hf. revert ms. induction l as [|[k a] l IH]; intros ms H; [injection H as <-; reflexivity|]. rewrite map_res_cons in H.
  destruct (f (k, a)) as [[k' b]|] eqn:E; [|discriminate]. cbn [bind] in H. destruct (map_res f l) as [ms'|] eqn:Em; [|discriminate].
  injection H as <-. pose proof (Hf _ _ E) as Ek. cbn in Ek. subst k'. cbn [del_name]. destruct (str_eqb n k); [assumption|].
  rewrite map_res_cons, E. cbn [bind]. now rewrite (IH _ eq_refl).
Qed.
Lemma enc_put {A B} (f : str * A -> res (str * B)) n a x l ms : (forall e m, f e = Ok m -> fst m = fst e) ->
  map_res f l = Ok ms -> f (n, a) = Ok (n, x) -> map_res f (put_name n a l) = Ok (put_name n x ms).
Proof.
  intros Hf H Ha. revert ms H. induction l as [|[k c] l IH]; intros ms H; [injection H as <-; reflexivity|]. rewrite map_res_cons in H.
  destruct (f (k, c)) as [[k' b]|] eqn:E; [|discriminate]. cbn [bind] in H. destruct (map_res f l) as [ms'|] eqn:Em; [|discriminate].
  injection H as <-. pose proof (Hf _ _ E) as Ek. cbn in Ek. subst k'. cbn [put_name]. destruct (str_eqb n k) eqn:En.
  - apply str_eqb_eq in En. subst k. rewrite map_res_cons, Ha. cbn [bind]. now rewrite Em.
  - rewrite map_res_cons, E. cbn [bind]. now rewrite (IH _ eq_refl).
Qed.
Lemma enc_names {A B} (f : str * A -> res (str * B)) l ms : (forall e m, f e = Ok m -> fst m = fst e) ->
  map_res f l = Ok ms -> map fst ms = map fst l.
Proof.
  intros Hf. revert ms. induction l as [|e l IH]; intros ms H; [injection H as <-; reflexivity|]. rewrite map_res_cons in H.
  destruct (f e) as [m|] eqn:E; [|discriminate]. cbn [bind] in H. destruct (map_res f l) as [ms'|] eqn:Em; [|discriminate].
  injection H as <-. cbn. now rewrite (Hf _ _ E), (IH _ eq_refl).
Qed.
Lemma enc_assoc {A B} (f : str * A -> res (str * B)) l ms n : (forall e m, f e = Ok m -> fst m = fst e) ->
  map_res f l = Ok ms -> match assoc n l with Some a => exists x, assoc n ms = Some x /\ f (n, a) = Ok (n, x) | None => assoc n ms = None end.
Proof.
  intros Hf. revert ms. induction l as [|[k a] l IH]; intros ms H; [injection H as <-; reflexivity|]. rewrite map_res_cons in H.
  destruct (f (k, a)) as [[k' b]|] eqn:E; [|discriminate]. cbn [bind] in H. destruct (map_res f l) as [ms'|] eqn:Em; [|discriminate].
  injection H as <-. pose proof (Hf _ _ E) as Ek. cbn in Ek. subst k'. cbn [assoc]. destruct (str_eqb n k) eqn:En.
  - apply str_eqb_eq in En. subst k. now exists b.
  - now apply IH.
Qed.
Lemma enc_all {A B} (f : A -> res B) (P : B -> Prop) l ms : (forall e m, In e l -> f e = Ok m -> P m) -> map_res f l = Ok ms -> Forall P ms.
Proof.
  revert ms. induction l as [|e l IH]; intros ms Hf H; [injection H as <-; constructor|]. rewrite map_res_cons in H.
  destruct (f e) as [m|] eqn:E; [|discriminate]. cbn [bind] in H. destruct (map_res f l) as [ms'|] eqn:Em; [|discriminate].
  injection H as <-. constructor; [apply (Hf e); [now left|assumption]|]. apply IH; auto. intros e' m' He'. apply Hf. now right.
Qed.

(* ------------------------------------------------------------------ pruned documents *)
Definition okey : str := lit "__yang_order".
Lemma covered_dec ps q : covered ps q \/ ~ covered ps q.
Proof.
  assert (H1 : forall p : list str, (exists r, q = p ++ r) \/ ~ (exists r, q = p ++ r)).
  { intros p. revert q. induction p as [|n p IH]; intros q; [left; now exists q|]. destruct q as [|m q]; [right; intros [r H]; discriminate|].
    destruct (list_eq_dec N.eq_dec m n) as [->|Hne]; [|right; intros [r H]; injection H as H _; congruence].
    destruct (IH q) as [[r ->]|H]; [left; now exists r|]. right. intros [r Hr]. injection Hr as Hr. apply H. now exists r. }
  induction ps as [|p ps IH]; [right; intros (p & r & [] & _)|]. destruct (H1 p) as [[r ->]|H]; [left; exists p, r; split; [now left|reflexivity]|].
  destruct IH as [(p' & r & Hi & E)|IH]; [left; exists p', r; split; [now right|assumption]|].
  right. intros (p' & r & [->|Hi] & E); [apply H; now exists r|]. apply IH. now exists p', r.
Qed.
Lemma covered_nil q : ~ covered [] q.
Proof. intros (p & r & [] & _). Qed.
Lemma pruned_refl j : pruned [] j j.
Proof.
  intros q. destruct (jfind q j) as [v|]; [|reflexivity].
  assert (H : (covered [] q -> Some v = None) /\ (~ covered [] q -> Some v = Some v)) by (split; [intros H; now apply covered_nil in H|reflexivity]).
  destruct v; try (intros _; exact H). split; [apply H|eauto].
Qed.
Lemma pruned_trans p ps j j1 j2 : pruned [p] j j1 -> pruned ps j1 j2 -> pruned (p :: ps) j j2.
Proof.
  intros H1 H2 q. specialize (H1 q). specialize (H2 q).
  assert (C : covered (p :: ps) q <-> covered [p] q \/ covered ps q).
  { split.
    - intros (p' & r & [->|Hi] & E); [left; exists p', r; split; [now left|assumption]|right; now exists p', r].
    - intros [(p' & r & [->|[]] & E)|(p' & r & Hi & E)]; [exists p', r; split; [now left|assumption]|exists p', r; split; [now right|assumption]]. }
  destruct (jfind q j) as [v|]; [|now rewrite H1 in H2].
  assert (G : (covered [p] q -> jfind q j1 = None) /\ (~ covered [p] q -> jfind q j1 = Some v) ->
              (match v with JObj _ => False | _ => True end) -> last q [] <> lit "__yang_order" ->
              (covered (p :: ps) q -> jfind q j2 = None) /\ (~ covered (p :: ps) q -> jfind q j2 = Some v)).
  { intros [Ha Hb] Hv Hl. rewrite C. destruct (covered_dec [p] q) as [Hc|Hc].
    - rewrite (Ha Hc) in H2. split; [auto|tauto].
    - rewrite (Hb Hc) in H2. destruct v; try contradiction; destruct (H2 Hl) as [H3 H4]; (split; [intros [?|?]; [contradiction|auto]|intros Hn; apply H4; tauto]). }
  destruct v; try (intros Hl; apply G; auto; exact I).
  clear G. destruct H1 as [Ha Hb]. rewrite C. destruct (covered_dec [p] q) as [Hc|Hc].
  - rewrite (Ha Hc) in H2. split; [auto|tauto].
  - destruct (Hb Hc) as [ms' E]. rewrite E in H2. destruct H2 as [H3 H4]. split; [intros [?|?]; [contradiction|auto]|intros Hn; apply H4; tauto].
Qed.
Lemma pruned_leads ps j j1 p : pruned ps j j1 -> leads j p -> leads j1 p.
Proof.
  intros H Hl q r E Hr. specialize (H q). specialize (Hl q r E Hr). destruct (jfind q j) as [v|]; [|now rewrite H].
  destruct v; try contradiction. destruct H as [Ha Hb]. destruct (covered_dec ps q) as [Hc|Hc]; [now rewrite Ha|]. destruct (Hb Hc) as [ms' ->]. exact I.
Qed.

(** One step: the members at other names are as they were up to positions. *)
Lemma pruned_step n p ms ms' :
  (forall m, m <> n -> match assoc m ms, assoc m ms' with
                       | Some a, Some b => (m = okey /\ exists x y, a = JInt x /\ b = JInt y) \/ pruned [] a b
                       | None, None => True
                       | _, _ => False
                       end) ->
  match assoc n ms, assoc n ms' with
  | None, None => True
  | Some a, None => p = []
  | Some a, Some b => p <> [] /\ pruned [p] a b
  | None, Some _ => False
  end -> pruned [n :: p] (JObj ms) (JObj ms').
Proof.
  intros Ho Hn q. destruct q as [|m q].
  - cbn [jfind]. split; [intros (p' & r & [<-|[]] & E); discriminate|]. intros _. now exists ms'.
  - cbn [jfind]. destruct (list_eq_dec N.eq_dec m n) as [->|Hne].
    + assert (C : covered [n :: p] (n :: q) <-> covered [p] q).
      { split; intros (p' & r & [<-|[]] & E).
        - injection E as ->. exists p, r. split; [now left|reflexivity].
        - subst q. exists (n :: p), r. split; [now left|reflexivity]. }
      destruct (assoc n ms) as [a|] eqn:Ea, (assoc n ms') as [b|] eqn:Eb; try contradiction.
      * destruct Hn as [Hp Hn]. specialize (Hn q). assert (L : q <> [] -> last (n :: q) [] = last q []) by (destruct q; [congruence|reflexivity]).
        destruct (jfind q a) as [v|] eqn:Ev; [|assumption].
        destruct q as [|m' q].
        { cbn [jfind] in Ev. injection Ev as ->. cbn [jfind] in *. destruct v; rewrite ?C; try assumption; intros Hl; apply Hn; vm_compute; discriminate. }
        { rewrite L by discriminate. destruct v; rewrite C; assumption. }
      * subst p. assert (Cv : covered [[]] q) by (exists [], q; split; [now left|reflexivity]).
        destruct (jfind q a) as [v|]; [|reflexivity]. destruct v; rewrite C; try (intros _); split; tauto.
      * reflexivity.
    + specialize (Ho m Hne). assert (C : ~ covered [n :: p] (m :: q)) by (intros (p' & r & [<-|[]] & E); injection E as E _; congruence).
      destruct (assoc m ms) as [a|], (assoc m ms') as [b|]; try contradiction; [|reflexivity].
      destruct Ho as [(-> & x & y & -> & ->)|Ho].
      * destruct q as [|m' q]; [|reflexivity]. cbn [jfind]. intros Hl. exfalso. now apply Hl.
      * specialize (Ho q). destruct (jfind q a) as [v|] eqn:Ev; [|assumption].
        assert (L : q <> [] -> last (m :: q) [] = last q []) by (destruct q; [congruence|reflexivity]).
        assert (G : (covered [] q -> jfind q b = None) /\ (~ covered [] q -> jfind q b = Some v) ->
                    (covered [n :: p] (m :: q) -> jfind q b = None) /\ (~ covered [n :: p] (m :: q) -> jfind q b = Some v)).
        { intros [_ G]. split; [contradiction|]. intros _. apply G. apply covered_nil. }
        destruct q as [|m' q].
        { cbn [jfind] in Ev. injection Ev as ->. destruct v; try (intros _; apply G, Ho; vm_compute; discriminate).
          split; [contradiction|]. intros _. apply Ho. apply covered_nil. }
        { rewrite L by discriminate. destruct v; try (intros Hl; apply G; now apply Ho).
          split; [contradiction|]. intros _. apply Ho. apply covered_nil. }
Qed.

(* ------------------------------------------------------------------ positions *)
Fixpoint number (od : bool) (n : nat) (ms : list (str * json)) : list (str * json) :=
  match ms with [] => [] | (k, j) :: ms' => (k, if od then add_order j n else j) :: number od (S n) ms' end.
Lemma number_assoc od m ms : forall n, match assoc m ms with
  | Some j => exists k, assoc m (number od n ms) = Some (if od then add_order j k else j)
  | None => assoc m (number od n ms) = None
  end.
Proof.
  induction ms as [|[k j] ms IH]; intros n; [reflexivity|]. cbn [number assoc]. destruct (str_eqb m k); [now exists n|]. apply IH.
Qed.
Lemma number_assoc_some od m ms j : assoc m ms = Some j -> exists k, assoc m (number od 0 ms) = Some (if od then add_order j k else j).
Proof. intros H. pose proof (number_assoc od m ms 0) as G. now rewrite H in G. Qed.
Definition plain_obj (j : json) : Prop := exists ms, j = JObj ms /\ assoc okey ms = None.
Lemma assoc_app_one n k (a : json) ms : assoc n (ms ++ [(k, a)]) = match assoc n ms with Some x => Some x | None => if str_eqb n k then Some a else None end.
Proof. induction ms as [|[m b] ms IH]; cbn [assoc app]; [reflexivity|]. destruct (str_eqb n m); auto. Qed.
Lemma pruned_order ps a b x y : plain_obj a -> plain_obj b -> ~ covered ps [] -> pruned ps a b -> pruned ps (add_order a x) (add_order b y).
Proof.
  intros (ms & -> & Hms) (ms' & -> & Hms') Hc H q. cbn [add_order]. destruct q as [|n q].
  - cbn [jfind]. split; [contradiction|eauto].
  - specialize (H (n :: q)). cbn [jfind] in H |- *. rewrite !assoc_app_one. fold okey. change order_key with okey.
    destruct (list_eq_dec N.eq_dec n okey) as [->|Hne].
    + rewrite Hms in *. rewrite Hms' in *. rewrite str_eqb_refl. destruct q as [|m q]; [|reflexivity]. cbn [jfind]. intros Hl. exfalso. now apply Hl.
    + rewrite (str_neqb _ _ Hne). destruct (assoc n ms) as [u|], (assoc n ms') as [w|]; exact H.
Qed.
Lemma leads_order a x p : plain_obj a -> leads (add_order a x) p -> leads a p.
Proof.
  intros (ms & -> & Hms) H q r E Hr. specialize (H q r E Hr). cbn [add_order] in H. destruct q as [|n q]; [exact I|].
  cbn [jfind] in H |- *. rewrite assoc_app_one in H. destruct (assoc n ms) as [u|]; [exact H|exact I].
Qed.

(* ------------------------------------------------------------------ trees *)
(** [l]: a dictionary by names. *)
Inductive wfd : dump -> Prop :=
| WfLeaf v : wfd (DLeaf v)
| WfLeafList l : wfd (DLeafList l)
| WfDict l : NoDup (map fst l) -> Forall (fun nd => fst nd <> okey /\ wfd (snd nd)) l -> wfd (DDict l)
| WfList es l : map (fun nd => (VStr (fst nd), snd nd)) l = es -> NoDup (map fst l) ->
    Forall (fun nd => (exists dd, snd nd = DDict dd) /\ wfd (snd nd)) l -> wfd (DList es).

Definition texts {A} (l : list (str * A)) : list (pyval * A) := map (fun nd => (VStr (fst nd), snd nd)) l.
Lemma texts_get {A} n (l : list (str * A)) : mget (VStr n) (texts l) = assoc n l.
Proof. induction l as [|[k a] l IH]; [reflexivity|]. cbn [texts map mget fst snd assoc]. change (py_eq (VStr n) (VStr k)) with (str_eqb n k). now rewrite <- IH. Qed.
Lemma texts_del {A} n (l : list (str * A)) : mdel (VStr n) (texts l) = texts (del_name n l).
Proof.
  induction l as [|[k a] l IH]; [reflexivity|]. cbn [texts map mdel fst snd del_name]. change (py_eq (VStr n) (VStr k)) with (str_eqb n k).
  destruct (str_eqb n k); [reflexivity|]. cbn [texts map fst snd]. f_equal. exact IH.
Qed.
Lemma texts_put {A} n (a b : A) (l : list (str * A)) : assoc n l = Some b -> mput (VStr n) a (texts l) = texts (put_name n a l).
Proof.
  induction l as [|[k c] l IH]; [discriminate|]. cbn [texts map mput fst snd put_name assoc]. change (py_eq (VStr n) (VStr k)) with (str_eqb n k).
  destruct (str_eqb n k); [reflexivity|]. intros H. cbn [texts map fst snd]. f_equal. now apply IH.
Qed.

Section E.
Context (O : oracle) (im : einfo -> str -> option str).
Local Notation enc := (enc_dump O im).

Definition enc_nd (cs : list schema) (nd : str * dump) : res (str * json) :=
  match child_named (fst nd) cs with Some t => j <- enc t (snd nd) ;; Ok (fst nd, j) | None => Raise KeyError end.
Definition enc_en (cs : list schema) (nd : str * dump) : res (str * json) := j <- enc (entry_schema cs) (snd nd) ;; Ok (fst nd, j).
Lemma enc_nd_fst cs e m : enc_nd cs e = Ok m -> fst m = fst e.
Proof. unfold enc_nd. destruct (child_named _ _); [|discriminate]. destruct (enc _ _); [|discriminate]. intros H. now injection H as <-. Qed.
Lemma enc_en_fst cs e m : enc_en cs e = Ok m -> fst m = fst e.
Proof. unfold enc_en. destruct (enc _ _); [|discriminate]. intros H. now injection H as <-. Qed.
Lemma enc_dict s l : enc s (DDict l) = match s with SCont _ _ cs => ms <- map_res (enc_nd cs) l ;; Ok (JObj ms) | _ => Raise TypeError end.
Proof. reflexivity. Qed.
Lemma enc_list i keys od cs l : enc (SList i keys od cs) (DList (texts l)) = (ms <- map_res (enc_en cs) l ;; Ok (JObj (number od 0 ms))).
Proof.
  cbn [enc_dump]. match goal with |- (ms <- ?go 0%nat (texts l) ;; _) = _ => set (g := go) end.
  assert (H : forall n, g n (texts l) = (ms <- map_res (enc_en cs) l ;; Ok (number od n ms))).
  { induction l as [|[k d] l IH]; intros n; [reflexivity|]. rewrite map_res_cons. cbn [texts map fst snd]. subst g. cbn beta iota.
    unfold enc_en at 1. cbn [fst snd json_key bind]. destruct (enc (entry_schema cs) d) as [j|]; [|reflexivity]. cbn [bind].
    fold (texts l). rewrite IH. destruct (map_res (enc_en cs) l); [|reflexivity]. reflexivity. }
  rewrite H. now destruct (map_res (enc_en cs) l).
Qed.
Lemma leaf_not_obj i lt yt v j : enc_leaf O im false i lt yt v = Ok j -> forall ms, j <> JObj ms.
Proof.
  assert (Hi : forall v j, enc_int v = Ok j -> forall ms, j <> JObj ms).
  { intros v0 j0. unfold enc_int. destruct (py_int v0); [|discriminate]. cbn. intros H ms. injection H as <-. discriminate. }
  assert (Hd : forall v j, enc_decimal O false v = Ok j -> forall ms, j <> JObj ms).
  { intros v0 j0. unfold enc_decimal. destruct (py_float v0); [|discriminate]. cbn. intros H ms. injection H as <-. discriminate. }
  assert (Hn : forall v j, enc_native O false v = Ok j -> forall ms, j <> JObj ms).
  { intros v0 j0. unfold enc_native. destruct v0; try discriminate; try apply Hi; try apply Hd. intros H ms. injection H as <-. discriminate. }
  assert (Hb : forall v j, enc_binary v = Ok j -> forall ms, j <> JObj ms).
  { intros v0 j0. unfold enc_binary. destruct v0; try discriminate. intros H ms. injection H as <-. discriminate. }
  assert (Hs : forall (x j : json), (forall ms, x <> JObj ms) -> Ok x = Ok j -> forall ms, j <> JObj ms) by (intros x j0 Hx E; injection E as <-; exact Hx).
  unfold enc_leaf.
  repeat match goal with |- (if ?b then _ else _) = _ -> _ => destruct b end;
    try (apply Hi); try (apply Hd); try (apply Hb); try (apply Hs; discriminate).
  - destruct (base_of _); try (apply Hs; discriminate). apply Hn.
  - apply Hs. unfold enc_identity. destruct (im i _); [destruct (negb _ && negb _)|]; discriminate.
  - unfold enc_class. destruct (base_of _); try (apply Hs; discriminate); try discriminate; try apply Hd; try apply Hn.
    + destruct (int64_class _); apply Hi.
    + destruct (true || _); [apply Hb|discriminate].
    + destruct v; try discriminate. apply Hs. discriminate.
Qed.

Lemma leads_tail n p ms a : leads (JObj ms) (n :: p) -> assoc n ms = Some a -> leads a p.
Proof. intros H Ha q r E Hr. specialize (H (n :: q) r). cbn [jfind] in H. rewrite Ha in H. apply H; [now rewrite E|assumption]. Qed.
Lemma dict_plain s l j : wfd (DDict l) -> enc s (DDict l) = Ok j -> plain_obj j.
Proof.
  intros Hw. rewrite enc_dict. destruct s as [| |i pr cs|]; try discriminate. destruct (map_res (enc_nd cs) l) as [ms|] eqn:E; [|discriminate].
  cbn [bind]. intros H. injection H as <-. exists ms. split; [reflexivity|]. inversion Hw as [| |? Hd Hf|]; subst.
  pose proof (enc_assoc _ _ _ okey (enc_nd_fst cs) E) as H. destruct (assoc okey l) as [a|] eqn:Ea; [|assumption].
  rewrite Forall_forall in Hf. destruct (Hf _ (assoc_in _ _ _ Ea)) as [Hk _]. now contradiction Hk.
Qed.

Lemma same_members n ms ms' : (forall m, m <> n -> assoc m ms' = assoc m ms) ->
  forall m, m <> n -> match assoc m ms, assoc m ms' with
                      | Some a, Some b => (m = okey /\ exists x y, a = JInt x /\ b = JInt y) \/ pruned [] a b
                      | None, None => True | _, _ => False end.
Proof. intros H m Hm. rewrite (H m Hm). destruct (assoc m ms); [|exact I]. right. apply pruned_refl. Qed.
Lemma same_numbered n od ms ms' : Forall (fun nj => plain_obj (snd nj)) ms -> (forall m, m <> n -> assoc m ms' = assoc m ms) ->
  forall m, m <> n -> match assoc m (number od 0 ms), assoc m (number od 0 ms') with
                      | Some a, Some b => (m = okey /\ exists x y, a = JInt x /\ b = JInt y) \/ pruned [] a b
                      | None, None => True | _, _ => False end.
Proof.
  intros Hp H m Hm. pose proof (number_assoc od m ms 0) as H1. pose proof (number_assoc od m ms' 0) as H2. rewrite (H m Hm) in H2.
  destruct (assoc m ms) as [a|] eqn:Ea; [|now rewrite H1, H2]. destruct H1 as [k ->], H2 as [k' ->]. right.
  destruct od; [|apply pruned_refl]. assert (Pa : plain_obj a) by (rewrite Forall_forall in Hp; exact (Hp _ (assoc_in _ _ _ Ea))).
  apply pruned_order; auto; [apply covered_nil|apply pruned_refl].
Qed.

Lemma remove_pruned p : p <> [] -> forall d s j, wfd d -> enc s d = Ok j -> leads j p ->
  exists d' j', remove_path p d = Ok d' /\ wfd d' /\ (forall dd, d = DDict dd -> exists dd', d' = DDict dd') /\ enc s d' = Ok j' /\ pruned [p] j j'.
Proof.
  induction p as [|n p IH]; [congruence|]. intros _ d s j Hw Hj Hl.
  assert (Hobj : match j with JObj _ => True | _ => False end).
  { specialize (Hl [] (n :: p) eq_refl ltac:(discriminate)). cbn [jfind] in Hl. exact Hl. }
  inversion Hw as [v|l|l Hd Hf|es l Ees Hd Hf]; subst d.
  - exfalso. cbn [enc_dump] in Hj. destruct s; try discriminate. destruct j; try contradiction. eapply leaf_not_obj; [exact Hj|reflexivity].
  - exfalso. cbn [enc_dump] in Hj. destruct s; try discriminate. unfold enc_members in Hj. destruct (map_res _ _); [|discriminate]. injection Hj as <-. contradiction.
  - rewrite enc_dict in Hj. destruct s as [| |i pr cs|]; try discriminate. destruct (map_res (enc_nd cs) l) as [ms|] eqn:E; [|discriminate].
    injection Hj as <-. pose proof (enc_nd_fst cs) as Hfst. pose proof (enc_names _ _ _ Hfst E) as Hnm.
    destruct p as [|n' p].
    + exists (DDict (del_name n l)), (JObj (del_name n ms)). split; [reflexivity|]. split; [constructor; [now apply del_nodup|now apply del_forall]|].
      split; [eauto|]. split; [rewrite enc_dict, (enc_del _ n _ _ Hfst E); reflexivity|].
      assert (Hnd : NoDup (map fst ms)) by now rewrite Hnm.
      apply pruned_step.
      * apply same_members. intros m Hm. now rewrite assoc_del, (str_neqb _ _ Hm).
      * rewrite assoc_del by assumption. rewrite str_eqb_refl. now destruct (assoc n ms).
    + set (p' := n' :: p) in *. pose proof (enc_assoc _ _ _ n Hfst E) as Ha. change (remove_path (n :: p') (DDict l)) with
        (match assoc n l with Some x => x' <- remove_path p' x ;; Ok (DDict (put_name n x' l)) | None => Ok (DDict l) end).
      destruct (assoc n l) as [x|] eqn:Ex.
      * destruct Ha as (jx & Hjx & Henc). unfold enc_nd in Henc. cbn [fst snd] in Henc. destruct (child_named n cs) as [t|] eqn:Ec; [|discriminate].
        destruct (enc t x) as [jx'|] eqn:Et; [|discriminate]. injection Henc as ->.
        assert (Hwx : wfd x) by (rewrite Forall_forall in Hf; apply (Hf _ (assoc_in _ _ _ Ex))).
        destruct (IH ltac:(discriminate) x t jx Hwx Et (leads_tail _ _ _ _ Hl Hjx)) as (x' & j' & Hr & Hwx' & _ & Hj' & Hp).
        exists (DDict (put_name n x' l)), (JObj (put_name n j' ms)). rewrite Hr. split; [reflexivity|].
        split. { constructor; [now rewrite put_names|]. apply put_forall; auto. intros b [Hb _]. now split. }
        split; [eauto|].
        split. { rewrite enc_dict, (enc_put _ n x' j' _ _ Hfst E); [reflexivity|]. unfold enc_nd. cbn [fst snd]. now rewrite Ec, Hj'. }
        apply pruned_step.
        { apply same_members. intros m Hm. now rewrite (assoc_put n j' jx ms m Hjx), (str_neqb _ _ Hm). }
        { rewrite (assoc_put n j' jx ms n Hjx), str_eqb_refl, Hjx. split; [discriminate|assumption]. }
      * exists (DDict l), (JObj ms). split; [reflexivity|]. split; [assumption|]. split; [eauto|]. split; [rewrite enc_dict, E; reflexivity|].
        apply pruned_step; [now apply same_members|]. now rewrite Ha.
  - subst es. fold (texts l) in *. destruct s as [| | |i keys od cs]; try discriminate. rewrite enc_list in Hj.
    destruct (map_res (enc_en cs) l) as [ms|] eqn:E; [|discriminate].
    injection Hj as <-. pose proof (enc_en_fst cs) as Hfst. pose proof (enc_names _ _ _ Hfst E) as Hnm.
    assert (Hpl : Forall (fun nj => plain_obj (snd nj)) ms).
    { eapply enc_all; [|exact E]. intros [k x] m He. unfold enc_en. cbn [fst snd]. destruct (enc (entry_schema cs) x) as [jx|] eqn:Ex; [|discriminate].
      intros H. injection H as <-. cbn [snd]. rewrite Forall_forall in Hf. destruct (Hf _ He) as [(dd & Edd) Hwx]. cbn [snd] in Edd, Hwx. subst x.
      eapply dict_plain; eassumption. }
    destruct p as [|n' p].
    + exists (DList (texts (del_name n l))), (JObj (number od 0 (del_name n ms))).
      split; [cbn [remove_path]; now rewrite texts_del|]. split. { eapply WfList; [reflexivity|now apply del_nodup|now apply del_forall]. }
      split; [discriminate|]. split; [rewrite enc_list, (enc_del _ n _ _ Hfst E); reflexivity|].
      assert (Hnd : NoDup (map fst ms)) by now rewrite Hnm.
      apply pruned_step.
      * apply same_numbered; [assumption|]. intros m Hm. now rewrite assoc_del, (str_neqb _ _ Hm).
      * pose proof (number_assoc od n (del_name n ms) 0) as H2. rewrite assoc_del, str_eqb_refl in H2 by assumption. rewrite H2.
        now destruct (assoc n (number od 0 ms)).
    + set (p' := n' :: p) in *. pose proof (enc_assoc _ _ _ n Hfst E) as Ha. change (remove_path (n :: p') (DList (texts l))) with
        (match mget (VStr n) (texts l) with Some x => x' <- remove_path p' x ;; Ok (DList (mput (VStr n) x' (texts l))) | None => Ok (DList (texts l)) end).
      rewrite texts_get. destruct (assoc n l) as [x|] eqn:Ex.
      * destruct Ha as (jx & Hjx & Henc). unfold enc_en in Henc. cbn [fst snd] in Henc.
        destruct (enc (entry_schema cs) x) as [jx'|] eqn:Et; [|discriminate]. injection Henc as ->.
        rewrite Forall_forall in Hf. destruct (Hf _ (assoc_in _ _ _ Ex)) as [(dd & Edd) Hwx]. cbn [snd] in Edd, Hwx. rewrite <- Forall_forall in Hf.
        assert (Pjx : plain_obj jx) by (subst x; eapply dict_plain; eassumption).
        destruct (number_assoc_some od n ms jx Hjx) as (k & Hk).
        assert (Hlx : leads jx p').
        { pose proof (leads_tail _ _ _ _ Hl Hk) as H. destruct od; [|exact H]. eapply leads_order; eassumption. }
        destruct (IH ltac:(discriminate) x (entry_schema cs) jx Hwx Et Hlx) as (x' & j' & Hr & Hwx' & Hdd & Hj' & Hp).
        destruct (Hdd dd Edd) as (dd' & Edd').
        assert (Pj' : plain_obj j') by (subst x'; eapply dict_plain; eassumption).
        exists (DList (texts (put_name n x' l))), (JObj (number od 0 (put_name n j' ms))). rewrite Hr. cbn [bind].
        split; [now rewrite (texts_put n x' x l Ex)|].
        split. { eapply WfList; [reflexivity|now rewrite put_names|]. apply put_forall; auto. intros b _. split; [eauto|assumption]. }
        split; [discriminate|].
        split. { rewrite enc_list, (enc_put _ n x' j' _ _ Hfst E); [reflexivity|]. unfold enc_en. cbn [fst snd]. now rewrite Hj'. }
        apply pruned_step.
        { apply same_numbered; [assumption|]. intros m Hm. now rewrite (assoc_put n j' jx ms m Hjx), (str_neqb _ _ Hm). }
        { rewrite Hk. destruct (number_assoc_some od n (put_name n j' ms) j') as (k' & Hk').
          { now rewrite (assoc_put n j' jx ms n Hjx), str_eqb_refl. }
          rewrite Hk'. split; [discriminate|]. destruct od; [|assumption]. apply pruned_order; auto.
          intros (q & r & [<-|[]] & Eq). discriminate. }
      * exists (DList (texts l)), (JObj (number od 0 ms)). split; [reflexivity|]. split; [assumption|]. split; [discriminate|]. split; [rewrite enc_list, E; reflexivity|].
        apply pruned_step; [now apply same_numbered|]. pose proof (number_assoc od n ms 0) as H2. rewrite Ha in H2. now rewrite H2.
Qed.

(* ------------------------------------------------------------------ what get() returns *)
Lemma nodup_texts (es : list (pyval * obj)) : all_distinct (map fst es) -> Forall (fun e => exists s, fst e = VStr s) es ->
  exists l, es = texts l /\ NoDup (map fst l).
Proof.
  intros Hd Hf. assert (Hl : exists l, es = texts l).
  { clear Hd. induction Hf as [|[k x] es (s & Hs) Hf (l & ->)]; [now exists []|]. cbn in Hs. subst k. now exists ((s, x) :: l). }
  destruct Hl as (l & ->). exists l. split; [reflexivity|]. 
  apply NoDup_nth_error. intros a b Ha Eab. destruct (Nat.eq_dec a b) as [|Hne]; [assumption|exfalso].
  apply nth_error_Some in Ha. destruct (nth_error (map fst l) a) as [k|] eqn:Ek; [|congruence]. symmetry in Eab.
  assert (T : forall c, nth_error (map fst l) c = Some k -> nth_error (map fst (texts l)) c = Some (VStr k)).
  { intros c Hc. unfold texts. rewrite map_map. cbn [fst]. rewrite nth_error_map in Hc |- *. destruct (nth_error l c) as [[k' y]|]; [|discriminate].
    cbn in Hc |- *. now injection Hc as ->. }
  specialize (Hd a b _ _ (T _ Ek) (T _ Eab) Hne). cbn in Hd. rewrite str_eqb_refl in Hd. discriminate.
Qed.

Lemma get_names cs : forall kids, incl (map fst (get_kids true cs kids)) (map (fun s => e_yang (s_info s)) cs) /\
  (NoDup (map (fun s => e_yang (s_info s)) cs) -> NoDup (map fst (get_kids true cs kids))).
Proof.
  induction cs as [|s cs IH]; intros [|x kids]; cbn [get_kids map]; try (split; [easy|constructor]).
  destruct (IH kids) as [H1 H2]. destruct (get_kid true s x) as [d|]; cbn [map fst].
  - split; [intros y [<-|Hy]; [now left|right; now apply H1]|]. intros H. inversion H as [|? ? Ha Hb]; subst. constructor; [|auto].
    intros Hi. apply Ha. now apply H1.
  - split; [intros y Hy; right; now apply H1|]. intros H. inversion H; subst. auto.
Qed.
Lemma kids_wfd cs : named_ok cs -> (forall n s, nth_error cs n = Some s -> forall x d, text_keyed x -> get_kid true s x = Some d -> wfd d) ->
  forall kids, Forall text_keyed kids -> wfd (DDict (get_kids true cs kids)).
Proof.
  intros Hnm HI kids Hk. pose proof (yang_dist cs Hnm) as Hy. destruct (get_names cs kids) as [_ Hd'].
  constructor; [now apply Hd'|]. clear Hd' Hy. destruct Hnm as [_ Hnm]. revert kids Hk.
  assert (G : forall cs2 n0, (forall n s, nth_error cs2 n = Some s -> nth_error cs (n0 + n) = Some s) -> forall kids, Forall text_keyed kids ->
            Forall (fun nd => fst nd <> okey /\ wfd (snd nd)) (get_kids true cs2 kids)); [|now apply (G cs 0%nat)].
  induction cs2 as [|s cs2 IH2]; intros n0 Hsub kids2 Hk2; destruct kids2 as [|y kids2]; try constructor. inversion Hk2 as [|? ? Hy Hk2']; subst.
  assert (T : Forall (fun nd => fst nd <> okey /\ wfd (snd nd)) (get_kids true cs2 kids2)).
  { apply (IH2 (S n0)); auto. intros n t Ht. rewrite Nat.add_succ_comm. now apply Hsub. }
  cbn [get_kids]. destruct (get_kid true s y) as [dy|] eqn:Ey; [|assumption]. constructor; [|assumption]. cbn [fst snd].
  pose proof (Hsub 0%nat s eq_refl) as Hs. rewrite Forall_forall in Hnm. split; [apply (Hnm s (nth_error_In _ _ Hs))|].
  now apply (HI _ s Hs y dy).
Qed.
Lemma get_wfd s : (forall p i pr cs', sub s p = Some (SCont i pr cs') -> named_ok cs') -> forall x d, text_keyed x -> get_kid true s x = Some d -> wfd d.
Proof.
  induction s as [i lt dflt yt k|i ts yt|i pr cs IH|i keys od cs IH] using schema_ind'; intros Hn x d Hx Hd.
  - destruct x; try discriminate. cbn in Hd. destruct ch; [injection Hd as <-; constructor|discriminate].
  - destruct x; try discriminate. cbn in Hd. destruct l; [discriminate|]. injection Hd as <-. constructor.
  - assert (K : forall kids, Forall text_keyed kids -> wfd (DDict (get_kids true cs kids))).
    { apply kids_wfd; [exact (Hn [] i pr cs eq_refl)|]. intros n s Hs. rewrite Forall_forall in IH. apply (IH s (nth_error_In _ _ Hs)).
      intros p i' pr' cs' Hp. apply (Hn (Kid n :: p) i' pr' cs'). cbn. now rewrite Hs. }
    destruct x as [| |ch pres kids|]; try discriminate. rewrite get_cont in Hd. inversion Hx as [| |? ? ? Hk|]; subst.
    specialize (K kids Hk). destruct (get_kids true cs kids); [destruct (pr && pres)|]; try discriminate; injection Hd as <-; exact K.
  - assert (K : forall kids, Forall text_keyed kids -> wfd (DDict (get_kids true cs kids))).
    { apply kids_wfd; [exact (Hn [Ent VNone] plain false cs eq_refl)|]. intros n s Hs. rewrite Forall_forall in IH. apply (IH s (nth_error_In _ _ Hs)).
      intros p i' pr' cs' Hp. apply (Hn (Ent VNone :: Kid n :: p) i' pr' cs'). cbn. now rewrite Hs. }
    destruct x as [| | |ch es]; try discriminate. rewrite get_list in Hd. inversion Hx as [| | |? ? Hdist Hall]; subst.
    destruct (nodup_texts es Hdist) as (l & -> & Hnd). { eapply Forall_impl; [|exact Hall]. now intros e [H _]. }
    assert (Ed : d = DList (texts (map (fun nd => (fst nd, get_entry true cs (snd nd))) l))).
    { destruct l as [|[k0 x0] l]; [discriminate|]. change (texts ((k0, x0) :: l)) with ((VStr k0, x0) :: texts l) in Hd at 1. cbv iota in Hd. injection Hd as <-. f_equal.
      unfold texts. rewrite !map_map. reflexivity. }
    rewrite Ed. eapply WfList; [reflexivity|now rewrite map_map|]. apply Forall_forall. intros nd Hi. apply in_map_iff in Hi as (e & <- & He).
    cbn [fst snd]. split; [unfold get_entry; eauto|]. rewrite Forall_forall in Hall.
    assert (He' : In (VStr (fst e), snd e) (texts l)) by (apply in_map_iff; now exists e).
    destruct (Hall _ He') as [_ Hx']. cbn [snd] in Hx'. unfold get_entry. destruct (snd e) as [| |c ps kids|]; try (constructor; constructor).
    apply K. inversion Hx'; subst. assumption.
Qed.

(** Several paths, one after the other. *)
Lemma before_bare s : before 91 s = bare s.
Proof.
  unfold bare. induction s as [|c s IH]; [reflexivity|]. cbn [before split_on]. rewrite IH. destruct (N.eqb c 91); [reflexivity|]. now destruct (split_on 91 s).
Qed.
Lemma trim_own own p : trim own (map bare own ++ p) = Some p.
Proof. induction own as [|i own IH]; [reflexivity|]. cbn [map app trim]. now rewrite before_bare, str_eqb_refl. Qed.
Lemma skip_text {T} (remove : list str -> T -> res T) own p t : Forall no_slash (map bare own) -> Forall no_slash p -> p <> [] ->
  skip_one remove own (path_text (map bare own ++ p)) t = remove p t.
Proof.
  intros H1 H2 Hp. unfold skip_one, path_text.
  assert (E : tl (split_on 47 (lit "/" ++ join (lit "/") (map bare own ++ p))) = map bare own ++ p).
  { change (lit "/" ++ join (lit "/") (map bare own ++ p)) with (47%N :: join [47%N] (map bare own ++ p)). cbn [split_on N.eqb Pos.eqb tl].
    apply split_join; [|apply Forall_app; split; assumption]. intros E. now apply app_eq_nil in E as [_ E]. }
  rewrite E, trim_own. destruct p as [|n p]; [congruence|reflexivity].
Qed.

Theorem skip_prunes own cs kids ps j : python_names cs -> Forall text_keyed kids -> Forall no_slash (map bare own) ->
  Forall (fun p => p <> [] /\ Forall no_slash p /\ leads j p) ps -> dumps O im cs kids = Ok j ->
  exists j', dumps_skip O im own (map (fun p => path_text (map bare own ++ p)) ps) cs kids = Ok j' /\ pruned ps j j'.
Proof.
  intros Hn Hk Ho Hps Hj. unfold dumps in Hj. unfold dumps_skip.
  assert (Hw : wfd (DDict (get_kids true cs kids))).
  { apply kids_wfd; [exact (Hn [] plain false cs eq_refl)| |assumption]. intros n s Hs. apply get_wfd.
    intros p i pr cs' Hp. apply (Hn (Kid n :: p) i pr cs'). unfold schema_at. cbn. now rewrite Hs. }
  revert Hw Hj. generalize (DDict (get_kids true cs kids)) as d. intros d Hw Hj. revert j d Hw Hj Hps.
  induction ps as [|p ps IH]; intros j d Hw Hj Hps.
  - exists j. split; [exact Hj|apply pruned_refl].
  - inversion Hps as [|? ? (Hp & Hs & Hl) Hps']; subst.
    destruct (remove_pruned p Hp d (entry_schema cs) j Hw Hj Hl) as (d' & j1 & Hr & Hw' & _ & Hj1 & Hp1).
    cbn [map skip_all]. rewrite skip_text by assumption. rewrite Hr. cbn [bind].
    destruct (IH j1 d' Hw' Hj1) as (j2 & Hj2 & Hp2).
    { eapply Forall_impl; [|exact Hps']. intros q (Ha & Hb & Hc). split; [assumption|]. split; [assumption|]. eapply pruned_leads; eassumption. }
    exists j2. split; [exact Hj2|]. eapply pruned_trans; eassumption.
Qed.

(* ------------------------------------------------------------------ IETF format *)
Inductive wft : itree -> Prop :=
| WtLeaf i lt yt v : wft (ILeaf i lt yt v)
| WtLeafList ts l : wft (ILeafList ts l)
| WtList l : wft (IList l)
| WtDict l : NoDup (map fst l) -> Forall (fun nd => wft (snd nd)) l -> wft (IDict l).
Local Notation ienc := (enc_itree O im).
Local Notation enc_m := (member_enc O im).
Lemma enc_m_fst e m : enc_m e = Ok m -> fst m = fst e.
Proof. unfold member_enc. destruct (ienc _); [|discriminate]. intros H. now injection H as <-. Qed.
Lemma ileaf_not_obj i lt yt v j : enc_leaf O im true i lt yt v = Ok j -> forall ms, j <> JObj ms.
Proof.
  assert (Hi : forall v j, enc_int v = Ok j -> forall ms, j <> JObj ms).
  { intros v0 j0. unfold enc_int. destruct (py_int v0); [|discriminate]. cbn. intros H ms. injection H as <-. discriminate. }
  assert (Hb : forall v j, enc_binary v = Ok j -> forall ms, j <> JObj ms).
  { intros v0 j0. unfold enc_binary. destruct v0; try discriminate. intros H ms. injection H as <-. discriminate. }
  assert (Hs : forall (x j : json), (forall ms, x <> JObj ms) -> Ok x = Ok j -> forall ms, j <> JObj ms) by (intros x j0 Hx E; injection E as <-; exact Hx).
  assert (Hn : forall v j, enc_native O true v = Ok j -> forall ms, j <> JObj ms).
  { intros v0 j0. unfold enc_native. destruct v0; try discriminate; try apply Hi; apply Hs; discriminate. }
  unfold enc_leaf.
  repeat match goal with |- (if ?b then _ else _) = _ -> _ => destruct b end;
    try (apply Hi); try (apply Hb); try (apply Hs; discriminate).
  - destruct (base_of _); try (apply Hs; discriminate). apply Hn.
  - apply Hs. unfold enc_identity. destruct (im i _); [destruct (negb _ && negb _)|]; discriminate.
  - apply Hs. destruct (truthy v); discriminate.
  - unfold enc_class. destruct (base_of _); try (apply Hs; discriminate); try discriminate; try apply Hn.
    + destruct (int64_class _); [apply Hs; discriminate|apply Hi].
    + destruct (true || _); [apply Hb|discriminate].
    + destruct v; try discriminate. apply Hs. discriminate.
Qed.
Lemma iremove_pruned p : p <> [] -> forall t j, wft t -> ienc t = Ok j -> leads j p ->
  exists t' j', iremove_path p t = Ok t' /\ wft t' /\ ienc t' = Ok j' /\ pruned [p] j j'.
Proof.
  induction p as [|n p IH]; [congruence|]. intros _ t j Hw Hj Hl.
  assert (Hobj : match j with JObj _ => True | _ => False end).
  { specialize (Hl [] (n :: p) eq_refl ltac:(discriminate)). cbn [jfind] in Hl. exact Hl. }
  inversion Hw as [i lt yt v|ts l|l|l Hd Hf]; subst t.
  - exfalso. cbn [enc_itree] in Hj. destruct j; try contradiction. eapply ileaf_not_obj; [exact Hj|reflexivity].
  - exfalso. cbn [enc_itree] in Hj. unfold enc_members in Hj. destruct (map_res _ _); [|discriminate]. injection Hj as <-. contradiction.
  - exfalso. cbn [enc_itree] in Hj. destruct (map_res _ _); [|discriminate]. injection Hj as <-. contradiction.
  - rewrite Json_proofs.enc_dict in Hj. destruct (map_res enc_m l) as [ms|] eqn:E; [|discriminate].
    injection Hj as <-. pose proof enc_m_fst as Hfst. pose proof (enc_names _ _ _ Hfst E) as Hnm.
    destruct p as [|n' p].
    + exists (IDict (del_name n l)), (JObj (del_name n ms)). split; [reflexivity|]. split; [constructor; [now apply del_nodup|now apply del_forall]|].
      split; [rewrite Json_proofs.enc_dict, (enc_del _ n _ _ Hfst E); reflexivity|].
      assert (Hnd : NoDup (map fst ms)) by now rewrite Hnm.
      apply pruned_step.
      * apply same_members. intros m Hm. now rewrite assoc_del, (str_neqb _ _ Hm).
      * rewrite assoc_del by assumption. rewrite str_eqb_refl. now destruct (assoc n ms).
    + set (p' := n' :: p) in *. pose proof (enc_assoc _ _ _ n Hfst E) as Ha. change (iremove_path (n :: p') (IDict l)) with
        (match assoc n l with Some x => x' <- iremove_path p' x ;; Ok (IDict (put_name n x' l)) | None => Ok (IDict l) end).
      destruct (assoc n l) as [x|] eqn:Ex.
      * destruct Ha as (jx & Hjx & Henc). unfold member_enc in Henc. cbn [fst snd] in Henc.
        destruct (ienc x) as [jx'|] eqn:Et; [|discriminate]. injection Henc as ->.
        assert (Hwx : wft x) by (rewrite Forall_forall in Hf; apply (Hf _ (assoc_in _ _ _ Ex))).
        destruct (IH ltac:(discriminate) x jx Hwx Et (leads_tail _ _ _ _ Hl Hjx)) as (x' & j' & Hr & Hwx' & Hj' & Hp).
        exists (IDict (put_name n x' l)), (JObj (put_name n j' ms)). rewrite Hr. split; [reflexivity|].
        split. { constructor; [now rewrite put_names|]. apply put_forall; auto. }
        split. { rewrite Json_proofs.enc_dict, (enc_put _ n x' j' _ _ Hfst E); [reflexivity|]. unfold member_enc. cbn [fst snd]. now rewrite Hj'. }
        apply pruned_step.
        { apply same_members. intros m Hm. now rewrite (assoc_put n j' jx ms m Hjx), (str_neqb _ _ Hm). }
        { rewrite (assoc_put n j' jx ms n Hjx), str_eqb_refl, Hjx. split; [discriminate|assumption]. }
      * exists (IDict l), (JObj ms). split; [reflexivity|]. split; [assumption|]. split; [rewrite Json_proofs.enc_dict, E; reflexivity|].
        apply pruned_step; [now apply same_members|]. now rewrite Ha.
Qed.

Lemma gen_names ns cs : Forall (fun s => no_colon (e_yang (s_info s))) cs -> forall kids,
  Forall (fun n => exists s, In s cs /\ n = qualified ns (s_info s)) (map fst (gen_kids true WNone ns cs kids)) /\
  (NoDup (map (fun s => e_yang (s_info s)) cs) -> NoDup (map fst (gen_kids true WNone ns cs kids))).
Proof.
  intros Hc. induction cs as [|s cs IH]; intros [|x kids]; cbn [gen_kids map]; try (split; constructor).
  inversion Hc as [|? ? Hs Hc']; subst. destruct (IH Hc' kids) as [H1 H2].
  assert (H1' : Forall (fun n => exists s', In s' (s :: cs) /\ n = qualified ns (s_info s')) (map fst (gen_kids true WNone ns cs kids))).
  { eapply Forall_impl; [|exact H1]. intros n (s' & Hi & E). exists s'. split; [now right|assumption]. }
  destruct (gen_kid true WNone ns s x) as [[n t]|] eqn:E; cbn [map fst].
  - pose proof (gen_name _ _ _ _ _ _ _ E) as ->. split; [constructor; [exists s; split; [now left|reflexivity]|assumption]|].
    intros H. inversion H as [|? ? Ha Hb]; subst. constructor; [|auto]. intros Hi. rewrite Forall_forall in H1.
    destruct (H1 _ Hi) as (s' & Hs' & Eq). apply Ha. apply in_map_iff. exists s'. split; [|assumption].
    symmetry. apply (qualified_inj ns); auto. rewrite Forall_forall in Hc'. now apply Hc'.
  - split; [assumption|]. intros H. inversion H; subst. auto.
Qed.
Definition named_both (cs : list schema) : Prop := named_ok cs /\ Forall (fun s => no_colon (e_yang (s_info s))) cs.
Lemma kids_wft cs : named_both cs -> (forall n s, nth_error cs n = Some s -> forall ns x m t, gen_kid true WNone ns s x = Some (m, t) -> wft t) ->
  forall ns kids, wft (IDict (gen_kids true WNone ns cs kids)).
Proof.
  intros [Hnm Hc] HI ns kids. destruct (gen_names ns cs Hc kids) as [_ Hd]. constructor; [apply Hd; now apply yang_dist|]. clear Hd. revert kids.
  assert (G : forall cs2 n0, (forall n s, nth_error cs2 n = Some s -> nth_error cs (n0 + n) = Some s) -> forall kids,
            Forall (fun nd => wft (snd nd)) (gen_kids true WNone ns cs2 kids)); [|now apply (G cs 0%nat)].
  induction cs2 as [|s cs2 IH2]; intros n0 Hsub kids2; destruct kids2 as [|y kids2]; try constructor.
  assert (T : Forall (fun nd => wft (snd nd)) (gen_kids true WNone ns cs2 kids2)).
  { apply (IH2 (S n0)); auto. intros n t Ht. rewrite Nat.add_succ_comm. now apply Hsub. }
  cbn [gen_kids]. destruct (gen_kid true WNone ns s y) as [[m t]|] eqn:Ey; [|assumption]. constructor; [|assumption]. cbn [fst snd].
  pose proof (Hsub 0%nat s eq_refl) as Hs. now apply (HI _ s Hs ns y m t).
Qed.
Lemma gen_wft s : (forall p i pr cs', sub s p = Some (SCont i pr cs') -> named_both cs') -> forall ns x m t, gen_kid true WNone ns s x = Some (m, t) -> wft t.
Proof.
  induction s as [i lt dflt yt k|i ts yt|i pr cs IH|i keys od cs _] using schema_ind'; intros Hn ns x m t Ht.
  - destruct x; try discriminate. cbn in Ht. destruct ch; [|discriminate]. injection Ht as <- <-. constructor.
  - destruct x; try discriminate. cbn in Ht. destruct ch; [|discriminate]. injection Ht as <- <-. constructor.
  - assert (K : forall ns kids, wft (IDict (gen_kids true WNone ns cs kids))).
    { apply kids_wft; [exact (Hn [] i pr cs eq_refl)|]. intros n s Hs. rewrite Forall_forall in IH. apply (IH s (nth_error_In _ _ Hs)).
      intros p i' pr' cs' Hp. apply (Hn (Kid n :: p) i' pr' cs'). cbn. now rewrite Hs. }
    destruct x as [| |ch pres kids|]; try discriminate. rewrite gen_cont in Ht.
    specialize (K (Some (e_ns i)) kids). destruct (gen_kids true WNone (Some (e_ns i)) cs kids); [destruct pres|]; try discriminate; injection Ht as <- <-; exact K.
  - destruct x as [| | |ch es]; try discriminate. rewrite gen_list in Ht. destruct es; [discriminate|]. injection Ht as <- <-. constructor.
Qed.

Theorem ietf_skip_prunes own cs kids ps j : python_names cs -> yang_names cs -> Forall no_slash (map bare own) ->
  Forall (fun p => p <> [] /\ Forall no_slash p /\ leads j p) ps -> dumps_ietf O im true WNone cs kids = Ok j ->
  exists j', dumps_ietf_skip O im own (map (fun p => path_text (map bare own ++ p)) ps) cs kids = Ok j' /\ pruned ps j j'.
Proof.
  intros Hn Hy Ho Hps Hj. unfold dumps_ietf in Hj. unfold dumps_ietf_skip.
  assert (Hw : wft (IDict (gen_kids true WNone None cs kids))).
  { apply kids_wft; [split; [exact (Hn [] plain false cs eq_refl)|exact (Hy [] plain false cs eq_refl)]|]. intros n s Hs. apply gen_wft.
    intros p i pr cs' Hp. split; [apply (Hn (Kid n :: p) i pr cs')|apply (Hy (Kid n :: p) i pr cs')]; unfold schema_at; cbn; now rewrite Hs. }
  revert Hw Hj. generalize (IDict (gen_kids true WNone None cs kids)) as d. intros d Hw Hj. revert j d Hw Hj Hps.
  induction ps as [|p ps IH]; intros j d Hw Hj Hps.
  - exists j. split; [exact Hj|apply pruned_refl].
  - inversion Hps as [|? ? (Hp & Hs & Hl) Hps']; subst.
    destruct (iremove_pruned p Hp d j Hw Hj Hl) as (d' & j1 & Hr & Hw' & Hj1 & Hp1).
    cbn [map skip_all]. rewrite skip_text by assumption. rewrite Hr. cbn [bind].
    destruct (IH j1 d' Hw' Hj1) as (j2 & Hj2 & Hp2).
    { eapply Forall_impl; [|exact Hps']. intros q (Ha & Hb & Hc). split; [assumption|]. split; [assumption|]. eapply pruned_leads; eassumption. }
    exists j2. split; [exact Hj2|]. eapply pruned_trans; eassumption.
Qed.
End E.
