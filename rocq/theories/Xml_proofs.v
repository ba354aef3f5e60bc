(** The XML decoder on what the encoder wrote. *)
From Coq Require Import Lia.
From Verif Require Import PyStr PyStr_facts PyVal Restricted Spec_Lists TypedList TypedList_proofs YList YList_proofs SafeName
  Tree Spec_Tree Tree_proofs Tree_frame Tree_main Tree_hist Tree_dump Tree_choice Tree_copy Serialise Spec_Serialise Load_proofs
  Json_proofs Emit_proofs UnknownIetf_proofs Ietf_proofs Xml Spec_Xml.
Local Open Scope Z_scope.

(* ------------------------------------------------------------------ the encoder *)
Section E.
Context (O : oracle) (im ins : einfo -> str -> option str) (flt : bool).
Notation xgen_kid := (xgen_kid O im ins flt).
Notation xgen_kids := (xgen_kids O im ins flt).
Notation elements := (elements O im).

Lemma xgens_eq cs : forall kids,
  (fix gens cs kids := match cs, kids with
    | s :: cs', x :: kids' => o <- xgen_kid s x ;; r <- gens cs' kids' ;;
                              Ok (match o with Some m => m :: r | None => r end)
    | _, _ => Ok []
    end) cs kids = xgen_kids cs kids.
Proof.
  induction cs as [|s cs IH]; intros [|x kids]; cbn [Xml.xgen_kids]; try reflexivity.
  destruct (xgen_kid s x); cbn [bind]; [|reflexivity]. now rewrite IH.
Qed.
Lemma xgen_cont i pr cs c pres kids : xgen_kid (SCont i pr cs) (OCont c pres kids) =
  (l <- xgen_kids cs kids ;; Ok (match l with [] => if pres then Some (i, [], XtDict []) else None | _ => Some (i, [], XtDict l) end)).
Proof. cbn [Xml.xgen_kid prefixes bind]. now rewrite xgens_eq. Qed.

Definition entry_xtree (cs : list schema) (e : pyval * obj) : res xtree :=
  match snd e with OCont _ _ kids => l <- xgen_kids cs kids ;; Ok (XtDict l) | _ => Ok (XtDict []) end.
Lemma map_res_ext {A B} (f g : A -> res B) l : (forall a, In a l -> f a = g a) -> map_res f l = map_res g l.
Proof.
  induction l as [|a l IH]; intros H; [reflexivity|]. rewrite !map_res_cons, (H a (or_introl eq_refl)), IH; [reflexivity|].
  intros b Hb. apply H. now right.
Qed.
Lemma xgen_list i keys od cs c es : xgen_kid (SList i keys od cs) (OList c es) =
  (ls <- map_res (entry_xtree cs) es ;; Ok (match ls with [] => None | _ => Some (i, [], XtList ls) end)).
Proof.
  cbn [Xml.xgen_kid prefixes bind]. f_equal. apply map_res_ext. intros [k e] _. unfold entry_xtree. cbn [snd].
  destruct e; try reflexivity. now rewrite xgens_eq.
Qed.

Definition member_els (m : einfo * list (str * str) * xtree) : res (list xml) := match m with (i, d, t) => elements i d t end.
Lemma elements_dict i d l : elements i d (XtDict l) = (ks <- map_res member_els l ;; Ok [XElem (e_ns i) (e_yang i) d [] (concat ks)]).
Proof. reflexivity. Qed.
Lemma elements_list i d l : elements i d (XtList l) = (es <- map_res (elements i d) l ;; Ok (concat es)).
Proof. reflexivity. Qed.

(** The elements for the children of an object. *)
Definition kids_els (cs : list schema) (kids : list obj) : res (list xml) :=
  l <- xgen_kids cs kids ;; ks <- map_res member_els l ;; Ok (concat ks).
Definition kid_els (s : schema) (x : obj) : res (list xml) :=
  o <- xgen_kid s x ;; match o with Some m => member_els m | None => Ok [] end.
Lemma encode_els ns name cs kids : encode O im ins flt ns name cs kids = (ks <- kids_els cs kids ;; Ok (XElem ns name [] [] ks)).
Proof.
  unfold encode, kids_els. destruct (xgen_kids cs kids) as [l|]; cbn [bind]; [|reflexivity].
  change (fun m => let '(i', d', t') := m in elements i' d' t') with member_els.
  destruct (map_res member_els l); reflexivity.
Qed.
Lemma kids_els_cons s x cs kids els : kids_els (s :: cs) (x :: kids) = Ok els <->
  exists g gs, kid_els s x = Ok g /\ kids_els cs kids = Ok gs /\ els = g ++ gs.
Proof.
  unfold kids_els, kid_els. cbn [Xml.xgen_kids]. destruct (xgen_kid s x) as [o|]; cbn [bind].
  2:{ split; [discriminate|]. intros (g & gs & E & _). discriminate. }
  destruct (xgen_kids cs kids) as [l|]; cbn [bind].
  2:{ split; [discriminate|]. intros (g & gs & _ & E & _). discriminate. }
  destruct o as [m|].
  - rewrite map_res_cons. destruct (member_els m) as [g|]; cbn [bind].
    2:{ split; [discriminate|]. intros (g & gs & E & _). discriminate. }
    destruct (map_res member_els l) as [ks|]; cbn [bind].
    2:{ split; [discriminate|]. intros (g' & gs & _ & E & _). discriminate. }
    cbn [concat]. split.
    + intros H. injection H as <-. eauto.
    + intros (g' & gs & E1 & E2 & ->). injection E1 as <-. injection E2 as <-. reflexivity.
  - destruct (map_res member_els l) as [ks|]; cbn [bind].
    2:{ split; [discriminate|]. intros (g' & gs & _ & E & _). discriminate. }
    split.
    + intros H. injection H as <-. exists [], (concat ks). auto.
    + intros (g' & gs & E1 & E2 & ->). injection E1 as <-. injection E2 as <-. reflexivity.
Qed.
Lemma kids_els_nil kids : kids_els [] kids = Ok [].
Proof. reflexivity. Qed.
(** Whether anything at all is written; needed because empty containers are left out. *)
Lemma kid_els_cont i pr cs c pres kids els : kid_els (SCont i pr cs) (OCont c pres kids) = Ok els ->
  exists l ks, xgen_kids cs kids = Ok l /\ map_res member_els l = Ok ks /\
    els = match l with [] => if pres then [XElem (e_ns i) (e_yang i) [] [] []] else []
                     | _ => [XElem (e_ns i) (e_yang i) [] [] (concat ks)] end.
Proof.
  unfold kid_els. rewrite xgen_cont. destruct (xgen_kids cs kids) as [l|]; [|discriminate]. cbn [bind].
  destruct l as [|a l].
  - destruct pres; cbn [member_els]; [rewrite elements_dict|]; cbn; intros H; injection H as <-; exists [], []; repeat split.
  - cbn [member_els]. rewrite elements_dict. destruct (map_res member_els (a :: l)) as [ks|] eqn:Ek; [|discriminate]. cbn [bind].
    intros H. injection H as <-. exists (a :: l), ks. auto.
Qed.
Definition entry_els (i : einfo) (cs : list schema) (e : pyval * obj) : res xml :=
  match snd e with
  | OCont _ _ kids => ks <- kids_els cs kids ;; Ok (XElem (e_ns i) (e_yang i) [] [] ks)
  | _ => Ok (XElem (e_ns i) (e_yang i) [] [] [])
  end.
Lemma kid_els_list i keys od cs c es els : kid_els (SList i keys od cs) (OList c es) = Ok els <-> map_res (entry_els i cs) es = Ok els.
Proof.
  unfold kid_els. rewrite xgen_list.
  assert (G : forall els, (ls <- map_res (entry_xtree cs) es ;; r <- map_res (elements i []) ls ;; Ok (concat r)) = Ok els <->
                          map_res (entry_els i cs) es = Ok els).
  { induction es as [|e es IH]; intros els'.
    - cbn. tauto.
    - rewrite !map_res_cons. unfold entry_xtree at 1, entry_els at 1. unfold kids_els.
      assert (T : forall l, (exists ks, map_res member_els l = Ok ks /\ elements i [] (XtDict l) = Ok [XElem (e_ns i) (e_yang i) [] [] (concat ks)]) \/
                (exists e1, map_res member_els l = Raise e1 /\ elements i [] (XtDict l) = Raise e1)).
      { intros l. rewrite elements_dict. destruct (map_res member_els l) as [ks|e1]; cbn [bind]; [left|right]; eauto. }
      assert (G2 : forall l : list (einfo * list (str * str) * xtree),
        (ls <- (r <- map_res (entry_xtree cs) es ;; Ok (XtDict l :: r)) ;; r <- map_res (elements i []) ls ;; Ok (concat r)) = Ok els' <->
        (b <- (ks <- (ks <- map_res member_els l ;; Ok (concat ks)) ;; Ok (XElem (e_ns i) (e_yang i) [] [] ks)) ;; r <- map_res (entry_els i cs) es ;; Ok (b :: r)) = Ok els').
      { intros l. destruct (T l) as [(ks & E1 & E2)|(e1 & E1 & E2)]; rewrite E1; cbn [bind].
        - destruct (map_res (entry_xtree cs) es) as [ls|e2] eqn:Els; cbn [bind].
          + rewrite map_res_cons, E2. cbn [bind] in IH |- *. destruct (map_res (elements i []) ls) as [r|e3] eqn:Er; cbn [bind] in IH |- *.
            * destruct (IH (concat r)) as [H _]. rewrite (H eq_refl). cbn [bind concat app]. reflexivity.
            * split; [discriminate|]. intros H. destruct (map_res (entry_els i cs) es) as [r|]; [|discriminate].
              destruct (IH r) as [_ H2]. discriminate (H2 eq_refl).
          + cbn [bind] in IH. split; [discriminate|]. intros H. destruct (map_res (entry_els i cs) es) as [r|]; [|discriminate].
            destruct (IH r) as [_ H2]. discriminate (H2 eq_refl).
        - split; [|discriminate]. destruct (map_res (entry_xtree cs) es) as [ls|e2] eqn:Els; cbn [bind]; [|discriminate].
          rewrite map_res_cons, E2. discriminate. }
      destruct (snd e) as [ | |c' ps kids|].
      + exact (G2 []).
      + exact (G2 []).
      + destruct (xgen_kids cs kids) as [l|]; cbn [bind]; [exact (G2 l)|]. split; discriminate.
      + exact (G2 []). }
  rewrite <- G. destruct (map_res (entry_xtree cs) es) as [[|a ls]|]; cbn [bind]; try reflexivity.
Qed.
End E.

(* ------------------------------------------------------------------ the decoder *)
Section D.
Context (O : oracle) (ft : str -> option pyval) (uid : list (pyval * obj) -> str) (top : list schema).
Notation run_op := (run_op O top).

(** What the decoder does for one child element. *)
Definition xload_kid (s : schema) (q : list pstep) (c : xml) (m : list obj) : step :=
  match s with
  | SCont _ pr cs' => andthen (if pr then run_op m q (APresent true) else (m, Ok tt)) (load_xml O ft uid top cs' q c)
  | SList _ keys _ cs' =>
      match xml_entry O ft uid top q keys cs' c m with
      | (m, Raise ex) => (m, Raise ex)
      | (m, Ok k) => load_xml O ft uid top cs' (q ++ [Ent k]) c m
      end
  | SLeafList _ ts _ => xml_member O ft top q ts c m
  | SLeaf _ _ _ _ _ => xml_set O top q s c m
  end.
Definition xload_member (cs : list schema) (p : list pstep) (c : xml) (m : list obj) : step :=
  match find_kid (x_name c) cs with
  | None => (m, Raise AttributeError)
  | Some (n, s) => xload_kid s (p ++ [Kid n]) c m
  end.
Lemma load_xml_each cs p e m : load_xml O ft uid top cs p e m = for_each (xload_member cs p) (x_kids e) m.
Proof.
  destruct e as [ns n d t kids]. cbn [load_xml x_kids]. apply each_ext. intros c m'. unfold xload_member.
  destruct (find_kid (x_name c) cs) as [[k s]|]; [|reflexivity]. destruct s; reflexivity.
Qed.

(* ------------------------------------------------------------------ the round trip *)
Context (Hpk : plain_keys top) (im ins : einfo -> str -> option str).
Notation upd := (upd top).
Notation outer := (outer O top).
Notation around := (around O top).
Notation quiet := (quiet O).
Notation xgen_kid := (xgen_kid O im ins true).
Notation xgen_kids := (xgen_kids O im ins true).
Notation kid_els := (kid_els O im ins true).
Notation kids_els := (kids_els O im ins true).

(** What is asked of a tree. *)
Definition xkey_value (cs : list schema) (kids : list obj) (i : einfo) (n : str) (kv : pyval) : Prop :=
  exists a ki lt d yt key v t, kid_index n cs = Some a /\ nth_error cs a = Some (SLeaf ki lt d yt key) /\ nth_error kids a = Some (OLeaf true v) /\
    e_ns ki = e_ns i /\ leaf_text O im ki lt yt v = Ok t /\ objectified ft t = kv /\ d_out (leaf_assign O lt kv) = Ok v.
(** A member as the decoder appends it to [l]. *)
Definition xappends (ts : list pty) (l : list pyval) (t : str) (v : pyval) : Prop :=
  let w := objectified ft t in
  (forall z, In z l -> py_eq z w = true -> py_eq z v = true) /\
  (member_value O ts w = Some v \/
   member_value O ts w = None /\ In TStr ts /\ member_value O ts (VStr (py_str O w)) = Some v /\
   forall z, In z l -> py_eq z (VStr (py_str O w)) = true -> py_eq z v = true).

Inductive xready : schema -> obj -> Prop :=
| XrLeaf i lt d yt k ch v :
    (ch = true -> exists ds t, prefixes O im ins (SLeaf i lt d yt k) (OLeaf true v) = Ok ds /\ leaf_text O im i lt yt v = Ok t /\
       (is_key (SLeaf i lt d yt k) = false -> exists w, xml_value yt t = Ok (Some w) /\ d_out (leaf_assign O lt w) = Ok v)) ->
    xready (SLeaf i lt d yt k) (OLeaf ch v)
| XrLeafList i ts yt ch l txts :
    Forall2 (fun v t => member_text O ts v = Ok t /\ xappends ts l t v) l txts ->
    dist l -> (ch = false -> l = []) -> (ch = true -> yt <> lit "identityref") ->
    xready (SLeafList i ts yt) (OLeafList ch l)
| XrCont i pr cs ch pres kids : Forall2 xready cs kids -> Forall (fun s => is_key s = false) cs ->
    (pr = true -> pres = true \/ xgen_kids cs kids = Ok []) ->
    xready (SCont i pr cs) (OCont ch pres kids)
| XrList i keys od cs ch es : keys <> [] -> kdist es ->
    Forall (fun s => is_key s = true -> In (e_py (s_info s)) keys) cs ->
    Forall (fun e => exists c ps kids kvs, snd e = OCont c ps kids /\ Forall2 xready cs kids /\
              Forall2 (xkey_value cs kids i) keys kvs /\ fst e = VStr (join [32%N] (map (py_str O) kvs))) es ->
    xready (SList i keys od cs) (OList ch es).

Definition xarrives (s : schema) : Prop := forall x, (exists q, schema_at top q = Some s) -> xready s x ->
  (xgen_kid s x = Ok None -> get_kid true s x = None) /\
  exists els, kid_els s x = Ok els /\ Forall (element_of (s_info s)) els /\
    forall q m y, shaped top m -> schema_at top q = Some s -> ends_kid q -> at_path m q = Some y -> istart O s x y ->
      settled s x -> outer s x q m ->
      exists m' y', for_each (xload_kid s q) els m = (m', Ok tt) /\ upd q m m' /\ at_path m' q = Some y' /\
        get_kid true s y' = get_kid true s x /\ (~ has_data s x -> m' = m).

Lemma xmember_kid cs p n s : named_ok cs -> nth_error cs n = Some s -> forall els m, Forall (element_of (s_info s)) els ->
  for_each (xload_member cs p) els m = for_each (xload_kid s (p ++ [Kid n])) els m.
Proof.
  intros Hnm Hs els. induction els as [|e els IH]; intros m H; [reflexivity|]. inversion H as [|? ? [He _] H']; subst.
  cbn [for_each]. unfold xload_member at 1. rewrite He, (find_own cs n s Hnm Hs).
  destruct (xload_kid s (p ++ [Kid n]) e m) as [m1 [u|ex]]; cbn [andthen]; [now apply IH|reflexivity].
Qed.

Lemma xkids_arrive cs : named_ok cs -> Forall xarrives cs -> (exists q i pr, schema_at top q = Some (SCont i pr cs)) ->
  forall kids, length kids = length cs ->
  forall cs2 kids2 n0, (forall n s, nth_error cs2 n = Some s -> nth_error cs (n0 + n) = Some s) ->
  (forall n x, nth_error kids2 n = Some x -> nth_error kids (n0 + n) = Some x) -> Forall2 xready cs2 kids2 ->
  (xgen_kids cs2 kids2 = Ok [] -> get_kids true cs2 kids2 = []) /\
  exists els, kids_els cs2 kids2 = Ok els /\
    forall p m i pr, shaped top m -> schema_at top p = Some (SCont i pr cs) ->
      (forall n s x, nth_error cs2 n = Some s -> nth_error kids2 n = Some x ->
         exists y, at_path m (p ++ [Kid (n0 + n)]) = Some y /\ istart O s x y) ->
      Forall2 settled cs2 kids2 -> around cs kids p m -> quiet cs kids p m -> (p <> [] -> kids_settled cs kids) ->
      exists m', for_each (xload_member cs p) els m = (m', Ok tt) /\ upd p m m' /\
        kept (at_path m p) (at_path m' p) /\ (get_kids true cs2 kids2 = [] -> m' = m) /\
        (forall n, (n < n0)%nat -> at_path m' (p ++ [Kid n]) = at_path m (p ++ [Kid n])) /\
        (forall n s x, nth_error cs2 n = Some s -> nth_error kids2 n = Some x ->
           exists y', at_path m' (p ++ [Kid (n0 + n)]) = Some y' /\ get_kid true s y' = get_kid true s x).
Proof.
  intros Hnm HP Hq0 kids Hlk. induction cs2 as [|s cs2 IH]; intros kids2 n0 Hsuf Hsuk Hr; inversion Hr as [|? x ? kids2' Hrs Hrr E1 E2]; subst.
  - split; [reflexivity|]. exists []. split; [reflexivity|]. intros p m i pr Hs Hp _ _ _ _ _. exists m. split; auto.
    split; [now apply upd_refl|]. split; [apply kept_refl|]. split; auto. split; auto. intros [|n]; discriminate.
  - assert (Hsuf' : forall n t, nth_error cs2 n = Some t -> nth_error cs (S n0 + n) = Some t).
    { intros n t Hn. rewrite <- (Hsuf (S n) t Hn). f_equal. lia. }
    assert (Hsuk' : forall n t, nth_error kids2' n = Some t -> nth_error kids (S n0 + n) = Some t).
    { intros n t Hn. rewrite <- (Hsuk (S n) t Hn). f_equal. lia. }
    assert (Hs0 : nth_error cs n0 = Some s). { rewrite <- (Hsuf 0%nat s eq_refl). f_equal. lia. }
    assert (Hx0 : nth_error kids n0 = Some x). { rewrite <- (Hsuk 0%nat x eq_refl). f_equal. lia. }
    destruct (IH kids2' (S n0) Hsuf' Hsuk' Hrr) as (Hnil & gs & Hgs & Hload).
    assert (Har : xarrives s) by (rewrite Forall_forall in HP; eapply HP, nth_error_In; eassumption).
    assert (Hq : exists q, schema_at top q = Some s).
    { destruct Hq0 as (q & i & pr & Hq). exists (q ++ [Kid n0]). now rewrite (schema_kid top q i pr cs). }
    destruct (Har x Hq Hrs) as (Hnone & g & Hg & Hnames & Hl). split.
    { cbn [Xml.xgen_kids get_kids]. destruct (xgen_kid s x) as [o|]; [|discriminate]. cbn [bind].
      destruct (xgen_kids cs2 kids2') as [r|] eqn:Er; [|discriminate]. cbn [bind]. destruct o as [mm|]; [discriminate|].
      intros H. injection H as ->. now rewrite (Hnone eq_refl), Hnil. }
    exists (g ++ gs). split. { apply kids_els_cons. eauto. }
    intros p m i pr Hsh Hp Hst Hse Haro Hqui Hkset. inversion Hse as [|? ? ? ? Hse1 Hse2]; subst.
    destruct (Hst 0%nat s x eq_refl eq_refl) as (y & Hy & Hsty). rewrite Nat.add_0_r in Hy.
    destruct (Hl (p ++ [Kid n0]) m y Hsh) as (m1 & y1 & El & Hu & Hy1 & Hg1 & Hno1); auto using ends_kid_app.
    { now rewrite (schema_kid top p i pr cs). }
    { intros Hdat. eapply kid_clear; eauto. }
    destruct (Hload p m1 i pr) as (m2 & E2' & Hu2 & Hk2 & Hsame & Hlow & Hnew); auto.
    { apply Hu. }
    2:{ eapply around_upd; [eapply upd_below; exact Hu|exact Haro]. }
    2:{ destruct (data_dec s x) as [Hdat|Hdat]; [eapply quiet_upd; eauto|]. now rewrite (Hno1 Hdat). }
    { intros n t' z Ht Hz. destruct (Hst (S n) t' z Ht Hz) as (w & Hw & Hsw). exists w.
      replace (n0 + S n)%nat with (S n0 + n)%nat in Hw by lia. split; auto.
      rewrite (u_apart _ _ _ _ Hu); auto. apply apart_kids. lia. }
    exists m2. split.
    { rewrite for_each_app, (xmember_kid cs p n0 s Hnm Hs0 g m Hnames), El. exact E2'. }
    split; [eapply upd_trans; [eapply upd_below; exact Hu|exact Hu2]|].
    split; [eapply kept_trans; [eapply upd_above_one; exact Hu|exact Hk2]|].
    split.
    { cbn [get_kids]. destruct (get_kid true s x) eqn:Eg; [discriminate|]. intros Hnk. rewrite (Hsame Hnk). apply Hno1. unfold has_data. rewrite Eg. auto. }
    split.
    { intros n Hn. rewrite Hlow by lia. apply (u_apart _ _ _ _ Hu), apart_kids. lia. }
    intros [|n] t' z Ht Hz; cbn in Ht, Hz.
    * injection Ht as <-. injection Hz as <-. exists y1. rewrite Nat.add_0_r, Hlow by lia. auto.
    * destruct (Hnew n t' z Ht Hz) as (w & Hw & Hgw). exists w. replace (n0 + S n)%nat with (S n0 + n)%nat by lia. auto.
Qed.

Lemma each_one {A} (f : A -> list obj -> step) a m : for_each f [a] m = f a m.
Proof. cbn [for_each]. now destruct (f a m) as [m' [[]|ex]]. Qed.

Lemma xleaf_arrives i lt d yt k : xarrives (SLeaf i lt d yt k).
Proof.
  intros x _ Hr. inversion Hr as [? ? ? ? ? ch v Henc| | |]; subst. split.
  { cbn [Xml.xgen_kid]. destruct (prefixes O im ins (SLeaf i lt d yt k) (OLeaf ch v)); [|discriminate]. cbn [bind negb orb]. destruct ch; [discriminate|reflexivity]. }
  destruct ch.
  2:{ exists []. split; [|split; [constructor|]].
      - unfold Xml_proofs.kid_els. cbn [Xml.xgen_kid prefixes]. rewrite Bool.andb_false_r. reflexivity.
      - intros q m y Hs Hsc He Hy Hst Hse Hout. exists m, y. split; [reflexivity|]. split; [now apply upd_refl|]. split; auto. split; auto.
        destruct Hst as [[Hb _]|(i' & lt' & d' & yt' & k' & v' & E & Ev & _)]; [|discriminate Ev]. subst y. now rewrite (get_blank _ _ (fresh_blank O _)). }
  destruct (Henc eq_refl) as (ds & t & Hds & Ht & Hread).
  exists [XElem (e_ns i) (e_yang i) ds t []]. split; [|split].
  { unfold Xml_proofs.kid_els. cbn [Xml.xgen_kid]. rewrite Hds. cbn [bind negb orb member_els elements]. now rewrite Ht. }
  { constructor; [|constructor]. now split. }
  intros q m y Hs Hsc He Hy Hst Hse Hout. rewrite each_one. cbn [xload_kid]. unfold xml_set. cbn [x_text s_ytype].
  destruct (is_key (SLeaf i lt d yt k)) eqn:Hk.
  - destruct Hst as [[_ E]|(i' & lt' & d' & yt' & k' & v' & E & Ev & ->)]; [congruence|]. injection Ev as <-.
    exists m, (OLeaf true v). split; [reflexivity|]. split; [now apply upd_refl|]. split; auto.
  - destruct (Hread eq_refl) as (w & Hw & Ha). rewrite Hw.
    destruct (op_calm O top _ m q (ASet (Priv false) (AVal w)) _ y Hs He Hsc Hy (own_events O _ _ (ASet (Priv false) (AVal w)) I) (Hout ltac:(discriminate))) as (Hu & Ho & Hp).
    destruct (run_op m q (ASet (Priv false) (AVal w))) as [m' r] eqn:Er. cbn [fst snd] in *.
    exists m', (OLeaf true v).
    unfold put in Hp. cbn [apply assign] in Ho, Hp. rewrite Hk in Ho, Hp. cbn [andb] in Ho, Hp.
    cbn [set_any] in Ho, Hp. unfold set_leaf in Ho, Hp. rewrite Ha in Ho, Hp. cbn in Ho, Hp.
    subst r. split; auto. split; auto. split; auto. split; auto. intros Hn. exfalso. apply Hn. discriminate.
Qed.

Lemma existsb_str ts : In TStr ts -> existsb (fun t => match t with TStr => true | _ => false end) ts = true.
Proof. intros H. apply existsb_exists. now exists TStr. Qed.

Lemma xappend_all i ts yt ds q txts2 : forall l1 l2 l m c,
  Forall2 (fun v t => member_text O ts v = Ok t /\ xappends ts l t v) l2 txts2 ->
  dist (l1 ++ l2) -> incl l1 l -> incl l2 l -> shaped top m -> schema_at top q = Some (SLeafList i ts yt) -> ends_kid q ->
  at_path m q = Some (OLeafList c l1) -> outer (SLeafList i ts yt) (OLeafList true l) q m ->
  exists m' c', for_each (xml_member O ft top q ts) (map (fun t => XElem (e_ns i) (e_yang i) ds t []) txts2) m = (m', Ok tt) /\
    upd q m m' /\ at_path m' q = Some (OLeafList c' (l1 ++ l2)).
Proof.
  induction txts2 as [|t txts2 IH]; intros l1 l2 l m c Hf Hd Hi1 Hi2 Hs Hsc He Hat Hout; inversion Hf as [|v ? l2' ? Hv Hf' E1 E2]; subst.
  - exists m, c. cbn. rewrite app_nil_r. split; auto. split; auto using upd_refl.
  - assert (Hdat : has_data (SLeafList i ts yt) (OLeafList true l)).
    { unfold has_data. cbn. destruct l; [destruct (Hi2 v (or_introl eq_refl))|discriminate]. }
    destruct Hv as (_ & Hnew & Hm). set (w := objectified ft t) in *.
    assert (Hd1 : dist (l1 ++ [v])).
    { change (v :: l2') with ([v] ++ l2') in Hd. rewrite app_assoc in Hd. apply dist_app in Hd. apply Hd. }
    assert (Hfresh : forall z, (forall y, In y l -> py_eq y z = true -> py_eq y v = true) -> py_in z l1 = false).
    { intros z Hz. apply py_in_not. intros Hh. apply Exists_exists in Hh. destruct Hh as (y & Hy & Ey).
      apply dist_app in Hd1. destruct Hd1 as (_ & _ & H). specialize (H y v Hy (or_introl eq_refl)).
      rewrite (Hz y) in H; [discriminate|now apply Hi1|rewrite py_eq_sym; exact Ey]. }
    pose proof (Hfresh w Hnew) as Hnin.
    assert (Hone : exists m1 c1, xml_member O ft top q ts (XElem (e_ns i) (e_yang i) ds t []) m = (m1, Ok tt) /\ upd q m m1 /\
                     at_path m1 q = Some (OLeafList c1 (l1 ++ [v]))).
    { unfold xml_member. cbn [x_kids x_text]. fold w.
      destruct (op_calm O top _ m q (ALeafList (LAppend w)) _ _ Hs He Hsc Hat (own_events O _ _ (ALeafList (LAppend w)) I) (Hout Hdat)) as (Hu & Ho & Hp).
      destruct (run_op m q (ALeafList (LAppend w))) as [m1 r] eqn:Er. cbn [fst snd] in *.
      unfold put in Hp. cbn [apply tl_op] in Ho, Hp. unfold tl_append, tl_check in Ho, Hp.
      rewrite Hnin in Ho, Hp. cbn [andb] in Ho, Hp.
      destruct Hm as [Hm|(Hm & Hts & Hm2 & Hnew2)]; rewrite Hm in Ho, Hp; cbn in Ho, Hp; subst r.
      - eauto.
      - rewrite (existsb_str ts Hts). set (w2 := VStr (py_str O w)) in *. pose proof (Hfresh w2 Hnew2) as Hnin2.
        assert (Hs1 : shaped top m1) by apply Hu.
        destruct (op_calm O top _ m1 q (ALeafList (LAppend w2)) _ _ Hs1 He Hsc Hp (own_events O _ _ (ALeafList (LAppend w2)) I) (outer_upd O top _ _ q m m1 Hu Hout Hdat)) as (Hu2 & Ho2 & Hp2).
        destruct (run_op m1 q (ALeafList (LAppend w2))) as [m2 r2] eqn:Er2. cbn [fst snd] in *.
        unfold put in Hp2. cbn [apply tl_op] in Ho2, Hp2. unfold tl_append, tl_check in Ho2, Hp2.
        rewrite Hnin2 in Ho2, Hp2. cbn [andb] in Ho2, Hp2. rewrite Hm2 in Ho2, Hp2. cbn in Ho2, Hp2. subst r2.
        exists m2. eexists. split; [reflexivity|]. split; [eapply upd_trans; eassumption|exact Hp2]. }
    destruct Hone as (m1 & c1 & E1 & Hu1 & Hat1).
    cbn [map for_each]. rewrite E1. cbn [andthen].
    destruct (IH (l1 ++ [v]) l2' l m1 c1) as (m2 & c2 & E2 & Hu2 & Hat2); auto.
    { rewrite <- app_assoc. exact Hd. }
    { apply incl_app; auto. intros z [<-|[]]. apply Hi2. now left. }
    { intros z Hz. apply Hi2. now right. } { apply Hu1. } { eapply outer_upd; eauto. }
    exists m2, c2. split; [exact E2|]. split; [eapply upd_trans; eassumption|]. rewrite <- app_assoc in Hat2. exact Hat2.
Qed.
Lemma xmembers_enc i ds ts l l0 txts : Forall2 (fun v t => member_text O ts v = Ok t /\ xappends ts l0 t v) l txts ->
  map_res (fun v => s <- member_text O ts v ;; Ok (XElem (e_ns i) (e_yang i) ds s [])) l =
  Ok (map (fun t => XElem (e_ns i) (e_yang i) ds t []) txts).
Proof. intros H. induction H as [|v t l txts (H1 & _) H2 IH]; [reflexivity|]. rewrite map_res_cons, H1. cbn [bind map]. now rewrite IH. Qed.

Lemma xleaf_list_arrives i ts yt : xarrives (SLeafList i ts yt).
Proof.
  intros x _ Hr. inversion Hr as [|? ? ? ch l txts Henc Hd Hch Hyt| |]; subst. split.
  { cbn [Xml.xgen_kid]. destruct (prefixes O im ins (SLeafList i ts yt) (OLeafList ch l)); [|discriminate]. cbn [bind negb orb]. destruct ch; [discriminate|]. now rewrite Hch. }
  assert (Hp : prefixes O im ins (SLeafList i ts yt) (OLeafList ch l) = Ok []).
  { cbn [prefixes]. destruct ch; [|now rewrite Bool.andb_false_r]. now rewrite (str_eqb_neq _ _ (Hyt eq_refl)). }
  exists (if ch then map (fun t => XElem (e_ns i) (e_yang i) [] t []) txts else []). split; [|split].
  { unfold Xml_proofs.kid_els. cbn [Xml.xgen_kid]. rewrite Hp. cbn [bind negb orb]. destruct ch; [|reflexivity].
    cbn [member_els elements]. exact (xmembers_enc i [] ts l l txts Henc). }
  { destruct ch; [|constructor]. apply Forall_forall. intros e He. apply in_map_iff in He as (t & <- & _). now split. }
  intros q m y Hs Hsc He Hy Hst Hse Hout.
  destruct Hst as [[Hb _]|(i' & lt & d & yt' & k & v & E & _)]; [|discriminate].
  cbn [fresh] in Hb. subst y.
  destruct ch.
  - destruct (xappend_all i ts yt [] q txts [] l l m false Henc Hd (incl_nil_l _) (incl_refl _) Hs Hsc He Hy Hout) as (m' & c' & E & Hu & Hat).
    exists m', (OLeafList c' l). split; [exact E|]. split; [exact Hu|]. split; [exact Hat|]. split; [reflexivity|].
    intros Hn. destruct l as [|v l]; [|exfalso; apply Hn; discriminate]. inversion Henc; subst. cbn in E. congruence.
  - rewrite (Hch eq_refl). exists m, (OLeafList false []). split; [reflexivity|]. split; [now apply upd_refl|]. split; auto.
Qed.

Lemma xready_conf s : forall x, xready s x -> conf s x.
Proof.
  induction s as [i lt d yt k|i ts yt|i pr cs IH|i keys od cs IH] using schema_ind'; intros x H; inversion H; subst; constructor.
  - match goal with H : Forall2 xready _ _ |- _ => rename H into Hk end. clear -IH Hk.
    revert IH; induction Hk as [|a b la lb Hab Hl IHl]; intros IH; constructor; inversion IH; subst; auto.
  - match goal with H : Forall (fun e => exists c ps kids kvs, _) es |- _ => rename H into Hf end.
    eapply Forall_impl; [|exact Hf]. intros e (c & ps & kids & kvs & -> & Hk & _). constructor.
    clear - IH Hk. revert IH. induction Hk as [|a b la lb Hab Hl IHl]; intros IH; constructor; inversion IH; subst; auto.
Qed.
Lemma xreadys_shaped cs kids : Forall2 xready cs kids -> Forall2 conf cs kids.
Proof. intros H. induction H; constructor; auto using xready_conf. Qed.

Lemma xcont_arrives i pr cs : named_ok cs -> Forall xarrives cs -> xarrives (SCont i pr cs).
Proof.
  intros Hnm HP x [q0 Hq0] Hr. inversion Hr as [| |? ? ? ch pres kids Hk Hnk Hpr|]; subst.
  assert (Hlk : length kids = length cs) by (clear -Hk; induction Hk; cbn; congruence).
  destruct (xkids_arrive cs Hnm HP (ex_intro _ q0 (ex_intro _ i (ex_intro _ pr Hq0))) kids Hlk cs kids 0%nat) as (Hnil & els & Hels & Hl); auto.
  pose proof Hels as Hels'. unfold Xml_proofs.kids_els in Hels'.
  destruct (xgen_kids cs kids) as [l|] eqn:El; [|discriminate]. cbn [bind] in Hels'.
  destruct (map_res (member_els O im) l) as [ks|] eqn:Eks; [|discriminate]. cbn [bind] in Hels'. injection Hels' as <-.
  assert (Hgo : (l = [] -> pres = true) ->
      forall q m y, shaped top m -> schema_at top q = Some (SCont i pr cs) -> ends_kid q -> at_path m q = Some y ->
        istart O (SCont i pr cs) (OCont ch pres kids) y -> settled (SCont i pr cs) (OCont ch pres kids) ->
        outer (SCont i pr cs) (OCont ch pres kids) q m ->
        exists m' y', xload_kid (SCont i pr cs) q (XElem (e_ns i) (e_yang i) [] [] (concat ks)) m = (m', Ok tt) /\ upd q m m' /\ at_path m' q = Some y' /\
          get_kid true (SCont i pr cs) y' = get_kid true (SCont i pr cs) (OCont ch pres kids) /\
          (~ has_data (SCont i pr cs) (OCont ch pres kids) -> m' = m)).
  { intros Hpre0 q m y Hs Hsc He Hy Hst Hse Hout. inversion Hse as [| |? ? ? ? ? ? Hkset Hse'|]; subst.
    destruct Hst as [[Hb _]|(i' & lt & d & yt' & k & v & E & _)]; [|discriminate].
    cbn [fresh] in Hb. subst y. set (ky := map (fresh O) cs) in *.
    assert (Hdat : pr = true -> has_data (SCont i pr cs) (OCont ch pres kids)).
    { intros Epr. unfold has_data. rewrite get_cont. assert (pres = true) as ->.
      { destruct (Hpr Epr) as [Hp|Hp]; auto. apply Hpre0. congruence. }
      rewrite Epr. destruct (get_kids true cs kids); discriminate. }
    assert (Hpre : exists m1 c1 ps1, (if pr then run_op m q (APresent true) else (m, Ok tt)) = (m1, Ok tt) /\ upd q m m1 /\
                     at_path m1 q = Some (OCont c1 ps1 ky) /\ (pr = true -> ps1 = true) /\ (pr = false -> m1 = m)).
    { destruct pr.
      - destruct (op_calm O top _ m q (APresent true) _ _ Hs He Hsc Hy (own_events O _ _ (APresent true) I) (Hout (Hdat eq_refl))) as (Hu & Ho & Hp).
        destruct (run_op m q (APresent true)) as [m1 r]. cbn in Ho, Hp, Hu. subst r. exists m1, true, true. split; auto. split; auto. split; auto. split; auto. discriminate.
      - exists m, false, false. repeat split; auto; try discriminate. now intros; apply kept_refl. }
    destruct Hpre as (m1 & c1 & ps1 & E1 & Hu1 & Hat1 & Hps & Hsm).
    destruct (Hl q m1 i pr) as (m2 & E2 & Hu2 & Hk2 & Hsame & _ & Hnew); auto.
    { apply Hu1. }
    { intros n s x Hns Hnx. cbn [Nat.add]. rewrite (at_kid m1 q c1 ps1 ky n Hat1). exists (fresh O s).
      unfold ky. rewrite nth_fresh, Hns. split; [reflexivity|left]. split; [reflexivity|].
      rewrite Forall_forall in Hnk. apply Hnk. eapply nth_error_In; eassumption. }
    { eapply around_outer with (ch := ch) (ps := pres) (i := i) (pr := pr); [apply Hu1|now apply xready_conf|]. eapply outer_upd; eauto. }
    { intros n s x Hns Hnx _. rewrite (at_kid m1 q c1 ps1 ky n Hat1). unfold ky. now rewrite nth_fresh, Hns. }
    assert (Hat2 : exists c2 ps2 k2, at_path m2 q = Some (OCont c2 ps2 k2) /\ (ps1 = true -> ps2 = true)).
    { rewrite Hat1 in Hk2. destruct (at_path m2 q) as [[]|]; cbn in Hk2; try discriminate. eauto. }
    destruct Hat2 as (c2 & ps2 & k2 & Hat2 & Hps2).
    exists m2, (OCont c2 ps2 k2). split.
    { cbn [xload_kid]. rewrite E1. cbn [andthen]. rewrite load_xml_each. exact E2. }
    split; [eapply upd_trans; eassumption|]. split; auto.
    assert (Hno : ~ has_data (SCont i pr cs) (OCont ch pres kids) -> m2 = m).
    { intros Hn. destruct pr; [exfalso; apply Hn, Hdat; reflexivity|]. rewrite <- (Hsm eq_refl). apply Hsame.
      unfold has_data in Hn. rewrite get_cont in Hn. destruct (get_kids true cs kids); [reflexivity|]. exfalso. apply Hn. discriminate. }
    split; [|exact Hno].
    rewrite !get_cont. rewrite (get_kids_ext cs kids k2).
    - destruct (get_kids true cs kids); auto. destruct pr; [|reflexivity]. rewrite (Hps2 (Hps eq_refl)). cbn [andb].
      assert (pres = true) as ->; [|reflexivity]. destruct (Hpr eq_refl) as [Hp|Hp]; auto. apply Hpre0. congruence.
    - now apply xreadys_shaped.
    - destruct (at_path_conf top m2 q _ (u_shape _ _ _ _ Hu2) Hat2) as (s & Hs2 & Hc2). rewrite Hsc in Hs2. injection Hs2 as <-.
      now inversion Hc2.
    - intros n s x Hns Hnx. destruct (Hnew n s x Hns Hnx) as (y & Hy1 & Hy2). cbn [Nat.add] in Hy1.
      rewrite (at_kid m2 q _ _ _ n Hat2) in Hy1. eauto. }
  unfold Xml_proofs.kid_els. rewrite xgen_cont, El. cbn [bind].
  destruct l as [|a l].
  - assert (ks = []) as -> by (cbn in Eks; congruence). destruct pres.
    + split; [discriminate|]. exists [XElem (e_ns i) (e_yang i) [] [] []]. split; [reflexivity|]. split; [constructor; [now split|constructor]|].
      intros q m y Hs Hsc He Hy Hst Hse Hout. rewrite each_one. exact (Hgo (fun _ => eq_refl) q m y Hs Hsc He Hy Hst Hse Hout).
    + assert (Hnone : get_kid true (SCont i pr cs) (OCont ch false kids) = None).
      { rewrite get_cont, (Hnil eq_refl). now rewrite Bool.andb_false_r. }
      split; [intros _; exact Hnone|]. exists []. split; [reflexivity|]. split; [constructor|].
      intros q m y Hs Hsc He Hy Hst Hse Hout. exists m, y. split; [reflexivity|]. split; [now apply upd_refl|]. split; auto. split; auto.
      destruct Hst as [[Hb _]|(i' & lt & d & yt' & k & v & E & _)]; [|discriminate]. subst y. now rewrite (get_blank _ _ (fresh_blank O _)).
  - split; [discriminate|]. cbn [member_els]. rewrite elements_dict, Eks. cbn [bind].
    exists [XElem (e_ns i) (e_yang i) [] [] (concat ks)]. split; [reflexivity|]. split; [constructor; [now split|constructor]|].
    intros q m y Hs Hsc He Hy Hst Hse Hout. rewrite each_one. apply (Hgo ltac:(discriminate) q m y); auto.
Qed.

(* ------------------------------------------------------------------ lists *)
Lemma kid_element s x els : xarrives s -> (exists q, schema_at top q = Some s) -> xready s x -> kid_els s x = Ok els -> Forall (element_of (s_info s)) els.
Proof. intros Ha Hq Hr E. destruct (Ha x Hq Hr) as (_ & els' & E' & H & _). rewrite E in E'. now injection E' as <-. Qed.

(** The key leaf's element is the first of its name. *)
Lemma child_read cs : NoDup (map (fun s => e_yang (s_info s)) cs) -> Forall xarrives cs -> (forall s, In s cs -> exists q, schema_at top q = Some s) ->
  forall kids els a ki lt d yt key v t ns, Forall2 xready cs kids -> kids_els cs kids = Ok els ->
  nth_error cs a = Some (SLeaf ki lt d yt key) -> nth_error kids a = Some (OLeaf true v) -> leaf_text O im ki lt yt v = Ok t -> ns = e_ns ki ->
  exists ds, find (fun c => (str_eqb (x_ns c) ns && str_eqb (x_name c) (e_yang ki))%bool) els = Some (XElem (e_ns ki) (e_yang ki) ds t []).
Proof.
  intros Hnd HP Hq kids els a ki lt d yt key v t ns Hr. revert els a Hnd HP Hq.
  induction Hr as [|s x cs kids Hs Hr IH]; intros els a Hnd HP Hq Hels Ha Hx Ht Hns; [destruct a; discriminate|].
  apply kids_els_cons in Hels as (g & gs & Hg & Hgs & ->). inversion Hnd as [|? ? Hnin Hnd']; subst. inversion HP as [|? ? Hps HP']; subst.
  pose proof (kid_element s x g Hps (Hq s (or_introl eq_refl)) Hs Hg) as Hel.
  assert (Hq' : forall s, In s cs -> exists q, schema_at top q = Some s) by (intros s' H; apply Hq; now right).
  assert (Hfind : forall (f : xml -> bool) l1 l2, Forall (fun e => f e = false) l1 -> find f (l1 ++ l2) = find f l2).
  { intros f l1 l2 H. induction H as [|e l1 He _ IHl]; [reflexivity|]. cbn [app find]. now rewrite He. }
  destruct a as [|a]; cbn in Ha, Hx.
  - injection Ha as ->. injection Hx as ->. clear IH. unfold Xml_proofs.kid_els in Hg. cbn [Xml.xgen_kid] in Hg.
    destruct (prefixes O im ins (SLeaf ki lt d yt key) (OLeaf true v)) as [ds|]; [|discriminate]. cbn [bind negb orb member_els elements] in Hg.
    rewrite Ht in Hg. cbn [bind] in Hg. injection Hg as <-. exists ds. cbn [app find x_ns x_name]. now rewrite !str_eqb_refl.
  - destruct (IH gs a) as [ds Hds]; auto. exists ds. rewrite Hfind; [exact Hds|].
    eapply Forall_impl; [|exact Hel]. intros e [Hn _]. cbn. rewrite Hn, (str_eqb_neq (e_yang (s_info s)) (e_yang ki)); [apply Bool.andb_false_r|].
    intros E. apply Hnin. rewrite E. change (e_yang ki) with ((fun s => e_yang (s_info s)) (SLeaf ki lt d yt key)). apply in_map.
    eapply nth_error_In; eassumption.
Qed.

Lemma xkeys_read i cs kids els ns n ds t : named_ok cs -> Forall xarrives cs -> (forall s, In s cs -> exists q, schema_at top q = Some s) ->
  Forall2 xready cs kids -> kids_els cs kids = Ok els -> ns = e_ns i ->
  forall keys kvs, Forall2 (xkey_value cs kids i) keys kvs -> xml_keys ft cs keys (XElem ns n ds t els) = Ok (combine keys kvs).
Proof.
  intros Hnm HP Hq Hr Hels Hns keys kvs H. unfold xml_keys.
  induction H as [|k kv keys kvs (a & ki & lt & d & yt & key & v & tt' & Ha & Hs & Hx & Hki & Ht & Hkv & _) H IH]; [reflexivity|].
  rewrite map_res_cons. cbn [combine]. rewrite IH. unfold yang_key. rewrite Ha, Hs. cbn [bind s_info]. unfold child_of. cbn [x_ns x_kids].
  destruct (child_read cs (yang_dist cs Hnm) HP Hq kids els a ki lt d yt key v tt' ns Hr Hels Hs Hx Ht) as [ds' E]; [congruence|].
  rewrite E. cbn [bind x_kids x_text]. now rewrite Hkv.
Qed.
Lemma xkey_fun cs kids i keys kvs : Forall2 (xkey_value cs kids i) keys kvs -> exists f, kvs = map f keys.
Proof.
  intros H.
  exists (fun n => match kid_index n cs with
                   | Some a => match nth_error cs a, nth_error kids a with
                               | Some (SLeaf ki lt d yt key), Some (OLeaf _ v) =>
                                   match leaf_text O im ki lt yt v with Ok t => objectified ft t | _ => VNone end
                               | _, _ => VNone
                               end
                   | None => VNone
                   end).
  induction H as [|n kv keys kvs (a & ki & lt & d & yt & key & v & j & Ha & Hs & Hx & _ & Hj & Hjv & _) H IH]; [reflexivity|].
  cbn [map]. rewrite Ha, Hs, Hx, Hj. congruence.
Qed.

(** An entry is added. *)
Lemma xentry_added E i keys od cs kids kvs k e q m c es :
  clear_of O top E q m -> keys <> [] -> Forall2 (xkey_value cs kids i) keys kvs -> k = VStr (join [32%N] (map (py_str O) kvs)) -> named_ok cs ->
  xml_keys ft cs keys e = Ok (combine keys kvs) ->
  shaped top m -> schema_at top q = Some (SList i keys od cs) -> ends_kid q -> at_path m q = Some (OList c es) -> ~ has_key es k ->
  exists m1 k0 evs c1, xml_entry O ft uid top q keys cs e m = (m1, Ok k) /\ upd q m m1 /\
    at_path m1 q = Some (OList c1 (es ++ [(k, OCont (mark evs false) false k0)])) /\
    Forall2 conf cs k0 /\
    forall a y s, nth_error cs a = Some s -> nth_error k0 a = Some y ->
      (In (e_py (s_info s)) keys -> nth_error kids a = Some y) /\ (~ In (e_py (s_info s)) keys -> y = fresh O s).
Proof.
  intros Hclr Hne Hkv Hmade Hnm Hread Hs Hsc He Hat Hnh.
  assert (Hlen : length kvs = length keys) by now apply F2_len in Hkv.
  assert (Htag : forall n a s, In n keys -> kid_index n cs = Some a -> nth_error cs a = Some s -> s_tag s = None \/ s_tag s = e_choice i).
  { intros n a s Hin Ha Hsa. destruct (kid_index_some _ _ _ Ha) as (s' & Hs' & Ep). rewrite Hsa in Hs'. injection Hs' as <-.
    apply (Hpk q i keys od cs a s Hsc Hsa). now rewrite Ep. }
  destruct (fill_target O (e_choice i) cs kids (combine keys kvs) (map (fresh O) cs)) as (k0 & evs & Hfill & Hat0).
  { apply map_length. }
  { apply kept_fresh. }
  { clear -Hkv Htag. induction Hkv as [|n kv keys kvs (a & ki & lt & d & yt & key & v & j & Ha & Hs & Hx & Hns & Hj & Hjv & Hla) H IH]; cbn [combine]; constructor.
    - exists a, ki, lt, d, yt, key, v. repeat (split; [assumption|]). exact (Htag n a _ (or_introl eq_refl) Ha Hs).
    - apply IH. intros n' a' s' Hn'. apply Htag. now right. }
  assert (Hmk : mk_entry O cs (combine keys kvs) = (evs, Ok (OCont (mark evs false) false k0))).
  { unfold mk_entry. now rewrite Hfill. }
  set (e0 := OCont (mark evs false) false k0) in *.
  assert (Hop : xml_entry O ft uid top q keys cs e m =
            match run_op m q (AList (uid es) (YAddKw (combine keys kvs))) with (m', Ok _) => (m', Ok k) | (m', Raise e) => (m', Raise e) end /\
            list_op O keys cs (uid es) es (YAddKw (combine keys kvs)) = (es ++ [(k, e0)], evs, Ok tt)).
  { apply mhas_not in Hnh as Hnm'. subst k. split.
    - unfold xml_entry, entries. rewrite Hat. destruct keys as [|n ks]; [congruence|]. rewrite Hread. cbv zeta.
      rewrite key_text_of by assumption. now rewrite Hnm'.
    - unfold list_op, yl_op. destruct (combine keys kvs) as [|p l] eqn:Ec; [destruct keys, kvs; try discriminate; congruence|]. rewrite <- Ec in *.
      unfold yl_add_kw. destruct (xkey_fun cs kids i _ _ Hkv) as [f Hf]. rewrite (kw_same _ _ f Hf). cbv zeta.
      rewrite key_text_of by assumption. rewrite Hnm', Hmk. cbn [store]. rewrite mput_add by assumption.
      destruct keys; [congruence|reflexivity]. }
  destruct Hop as (E1 & E2). set (o := YAddKw (combine keys kvs)) in *.
  assert (Hev : forall c k, In (Some (c, k)) (snd (fst (list_op O keys cs (uid es) es o))) -> e_choice i = Some (c, k)).
  { rewrite E2. cbn [fst snd]. intros c0 k1. pose proof (fill_events O (e_choice i) cs (combine keys kvs) (map (fresh O) cs)) as Hn. rewrite Hfill in Hn. cbn [fst snd] in Hn.
    apply Hn. intros nm j s Hnm' Hj Hsj. rewrite combine_fst in Hnm' by assumption. split; [exact (Htag nm j s Hnm' Hj Hsj)|].
    clear -Hkv Hnm' Hj Hsj. induction Hkv as [|n kv keys kvs (a & ki & lt & d & yt & key & v & jj & Ha & Hs & _) H IH]; [contradiction|].
    destruct Hnm' as [->|Hnm']; [|auto]. rewrite Ha in Hj. injection Hj as ->. rewrite Hs in Hsj. injection Hsj as <-. now exists ki, lt, d, yt, key. }
  destruct (op_calm O top _ m q (AList (uid es) o) _ _ Hs He Hsc Hat (fun c k => list_events O i keys od cs _ es _ _ c k Hev) Hclr) as (Hu & Ho & Hp).
  rewrite E1. destruct (run_op m q (AList (uid es) o)) as [m1 r]. cbn [fst snd] in *.
  unfold put in Hp. cbn [apply] in Ho, Hp. rewrite E2 in Ho, Hp. cbn in Ho, Hp. subst r.
  exists m1, k0, evs. eexists. split; [reflexivity|]. split; [exact Hu|]. split; [exact Hp|].
  assert (Hck0 : conf (entry_schema cs) e0). { apply (mk_entry_conf O cs (combine keys kvs)). now rewrite Hmk. }
  split; [now inversion Hck0|].
  intros a y s Hsa Hy. destruct (Hat0 a y Hy) as [H1 H2]. destruct Hnm as [Hnd Hsafe].
  assert (Hidx : kid_index (e_py (s_info s)) cs = Some a) by now apply kid_index_nth.
  assert (Hmap : map (fun nv => kid_index (fst nv) cs) (combine keys kvs) = map (fun n => kid_index n cs) keys).
  { rewrite <- (map_map fst (fun n => kid_index n cs)). now rewrite combine_fst. }
  rewrite Hmap in H1, H2. split.
  - intros Hin. apply H1. rewrite <- Hidx. now apply (in_map (fun n => kid_index n cs)).
  - intros Hnin. assert (Hn : ~ In (Some a) (map (fun n => kid_index n cs) keys)).
    { intros Hi. apply in_map_iff in Hi as (n & En & Hi). apply kid_index_some in En as (s' & Hs' & Ep). rewrite Hsa in Hs'. injection Hs' as <-.
      apply Hnin. now rewrite Ep. }
    specialize (H2 Hn). rewrite nth_fresh, Hsa in H2. cbn in H2. congruence.
Qed.

Inductive xentries (keys : list str) (i : einfo) (cs : list schema) : list (pyval * obj) -> list xml -> Prop :=
| XeNil : xentries keys i cs [] []
| XeCons k c ps kids kvs ks es els : Forall2 (xkey_value cs kids i) keys kvs -> k = VStr (join [32%N] (map (py_str O) kvs)) -> Forall2 xready cs kids ->
    kids_els cs kids = Ok ks -> xentries keys i cs es els ->
    xentries keys i cs ((k, OCont c ps kids) :: es) (XElem (e_ns i) (e_yang i) [] [] ks :: els).

Lemma xentries_make keys i cs : named_ok cs -> Forall xarrives cs -> (exists q i pr, schema_at top q = Some (SCont i pr cs)) -> forall es,
  Forall (fun e => exists c ps kids kvs, snd e = OCont c ps kids /\ Forall2 xready cs kids /\
              Forall2 (xkey_value cs kids i) keys kvs /\ fst e = VStr (join [32%N] (map (py_str O) kvs))) es ->
  exists els, map_res (entry_els O im ins true i cs) es = Ok els /\ xentries keys i cs es els.
Proof.
  intros Hnm HP Hq. induction es as [|[k e] es IH]; intros H.
  - exists []. split; [reflexivity|constructor].
  - inversion H as [|? ? (c & ps & kids & kvs & He & Hr & Hkv & Hm) H']; subst. cbn [fst snd] in *. subst e.
    assert (Hlk : length kids = length cs) by (clear -Hr; induction Hr; cbn; congruence).
    destruct (IH H') as (els & Hels & Hel).
    destruct (xkids_arrive cs Hnm HP Hq kids Hlk cs kids 0%nat) as (_ & ks & Hks & _); auto.
    exists (XElem (e_ns i) (e_yang i) [] [] ks :: els). split.
    + rewrite map_res_cons. unfold entry_els at 1. cbn [snd]. rewrite Hks. cbn [bind]. now rewrite Hels.
    + econstructor; eauto.
Qed.

Lemma xentry_loads i keys od cs kids kvs k ks q m c es xc xes ec eps :
  mget k xes = Some (OCont ec eps kids) -> outer (SList i keys od cs) (OList xc xes) q m -> settled (entry_schema cs) (OCont ec eps kids) -> keys <> [] -> Forall2 (xkey_value cs kids i) keys kvs -> k = VStr (join [32%N] (map (py_str O) kvs)) -> named_ok cs -> Forall xarrives cs ->
  Forall (fun s => is_key s = true -> In (e_py (s_info s)) keys) cs -> Forall2 xready cs kids ->
  kids_els cs kids = Ok ks ->
  shaped top m -> schema_at top q = Some (SList i keys od cs) -> ends_kid q -> at_path m q = Some (OList c es) -> ~ has_key es k ->
  exists m' c' es' e', xload_kid (SList i keys od cs) q (XElem (e_ns i) (e_yang i) [] [] ks) m = (m', Ok tt) /\ upd q m m' /\ at_path m' q = Some (OList c' es') /\
    map fst es' = map fst es ++ [k] /\ (forall k', py_eq k k' = false -> mget k' es' = mget k' es) /\
    mget k es' = Some e' /\ get_entry true cs e' = DDict (get_kids true cs kids).
Proof.
  intros Hmg Hout Hse Hne Hkv Hmade Hnm HP Hkeys Hr Hks Hs Hsc He Hat Hnh.
  inversion Hse as [| |? ? ? ? ? ? Hkset Hse'|]; subst.
  assert (Hlk : length kids = length cs) by (clear -Hr; induction Hr; cbn; congruence).
  assert (Hdat : has_data (SList i keys od cs) (OList xc xes)).
  { unfold has_data. rewrite get_list. destruct xes; [discriminate Hmg|discriminate]. }
  set (k := VStr (join [32%N] (map (py_str O) kvs))) in *.
  assert (Hqs : forall s, In s cs -> exists q, schema_at top q = Some s).
  { intros s Hin. apply In_nth_error in Hin as [n Hn]. exists ((q ++ [Ent k]) ++ [Kid n]).
    rewrite (schema_kid top _ plain false cs); auto. now apply schema_entry with i keys od. }
  pose proof (xkeys_read i cs kids ks (e_ns i) (e_yang i) [] [] Hnm HP Hqs Hr Hks eq_refl keys kvs Hkv) as Hread.
  destruct (xentry_added _ i keys od cs kids kvs k _ q m c es (Hout Hdat) Hne Hkv eq_refl Hnm Hread Hs Hsc He Hat Hnh) as (m1 & k0 & evs & c1 & E1 & Hu & Hp & Hck & Hk0).
  cbn [xload_kid]. rewrite E1. set (e0 := OCont (mark evs false) false k0) in *.
  assert (Hg0 : mget k (es ++ [(k, e0)]) = Some e0) by now apply mget_snoc.
  assert (Hate : at_path m1 (q ++ [Ent k]) = Some e0) by now rewrite (at_entry m1 q _ _ k Hp).
  pose proof (schema_entry top q i keys od cs k Hsc) as Hsce.
  destruct (xkids_arrive cs Hnm HP (ex_intro _ (q ++ [Ent k]) (ex_intro _ plain (ex_intro _ false Hsce))) kids Hlk cs kids 0%nat)
    as (_ & ks' & Hks' & Hl); auto.
  rewrite Hks in Hks'. injection Hks' as <-.
  assert (Hst0 : forall j s x, nth_error cs j = Some s -> nth_error kids j = Some x ->
             exists y, at_path m1 ((q ++ [Ent k]) ++ [Kid (0 + j)]) = Some y /\ istart O s x y).
  { intros j s x Hj Hx. cbn [Nat.add]. rewrite (at_kid _ _ _ _ _ j Hate).
    destruct (Forall2_nth conf cs k0 j s Hck Hj) as (y & Hy & Hcy). exists y. split; auto.
    destruct (Hk0 j y s Hj Hy) as [Hin Hou].
    destruct (in_dec (list_eq_dec N.eq_dec) (e_py (s_info s)) keys) as [Hk|Hk].
    - right. specialize (Hin Hk). rewrite Hx in Hin. injection Hin as ->.
      assert (Hkx : exists i lt d yt kk v, s = SLeaf i lt d yt kk /\ y = OLeaf true v).
      { clear -Hkv Hk Hj Hx Hnm. induction Hkv as [|n kv keys kvs (a & ki & lt & d & yt & key & v & jj & Ha & Hs & Hxx & _) H IH]; [contradiction|].
        destruct Hk as [->|Hk]; [|auto]. destruct Hnm as [Hnd _]. rewrite (kid_index_nth cs Hnd j s Hj) in Ha. injection Ha as <-.
        rewrite Hj in Hs. injection Hs as ->. rewrite Hx in Hxx. injection Hxx as ->. do 6 eexists. split; reflexivity. }
      destruct Hkx as (i' & lt & d & yt & kk & v & -> & ->). now exists i', lt, d, yt, kk, v.
    - left. rewrite (Hou Hk). split; [reflexivity|]. rewrite Forall_forall in Hkeys.
      destruct (is_key s) eqn:Ek; auto. exfalso. apply Hk. apply Hkeys; auto. eapply nth_error_In; eassumption. }
  destruct (Hl (q ++ [Ent k]) m1 plain false) as (m2 & E2 & Hu2 & Hk2 & _ & _ & Hnew); auto.
  { apply Hu. }
  { eapply around_outer with (ch := ec) (ps := eps) (i := plain) (pr := false); [apply Hu|constructor; now apply xreadys_shaped|].
    eapply entry_outer with (ch := xc); eauto. eapply outer_upd; eauto. }
  { intros j s x Hj Hx Hnd. destruct (Hst0 j s x Hj Hx) as (y & Hy & [[-> _]|(i' & lt & d & yt & kk & v & -> & -> & _)]); [exact Hy|].
    exfalso. apply Hnd. discriminate. }
  destruct (upd_entry top q k m1 m2 _ _ Hu2 Hp) as (c2 & es2 & Hat2 & Hkeys2 & Hoth).
  assert (Hate2 : exists ch ps kk, at_path m2 (q ++ [Ent k]) = Some (OCont ch ps kk)).
  { rewrite Hate in Hk2. destruct (at_path m2 (q ++ [Ent k])) as [[]|]; cbn in Hk2; try discriminate. eauto. }
  destruct Hate2 as (ch2 & ps2 & kk2 & Hate2).
  exists m2, c2, es2, (OCont ch2 ps2 kk2). split; [rewrite load_xml_each; exact E2|].
  split; [eapply upd_trans; [exact Hu|eapply upd_below; exact Hu2]|]. split; auto. split.
  { rewrite Hkeys2, map_app. reflexivity. }
  split.
  { intros k' Hk'. rewrite Hoth by assumption. rewrite <- (mput_add es k e0 Hnh). apply mget_mput_other. now rewrite py_eq_sym. }
  split; [now rewrite <- (at_entry m2 q _ _ k Hat2)|].
  unfold get_entry. f_equal. apply get_kids_ext; auto.
  - now apply xreadys_shaped.
  - destruct (at_path_conf top m2 _ _ (u_shape _ _ _ _ Hu2) Hate2) as (s & Hs2 & Hc2).
    rewrite (schema_entry top q i keys od cs k Hsc) in Hs2. injection Hs2 as <-. now inversion Hc2.
  - intros j s x Hj Hx. destruct (Hnew j s x Hj Hx) as (y & Hy1 & Hy2). cbn [Nat.add] in Hy1. rewrite (at_kid _ _ _ _ _ j Hate2) in Hy1. eauto.
Qed.

Lemma xentries_load i keys od cs q xc xes : keys <> [] -> named_ok cs -> Forall xarrives cs ->
  Forall (fun s => is_key s = true -> In (e_py (s_info s)) keys) cs -> schema_at top q = Some (SList i keys od cs) -> ends_kid q ->
  forall es els, xentries keys i cs es els ->
  (forall k e, In (k, e) es -> mget k xes = Some e /\ settled (entry_schema cs) e) ->
  forall m c es0, kdist (es0 ++ es) -> shaped top m -> at_path m q = Some (OList c es0) -> outer (SList i keys od cs) (OList xc xes) q m ->
  exists m' c' es', for_each (xload_kid (SList i keys od cs) q) els m = (m', Ok tt) /\
    upd q m m' /\ at_path m' q = Some (OList c' es') /\
    map (fun e => (fst e, get_entry true cs (snd e))) es' = map (fun e => (fst e, get_entry true cs (snd e))) (es0 ++ es).
Proof.
  intros Hne Hnm HP Hkeys Hsc He. induction 1 as [|k c1 ps kids kvs ks es els Hkv Hmade Hr Hks Hel IH]; intros Hxe m c es0 Hkd Hs Hat Hout.
  - exists m, c, es0. rewrite app_nil_r. split; auto. split; auto using upd_refl.
  - assert (Hnh : ~ has_key es0 k).
    { intros (k1 & z & Hin & Heq). unfold kdist in Hkd. rewrite map_app in Hkd. apply dist_app in Hkd. destruct Hkd as (_ & _ & H).
      assert (py_eq k1 k = false) by (apply H; [change k1 with (fst (k1, z)); now apply in_map|now left]).
      rewrite py_eq_sym in Heq. congruence. }
    destruct (xentry_loads i keys od cs kids kvs k ks q m c es0 xc xes c1 ps (proj1 (Hxe _ _ (or_introl eq_refl))) Hout (proj2 (Hxe _ _ (or_introl eq_refl))) Hne Hkv Hmade Hnm HP Hkeys Hr Hks Hs Hsc He Hat Hnh)
      as (m1 & c' & es1 & e1 & E1 & Hu1 & Hat1 & Hk1 & Hoth & Hget & Hshow).
    set (mid := es0 ++ [(k, OCont c1 ps kids)]).
    assert (Hmid : kdist (mid ++ es)). { unfold mid. rewrite <- app_assoc. exact Hkd. }
    assert (Hkmid : kdist mid) by (unfold kdist in *; rewrite map_app in Hmid; apply dist_app in Hmid; apply Hmid).
    assert (Hsh : map (fun e => (fst e, get_entry true cs (snd e))) es1 = map (fun e => (fst e, get_entry true cs (snd e))) mid).
    { apply same_shown; auto.
      - rewrite Hk1. unfold mid. now rewrite map_app.
      - intros k' Hk'. unfold mid. destruct (py_eq k k') eqn:Ek.
        + assert (Hmg : forall l : list (pyval * obj), mget k' l = mget k l).
          { clear - Ek. induction l as [|[k1 z] l IH]; [reflexivity|]. cbn [mget]. rewrite IH.
            destruct (py_eq k' k1) eqn:E1, (py_eq k k1) eqn:E2; auto.
            - pose proof (py_eq_trans _ _ _ Ek E1). congruence.
            - rewrite py_eq_sym in Ek. pose proof (py_eq_trans _ _ _ Ek E2). congruence. }
          rewrite !Hmg, Hget, mget_snoc by assumption. cbn. now rewrite Hshow.
        + rewrite Hoth by assumption. rewrite <- (mput_add es0 k (OCont c1 ps kids) Hnh), mget_mput_other; auto.
          now rewrite py_eq_sym. }
    assert (Hfst : map fst es1 = map fst mid).
    { apply (f_equal (map fst)) in Hsh. rewrite !map_map in Hsh. exact Hsh. }
    destruct (IH (fun k e H => Hxe k e (or_intror H)) m1 c' es1) as (m2 & c2 & es2 & E2 & Hu2 & Hat2 & Hsh2); auto.
    { unfold kdist in *. rewrite map_app in *. now rewrite Hfst. } { apply Hu1. } { eapply outer_upd; eauto. }
    exists m2, c2, es2. split; [cbn [for_each]; rewrite E1; exact E2|].
    split; [eapply upd_trans; eassumption|]. split; auto.
    rewrite Hsh2, map_app, Hsh. unfold mid. rewrite !map_app, <- app_assoc. reflexivity.
Qed.

Lemma xlist_arrives i keys od cs : named_ok cs -> Forall xarrives cs -> xarrives (SList i keys od cs).
Proof.
  intros Hnm HP x [q0 Hq0] Hr. inversion Hr as [| | |? ? ? ? ch es Hne Hkd Hkeys Hents]; subst.
  destruct (xentries_make keys i cs Hnm HP) with (es := es) as (els & Henc & Hok); auto.
  { exists (q0 ++ [Ent VNone]), plain, false. now apply schema_entry with i keys od. }
  split.
  { rewrite xgen_list. destruct es as [|e es]; [reflexivity|]. rewrite map_res_cons. destruct (entry_xtree _ _ _ _ cs e); [|discriminate].
    cbn [bind]. destruct (map_res _ es); discriminate. }
  exists els. split; [now apply kid_els_list|]. split.
  { clear -Hok. induction Hok; constructor; auto. now split. }
  intros q m y Hs Hsc He Hy Hst Hse Hout. inversion Hse as [| | |? ? ? ? ? ? Hset]; subst.
  assert (Hxe : forall k e, In (k, e) es -> mget k es = Some e) by now apply kdist_mget.
  destruct Hst as [[Hb _]|(i' & lt & d & yt' & k & v & E & _)]; [|discriminate].
  cbn [fresh] in Hb. subst y.
  destruct (xentries_load i keys od cs q ch es Hne Hnm HP Hkeys Hsc He es els Hok) with (m := m) (c := false) (es0 := @nil (pyval * obj)) as (m' & c' & es' & E & Hu & Hat & Hsh); auto.
  { intros k e Hin. split; [now apply Hxe|]. apply Hset with k. now apply Hxe. }
  exists m', (OList c' es'). split; [exact E|]. split; auto. split; auto. rewrite !get_list, Hsh. cbn [app]. split.
  - destruct es' as [|? ?], es; try discriminate Hsh; reflexivity.
  - intros Hn. destruct es as [|e es]; [|exfalso; apply Hn; unfold has_data; rewrite get_list; discriminate].
    inversion Hok; subst. cbn in E. congruence.
Qed.

(* ------------------------------------------------------------------ together *)
Lemma all_xarrive : (forall p i pr cs, schema_at top p = Some (SCont i pr cs) -> named_ok cs) ->
  forall s q, schema_at top q = Some s -> xarrives s.
Proof.
  intros Hnm. induction s as [i lt d yt k|i ts yt|i pr cs IH|i keys od cs IH] using schema_ind'; intros q Hq.
  - apply xleaf_arrives.
  - apply xleaf_list_arrives.
  - apply xcont_arrives; [eapply Hnm; eassumption|]. apply Forall_forall. intros s Hs. apply In_nth_error in Hs as [n Hn].
    rewrite Forall_forall in IH. apply (IH s (nth_error_In _ _ Hn) (q ++ [Kid n])). now rewrite (schema_kid top q i pr cs).
  - pose proof (schema_entry top q i keys od cs VNone Hq) as Hq'.
    apply xlist_arrives; [eapply Hnm; eassumption|]. apply Forall_forall. intros s Hs. apply In_nth_error in Hs as [n Hn].
    rewrite Forall_forall in IH. apply (IH s (nth_error_In _ _ Hn) ((q ++ [Ent VNone]) ++ [Kid n])).
    now rewrite (schema_kid top _ plain false cs).
Qed.

Theorem xready_round_trip ns name kids : (forall p i pr cs, schema_at top p = Some (SCont i pr cs) -> named_ok cs) ->
  Forall (fun s => is_key s = false) top -> Forall2 xready top kids -> Forall2 settled top kids ->
  exists e m', encode O im ins true ns name top kids = Ok e /\ decode O ft uid top e = (m', Ok tt) /\
    get_kids true top m' = get_kids true top kids.
Proof.
  intros Hnm Hnk Hr Hse. pose proof (Hnm [] plain false top eq_refl) as Hn0.
  assert (Hlk : length kids = length top) by (clear -Hr; induction Hr; cbn; congruence).
  assert (HP : Forall xarrives top).
  { apply Forall_forall. intros s Hs. apply In_nth_error in Hs as [n Hn]. apply (all_xarrive Hnm s [Kid n]).
    unfold schema_at. cbn. now rewrite Hn. }
  destruct (xkids_arrive top Hn0 HP) with (kids := kids) (cs2 := top) (kids2 := kids) (n0 := 0%nat) as (_ & els & Hels & Hl); auto.
  { now exists [], plain, false. }
  destruct (Hl [] (module_new O top) plain false) as (m' & E & Hu & _ & _ & _ & Hnew); auto.
  { apply fresh_shaped. }
  { intros n s x Hs Hx. exists (fresh O s). split.
    - unfold at_path. cbn. unfold module_new. now rewrite nth_fresh, Hs.
    - left. split; [reflexivity|]. rewrite Forall_forall in Hnk. apply Hnk. eapply nth_error_In; eassumption. }
  { intros n s x Hs Hx Hd r t c k k' Hll. cbn in Hll. lia. }
  { intros n s x Hs Hx _. unfold at_path. cbn. unfold module_new. now rewrite nth_fresh, Hs. }
  { congruence. }
  exists (XElem ns name [] [] els), m'. split; [rewrite encode_els, Hels; reflexivity|].
  split; [unfold decode, load_doc; rewrite load_xml_each; exact E|].
  apply get_kids_ext; [now apply xreadys_shaped|apply Hu|].
  intros n s x Hs Hx. destruct (Hnew n s x Hs Hx) as (y & Hy & Hg). exists y. split; auto.
  unfold at_path in Hy. cbn in Hy. destruct (nth_error m' n) as [z|]; [|discriminate]. exact Hy.
Qed.
End D.
