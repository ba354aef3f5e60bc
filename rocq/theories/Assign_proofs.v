(** Lemmas about attributes. *)
From Verif Require Import PyStr PyStr_facts PyVal Restricted SafeName Spec_Names Names_proofs Tree Tree_proofs Compile Spec_Compile Compile_proofs Split Spec_Split File Spec_File File_proofs Assign Spec_Assign.
From Coq Require Import Lia.
Import ListNotations.

(** Python names that the class around takes are those of [taken]. *)
Lemma taken_names m : In (safe_name m) wrapper_methods <-> In m taken.
Proof.
  split.
  - intros H. destruct (safe_name_exact m) as [[He E]|[He E]]; rewrite E in H.
    + exfalso. assert (F : forallb (fun w => negb (N.eqb (last w 0%N) 95)) wrapper_methods = true) by (vm_compute; reflexivity).
      rewrite forallb_forall in F. specialize (F _ H). rewrite last_last in F. discriminate.
    + assert (F : forallb (fun w => str_in w escaped_words || (str_in w taken && negb (ch_in 95 w))) wrapper_methods = true) by (vm_compute; reflexivity).
      rewrite forallb_forall in F. specialize (F _ H). apply orb_true_iff in F as [F|F].
      * apply str_in_In in F. contradiction.
      * apply andb_prop in F as [F1 F2]. apply str_in_In in F1. apply negb_true_iff, ch_in_false in F2.
        now rewrite (underscored_eq_no_underscore m (underscored m) eq_refl F2).
  - intros H. assert (F : forallb (fun w => str_in (safe_name w) wrapper_methods) taken = true) by (vm_compute; reflexivity).
    rewrite forallb_forall in F. specialize (F _ H). now apply str_in_In.
Qed.

Lemma attr_at_app cs q a : q <> [] -> attr_at cs (q ++ [a]) = match attr_at cs q with
  | Some (SCont _ _ cs') | Some (SList _ _ _ cs') => attr_at cs' [a]
  | _ => None end.
Proof.
  revert cs. induction q as [|b q IH]; intros cs Hq; [congruence|]. destruct q as [|c q].
  - cbn [app attr_at]. destruct (find _ cs) as [s|]; [|reflexivity]. destruct s; reflexivity.
  - change ((b :: c :: q) ++ [a]) with (b :: ((c :: q) ++ [a])). cbn [attr_at]. destruct (find _ cs) as [s|]; [|reflexivity].
    destruct ((c :: q) ++ [a]) eqn:E; [destruct q; discriminate|]. destruct s as [| |i pr cs'|i keys od cs']; try reflexivity; rewrite IH by discriminate; reflexivity.
Qed.
Lemma lookup_element w cs a : (wrapped w = true -> ~ In a wrapper_methods) -> lookup w cs a = match element cs a with Some s => FElement s | None => if str_in a base_methods then FBase else FNothing end.
Proof.
  intros H. unfold lookup. destruct (wrapped w && str_in a wrapper_methods) eqn:E; [|reflexivity]. apply andb_prop in E as [E1 E2]. apply str_in_In in E2. now apply H in E1.
Qed.
Lemma nonempty {A} (n : A) q : n :: q <> [].
Proof. discriminate. Qed.
(** Where the objects on a path are, nothing on it being hidden. *)
Definition wrapper_of (s : schema) : wrapper := match s with SList _ keys _ _ => WEntry keys | _ => WCont end.
Definition kids_of (s : schema) : list schema := match s with SCont _ _ cs | SList _ _ _ cs => cs | _ => [] end.
Definition has_kids (s : schema) : Prop := match s with SCont _ _ _ | SList _ _ _ _ => True | _ => False end.
Lemma object_found q : forall w cs s, attr_at cs q = Some s -> has_kids s -> Forall (fun a => ~ In a wrapper_methods) (tl q) -> (wrapped w = true -> Forall (fun a => ~ In a wrapper_methods) q) ->
  object_at 0 w cs q = Ok (wrapper_of s, kids_of s).
Proof.
  induction q as [|a q IH]; intros w cs s H Hk Ht Hw; [discriminate|]. cbn [object_at attr_at] in *. unfold read.
  rewrite lookup_element by (intros E; specialize (Hw E); inversion Hw; assumption). unfold element. destruct (find _ cs) as [t|]; [|discriminate].
  destruct q as [|b q].
  - injection H as <-. destruct t; try contradiction; reflexivity.
  - destruct t as [| |i pr cs'|i keys od cs']; try discriminate; (apply IH; [assumption|assumption|now inversion Ht|intros _; exact Ht]).
Qed.
Lemma object_inv q : forall w cs w' cs', q <> [] -> object_at 0 w cs q = Ok (w', cs') -> exists s, attr_at cs q = Some s /\ has_kids s /\ w' = wrapper_of s /\ cs' = kids_of s.
Proof.
  induction q as [|a q IH]; intros w cs w' cs' Hq H; [congruence|]. cbn [object_at attr_at] in *. unfold read in H.
  destruct (lookup w cs a) eqn:E; try discriminate. unfold lookup in E. destruct (wrapped w && str_in a wrapper_methods); [discriminate|]. unfold element in E.
  destruct (find _ cs) as [t|]; [|destruct (str_in a base_methods); discriminate]. injection E as ->.
  destruct q as [|b q].
  - destruct s; try discriminate; cbn in H; injection H as <- <-; eexists; repeat split.
  - destruct s as [| |i pr c|i keys od c]; try discriminate; eapply IH; try discriminate; exact H.
Qed.
Lemma map_tl {A B} (f : A -> B) l : map f (tl l) = tl (map f l).
Proof. now destruct l. Qed.
Lemma clear_python p : clear p -> Forall (fun a => ~ In a wrapper_methods) (tl (map safe_name p)).
Proof. unfold clear. rewrite <- map_tl. intros H. apply Forall_map. eapply Forall_impl; [|exact H]. intros a Ha Hi. apply Ha. now apply taken_names. Qed.
Lemma forall_last {A} (P : A -> Prop) l a : Forall P (l ++ [a]) -> Forall P l /\ P a.
Proof. rewrite Forall_app. intros [H1 H2]. inversion H2. auto. Qed.

(** Every declared node can be read, and written if it is configuration. *)
Theorem declared_reads po ss p m z b : attrs_apart_all ss -> stmt_at true ss (p ++ [m]) z b -> kept po z -> clear (p ++ [m]) ->
  exists w cs s, object_at 0 WNone (compile_module po ss) (map safe_name p) = Ok (w, cs) /\ stands_for po s z /\ read w cs (safe_name m) = Ok (VChild s) /\
    assign w cs (safe_name m) = if b then Ok (Setter s) else Raise AttributeError.
Proof.
  intros Ha Hs Hk Hc. destruct (declared_there po ss _ z b true Hs None [] Ha Hk) as (s & Hat & Hst & Hb). fold (compile_module po ss) in Hat.
  rewrite map_app in Hat. cbn [map] in Hat. pose proof (clear_python _ Hc) as Hc'. rewrite map_app in Hc'. cbn [map] in Hc'. destruct p as [|n p].
  - exists WNone, (compile_module po ss), s. split; [reflexivity|]. split; [assumption|]. cbn [map app attr_at] in Hat. unfold read, assign. rewrite lookup_element by discriminate. unfold element.
    destruct (find _ _) as [t|]; [|discriminate]. injection Hat as ->. rewrite Hb. split; reflexivity.
  - rewrite attr_at_app in Hat by discriminate. destruct (attr_at (compile_module po ss) (map safe_name (n :: p))) as [t|] eqn:E; [|discriminate].
    assert (Hkt : has_kids t) by (destruct t; try discriminate; exact I). cbn [map app tl] in Hc'. apply forall_last in Hc' as [Hc1 Hc2].
    exists (wrapper_of t), (kids_of t), s. split; [apply object_found; auto; discriminate|]. split; [assumption|].
    assert (Hf : element (kids_of t) (safe_name m) = Some s). { unfold element. destruct t; try discriminate; cbn [kids_of attr_at] in *; (destruct (find _ _); [exact Hat|discriminate]). }
    unfold read, assign. rewrite lookup_element by (intros _; exact Hc2). rewrite Hf, Hb. split; reflexivity.
Qed.
Lemma key_attrs_nonempty k : list_key_attrs k <> [].
Proof. apply split_on_nonnil. Qed.
Theorem only_declared po ss q w cs a : attrs_apart_all ss -> object_at 0 WNone (compile_module po ss) q = Ok (w, cs) ->
  (forall p y b, map safe_name p = q -> stmt_at true ss p y b -> keyed y) -> (exists m z b, child_at po ss q m z b) ->
  (forall m z b, child_at po ss q m z b -> safe_name m <> a) -> assign w cs a = Raise AttributeError.
Proof.
  intros Ha Ho Hkey (m0 & z0 & b0 & p0 & E0 & Hs0 & Hk0) Hno.
  assert (Hel : forall s, element cs a = Some s -> False).
  { intros s Hs. assert (Hat : attr_at (compile_module po ss) (q ++ [a]) = Some s).
    { destruct q as [|n q].
      - injection Ho as <- <-. cbn [app attr_at]. unfold element in Hs. now rewrite Hs.
      - destruct (object_inv (n :: q) _ _ _ _ (nonempty n q) Ho) as (t & Ht & Hkt & -> & ->). rewrite attr_at_app by discriminate. rewrite Ht.
        destruct t; try contradiction; cbn [attr_at kids_of] in *; unfold element in Hs; now rewrite Hs. }
    destruct (there_declared po _ ss true None [] s Ha Hat) as (p & y & Eq & Hy & Hk & _).
    destruct (rev_ind (fun l => l = [] \/ exists i e, l = i ++ [e]) (or_introl eq_refl) (fun x l _ => or_intror (ex_intro _ l (ex_intro _ x eq_refl))) p) as [->|(i & e & ->)]; [now destruct q|].
    rewrite map_app in Eq. apply app_inj_tail in Eq as [Eq1 Eq2]. apply (Hno e y (e_rw (s_info s))); [|now symmetry]. now exists i. }
  unfold assign. destruct (lookup w cs a) eqn:El; try (unfold lookup in El; destruct (wrapped w && _); [discriminate|]; destruct (element cs a) eqn:Ee; [now destruct (Hel _ eq_refl)|destruct (str_in _ _); discriminate]).
  all: assert (Hd : has_dict w cs = false); [|now rewrite Hd].
  all: destruct (declared_there po ss _ z0 b0 true Hs0 None [] Ha Hk0) as (s0 & Hat0 & _); fold (compile_module po ss) in Hat0; rewrite map_app, E0 in Hat0; cbn [map] in Hat0.
  all: destruct q as [|n q];
    [injection Ho as <- <-; unfold has_dict; destruct (compile_module po ss); [discriminate|reflexivity]|].
  all: destruct (object_inv (n :: q) _ _ _ _ (nonempty n q) Ho) as (t & Ht & Hkt & -> & ->); rewrite attr_at_app in Hat0 by discriminate; rewrite Ht in Hat0.
  all: destruct (there_declared po _ ss true None [] t Ha Ht) as (p & y & Eq & Hy & _ & Hst); specialize (Hkey _ _ _ (eq_sym Eq) Hy).
  all: unfold has_dict; destruct t as [| |i pr cs'|i keys od cs']; try contradiction; cbn [kids_of wrapper_of] in *; destruct cs'; try discriminate; try reflexivity.
  all: cbn [wrapper_slots]; destruct y as [| | |h key od' cs|]; try contradiction; destruct key as [k|]; [|contradiction]; cbn [stands_for] in Hst; destruct Hst as (_ & _ & ->);
    destruct (list_key_attrs k) eqn:Ek; [now apply key_attrs_nonempty in Ek|reflexivity].
Qed.

(* ------------------------------------------------------------------ get() *)
Lemma gets_cont w i pr cs : gets w (SCont i pr cs) = gets_all w cs.
Proof. cbn [gets]. induction cs as [|s cs IH]; [reflexivity|]. cbn [gets_all]. destruct (wrapped w && _); [reflexivity|]. now rewrite IH. Qed.
Lemma gets_list w i keys od cs : gets w (SList i keys od cs) = gets_all (WEntry keys) cs.
Proof. cbn [gets]. induction cs as [|s cs IH]; [reflexivity|]. cbn [gets_all]. destruct (wrapped (WEntry keys) && _); [reflexivity|]. now rewrite IH. Qed.
Lemma gets_all_iff w cs : gets_all w cs = Ok tt <-> (wrapped w = true -> forall s, In s cs -> ~ In (e_py (s_info s)) wrapper_methods) /\ forall s, In s cs -> gets WCont s = Ok tt.
Proof.
  induction cs as [|s cs IH]; cbn [gets_all]; [split; [intros _; split; [intros _ s []|intros s []]|reflexivity]|].
  destruct (wrapped w) eqn:Ew; cbn [andb].
  - destruct (str_in (e_py (s_info s)) wrapper_methods) eqn:E.
    + apply str_in_In in E. split; [discriminate|]. intros [H _]. exfalso. apply (H eq_refl s); [now left|assumption].
    + apply str_in_false in E. destruct (gets WCont s) as [[]|] eqn:G; cbn [bind].
      * rewrite IH. split; intros [H1 H2]; (split; [intros _ t Ht|intros t Ht]); try (destruct Ht as [<-|Ht]; [assumption|]); auto. apply H1; [reflexivity|now right]. apply H2. now right.
      * split; [discriminate|]. intros [_ H]. rewrite <- (H s (or_introl eq_refl)). now symmetry.
  - destruct (gets WCont s) as [[]|] eqn:G; cbn [bind].
    + rewrite IH. split; intros [H1 H2]; (split; [discriminate|intros t Ht]); try (destruct Ht as [<-|Ht]; [assumption|]); auto. apply H2. now right.
    + split; [discriminate|]. intros [_ H]. rewrite <- (H s (or_introl eq_refl)). now symmetry.
Qed.
Lemma gets_total w cs : gets_all w cs = Ok tt \/ gets_all w cs = Raise AttributeError.
Proof.
  assert (All : forall v l, Forall (fun s => gets WCont s = Ok tt \/ gets WCont s = Raise AttributeError) l -> gets_all v l = Ok tt \/ gets_all v l = Raise AttributeError).
  { intros v. induction 1 as [|s l Hs _ IHl]; [now left|]. cbn [gets_all]. destruct (wrapped v && _); [now right|]. destruct Hs as [-> | ->]; [exact IHl|now right]. }
  assert (G : forall s, gets WCont s = Ok tt \/ gets WCont s = Raise AttributeError).
  { induction s as [i lt d yt k|i ts yt|i pr cs' IH|i keys od cs' IH] using schema_ind'.
    - now left.
    - now left.
    - rewrite gets_cont. now apply All.
    - rewrite gets_list. now apply All. }
  apply All. apply Forall_forall. intros s _. apply G.
Qed.
Lemma stmt_at_incl ctx ss ss' p z b : stmt_at ctx ss p z b -> (forall w, child_of ss w -> child_of ss' w) -> stmt_at ctx ss' p z b.
Proof. intros H Hs. inversion H; subst; [now constructor; [apply Hs|]|]. eapply SaIn; eauto. Qed.
Lemma child_mono ss ss' w : child_of ss w -> (forall s, In s ss -> In s ss') -> child_of ss' w.
Proof. intros H. revert ss'. induction H; intros ss'' Hi; [apply ch_here; auto|]. eapply ch_case; eauto. Qed.
Lemma gets_ok po : forall y cfg ch keys,
  (forall p m z b, stmt_at cfg [y] (p ++ [m]) z b -> kept po z -> p <> [] -> ~ In m taken) -> forall s, In s (compile po cfg ch keys y) -> gets WCont s = Ok tt.
Proof.
  assert (Node : forall y n cs w cfg ch keys, node_of y n cs -> Forall (fun y => forall cfg ch keys,
      (forall p m z b, stmt_at cfg [y] (p ++ [m]) z b -> kept po z -> p <> [] -> ~ In m taken) -> forall s, In s (compile po cfg ch keys y) -> gets WCont s = Ok tt) cs ->
    (forall p m z b, stmt_at cfg [y] (p ++ [m]) z b -> kept po z -> p <> [] -> ~ In m taken) -> gets_all w (flat_map (compile po (cfg && conf y) ch keys) cs) = Ok tt).
  { intros y n cs w cfg ch keys Hn IH Hno.
    assert (Hy : child_of [y] y) by (apply ch_here; [now left|]; destruct Hn as [(h & pr & -> & _)|(h & k & od & -> & _)]; discriminate).
    apply gets_all_iff. split.
    - intros _ s Hs Hi. destruct (compile_child po cs _ _ _ s Hs) as (y' & ch' & Hc & Hs'). destruct (compiled po y' _ ch' keys s (child_plain _ _ Hc) Hs') as (_ & Hk & _ & m & Hl & Ep & _).
      rewrite Ep in Hi. apply taken_names in Hi. revert Hi. apply (Hno [n] m y' ((cfg && conf y) && conf y')); [|assumption|discriminate].
      cbn [app]. apply (SaIn cfg [y] y n cs); [assumption|assumption|]. now constructor.
    - intros s Hs. apply in_flat_map in Hs as (y' & Hy' & Hs). rewrite Forall_forall in IH. apply (IH y' Hy' (cfg && conf y) ch keys); [|assumption].
      intros p m z b Hst Hk Hp. apply (Hno (n :: p) m z b); [|assumption|discriminate]. cbn [app]. apply (SaIn cfg [y] y n cs); [assumption|assumption|].
      apply (stmt_at_incl _ [y'] cs _ _ _ Hst). intros w' Hw. apply (child_mono [y'] cs w' Hw). intros t [<-|[]]. exact Hy'. }
  induction y as [h lt d yt|h ts yt|h pr cs IH|h k od cs IH|n c cases IH] using ystmt_ind'; intros cfg ch keys Hno s Hs.
  - destruct Hs as [<-|[]]. reflexivity.
  - destruct Hs as [<-|[]]. reflexivity.
  - assert (Hn : node_of (YCont h pr cs) (y_name h) cs) by (left; now exists h, pr). cbn [compile] in Hs. destruct cs as [|c cs].
    + destruct (po && pr); [|contradiction]. destruct Hs as [<-|[]]. reflexivity.
    + destruct Hs as [<-|[]]. rewrite gets_cont. apply (Node _ _ _ WCont cfg ch [] Hn IH Hno).
  - assert (Hn : node_of (YList h k od cs) (y_name h) cs) by (right; now exists h, k, od). cbn [compile] in Hs. destruct cs as [|c cs]; [contradiction|].
    destruct Hs as [<-|[]]. rewrite gets_list. apply (Node _ _ _ _ cfg ch _ Hn IH Hno).
  - cbn [compile] in Hs. apply in_flat_map in Hs as ([q l] & Hin & Hs). apply in_flat_map in Hs as (y & Hy & Hs). rewrite Forall_forall in IH. specialize (IH _ Hin). cbn [snd] in IH.
    rewrite Forall_forall in IH. apply (IH y Hy cfg (Some (n, q)) keys); [|assumption]. intros p m z b Hst Hk Hp. apply (Hno p m z b); [|assumption|assumption].
    apply (stmt_at_incl _ [y] _ _ _ _ Hst). intros w Hw. apply (ch_case n c cases q [YChoice n c cases] l); [now left|assumption|]. apply (child_mono [y] l w Hw). intros t [<-|[]]. exact Hy.
Qed.
Lemma gets_needs po ss p m z b cfg : stmt_at cfg ss (p ++ [m]) z b -> kept po z -> forall ch keys w, gets_all w (flat_map (compile po cfg ch keys) ss) = Ok tt ->
  (wrapped w = true \/ p <> []) -> ~ In m taken.
Proof.
  intros H. remember (p ++ [m]) as r eqn:Er. revert p Er. induction H as [cfg ss y n Hc Hl|cfg ss y n cs r z b Hc Hn H IH]; intros p Er Hk ch keys w Hg Hw Hi.
  - destruct p as [|a p]; [|destruct p; discriminate]. injection Er as <-. destruct Hw as [Hw|Hw]; [|congruence]. apply gets_all_iff in Hg as [Hg _].
    destruct (child_compile po _ _ Hc cfg ch keys) as (ch' & Hin). destruct (one_node po y n Hl (child_plain _ _ Hc) Hk cfg ch' keys) as (s & Hs & E).
    apply (Hg Hw s (Hin s Hs)). rewrite E. now apply taken_names.
  - destruct p as [|a p]; [inversion Er; subst; now inversion H|]. injection Er as <- Er.
    assert (Hy : kept po y).
    { destruct (stmt_at_child _ _ _ _ _ H) as (v & Hv). assert (Ne : cs <> []) by (intros ->; inversion Hv; subst; contradiction).
      destruct Hn as [(h & pr & -> & _)|(h & k & od & -> & _)]; [now left|exact Ne]. }
    destruct (child_compile po _ _ Hc cfg ch keys) as (ch' & Hin). destruct (one_node po y n (node_names _ _ _ Hn) (child_plain _ _ Hc) Hy cfg ch' keys) as (s & Hs & E).
    apply gets_all_iff in Hg as [_ Hg]. specialize (Hg s (Hin s Hs)).
    destruct (compiled po y cfg ch' keys s (child_plain _ _ Hc) Hs) as (Hst & _ & _ & n' & _ & _ & H1 & H2).
    destruct s as [i lt d yt k|i ts yt|i pr cs'|i ks od cs'].
    + destruct Hn as [(h & pr & -> & _)|(h & k' & od & -> & _)]; contradiction Hst.
    + destruct Hn as [(h & pr & -> & _)|(h & k' & od & -> & _)]; contradiction Hst.
    + destruct (H1 _ _ _ eq_refl) as (c0 & x & c & Hn' & ->). destruct (node_det _ _ _ _ _ Hn Hn') as [_ <-]. rewrite gets_cont in Hg. exact (IH p Er Hk x c WCont Hg (or_introl eq_refl) Hi).
    + destruct (H2 _ _ _ _ eq_refl) as (c0 & x & c & Hn' & ->). destruct (node_det _ _ _ _ _ Hn Hn') as [_ <-]. rewrite gets_list in Hg. exact (IH p Er Hk x c _ Hg (or_introl eq_refl) Hi).
Qed.
Theorem get_works po ss : 
  ((forall p m z b, stmt_at true ss (p ++ [m]) z b -> kept po z -> p <> [] -> ~ In m taken) -> gets_all WNone (compile_module po ss) = Ok tt) /\
  (forall p m z b, stmt_at true ss (p ++ [m]) z b -> kept po z -> p <> [] -> In m taken -> gets_all WNone (compile_module po ss) = Raise AttributeError).
Proof.
  split.
  - intros H. apply gets_all_iff. split; [discriminate|]. intros s Hs. unfold compile_module in Hs. apply in_flat_map in Hs as (y & Hy & Hs). apply (gets_ok po y true None []); [|assumption].
    intros p m z b Hst. apply (H p m z b). apply (stmt_at_incl _ [y] ss _ _ _ Hst). intros w Hw. apply (child_mono [y] ss w Hw). intros t [<-|[]]. exact Hy.
  - intros p m z b Hs Hk Hp Hi. destruct (gets_total WNone (compile_module po ss)) as [G|G]; [|assumption]. exfalso.
    exact (gets_needs po ss p m z b true Hs Hk None [] WNone G (or_intror Hp) Hi).
Qed.

(* ------------------------------------------------------------------ indexing and iteration *)
Lemma index_never po ss p m z b : attrs_apart_all ss -> stmt_at true ss (p ++ [m]) z b -> kept po z -> clear p ->
  exists w cs, object_at 0 WNone (compile_module po ss) (map safe_name p) = Ok (w, cs) /\ get_item w cs (safe_name m) = Raise TypeError.
Proof.
  intros Ha Hs Hk Hc. destruct (declared_there po ss _ z b true Hs None [] Ha Hk) as (s & Hat & _). fold (compile_module po ss) in Hat.
  rewrite map_app in Hat. cbn [map] in Hat. pose proof (clear_python _ Hc) as Hc'.
  assert (Item : forall w cs, element cs (safe_name m) = Some s -> get_item w cs (safe_name m) = Raise TypeError).
  { intros w cs He. unfold get_item. destruct (lookup w cs (safe_name m)) eqn:El; unfold lookup in El; rewrite ?He in El; destruct (wrapped w && str_in (safe_name m) wrapper_methods) eqn:E; try discriminate; try reflexivity.
    rewrite He. apply andb_prop in E as [_ E]. apply str_in_In, taken_names in E.
    assert (F : forallb (fun n => negb (str_in (safe_name n) (map lit ["yang_name"; "default"]%string))) taken = true) by (vm_compute; reflexivity).
    rewrite forallb_forall in F. specialize (F _ E). apply negb_true_iff in F. now rewrite F. }
  destruct p as [|n p].
  - exists WNone, (compile_module po ss). split; [reflexivity|]. apply Item. unfold element. cbn [app map attr_at] in Hat. now destruct (find _ _).
  - rewrite attr_at_app in Hat by discriminate. destruct (attr_at (compile_module po ss) (map safe_name (n :: p))) as [t|] eqn:E; [|discriminate].
    assert (Hkt : has_kids t) by (destruct t; try discriminate; exact I).
    exists (wrapper_of t), (kids_of t). split; [apply object_found; auto; discriminate|]. apply Item. unfold element.
    destruct t; try discriminate; cbn [kids_of attr_at] in *; now destruct (find _ _).
Qed.
Lemma names_kept po : forall y cfg ch keys, map (fun s => e_py (s_info s)) (compile po cfg ch keys y) = map safe_name (kept_names po y).
Proof.
  induction y as [h lt d yt|h ts yt|h pr cs _|h k od cs _|n c cases IH] using ystmt_ind'; intros cfg ch keys; cbn [compile kept_names]; try reflexivity.
  - destruct cs; [destruct (po && pr)|]; reflexivity.
  - destruct cs; reflexivity.
  - rewrite !map_flat_map. apply flat_map_ext'. eapply Forall_impl; [|exact IH]. intros [q ss] Hs. cbn [snd] in Hs. rewrite !map_flat_map.
    apply flat_map_ext'. eapply Forall_impl; [|exact Hs]. intros s H. apply H.
Qed.
Lemma node_kids po y n cs s cfg ch keys : node_of y n cs -> (forall m c cases, y <> YChoice m c cases) -> In s (compile po cfg ch keys y) -> has_kids s /\ exists ch' keys', kids_of s = flat_map (compile po (cfg && conf y) ch' keys') cs.
Proof.
  intros Hn Hp Hs. destruct (compiled po y cfg ch keys s Hp Hs) as (Hst & _ & _ & n' & _ & _ & H1 & H2). destruct s as [i lt d yt k|i ts yt|i pr cs'|i ks od cs'].
    - destruct Hn as [(h & pr & -> & _)|(h & k' & od & -> & _)]; contradiction Hst.
    - destruct Hn as [(h & pr & -> & _)|(h & k' & od & -> & _)]; contradiction Hst.
    - destruct (H1 _ _ _ eq_refl) as (c0 & x & c & Hn' & ->). destruct (node_det _ _ _ _ _ Hn Hn') as [_ <-]. split; [exact I|]. now exists x, c.
    - destruct (H2 _ _ _ _ eq_refl) as (c0 & x & c & Hn' & ->). destruct (node_det _ _ _ _ _ Hn Hn') as [_ <-]. split; [exact I|]. now exists x, c.
Qed.
Lemma declared_kids po ss p z b cfg : stmt_at cfg ss p z b -> forall n cs ch keys, node_of z n cs -> attrs_apart_all ss -> kept po z ->
  exists s cfg' ch' keys', attr_at (flat_map (compile po cfg ch keys) ss) (map safe_name p) = Some s /\ has_kids s /\ kids_of s = flat_map (compile po cfg' ch' keys') cs /\ attrs_apart_all cs.
Proof.
  intros H. induction H as [cfg ss y n Hc Hl|cfg ss y n cs p z b Hc Hn H IH]; intros n' cs' ch keys Hn' Ha Hk.
  - destruct (child_compile po _ _ Hc cfg ch keys) as (ch' & Hin). destruct (one_node po y n Hl (child_plain _ _ Hc) Hk cfg ch' keys) as (s & Hs & E).
    destruct (node_kids po y n' cs' s cfg ch' keys Hn' (child_plain _ _ Hc) Hs) as (Hks & x & c & Ek). exists s, (cfg && conf y), x, c.
    split; [|split; [assumption|split; [assumption|now apply (apart_child ss y n')]]]. cbn [map attr_at]. rewrite <- E. rewrite find_py; [reflexivity| |now apply Hin]. apply compile_all_apart, Ha.
  - assert (Hy : kept po y).
    { destruct (stmt_at_child _ _ _ _ _ H) as (v & Hv). assert (Ne : cs <> []) by (intros ->; inversion Hv; subst; contradiction).
      destruct Hn as [(h & pr & -> & _)|(h & k & od & -> & _)]; [now left|exact Ne]. }
    destruct (child_compile po _ _ Hc cfg ch keys) as (ch' & Hin). destruct (one_node po y n (node_names _ _ _ Hn) (child_plain _ _ Hc) Hy cfg ch' keys) as (s & Hs & E).
    destruct (node_kids po y n cs s cfg ch' keys Hn (child_plain _ _ Hc) Hs) as (Hks & x & c & Ek).
    destruct (IH n' cs' x c Hn' (apart_child _ _ _ _ Ha Hc Hn) Hk) as (t & cfg' & ch'' & keys' & Ht & Hr). exists t, cfg', ch'', keys'. split; [|exact Hr].
    cbn [map attr_at]. rewrite <- E. rewrite find_py; [|now apply compile_all_apart, Ha|now apply Hin].
    destruct p as [|a p]; [now inversion H|]. cbn [map] in *. rewrite <- Ek in Ht. destruct s; try contradiction; exact Ht.
Qed.
Lemma iterate_names w cs : map fst (iterate w cs) = map (fun s => e_py (s_info s)) cs.
Proof. unfold iterate. rewrite map_map. reflexivity. Qed.
Theorem iteration po ss p cs : attrs_apart_all ss -> clear p ->
  (p = [] /\ cs = ss \/ exists y n b, stmt_at true ss p y b /\ kept po y /\ node_of y n cs) ->
  exists w kids, object_at 0 WNone (compile_module po ss) (map safe_name p) = Ok (w, kids) /\ map fst (iterate w kids) = map safe_name (flat_map (kept_names po) cs) /\
    forall a r, In (a, r) (iterate w kids) -> (p = [] \/ ~ In a taken) -> exists s, r = Ok (VChild s) /\ e_py (s_info s) = a.
Proof.
  intros Ha Hc Hp.
  assert (All : forall w l cfg ch keys, NoDup (map safe_name (flat_map level_names l)) -> forall a r, In (a, r) (iterate w (flat_map (compile po cfg ch keys) l)) -> (w = WNone \/ ~ In a taken) ->
            exists s, r = Ok (VChild s) /\ e_py (s_info s) = a).
  { intros w l cfg ch keys Hd a r Hi Hw. unfold iterate in Hi. apply in_map_iff in Hi as (s & E & Hs). injection E as <- <-. exists s. split; [|reflexivity]. unfold read. rewrite lookup_element.
    - unfold element. rewrite find_py; [reflexivity|now apply compile_all_apart|assumption].
    - intros Ew. destruct Hw as [->|Hw]; [discriminate|]. intros Hi. apply in_flat_map in Hs as (y & _ & Hs). destruct (compile_py _ _ _ _ _ _ Hs) as (n & _ & E). rewrite E in Hi, Hw.
      apply taken_names in Hi. apply Hw. assert (F : forallb (fun n => str_eqb (safe_name n) n) taken = true) by (vm_compute; reflexivity).
      rewrite forallb_forall in F. specialize (F _ Hi). apply str_eqb_eq in F. now rewrite F. }
  assert (Names : forall l cfg ch keys, map (fun s => e_py (s_info s)) (flat_map (compile po cfg ch keys) l) = map safe_name (flat_map (kept_names po) l)).
  { intros l cfg ch keys. rewrite !map_flat_map. apply flat_map_ext. intros y. apply names_kept. }
  destruct Hp as [[-> ->]|(y & n & b & Hs & Hk & Hn)].
  - exists WNone, (compile_module po ss). split; [reflexivity|]. rewrite iterate_names. split; [apply Names|]. intros a r Hi _. apply (All WNone ss true None []); [apply Ha|assumption|now left].
  - destruct (declared_kids po ss p y b true Hs n cs None [] Hn Ha Hk) as (s & cfg' & ch' & keys' & Hat & Hks & Ek & Hd). fold (compile_module po ss) in Hat.
    exists (wrapper_of s), (kids_of s). split; [apply object_found; [assumption|assumption|now apply clear_python|discriminate]|]. rewrite iterate_names, Ek. split; [apply Names|].
    intros a r Hi [->|Hw]; [now inversion Hs|]. apply (All _ cs cfg' ch' keys' (proj1 Hd) a r Hi). now right.
Qed.
