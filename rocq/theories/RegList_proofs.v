(** get_list in a data tree, and what the root object of the path helper shows. *)
From Coq Require Import Lia.
From Verif Require Import PyStr PyStr_facts PyVal SafeName PathHelper Spec_Path RegTree RegRef RegRoot Spec_RegTree Spec_RegRoot PathHelper_proofs PathSim_proofs RegTree_proofs RegRoot_proofs.

(* ------------------------------------------------------------------ children of an object *)
Lemma all_nodes_in cs : forall kids i s x e, nth_error cs i = Some s -> nth_error kids i = Some x -> In e (nodes s x) -> In e (all_nodes cs kids).
Proof.
  induction cs as [|s0 cs IH]; intros [|x0 kids] [|i] s x e Hs Hx He; try discriminate; cbn [nth_error all_nodes] in *; apply in_or_app.
  - injection Hs as ->. injection Hx as ->. now left.
  - right. now apply (IH kids i s x).
Qed.
Lemma children_node cs kids q cs' kids' : children_at cs kids q cs' kids' -> exists id, in_tree cs kids q (PNode id) /\ In (id, (cs', kids')) (all_nodes cs kids).
Proof.
  induction 1 as [cs kids i n cs' id kids' H1 H2|cs kids i n cs' id kids' q cs'' kids'' H1 H2 H3 (id' & I1 & I2)|cs kids i n keys cs' es ks id ek H1 H2 H3|cs kids i n keys cs' es ks id ek q cs'' kids'' H1 H2 H3 H4 (id' & I1 & I2)].
  - exists id. split; [now apply (in_cont cs kids i n cs' id kids')|]. apply (all_nodes_in cs kids i _ _ _ H1 H2). rewrite below_all. now left.
  - exists id'. split; [now apply (in_cont_below cs kids i n cs' id kids')|]. apply (all_nodes_in cs kids i _ _ _ H1 H2). rewrite below_all. now right.
  - exists id. split; [now apply (in_entry cs kids i n keys cs' es ks id ek)|]. apply (all_nodes_in cs kids i _ _ _ H1 H2). rewrite below_all. apply in_flat_map. exists (ks, (id, ek)). split; [assumption|now left].
  - exists id'. split; [now apply (in_entry_below cs kids i n keys cs' es ks id ek)|]. apply (all_nodes_in cs kids i _ _ _ H1 H2). rewrite below_all. apply in_flat_map. exists (ks, (id, ek)). split; [assumption|now right].
Qed.
Lemma find_id {A} (l : list (nat * A)) id a : NoDup (map fst l) -> In (id, a) l -> find (fun e => Nat.eqb (fst e) id) l = Some (id, a).
Proof.
  induction l as [|[j b] l IH]; [intros _ []|]. cbn [map fst find]. intros Hd [H|H]; inversion Hd as [|? ? Hn Hd']; subst.
  - injection H as -> ->. now rewrite Nat.eqb_refl.
  - destruct (Nat.eqb_spec j id) as [->|]; [|now apply IH]. exfalso. apply Hn. now apply (in_map fst) in H.
Qed.
Lemma getter_nth cs : forall kids i s x, py_names cs -> nth_error cs i = Some s -> nth_error kids i = Some x -> getter (safe_name (r_name s)) cs kids = Some x.
Proof.
  induction cs as [|s0 cs IH]; intros [|x0 kids] [|i] s x Hd Hs Hx; try discriminate; cbn [nth_error getter] in *.
  - injection Hs as ->. injection Hx as ->. now rewrite str_eqb_refl.
  - unfold py_names in Hd. cbn [map] in Hd. inversion Hd as [|? ? Hn Hd']; subst. destruct (str_eqb (safe_name (r_name s)) (safe_name (r_name s0))) eqn:E; [|now apply (IH kids i)]. exfalso. apply str_eqb_eq in E. apply Hn. rewrite <- E. apply (in_map (fun s => safe_name (r_name s))). now apply nth_error_In in Hs.
Qed.
Lemma getter_none cs : forall kids x, (forall s, In s cs -> safe_name (r_name s) <> x) -> getter x cs kids = None.
Proof.
  induction cs as [|s0 cs IH]; intros [|x0 kids] x H; try reflexivity. cbn [getter]. destruct (str_eqb x (safe_name (r_name s0))) eqn:E; [|apply IH; intros s Hs; apply H; now right]. exfalso. apply str_eqb_eq in E. now apply (H s0); [left|].
Qed.

(* ------------------------------------------------------------------ searches *)
Lemma get_plain {A} caller path q (st : helper A) : Forall2 spells path q -> Forall name_ok q -> q <> [] -> get caller path st = get [] path st /\ get caller ([] :: path) st = get [] path st.
Proof.
  intros H Hq Hne. destruct (spelled path q H Hq) as [E1 E2]. inversion H as [|p n path' q' Hs Ht Ep Eq]; [congruence|]. subst path q. inversion Hq as [|? ? Hn Hq']; subst. destruct (spells_tag p n Hn Hs) as (_ & Hp & Hdot & _).
  unfold get, get_etree, relative. rewrite Hdot. split; [reflexivity|]. change (startswith (lit ".") []) with false. unfold encode_path. destruct p as [|c p]; [congruence|]. reflexivity.
Qed.
Lemma last_snoc {A} (l : list A) a d : last (l ++ [a]) d = a.
Proof. induction l as [|b l IH]; [reflexivity|]. cbn [app last]. destruct (l ++ [a]) eqn:E; [now destruct l|]. exact IH. Qed.
Lemma node_agrees o' id : agrees o' (PNode id) -> o' = PNode id.
Proof. destruct o'; cbn; intros H; congruence. Qed.

Section Lists.
Context (uid : nat -> str) (Huid : fresh uid) (cs : list rschema) (os : list (list rstep * rop)) (Hm : module_ok cs).
Let w := fst (session uid cs os).
Let kids := snd (session uid cs os).
Lemma parent_found q cs' kids' path q' caller : Forall (fine cs) os -> children_at cs kids q cs' kids' -> same_place q q' -> Forall2 spells path q' -> Forall name_ok q' ->
  exists id, get caller path (w_help w) = Ok [Some (PNode id)] /\ get caller ([] :: path) (w_help w) = Ok [Some (PNode id)] /\ node_with id cs kids = Some (cs', kids').
Proof.
  intros Hos Hc Hsame Hsp Hn. destruct (children_node cs kids q cs' kids' Hc) as (id & Hin & Hnode). destruct (session_found uid cs os Huid Hm Hos q (PNode id) Hin eq_refl path q' Hsame Hsp) as (o' & G & Ha). apply node_agrees in Ha. subst o'.
  assert (Hne : q' <> []). { inversion Hsame; subst; [|discriminate]. inversion Hc. }
  destruct (get_plain caller path q' (w_help w) Hsp Hn Hne) as [G1 G2]. exists id. split; [rewrite G1; exact G|]. split; [rewrite G2; exact G|].
  unfold node_with. rewrite (find_id _ id (cs', kids')); [reflexivity|apply session_ids|assumption].
Qed.
Theorem list_found e caller q q' path cs' kids' i s x : Forall (fine cs) os -> children_at cs kids q cs' kids' -> same_place q q' -> Forall name_ok q' -> Forall2 spells path q' -> py_names cs' -> nth_error cs' i = Some s -> nth_error kids' i = Some x ->
  get_list e caller (path ++ [r_name s]) cs kids w = Ok (GotChild x) /\ get_list e caller ([] :: path ++ [r_name s]) cs kids w = Ok (GotChild x).
Proof.
  intros Hos Hc Hsame Hn Hsp Hpy Hs Hx. destruct (parent_found q cs' kids' path q' caller Hos Hc Hsame Hsp Hn) as (id & G1 & G2 & Hnode).
  assert (Hne : path <> []). { intros ->. inversion Hsp; subst. inversion Hsame; subst. inversion Hc. }
  assert (Core : forall p', p' <> [] -> get caller p' (w_help w) = Ok [Some (PNode id)] -> get_list e caller (p' ++ [r_name s]) cs kids w = Ok (GotChild x)).
  { intros p' Hp' G. unfold get_list. rewrite removelast_snoc, last_snoc. destruct p' as [|p p']; [congruence|]. unfold get_unique. rewrite G. cbn [bind]. rewrite Hnode. rewrite (getter_nth cs' kids' i s x Hpy Hs Hx). reflexivity. }
  split; [now apply Core|]. apply (Core ([] :: path)); [discriminate|assumption].
Qed.
Theorem list_missing e caller q q' path cs' kids' n : Forall (fine cs) os -> children_at cs kids q cs' kids' -> same_place q q' -> Forall name_ok q' -> Forall2 spells path q' -> (forall s, In s cs' -> safe_name (r_name s) <> safe_name n) ->
  get_list e caller (path ++ [n]) cs kids w = Raise e /\ get_list e caller ([] :: path ++ [n]) cs kids w = Raise e.
Proof.
  intros Hos Hc Hsame Hn Hsp Hno. destruct (parent_found q cs' kids' path q' caller Hos Hc Hsame Hsp Hn) as (id & G1 & G2 & Hnode).
  assert (Hne : path <> []). { intros ->. inversion Hsp; subst. inversion Hsame; subst. inversion Hc. }
  assert (Core : forall p', p' <> [] -> get caller p' (w_help w) = Ok [Some (PNode id)] -> get_list e caller (p' ++ [n]) cs kids w = Raise e).
  { intros p' Hp' G. unfold get_list. rewrite removelast_snoc, last_snoc. destruct p' as [|p p']; [congruence|]. unfold get_unique. rewrite G. cbn [bind]. rewrite Hnode. rewrite (getter_none cs' kids' (safe_name n) Hno). reflexivity. }
  split; [now apply Core|]. apply (Core ([] :: path)); [discriminate|assumption].
Qed.
(** Nothing at the place. *)
Theorem parent_missing e caller q q' path n : Forall (tame cs) os -> place_ok (keys_of cs) q -> (forall o, ~ in_tree cs kids q o) -> same_place q q' -> Forall name_ok q' -> Forall2 spells path q' ->
  get_list e caller (path ++ [n]) cs kids w = Raise e /\ get_list e caller ([] :: path ++ [n]) cs kids w = Raise e.
Proof.
  intros Hos Hq Hno Hsame Hn Hsp. destruct (session_exact uid cs os Huid Hm Hos path q q' Hq Hsame Hsp) as [_ G]. specialize (G Hno).
  assert (Hne' : q' <> []). { inversion Hsame; subst; [|discriminate]. now destruct Hq. }
  assert (Hne : path <> []) by (intros ->; inversion Hsp; congruence). destruct (get_plain caller path q' (w_help w) Hsp Hn Hne') as [G1 G2].
  assert (Core : forall p', p' <> [] -> get caller p' (w_help w) = Ok [] -> get_list e caller (p' ++ [n]) cs kids w = Raise e).
  { intros p' Hp' G'. unfold get_list. rewrite removelast_snoc. destruct p' as [|p p']; [congruence|]. unfold get_unique. rewrite G'. reflexivity. }
  split; [apply Core; [assumption|rewrite G1; exact G]|]. apply (Core ([] :: path)); [discriminate|rewrite G2; exact G].
Qed.
End Lists.

(* ------------------------------------------------------------------ the root object *)
Section Root.
Context (uid : nat -> str).
(** Nothing at the top. *)
Definition tops (w w' : world) : Prop := w_root w' = w_root w /\ w_gets w' = w_gets w.
Lemma tops_refl w : tops w w.
Proof. now split. Qed.
Lemma tops_trans a b c : tops a b -> tops b c -> tops a c.
Proof. intros [H1 H2] [H3 H4]. split; congruence. Qed.
Lemma reg_deep path n o w : path <> [] -> tops w (fst (reg uid (path ++ [n]) o w)).
Proof. intros H. unfold reg. destruct (register _ _ _ _ _) as [h r]. destruct path as [|p [|p' path]]; [congruence|..]; now split. Qed.
Definition deep {A} (m : act A) : Prop := forall w, tops w (fst (m w)).
Lemma deep_ret {A} (a : A) : deep (ret a).
Proof. intros w. apply tops_refl. Qed.
Lemma deep_fail {A} e : deep (fail (A := A) e).
Proof. intros w. apply tops_refl. Qed.
Lemma deep_then {A B} (m : act A) (k : A -> act B) : deep m -> (forall a, deep (k a)) -> deep (andthen m k).
Proof. intros H1 H2 w. rewrite andthen_run. specialize (H1 w). destruct (m w) as [w1 [a|e]]; [|exact H1]. apply (tops_trans w w1); [exact H1|apply H2]. Qed.
Lemma deep_id : deep new_id.
Proof. intros w. now split. Qed.
Lemma deep_members id l : deep (set_members id l).
Proof. intros w. now split. Qed.
Lemma deep_reg path n o : path <> [] -> deep (reg uid (path ++ [n]) o).
Proof. intros H w. now apply reg_deep. Qed.
Lemma deep_map {A B} (f : A -> act B) l : (forall a, In a l -> deep (f a)) -> deep (mapA f l).
Proof.
  induction l as [|a l IH]; intros H; [apply deep_ret|]. rewrite mapA_cons. apply deep_then; [apply H; now left|]. intros b. apply deep_then; [apply IH; intros x Hx; apply H; now right|]. intros bs. apply deep_ret.
Qed.
Lemma snoc_not {A} (l : list A) a : l ++ [a] <> [].
Proof. now destruct l. Qed.
Lemma build_deep s : forall path, path <> [] -> deep (build uid path s).
Proof.
  induction s as [n v0|n|n cs IH|n keys cs IH] using rschema_ind'; intros path Hp; cbn [build].
  - apply deep_then; [now apply deep_reg|]. intros _. apply deep_ret.
  - apply deep_then; [apply deep_id|]. intros id. apply deep_then; [apply deep_members|]. intros _. apply deep_then; [now apply deep_reg|]. intros _. apply deep_ret.
  - apply deep_then; [apply deep_id|]. intros id. apply deep_then; [now apply deep_reg|]. intros _. apply deep_then; [apply deep_map; intros s Hs; apply IH; [assumption|apply snoc_not]|]. intros k. apply deep_ret.
  - apply deep_ret.
Qed.
Lemma copy_deep path cs : (forall i v s, nth_error cs i = Some s -> deep (construct uid path s v)) -> forall ch kids, deep (copy_into uid path cs ch kids).
Proof.
  intros H. induction ch as [|[i v] ch IH]; intros kids; cbn [copy_into]; [apply deep_ret|]. destruct (nth_error cs i) as [s|] eqn:E; [|apply deep_fail]. apply deep_then; [now apply (H i)|]. intros x. apply IH.
Qed.
Lemma construct_deep s : forall v path, path <> [] -> deep (construct uid path s v).
Proof.
  induction s as [n v0|n|n cs IH|n keys cs IH] using rschema_ind'; intros v path Hp.
  - destruct v as [[x|e|x e]| | |]; cbn [construct]; try apply deep_fail; (apply deep_then; [now apply deep_reg|]); intros _; [apply deep_ret|apply deep_fail].
  - destruct v as [|r| |]; cbn [construct]; try apply deep_fail. apply deep_then; [apply deep_id|]. intros id. apply deep_then; [apply deep_members|]. intros _. apply deep_then; [now apply deep_reg|]. intros _. destruct r; [|apply deep_fail]. apply deep_then; [apply deep_members|]. intros _. apply deep_ret.
  - assert (F : forall k : nat -> list robj -> act robj, (forall id kids, deep (k id kids)) -> deep (andthen new_id (fun id => andthen (reg uid (path ++ [n]) (PNode id)) (fun _ => andthen (mapA (build uid (path ++ [n])) cs) (k id))))).
    { intros k Hk. apply deep_then; [apply deep_id|]. intros id. apply deep_then; [now apply deep_reg|]. intros _. apply deep_then; [apply deep_map; intros s Hs; apply build_deep, snoc_not|]. intros kids. apply Hk. }
    destruct v as [o|l|ch|]; [apply (F (fun _ _ => fail ValueError)); intros; apply deep_fail..| |apply (F (fun _ _ => fail ValueError)); intros; apply deep_fail]. cbn [construct]. apply (F (fun id kids => andthen (copy_into uid (path ++ [n]) cs ch kids) (fun kids => ret (TCont id kids)))). intros id kids. apply deep_then; [|intros; apply deep_ret].
    apply copy_deep. intros i v s Hi. apply IH; [now apply nth_error_In in Hi|apply snoc_not].
  - assert (E : construct uid path (RList n keys cs) v = ret (TList [])) by (now destruct v as [[]| | |]). rewrite E. apply deep_ret.
Qed.
Lemma keys_deep path cs : path <> [] -> forall keys ko kids, deep (set_keys uid path cs keys ko kids).
Proof.
  intros Hp. induction keys as [|k keys IH]; intros [|o ko] kids; cbn [set_keys]; try apply deep_ret. destruct (index_of k cs) as [i|]; [|apply deep_fail]. destruct (nth_error cs i) as [s|]; [|apply deep_fail]. apply deep_then; [now apply construct_deep|]. intros x. apply IH.
Qed.
(** What comes after the registration of an entry. *)
Definition entry_rest (path : list str) (keys : list str) (cs : list rschema) (ko : list outcome) (arg : option (option (list (nat * value)))) (id : nat) : act (nat * list robj) :=
  andthen (mapA (build uid path) cs) (fun kids =>
  andthen (match arg with None => ret kids | Some (Some ch) => copy_into uid path cs ch kids | Some None => fail ValueError end) (fun kids =>
  andthen (set_keys uid path cs keys ko kids) (fun kids => ret (id, kids)))).
Lemma rest_deep path keys cs ko arg id : path <> [] -> deep (entry_rest path keys cs ko arg id).
Proof.
  intros Hp. unfold entry_rest. apply deep_then; [apply deep_map; intros s _; now apply build_deep|]. intros kids. apply deep_then; [|intros kids'; apply deep_then; [now apply keys_deep|intros; apply deep_ret]].
  destruct arg as [[ch|]|]; [|apply deep_fail|apply deep_ret]. apply copy_deep. intros i v s _. now apply construct_deep.
Qed.
Lemma entry_deep path n keys cs ks ko arg : path <> [] -> deep (make_entry uid path n keys cs ks ko arg).
Proof.
  intros Hp. unfold make_entry. cbv zeta. apply deep_then; [apply deep_id|]. intros id. apply deep_then; [now apply deep_reg|]. intros _. apply (rest_deep (path ++ [n ++ key_part keys ks]) keys cs ko arg id). apply snoc_not.
Qed.
Lemma keyless_deep path n cs : deep (make_keyless uid path n cs).
Proof. unfold make_keyless. apply deep_then; [apply deep_id|]. intros id. apply deep_then; [apply deep_map; intros s _; apply build_deep, snoc_not|]. intros k. apply deep_ret. Qed.

(** One thing at the top. *)
Definition topped (n : str) (o : pobj) (w w' : world) : Prop := w_root w' = dict_set n o (w_root w) /\ w_gets w' = dict_set (safe_name n) o (w_gets w).
Lemma reg_top n o w : topped n o w (fst (reg uid ([] ++ [n]) o w)).
Proof. unfold reg. destruct (register _ _ _ _ _) as [h r]. now split. Qed.
Lemma topped_tops n o a b c : topped n o a b -> tops b c -> topped n o a c.
Proof. intros [H1 H2] [H3 H4]. split; congruence. Qed.
Lemma tops_topped n o a b c : tops a b -> topped n o b c -> topped n o a c.
Proof. intros [H1 H2] [H3 H4]. split; congruence. Qed.
(** A registration at the top, and then nothing more there. *)
Lemma reg_then {A} n o (k : act A) w : deep k -> topped n o w (fst (andthen (reg uid ([] ++ [n]) o) (fun _ => k) w)) /\
  forall a, snd (andthen (reg uid ([] ++ [n]) o) (fun _ => k) w) = Ok a -> exists w1, snd (k w1) = Ok a.
Proof.
  intros Hk. rewrite andthen_run. pose proof (reg_top n o w) as T. destruct (reg uid ([] ++ [n]) o w) as [w1 [[]|e]]; cbn [fst] in T; [|split; [assumption|discriminate]]. split; [apply (topped_tops n o w w1); [assumption|apply Hk]|]. intros a Ha. now exists w1.
Qed.
Definition one_top (s : rschema) (w : world) (r : world * res robj) : Prop :=
  (tops w (fst r) /\ forall a, snd r = Ok a -> as_object a = None /\ exists n keys cs, s = RList n keys cs) \/ exists o, topped (r_name s) o w (fst r) /\ forall a, snd r = Ok a -> as_object a = Some o.
Lemma build_top s w : one_top s w (build uid [] s w).
Proof.
  destruct s as [n v0|n|n cs|n keys cs]; cbn [build].
  - right. exists (PLeaf v0). destruct (reg_then n (PLeaf v0) (ret (TLeaf v0)) w (deep_ret _)) as [T R]. split; [exact T|]. intros a Ha. destruct (R a Ha) as (w1 & E). injection E as <-. reflexivity.
  - right. exists (PLeafList (w_next w)). rewrite andthen_run. unfold new_id. rewrite andthen_run. unfold set_members. match goal with |- topped _ _ _ (fst (_ ?w0)) /\ _ => destruct (reg_then n (PLeafList (w_next w)) (ret (TLeafList (w_next w))) w0 (deep_ret _)) as [T R] end.
    split; [exact T|]. intros a Ha. destruct (R a Ha) as (w1 & E). injection E as <-. reflexivity.
  - right. exists (PNode (w_next w)). rewrite andthen_run. unfold new_id. match goal with |- topped _ _ _ (fst (andthen _ (fun _ => ?k) ?w0)) /\ _ => destruct (reg_then n (PNode (w_next w)) k w0) as [T R] end.
    { apply deep_then; [apply deep_map; intros s Hs; apply build_deep, snoc_not|]. intros k. apply deep_ret. }
    split; [exact T|]. intros a Ha. destruct (R a Ha) as (w1 & E). rewrite andthen_run in E. destruct (mapA (build uid ([] ++ [n])) cs w1) as [w2 [ks|e]]; [|discriminate]. injection E as <-. reflexivity.
  - left. split; [apply tops_refl|]. intros a Ha. injection Ha as <-. split; [reflexivity|now exists n, keys, cs].
Qed.
Lemma construct_top s v w : one_top s w (construct uid [] s v w).
Proof.
  assert (Fail : forall e, one_top s w (fail e w)) by (intros e; left; split; [apply tops_refl|discriminate]).
  destruct s as [n v0|n|n cs|n keys cs].
  - destruct v as [[x|e|x e]| | |]; cbn [construct]; try apply Fail; right; exists (PLeaf x).
    + destruct (reg_then n (PLeaf x) (ret (TLeaf x)) w (deep_ret _)) as [T R]. split; [exact T|]. intros a Ha. destruct (R a Ha) as (w1 & E). injection E as <-. reflexivity.
    + destruct (reg_then n (PLeaf x) (fail (A := robj) e) w (deep_fail _)) as [T R]. split; [exact T|]. intros a Ha. destruct (R a Ha) as (w1 & E). discriminate.
  - destruct v as [|r| |]; cbn [construct]; try apply Fail. right. exists (PLeafList (w_next w)). rewrite andthen_run. unfold new_id. rewrite andthen_run. unfold set_members at 1. 
    match goal with |- topped _ _ _ (fst (andthen _ (fun _ => ?k) ?w0)) /\ _ => destruct (reg_then n (PLeafList (w_next w)) k w0) as [T R] end.
    { destruct r; [|apply deep_fail]. apply deep_then; [apply deep_members|]. intros _. apply deep_ret. }
    split; [exact T|]. intros a Ha. destruct (R a Ha) as (w1 & E). destruct r as [l|e]; [|discriminate]. injection E as <-. reflexivity.
  - assert (F : forall k : nat -> list robj -> act robj, (forall id kids, deep (k id kids)) -> (forall id kids w1 a, snd (k id kids w1) = Ok a -> as_object a = Some (PNode id)) ->
      one_top (RCont n cs) w (andthen new_id (fun id => andthen (reg uid ([] ++ [n]) (PNode id)) (fun _ => andthen (mapA (build uid ([] ++ [n])) cs) (k id))) w)).
    { intros k Hk Hr. right. exists (PNode (w_next w)). rewrite andthen_run. unfold new_id. match goal with |- topped _ _ _ (fst (andthen _ (fun _ => ?k) ?w0)) /\ _ => destruct (reg_then n (PNode (w_next w)) k w0) as [T R] end.
      { apply deep_then; [apply deep_map; intros s Hs; apply build_deep, snoc_not|]. intros kids. apply Hk. }
      split; [exact T|]. intros a Ha. destruct (R a Ha) as (w1 & E). rewrite andthen_run in E. destruct (mapA (build uid ([] ++ [n])) cs w1) as [w2 [ks|e]]; [|discriminate]. now apply Hr in E. }
    destruct v as [o|l|ch|]; [apply (F (fun _ _ => fail ValueError)); [intros; apply deep_fail|intros; discriminate]..| |apply (F (fun _ _ => fail ValueError)); [intros; apply deep_fail|intros; discriminate]].
    cbn [construct]. apply (F (fun id kids => andthen (copy_into uid ([] ++ [n]) cs ch kids) (fun kids => ret (TCont id kids)))).
    + intros id kids. apply deep_then; [|intros; apply deep_ret]. apply copy_deep. intros i v s Hi. apply construct_deep, snoc_not.
    + intros id kids w1 a E. rewrite andthen_run in E. destruct (copy_into uid ([] ++ [n]) cs ch kids w1) as [w2 [ks|e]]; [|discriminate]. injection E as <-. reflexivity.
  - assert (E : construct uid [] (RList n keys cs) v = ret (TList [])) by (now destruct v as [[]| | |]). rewrite E. left. split; [apply tops_refl|]. intros a Ha. injection Ha as <-. split; [reflexivity|now exists n, keys, cs].
Qed.
Lemma entry_top n keys cs ks ko arg w : exists o, topped (n ++ key_part keys ks) o w (fst (make_entry uid [] n keys cs ks ko arg w)).
Proof.
  exists (PNode (w_next w)). unfold make_entry. cbv zeta. rewrite andthen_run. unfold new_id. match goal with |- topped _ _ _ (fst (andthen _ (fun _ => ?k) ?w0)) => destruct (reg_then (n ++ key_part keys ks) (PNode (w_next w)) k w0) as [T R] end; [|exact T].
  apply (rest_deep ([] ++ [n ++ key_part keys ks]) keys cs ko arg (w_next w)). apply snoc_not.
Qed.

(** Operations below the top. *)
Lemma apply_deep path s x o w : path <> [] -> tops w (fst (fst (apply uid path s x o w))).
Proof.
  intros Hp. assert (Store : forall m : act robj, deep m -> tops w (fst (fst (match m w with (w', Ok y) => (w', y, Ok tt) | (w', Raise e) => (w', x, Raise e) end)))).
  { intros m Hd. specialize (Hd w). destruct (m w) as [w' [y|e]]; exact Hd. }
  destruct o as [v| |l|ks ko|ks ko arg|ks|ks]; cbn [apply].
  - apply Store. now apply construct_deep.
  - apply Store. now apply build_deep.
  - destruct x; apply tops_refl || now split.
  - destruct s; try apply tops_refl. destruct x; try apply tops_refl. destruct (entry ks es); [apply tops_refl|]. apply Store. apply deep_then; [|intros; apply deep_ret]. destruct keys; [apply keyless_deep|now apply entry_deep].
  - destruct s; try apply tops_refl. destruct x; try apply tops_refl. cbv zeta. apply Store. apply deep_then; [|intros; apply deep_ret]. destruct keys; [apply keyless_deep|now apply entry_deep].
  - destruct s; try apply tops_refl. destruct keys; destruct x; try apply tops_refl. destruct (entry ks es); [|apply tops_refl]. destruct (unregister _ _). now split.
  - destruct s; try apply tops_refl. destruct x; try apply tops_refl. destruct (entry ks es); apply tops_refl.
Qed.
Lemma exec_deep o : forall k p, length p <= k -> forall path cs kids w, path <> [] -> tops w (fst (fst (exec uid path cs kids p o w))).
Proof.
  induction k as [|k IH]; intros p Hk path cs kids w Hp; [destruct p; [apply tops_refl|cbn in Hk; lia]|].
  destruct p as [|[i|ks] p']; [apply tops_refl| |apply tops_refl]. cbn [exec]. destruct (nth_error cs i) as [s|]; [|apply tops_refl]. destruct (nth_error kids i) as [x|]; [|apply tops_refl]. destruct p' as [|[j|ks] p''].
  - pose proof (apply_deep path s x o w Hp) as T. destruct (apply uid path s x o w) as [[w' y] r]. exact T.
  - destruct s as [n v0|n|n cs'|n keys cs']; try apply tops_refl. destruct x as [| |id kids'|]; try apply tops_refl. pose proof (IH (Kid j :: p'') ltac:(cbn [length] in *; lia) (path ++ [n]) cs' kids' w (snoc_not _ _)) as T. destruct (exec uid (path ++ [n]) cs' kids' (Kid j :: p'') o w) as [[w' k2] r]. exact T.
  - destruct s as [n v0|n|n cs'|n keys cs']; try apply tops_refl. destruct x as [| | |es]; try apply tops_refl. destruct (entry ks es) as [[id ek]|]; [|apply tops_refl]. cbv zeta. match goal with |- context [exec uid ?pp cs' ek p'' o w] => pose proof (IH p'' ltac:(cbn [length] in *; lia) pp cs' ek w (snoc_not _ _)) as T; destruct (exec uid pp cs' ek p'' o w) as [[w' k2] r] end. exact T.
Qed.

(* ------------------------------------------------------------------ sessions *)
Context (Huid : fresh uid) (cs : list rschema) (Hm : module_ok cs) (Hpy : py_names cs).
Definition root_inv (ll : bool) (w : world) (kids : list robj) : Prop := forall i s x o, nth_error cs i = Some s -> nth_error kids i = Some x -> as_object x = Some o -> (is_leaf_list o = true -> ll = true) ->
  look (r_name s) (w_root w) = Some o /\ look (safe_name (r_name s)) (w_gets w) = Some o.
(** What one step at the top does. *)
Definition top_step (ll : bool) (s : rschema) (x y : robj) (w w' : world) : Prop :=
  (tops w w' /\ as_object y = as_object x) \/ (as_object y = None /\ exists t o, topped t o w w' /\ In 91%N t) \/
  (exists o, topped (r_name s) o w w' /\ (as_object y = Some o \/ exists id, as_object y = Some (PLeafList id) /\ ll = false)).
Lemma safe_bracket t : In 91%N t -> In 91%N (safe_name t).
Proof.
  intros H. assert (H2 : In 91%N (replace_ch 46 95 (replace_ch 45 95 t))). { unfold replace_ch. apply in_map_iff. exists 91%N. split; [reflexivity|]. apply in_map_iff. exists 91%N. now split. }
  unfold safe_name. cbv zeta. destruct (str_in _ _); [apply in_or_app; now left|assumption].
Qed.
Lemma safe_no_bracket t : ~ In 91%N t -> ~ In 91%N (safe_name t).
Proof.
  intros H. assert (H2 : ~ In 91%N (replace_ch 46 95 (replace_ch 45 95 t))).
  { unfold replace_ch. intros Hi. apply in_map_iff in Hi as (c & E & Hi). apply in_map_iff in Hi as (d & E2 & Hi). apply H. destruct (N.eqb d 45); subst c; [discriminate E|]. destruct (N.eqb d 46); [discriminate E|]. now subst d. }
  unfold safe_name. cbv zeta. destruct (str_in _ _); [|assumption]. intros Hi. apply in_app_or in Hi as [Hi|[Hi|[]]]; [contradiction|discriminate].
Qed.
Lemma name_no_bracket n : xml_name n -> ~ In 91%N n.
Proof.
  intros (c & r & -> & Hc & Hr) [E|Hi].
  - subst c. destruct Hc as [H|[H|H]]; lia.
  - rewrite Forall_forall in Hr. destruct (Hr _ Hi) as [[H|[H|H]]|[H|[H|H]]]; lia.
Qed.
Lemma look_other k k' (o : pobj) d : k' <> k -> look k' (dict_set k o d) = look k' d.
Proof. intros H. rewrite look_set. destruct (str_eqb k' k) eqn:E; [apply str_eqb_eq in E; congruence|reflexivity]. Qed.
Lemma look_same k (o : pobj) d : look k (dict_set k o d) = Some o.
Proof. rewrite look_set. now rewrite str_eqb_refl. Qed.
Lemma topped_other t o w w' n ob : topped t o w w' -> n <> t -> safe_name n <> safe_name t -> look n (w_root w) = Some ob /\ look (safe_name n) (w_gets w) = Some ob -> look n (w_root w') = Some ob /\ look (safe_name n) (w_gets w') = Some ob.
Proof. intros [T1 T2] H1 H2 [L1 L2]. rewrite T1, T2. now rewrite !look_other. Qed.
Lemma py_inj i j s s' : nth_error cs i = Some s -> nth_error cs j = Some s' -> i <> j -> r_name s <> r_name s' /\ safe_name (r_name s) <> safe_name (r_name s').
Proof.
  intros Hi Hj Hne. assert (H : safe_name (r_name s) <> safe_name (r_name s')); [|split; [congruence|assumption]]. intros E. apply Hne. apply (nth_inj (map (fun s => safe_name (r_name s)) cs) i j (safe_name (r_name s))); [exact Hpy|now rewrite (map_nth_error _ _ _ Hi)|]. rewrite (map_nth_error _ _ _ Hj). now rewrite E.
Qed.
Lemma step_root ll w w' kids i s x y : root_inv ll w kids -> nth_error cs i = Some s -> nth_error kids i = Some x -> top_step ll s x y w w' -> root_inv ll w' (set_nth i y kids).
Proof.
  intros R Hs Hx T j s' x' o Hs' Hx' Ho Hl. destruct (Nat.eq_dec i j) as [<-|Hne].
  - rewrite Hs in Hs'. injection Hs' as <-. rewrite set_nth_same in Hx' by (apply nth_error_Some; congruence). injection Hx' as <-. destruct T as [[[T1 T2] E]|[[E _]|(ob & [T1 T2] & [E|(id & E & El)])]].
    + rewrite T1, T2. apply (R i s x o); [assumption|assumption|congruence|assumption].
    + congruence.
    + rewrite E in Ho. injection Ho as <-. rewrite T1, T2. split; apply look_same.
    + rewrite E in Ho. injection Ho as <-. specialize (Hl eq_refl). congruence.
  - rewrite set_nth_other in Hx' by assumption. pose proof (R j s' x' o Hs' Hx' Ho Hl) as L. destruct (py_inj j i s' s Hs' Hs ltac:(congruence)) as [N1 N2]. destruct T as [[[T1 T2] E]|[[E (t & ob & T & Hb)]|(ob & T & _)]].
    + now rewrite T1, T2.
    + assert (Hn : ~ In 91%N (r_name s')) by (apply name_no_bracket, schema_name; apply Hm; now apply nth_error_In in Hs'). apply (topped_other t ob w w'); [assumption|intros E2; apply Hn; now rewrite E2| |assumption]. intros E2. apply (safe_no_bracket _ Hn). rewrite E2. now apply safe_bracket.
    + now apply (topped_other (r_name s) ob w w').
Qed.
Lemma apply_top ll i s x o w M : nth_error cs i = Some s -> fits s x -> winv uid cs w M -> op_at ll (Some s) o ->
  let '(w', y, _) := apply uid [] s x o w in top_step ll s x y w w'.
Proof.
  intros Hi Hf I Ho. destruct Hm as [Hd Hsch]. pose proof (nth_error_In _ _ Hi) as Hin. pose proof (Hsch s Hin) as Hs. assert (Hp : present M []) by (now left).
  assert (Same : top_step ll s x x w w) by (left; split; [apply tops_refl|reflexivity]).
  assert (Store : forall r : world * res robj, one_top s w r -> (forall e ob, snd r = Raise e -> topped (r_name s) ob w (fst r) -> exists id, x = TLeafList id /\ ll = false) ->
    let '(w', y, _) := match r with (w', Ok y) => (w', y, Ok tt) | (w', Raise e) => (w', x, Raise e) end in top_step ll s x y w w').
  { intros [w' [y|e]] [[T1 T2]|(ob & T1 & T2)] Hr; cbn [fst snd] in *.
    - destruct (T2 y eq_refl) as [E (n & keys & c & ->)]. left. split; [assumption|]. rewrite E. inversion Hf; subst. reflexivity.
    - right. right. exists ob. split; [assumption|]. left. now apply T2.
    - left. now split.
    - destruct (Hr e ob eq_refl T1) as (id & -> & El). right. right. exists ob. split; [assumption|]. right. now exists id. }
  assert (Entry : forall n keys cs' es ks ko arg, as_object x = None -> let '(w', y, _) := match match make_entry uid [] n keys cs' ks ko arg w with (w1, Ok a) => ret (TList (put_entry ks a es)) w1 | (w1, Raise e) => (w1, Raise e) end with (w', Ok y) => (w', y, Ok tt) | (w', Raise e) => (w', x, Raise e) end in top_step ll s x y w w').
  { intros n keys cs' es ks ko arg Ex. destruct (entry_top n keys cs' ks ko arg w) as (ob & T). assert (Hb : In 91%N (n ++ key_part keys ks)) by (apply in_or_app; right; now left).
    destruct (make_entry uid [] n keys cs' ks ko arg w) as [w1 [a|e]]; cbn [fst ret] in *; right; left; (split; [first [reflexivity|assumption]|]); now exists (n ++ key_part keys ks), ob. }
  destruct o as [v| |l|ks ko|ks ko arg|ks|ks]; cbn [apply].
  - destruct s as [n v0|n|n cs'|n keys cs'].
    + assert (Hnl : not_late v) by (destruct ll; now destruct Ho as [Ho _]). destruct v as [[x0|e0|x0 e0]| | |]; [|exact Same|contradiction|exact Same..].
      apply Store; [apply construct_top|]. intros e ob E T. exfalso. destruct (construct_all uid Huid cs (RLeaf n v0) (VLeaf (Good x0)) w M [] [] cs (good_leaf n v0 x0) I (ctx_top cs) Hd Hin Hs Hp) as (w1 & y & M1 & E1 & _). rewrite E1 in E. discriminate E.
    + apply Store; [apply construct_top|]. intros e ob E T. destruct ll; [destruct Ho as [_ (n' & v0 & E0)]; discriminate E0|]. inversion Hf; subst. now exists id.
    + apply Store; [apply construct_top|]. intros e ob E T. exfalso. destruct ll; [destruct Ho as [_ (n' & v0 & E0)]; discriminate E0|]. destruct Ho as [_ Hg]. specialize (Hg n cs' eq_refl). destruct (construct_all uid Huid cs (RCont n cs') v w M [] [] cs Hg I (ctx_top cs) Hd Hin Hs Hp) as (w1 & y & M1 & E1 & _). rewrite E1 in E. discriminate E.
    + apply Store; [apply construct_top|]. intros e ob E T. exfalso. assert (E0 : construct uid [] (RList n keys cs') v = ret (TList [])) by (now destruct v as [[]| | |]). rewrite E0 in E. discriminate E.
  - apply Store; [apply build_top|]. intros e ob E T. exfalso. destruct (build_all uid Huid cs s w M [] [] cs I (ctx_top cs) Hd Hin Hs Hp) as (w1 & y & M1 & E1 & _). rewrite E1 in E. discriminate E.
  - destruct x; try exact Same.
  - destruct s as [|n|n cs'|n keys cs']; try exact Same. destruct x as [| | |es]; try exact Same. destruct (entry ks es); [exact Same|]. rewrite andthen_run.
    assert (Em : match keys with [] => make_keyless uid [] n cs' | _ => make_entry uid [] n keys cs' ks ko None end = make_entry uid [] n keys cs' ks ko None) by (inversion Hs; subst; destruct keys; [congruence|reflexivity]). rewrite Em. apply (Entry n keys cs' es). reflexivity.
  - destruct s as [|n|n cs'|n keys cs']; try exact Same. destruct x as [| | |es]; try exact Same. cbv zeta. rewrite andthen_run. set (how := match arg with Some ch => Some (Some ch) | None => _ end).
    assert (Em : match keys with [] => make_keyless uid [] n cs' | _ => make_entry uid [] n keys cs' ks ko how end = make_entry uid [] n keys cs' ks ko how) by (inversion Hs; subst; destruct keys; [congruence|reflexivity]). rewrite Em. apply (Entry n keys cs' es). reflexivity.
  - destruct s as [|n|n cs'|n keys cs']; try exact Same. destruct keys as [|k keys]; destruct x as [| | |es]; try exact Same. destruct (entry ks es); [|exact Same]. destruct (unregister _ _). left. now split.
  - destruct s as [|n|n cs'|n keys cs']; try exact Same. destruct x as [| | |es]; try exact Same. destruct (entry ks es); [|exact Same]. left. now split.
Qed.
Lemma exec_root ll p o w kids M : op_fine ll cs (p, o) -> winv uid cs w M -> Forall2 fits cs kids -> root_inv ll w kids ->
  let '(w', kids', _) := exec uid [] cs kids p o w in root_inv ll w' kids'.
Proof.
  intros Ho I Hf R. destruct p as [|[i|ks] p']; [exact R| |exact R]. pose proof (op_fine_at ll cs _ _ Ho) as Hop. cbn [exec]. destruct (nth_error cs i) as [s|] eqn:Es; [|exact R]. destruct (nth_error kids i) as [x|] eqn:Ex; [|exact R].
  assert (Hfx : fits s x) by (destruct (Forall2_nth _ _ _ _ _ Hf Es) as (x' & Ex' & H); congruence). destruct p' as [|[j|ks] p''].
  - cbn [schema_at] in Hop. rewrite Es in Hop. pose proof (apply_top ll i s x o w M Es Hfx I Hop) as T. destruct (apply uid [] s x o w) as [[w' y] r]. now apply (step_root ll w w' kids i s x y).
  - destruct s as [n v0|n|n cs'|n keys cs']; try exact R. destruct x as [| |id kids'|]; try exact R. pose proof (exec_deep o _ (Kid j :: p'') (le_n _) ([] ++ [n]) cs' kids' w (snoc_not _ _)) as T. destruct (exec uid ([] ++ [n]) cs' kids' (Kid j :: p'') o w) as [[w' k2] r]. apply (step_root ll w w' kids i _ _ _ R Es Ex). left. now split.
  - destruct s as [n v0|n|n cs'|n keys cs']; try exact R. destruct x as [| | |es]; try exact R. destruct (entry ks es) as [[id ek]|]; [|exact R]. cbv zeta.
    match goal with |- context [exec uid ?pp cs' ek p'' o w] => pose proof (exec_deep o _ p'' (le_n _) pp cs' ek w (snoc_not _ _)) as T; destruct (exec uid pp cs' ek p'' o w) as [[w' k2] r] end. apply (step_root ll w w' kids i _ _ _ R Es Ex). left. now split.
Qed.
Lemma run_root ll : forall os w kids M, Forall (op_fine ll cs) os -> winv uid cs w M -> Forall2 fits cs kids -> tree_inv ll [] cs kids M -> root_inv ll w kids -> root_inv ll (fst (run uid cs w kids os)) (snd (run uid cs w kids os)).
Proof.
  induction os as [|[p o] os IH]; intros w kids M Hos I Hf HT R; [exact R|]. cbn [run]. inversion Hos as [|? ? Ho Hos']; subst. pose proof (exec_root ll p o w kids M Ho I Hf R) as R'.
  pose proof (exec_ok uid Huid cs ll o (length p) p (le_n _) [] [] cs kids w M (ctx_top cs) (proj1 Hm) (proj2 Hm) Hf I (or_introl eq_refl) HT (op_fine_at _ _ _ _ Ho)) as HS. destruct (exec uid [] cs kids p o w) as [[w' kids'] r]. destruct HS as (M' & I' & _ & Hf' & HT'). now apply (IH w' kids' M').
Qed.
(** The children that are built first. *)
Lemma mapA_root : forall l w w' kids, NoDup (map (fun s => safe_name (r_name s)) l) -> mapA (build uid []) l w = (w', Ok kids) ->
  (forall n ob, ~ In (safe_name n) (map (fun s => safe_name (r_name s)) l) -> look n (w_root w) = Some ob /\ look (safe_name n) (w_gets w) = Some ob -> look n (w_root w') = Some ob /\ look (safe_name n) (w_gets w') = Some ob) /\
  forall i s x o, nth_error l i = Some s -> nth_error kids i = Some x -> as_object x = Some o -> look (r_name s) (w_root w') = Some o /\ look (safe_name (r_name s)) (w_gets w') = Some o.
Proof.
  induction l as [|s l IH]; intros w w' kids Hd E.
  - injection E as <- <-. split; [auto|]. intros [|i]; discriminate.
  - rewrite mapA_cons, andthen_run in E. pose proof (build_top s w) as T. destruct (build uid [] s w) as [w1 [x|e]]; [|discriminate]. rewrite andthen_run in E. destruct (mapA (build uid []) l w1) as [w2 [ks|e]] eqn:E2; [|discriminate]. injection E as <- <-.
    cbn [map] in Hd. inversion Hd as [|? ? Hn Hd']; subst. destruct (IH w1 w2 ks Hd' E2) as [I1 I2]. 
    assert (F : forall n ob, safe_name n <> safe_name (r_name s) -> look n (w_root w) = Some ob /\ look (safe_name n) (w_gets w) = Some ob -> look n (w_root w1) = Some ob /\ look (safe_name n) (w_gets w1) = Some ob).
    { intros n ob Hne L. destruct T as [[[T1 T2] _]|(o & T & _)]; cbn [fst] in *; [now rewrite T1, T2|]. apply (topped_other (r_name s) o w w1); [assumption|congruence|assumption|assumption]. }
    split.
    + intros n ob Hni L. apply I1; [intros Hi; apply Hni; now right|]. apply F; [intros E3; apply Hni; left; congruence|assumption].
    + intros [|i] s' x' o Hs Hx Ho; cbn [nth_error] in *; [|now apply (I2 i s' x')]. injection Hs as <-. injection Hx as <-. apply I1; [assumption|]. destruct T as [[_ T]|(o' & [T1 T2] & T)]; cbn [fst snd] in *.
      * destruct (T x eq_refl) as [E3 _]. congruence.
      * rewrite (T x eq_refl) in Ho. injection Ho as <-. rewrite T1, T2. split; apply look_same.
Qed.
Theorem session_root ll os : Forall (op_fine ll cs) os -> root_inv ll (fst (session uid cs os)) (snd (session uid cs os)).
Proof.
  intros Hos. destruct Hm as [Hd Hs]. unfold session, module_new.
  destruct (mapA_build uid cs cs [] [] (fun s _ => build_all uid Huid cs s) (ctx_top cs) Hd Hs cs world_new (fun _ => None) (incl_refl cs) Hd (inv_new uid _) (or_introl eq_refl)) as (w & kids & M & E & I & S).
  match goal with |- context [mapA ?f ?l world_new] => change (mapA f l world_new = (w, Ok kids)) in E end. rewrite E. apply (run_root ll os w kids M Hos I); [apply S| |].
  - destruct S as (_ & _ & _ & A4 & A5). split.
    + intros r o H _. apply A4; [assumption|]. intros _. now split.
    + intros _ n r Hm'. destruct (A5 eq_refl ([] ++ n :: r)) as [E5|(r' & o & E5 & H)]; [rewrite E5 in Hm'; congruence|]. cbn [app] in E5. subst r'. now exists o.
  - intros i s x o Hi Hx Ho _. destruct (mapA_root cs world_new w kids Hpy E) as [_ R]. now apply (R i s x).
Qed.
Lemma root_found ll os caller : Forall (op_fine ll cs) os -> get caller [[]] (w_help (fst (session uid cs os))) = Ok [None].
Proof.
  intros Hos. destruct (session_ok uid Huid cs ll os Hm Hos) as (M & I & _ & _). unfold get, get_etree. change (relative [[]]) with false. cbv iota. change (encode_path [[]]) with (Ok (A := list xstep) []). cbn [bind]. unfold eval_steps. cbn [fold_left map_r]. unfold object_at. cbn [node_at]. unfold winv in I. rewrite (i_root _ _ _ _ I), (i_fake _ _ _ _ I). reflexivity.
Qed.
Theorem root_shows ll os i s x o e caller : Forall (op_fine ll cs) os -> nth_error cs i = Some s -> nth_error (snd (session uid cs os)) i = Some x -> as_object x = Some o -> (is_leaf_list o = true -> ll = true) ->
  let w := fst (session uid cs os) in get_unique e caller [[]] (w_help w) = Ok None /\ In (r_name s) (root_elements w) /\ root_attribute (r_name s) w = Some o /\ get_list e caller [[]; r_name s] cs (snd (session uid cs os)) w = Ok (GotTop o).
Proof.
  cbv zeta. intros Hos Hs Hx Ho Hl. destruct (session_root ll os Hos i s x o Hs Hx Ho Hl) as [L1 L2]. pose proof (root_found ll os caller Hos) as G. split; [unfold get_unique; match goal with |- context [get ?a ?b ?c] => change (get a b c = Ok [None]) in G end; rewrite G; reflexivity|]. split; [|split; [exact L1|]].
  - unfold root_elements. clear - L1. induction (w_root (fst (session uid cs os))) as [|[k v] d IH]; [discriminate|]. cbn [look map fst] in *. destruct (str_eqb (r_name s) k) eqn:E; [left; apply str_eqb_eq in E; congruence|right; now apply IH].
  - unfold get_list. cbn [removelast last]. unfold get_unique. match goal with |- context [get ?a ?b ?c] => change (get a b c = Ok [None]) in G end. rewrite G. cbn [bind]. rewrite L2. reflexivity.
Qed.
End Root.
