(** Lemmas about regular expressions. *)
From Verif Require Import PyStr PyStr_facts PyVal Restricted Regex Spec_Regex.
From Coq Require Import Lia ZifyBool ZifyN ZifyNat.

Scheme atom_mind := Induction for atom Sort Prop
  with branch_mind := Induction for branch Sort Prop
  with pattern_mind := Induction for pattern Sort Prop.
Combined Scheme regex_mind from atom_mind, branch_mind, pattern_mind.

(* ------------------------------------------------------------------ escaping of the dollars *)
Definition esc (s : str) : str := replace_str 36 (lit "\$") s.
Lemma esc_app a b : esc (a ++ b) = esc a ++ esc b.
Proof. apply flat_map_app. Qed.
Lemma esc_cons c s : esc (c :: s) = (if N.eqb c 36 then [92%N; 36%N] else [c]) ++ esc s.
Proof. reflexivity. Qed.
Lemma esc_none s : ~ In 36%N s -> esc s = s.
Proof.
  induction s as [|c s IH]; intros H; [reflexivity|]. rewrite esc_cons.
  destruct (N.eqb_spec c 36); [subst; exfalso; apply H; now left|]. cbn [app]. f_equal. apply IH. intros H'. apply H. now right.
Qed.

Lemma not_lit s c (b : N) : ~ In c (lit s) -> In b (lit s) -> N.eqb c b = false.
Proof. intros H H1. apply N.eqb_neq. intros ->. contradiction. Qed.

(* ------------------------------------------------------------------ the lexer *)
Lemma lex_skip w s : lex (length w) (w ++ s) = lex 0 s.
Proof. induction w as [|c w IH]; [reflexivity|exact IH]. Qed.
Lemma lex_tok w s t : w <> [] -> next_tok (w ++ s) = Some (t, s) ->
  lex 0 (w ++ s) = match lex 0 s with Some l => Some (t :: l) | None => None end.
Proof.
  destruct w as [|c w]; [congruence|]. intros _ H. cbn [app] in *. cbn [lex]. rewrite H.
  rewrite app_length. replace (length w + length s - length s)%nat with (length w) by lia. now rewrite lex_skip.
Qed.
Lemma items_skip w s : items (length w) (w ++ s) = items 0 s.
Proof. induction w as [|c w IH]; [reflexivity|exact IH]. Qed.
Lemma items_item w s i : (exists c w', w = c :: w' /\ c <> 93%N) -> next_item (w ++ s) = Some (i, s) ->
  items 0 (w ++ s) = match items 0 s with Some (l, r) => Some (i :: l, r) | None => None end.
Proof.
  intros (c & w' & -> & Hc) H. cbn [app] in *. cbn [items]. rewrite H. rewrite (proj2 (N.eqb_neq _ _) Hc).
  rewrite app_length. replace (length w' + length s - length s)%nat with (length w') by lia. now rewrite items_skip.
Qed.

(** Escapes. *)
Lemma escape_char c s : esc_ok c \/ c = 36%N -> escape (c :: s) = Some (inl (denoted (Esc c)), s).
Proof.
  intros H. assert (HI : In c (lit "nrt\|.?*+(){}-[]^$")).
  { destruct H as [H| ->]; [|vm_compute; tauto]. unfold esc_ok in H. vm_compute in H |- *. tauto. }
  vm_compute in HI. repeat (destruct HI as [<-|HI]; [reflexivity|]). contradiction.
Qed.
Lemma escape_multi k s : multi_letter k -> escape (k :: s) = Some (inr (CMulti k), s).
Proof. intros H. vm_compute in H. repeat (destruct H as [<-|H]; [reflexivity|]). contradiction. Qed.
Lemma until_app c a s : ~ In c a -> until c (a ++ c :: s) = Some (a, s).
Proof.
  induction a as [|x a IH]; intros H; cbn [until app].
  - now rewrite N.eqb_refl.
  - destruct (N.eqb_spec x c); [subst; exfalso; apply H; now left|]. rewrite IH; [reflexivity|]. intros H'. apply H. now right.
Qed.
Lemma category_alpha n : category_name n -> forallb is_alpha n = true /\ Nat.leb (length n) 2 = true /\ ~ In 125%N n /\ ~ In 36%N n.
Proof.
  intros [H1 H2]. split; [|split; [now apply Nat.leb_le|]].
  - apply forallb_forall. intros c Hc. rewrite Forall_forall in H1. specialize (H1 c Hc). unfold is_alpha. lia.
  - rewrite Forall_forall in H1. split; intros Hc; specialize (H1 _ Hc); lia.
Qed.
Lemma escape_category (neg : bool) n s : category_name n ->
  escape ((if neg then 80 else 112)%N :: 123%N :: n ++ 125%N :: s) = Some (inr (CCat neg n), s).
Proof.
  intros H. destruct (category_alpha n H) as (H1 & H2 & H3 & _).
  assert (E : escape ((if neg then 80 else 112)%N :: 123%N :: n ++ 125%N :: s) =
    match until 125 (n ++ 125%N :: s) with
    | Some (name, r) => if forallb is_alpha name && Nat.leb (length name) 2 then Some (inr (CCat neg name), r) else None
    | None => None end) by (destruct neg; reflexivity).
  rewrite E, (until_app 125 n s H3), H1, H2. reflexivity.
Qed.
Lemma esc_category neg n : category_name n -> esc (show_category neg n) = 92%N :: (if neg then 80 else 112)%N :: 123%N :: n ++ [125%N].
Proof.
  intros H. destruct (category_alpha n H) as (_ & _ & _ & H3). unfold show_category. rewrite !esc_app, (esc_none n H3).
  destruct neg; reflexivity.
Qed.

(** Single characters within a class. *)
Lemma single_of x s : class_char_ok x -> single (esc (show_single x) ++ s) = Some (inl (denoted x), s).
Proof.
  intros H. destruct x as [c|c]; cbn [show_single].
  - cbn [class_char_ok] in H. destruct (N.eq_dec c 36) as [->|Hn].
    + change (esc [36%N] ++ s) with (92%N :: 36%N :: s). change (escape (36%N :: s) = Some (inl 36%N, s)). exact (escape_char 36 s (or_intror eq_refl)).
    + rewrite esc_none by (intros [E0|[]]; congruence). cbn [app single].
      rewrite (not_lit _ c 92 H) by (vm_compute; tauto). rewrite (not_lit _ c 91 H) by (vm_compute; tauto). reflexivity.
  - assert (Hn : c <> 36%N) by (intros ->; vm_compute in H; intuition congruence).
    rewrite esc_none by (intros [E|[E|[]]]; [discriminate E|congruence]).
    change (single ([92%N; c] ++ s)) with (escape (c :: s)). apply escape_char. now left.
Qed.
Lemma single_head x : class_char_ok x -> exists c w, esc (show_single x) = c :: w /\ c <> 45%N /\ c <> 93%N /\ c <> 94%N.
Proof.
  intros H. destruct x as [c|c]; cbn [show_single class_char_ok] in *.
  - destruct (N.eq_dec c 36) as [->|Hn]; [exists 92%N, [36%N]; repeat split; lia|].
    rewrite esc_none by (intros [E0|[]]; congruence). exists c, []. split; [reflexivity|].
    repeat split; intros ->; apply H; vm_compute; tauto.
  - exists 92%N, (if N.eqb c 36 then [92%N; 36%N] else [c]). rewrite !esc_cons. cbn. rewrite app_nil_r. repeat split; lia.
Qed.

(** What an item is read as. *)
Definition citem_of (i : item) : citem :=
  match i with
  | One x => CRange (denoted x) (denoted x)
  | Range x y => CRange (denoted x) (denoted y)
  | Multi k => CMulti k
  | Category neg n => CCat neg n
  end.
(** What may follow an item. *)
Definition no_dash (s : str) : Prop := dash s = None.
Lemma item_head i : item_ok i -> exists c w, esc (show_item i) = c :: w /\ c <> 45%N /\ c <> 93%N /\ c <> 94%N.
Proof.
  destruct i as [x|x y|k|neg n]; cbn [item_ok show_item]; intros H.
  - now apply single_head.
  - destruct H as (Hx & _ & _). rewrite esc_app. destruct (single_head x Hx) as (c & w & -> & Hc). exists c, (w ++ esc (lit "-" ++ show_single y)). split; [reflexivity|exact Hc].
  - vm_compute in H. exists 92%N, [k]. split; [|repeat split; lia].
    repeat (destruct H as [<-|H]; [reflexivity|]). contradiction.
  - rewrite esc_category by assumption. eexists _, _. split; [reflexivity|repeat split; lia].
Qed.
Lemma next_item_of i s : item_ok i -> no_dash s -> next_item (esc (show_item i) ++ s) = Some (citem_of i, s).
Proof.
  intros H Hs. unfold no_dash in Hs. unfold next_item. destruct i as [x|x y|k|neg n]; cbn [item_ok show_item citem_of] in *.
  - rewrite single_of by assumption. now rewrite Hs.
  - destruct H as (Hx & Hy & Hle). rewrite !esc_app. change (esc (lit "-")) with [45%N]. rewrite <- !app_assoc.
    rewrite single_of by assumption. destruct (single_head y Hy) as (c & w & E & _ & H93 & _).
    assert (D : dash ([45%N] ++ esc (show_single y) ++ s) = Some (esc (show_single y) ++ s)).
    { rewrite E. cbn [app dash]. rewrite (proj2 (N.eqb_neq _ _) H93). reflexivity. }
    rewrite D, single_of by assumption. apply N.leb_le in Hle. now rewrite Hle.
  - assert (E : esc [92%N; k] = [92%N; k]).
    { apply esc_none. intros [E|[E|[]]]; [discriminate E|]. subst. vm_compute in H. intuition congruence. }
    rewrite E. change (single ([92%N; k] ++ s)) with (escape (k :: s)). rewrite escape_multi by assumption. now rewrite Hs.
  - rewrite esc_category by assumption.
    assert (E : (92%N :: (if neg then 80 else 112)%N :: 123%N :: n ++ [125%N]) ++ s = 92%N :: (if neg then 80 else 112)%N :: 123%N :: n ++ 125%N :: s).
    { cbn [app]. do 3 f_equal. now rewrite <- app_assoc. }
    rewrite E. change (single (92%N :: ?r)) with (escape r). rewrite escape_category by assumption. now rewrite Hs.
Qed.
Lemma items_dash d s : items 0 ((if d : bool then lit "-" else []) ++ 93%N :: s) = Some ((if d then [CRange 45 45] else []), s).
Proof.
  destruct d; [|reflexivity]. rewrite (items_item (lit "-") (93%N :: s) (CRange 45 45)); [reflexivity| |destruct s; reflexivity].
  exists 45%N, []. split; [reflexivity|discriminate].
Qed.
Lemma items_of l (d : bool) s : Forall item_ok l ->
  items 0 (esc (concat (map show_item l)) ++ (if d then lit "-" else []) ++ 93%N :: s) = Some (map citem_of l ++ (if d then [CRange 45 45] else []), s).
Proof.
  induction l as [|i l IH]; intros H; [apply items_dash|]. inversion H as [|? ? Hi Hl]; subst. cbn [map concat]. rewrite esc_app, <- app_assoc.
  destruct (item_head i Hi) as (c & w & E & H45 & H93 & _).
  rewrite (items_item _ _ (citem_of i)).
  - rewrite (IH Hl). reflexivity.
  - exists c, w. split; assumption.
  - apply next_item_of; [assumption|]. unfold no_dash. destruct l as [|j l].
    + destruct d; [reflexivity|destruct s; reflexivity].
    + inversion Hl as [|? ? Hj _]; subst. destruct (item_head j Hj) as (c' & w' & E' & H45' & _ & _).
      cbn [map concat]. rewrite esc_app, E'. cbn [app]. unfold dash. destruct (w' ++ esc (concat (map show_item l))) as [|]; cbn [app].
      * destruct ((if d then lit "-" else []) ++ 93%N :: s) eqn:F; [reflexivity|]. now rewrite (proj2 (N.eqb_neq _ _) H45').
      * now rewrite (proj2 (N.eqb_neq _ _) H45').
Qed.
Definition cset_of_class (neg d1 : bool) (l : list item) (d2 : bool) : cset :=
  CClass neg ((if d1 then [CRange 45 45] else []) ++ map citem_of l ++ (if d2 then [CRange 45 45] else [])).
Lemma class_of (neg d1 : bool) l (d2 : bool) s : l <> [] -> Forall item_ok l ->
  class ((if neg then lit "^" else []) ++ (if d1 then lit "-" else []) ++ esc (concat (map show_item l)) ++ (if d2 then lit "-" else []) ++ 93%N :: s) =
  Some (cset_of_class neg d1 l d2, s).
Proof.
  intros Hne H. set (rest := esc (concat (map show_item l)) ++ (if d2 then lit "-" else []) ++ 93%N :: s).
  assert (Hr : items 0 rest = Some (map citem_of l ++ (if d2 then [CRange 45 45] else []), s)) by now apply items_of.
  assert (Hh : exists c w, rest = c :: w /\ c <> 45%N /\ c <> 93%N /\ c <> 94%N).
  { destruct l as [|i l]; [congruence|]. inversion H as [|? ? Hi Hl]; subst. destruct (item_head i Hi) as (c & w & E & Hc).
    unfold rest. cbn [map concat]. rewrite esc_app, E. eexists _, _. split; [reflexivity|exact Hc]. }
  assert (Hd : items 0 ((if d1 then lit "-" else []) ++ rest) = Some ((if d1 then [CRange 45 45] else []) ++ map citem_of l ++ (if d2 then [CRange 45 45] else []), s)).
  { destruct d1; [|exact Hr]. rewrite (items_item (lit "-") rest (CRange 45 45)).
    - now rewrite Hr.
    - exists 45%N, []. split; [reflexivity|lia].
    - destruct Hh as (c & w & -> & H45 & _). unfold next_item. change (lit "-" ++ c :: w) with (45%N :: c :: w).
      change (single (45%N :: c :: w)) with (Some (@inl N citem 45%N, c :: w)). cbv iota beta.
      assert (D : dash (c :: w) = None) by (unfold dash; rewrite (proj2 (N.eqb_neq _ _) H45); now destruct w).
      now rewrite D. }
  assert (Hl : forall x y, map citem_of l ++ (x : list citem) = y -> y <> []).
  { intros x y <-. destruct l; [congruence|discriminate]. }
  assert (E : class ((if neg then lit "^" else []) ++ (if d1 then lit "-" else []) ++ rest) =
    match items 0 ((if d1 then lit "-" else []) ++ rest) with
    | Some ([], _) => None | Some (l, r) => Some (CClass neg l, r) | None => None end).
  { unfold class. destruct neg; [reflexivity|]. cbn [app]. destruct d1.
    - reflexivity.
    - destruct Hh as (c & w & E & _ & _ & H94). cbn [app]. rewrite E. now rewrite (proj2 (N.eqb_neq _ _) H94). }
  rewrite E, Hd. unfold cset_of_class.
  destruct ((if d1 then [CRange 45 45] else []) ++ map citem_of l ++ (if d2 then [CRange 45 45] else [])) as [|a0 l0] eqn:F; [|reflexivity].
  exfalso. apply app_eq_nil in F. destruct F as [_ F]. exact (Hl _ _ F eq_refl).
Qed.

(** Repetitions. *)
Lemma digits_app d s : Forall (fun c => is_digit c = true) d -> match s with c :: _ => is_digit c = false | [] => True end -> digits (d ++ s) = (d, s).
Proof.
  intros H Hs. induction d as [|c d IH]; cbn [app digits].
  - destruct s as [|c s]; [reflexivity|]. cbn [digits]. now rewrite Hs.
  - inversion H; subst. rewrite H2. now rewrite IH.
Qed.
Lemma show_nat_digits n : Forall digitN (show_nat n).
Proof.
  unfold show_nat. destruct n as [|n]; [constructor; [unfold digitN; lia|constructor]|].
  cbn [Z.of_nat print_Z]. apply (print_N_spec (N.pos (Pos.of_succ_nat n))).
Qed.
Lemma show_nat_nonnil n : show_nat n <> [].
Proof. apply print_Z_nonnil. Qed.
Lemma show_nat_esc n : esc (show_nat n) = show_nat n.
Proof. apply esc_none. intros H. pose proof (show_nat_digits n) as F. rewrite Forall_forall in F. specialize (F _ H). unfold digitN in F. lia. Qed.
Lemma number_of n s : match s with c :: _ => is_digit c = false | [] => True end -> number (show_nat n ++ s) = Some (n, s).
Proof.
  intros H. unfold number. rewrite digits_app; [|eapply Forall_impl; [|apply show_nat_digits]; intros c Hc; unfold digitN in Hc; unfold is_digit; lia|exact H].
  pose proof (show_nat_nonnil n) as Hn. destruct (show_nat n) as [|c d] eqn:E; [congruence|]. rewrite <- E. unfold show_nat. rewrite parse_print_Z, Nat2Z.id. reflexivity.
Qed.
Definition quant_tok (q : quant) : list tok :=
  match q with
  | Once => [] | Opt => [KRep 0 (Some 1%nat)] | Star => [KRep 0 None] | Plus => [KRep 1 None]
  | Exactly_ n => [KRep n (Some n)] | AtLeast n => [KRep n None] | FromTo n m => [KRep n (Some m)]
  end.
Lemma counts_exactly n s : counts (show_nat n ++ 125%N :: s) = Some (KRep n (Some n), s).
Proof. unfold counts. now rewrite number_of. Qed.
Lemma counts_atleast n s : counts (show_nat n ++ 44%N :: 125%N :: s) = Some (KRep n None, s).
Proof. unfold counts. now rewrite number_of. Qed.
Lemma counts_between n m s : (n <= m)%nat -> counts (show_nat n ++ 44%N :: show_nat m ++ 125%N :: s) = Some (KRep n (Some m), s).
Proof.
  intros H. unfold counts. rewrite number_of by reflexivity. pose proof (show_nat_nonnil m) as Hm. pose proof (show_nat_digits m) as Hd.
  change (N.eqb 44 125) with false. change (N.eqb 44 44) with true. cbv iota.
  assert (E : number (show_nat m ++ 125%N :: s) = Some (m, 125%N :: s)) by now apply number_of.
  destruct (show_nat m) as [|c d]; [congruence|]. cbn [app] in *. inversion Hd as [|? ? Hc _]; subst. unfold digitN in Hc.
  destruct (N.eqb_spec c 125); [lia|]. rewrite E. apply Nat.leb_le in H. rewrite H. reflexivity.
Qed.

(** The tokens of a pattern. *)
Fixpoint toks_atom (a : atom) : list tok :=
  match a with
  | AChar x => [KSet (COne (CRange (denoted x) (denoted x)))]
  | ADot => [KSet CDot]
  | AMulti k => [KSet (COne (CMulti k))]
  | ACategory neg n => [KSet (COne (CCat neg n))]
  | AClass neg d1 l d2 => [KSet (cset_of_class neg d1 l d2)]
  | AGroup r => KOpen :: toks r ++ [KClose]
  end
with toks_branch (b : branch) : list tok :=
  match b with BEnd => [] | BPiece a q b' => toks_atom a ++ quant_tok q ++ toks_branch b' end
with toks (r : pattern) : list tok :=
  match r with PBranch b => toks_branch b | POr b r' => toks_branch b ++ KBar :: toks r' end.

(** Reading [w] gives [ts]. *)
Definition reads (w : str) (ts : list tok) : Prop := forall s, lex 0 (w ++ s) = match lex 0 s with Some l => Some (ts ++ l) | None => None end.
Lemma reads_nil : reads [] [].
Proof. intros s. cbn [app]. now destruct (lex 0 s). Qed.
Lemma reads_app a b ta tb : reads a ta -> reads b tb -> reads (a ++ b) (ta ++ tb).
Proof. intros Ha Hb s. rewrite <- app_assoc, Ha, Hb. destruct (lex 0 s); [now rewrite app_assoc|reflexivity]. Qed.
Lemma reads_tok w t : w <> [] -> (forall s, next_tok (w ++ s) = Some (t, s)) -> reads w [t].
Proof. intros H H1 s. rewrite (lex_tok w s t H (H1 s)). reflexivity. Qed.

Lemma reads_quant q : quant_ok q -> reads (esc (show_quant q)) (quant_tok q).
Proof.
  intros H. destruct q as [| | | |n|n|n m]; cbn [quant_tok show_quant quant_ok] in *; try (apply reads_tok; [discriminate|intros s; reflexivity]).
  - apply reads_nil.
  - rewrite !esc_app, show_nat_esc. apply reads_tok; [discriminate|]. intros s.
    change (next_tok ((esc (lit "{") ++ show_nat n ++ esc (lit "}")) ++ s)) with (counts ((show_nat n ++ [125%N]) ++ s)).
    rewrite <- app_assoc. apply counts_exactly.
  - rewrite !esc_app, show_nat_esc. apply reads_tok; [discriminate|]. intros s.
    change (next_tok ((esc (lit "{") ++ show_nat n ++ esc (lit ",}")) ++ s)) with (counts ((show_nat n ++ [44%N; 125%N]) ++ s)).
    rewrite <- app_assoc. apply counts_atleast.
  - rewrite !esc_app, !show_nat_esc. apply reads_tok; [discriminate|]. intros s.
    change (next_tok ((esc (lit "{") ++ show_nat n ++ esc (lit ",") ++ show_nat m ++ esc (lit "}")) ++ s)) with (counts ((show_nat n ++ 44%N :: show_nat m ++ [125%N]) ++ s)).
    rewrite <- app_assoc. cbn [app]. rewrite <- app_assoc. now apply counts_between.
Qed.

Lemma reads_char x : char_ok x -> x <> Plain 94%N -> reads (esc (show_single x)) [KSet (COne (CRange (denoted x) (denoted x)))].
Proof.
  intros H Hc. apply reads_tok.
  - destruct x as [c|c]; cbn [show_single]; rewrite esc_cons; destruct (N.eqb _ _); discriminate.
  - intros s. destruct x as [c|c]; cbn [show_single char_ok] in *.
    + destruct (N.eq_dec c 36) as [->|Hn]; [reflexivity|]. rewrite esc_none by (intros [E0|[]]; congruence). cbn [app]. unfold next_tok.
      rewrite (proj2 (N.eqb_neq c 36) Hn), (proj2 (N.eqb_neq c 94)) by congruence.
      rewrite !(not_lit _ c _ H) by (vm_compute; tauto). reflexivity.
    + assert (Hn : c <> 36%N) by (intros ->; vm_compute in H; intuition congruence).
      rewrite esc_none by (intros [E|[E|[]]]; [discriminate E|congruence]).
      assert (E : next_tok ([92%N; c] ++ s) = match escape (c :: s) with Some (inl a, r) => Some (KSet (COne (CRange a a)), r) | Some (inr i, r) => Some (KSet (COne i), r) | None => None end) by reflexivity.
      rewrite E, escape_char by now left. reflexivity.
Qed.

Lemma reads_all :
  (forall a, atom_ok a -> caret_free_atom a -> reads (esc (show_atom a)) (toks_atom a)) /\
  (forall b, branch_ok b -> caret_free_branch b -> reads (esc (show_branch b)) (toks_branch b)) /\
  (forall r, pattern_ok r -> caret_free r -> reads (esc (show r)) (toks r)).
Proof.
  apply regex_mind; cbn [atom_ok branch_ok pattern_ok caret_free_atom caret_free_branch caret_free show_atom show_branch show toks_atom toks_branch toks].
  - intros x H Hc. now apply reads_char.
  - intros _ _. apply reads_tok; [discriminate|reflexivity].
  - intros k H _. assert (E : esc [92%N; k] = [92%N; k]).
    { apply esc_none. intros [E|[E|[]]]; [discriminate E|]. subst. vm_compute in H. intuition congruence. }
    rewrite E. apply reads_tok; [discriminate|]. intros s.
    assert (E' : next_tok ([92%N; k] ++ s) = match escape (k :: s) with Some (inl a, r) => Some (KSet (COne (CRange a a)), r) | Some (inr i, r) => Some (KSet (COne i), r) | None => None end) by reflexivity.
    rewrite E', escape_multi by assumption. reflexivity.
  - intros neg n H _. rewrite esc_category by assumption. apply reads_tok; [discriminate|]. intros s.
    set (e := if neg then 80%N else 112%N).
    assert (E' : next_tok ((92%N :: e :: 123%N :: n ++ [125%N]) ++ s) = match escape (e :: 123%N :: (n ++ [125%N]) ++ s) with Some (inl a, r) => Some (KSet (COne (CRange a a)), r) | Some (inr i, r) => Some (KSet (COne i), r) | None => None end) by reflexivity.
    rewrite E', <- app_assoc. cbn [app]. unfold e. rewrite escape_category by assumption. reflexivity.
  - intros neg d1 l d2 [Hne H] _. apply reads_tok.
    + unfold show_class. rewrite esc_app. discriminate.
    + intros s. unfold show_class. rewrite !esc_app.
      assert (E : next_tok ((esc (lit "[") ++ esc (if neg then lit "^" else []) ++ esc (if d1 then lit "-" else []) ++ esc (concat (map show_item l)) ++ esc (if d2 then lit "-" else []) ++ esc (lit "]")) ++ s) =
        match class ((if neg then lit "^" else []) ++ (if d1 then lit "-" else []) ++ esc (concat (map show_item l)) ++ (if d2 then lit "-" else []) ++ 93%N :: s) with Some (x, r) => Some (KSet x, r) | None => None end).
      { assert (E0 : forall w, next_tok (esc (lit "[") ++ w) = match class w with Some (x, r) => Some (KSet x, r) | None => None end) by reflexivity.
        rewrite <- app_assoc, E0, <- !app_assoc. destruct neg, d1, d2; reflexivity. }
      refine (eq_trans E _). rewrite class_of by assumption. reflexivity.
  - intros r IH H Hc. rewrite !esc_app. change (KOpen :: toks r ++ [KClose]) with ([KOpen] ++ toks r ++ [KClose]).
    apply reads_app; [apply reads_tok; [discriminate|reflexivity]|]. apply reads_app; [now apply IH|]. apply reads_tok; [discriminate|reflexivity].
  - intros _ _. apply reads_nil.
  - intros a IHa q b IHb (Ha & Hq & Hb) (Ca & Cb). rewrite !esc_app. apply reads_app; [now apply IHa|]. apply reads_app; [now apply reads_quant|now apply IHb].
  - intros b IH. exact IH.
  - intros b IHb r IHr (Hb & Hr) (Cb & Cr). rewrite !esc_app. apply reads_app; [now apply IHb|].
    change (KBar :: toks r) with ([KBar] ++ toks r). apply reads_app; [apply reads_tok; [discriminate|reflexivity]|now apply IHr].
Qed.

(* ------------------------------------------------------------------ the parser *)
Definition quantified (p : pre) (q : quant) : pre * bool :=
  match quant_tok q with [KRep lo hi] => (PRep p lo hi, false) | _ => (p, true) end.
Fixpoint tr_atom (a : atom) : pre :=
  match a with
  | AChar x => PSet (COne (CRange (denoted x) (denoted x)))
  | ADot => PSet CDot
  | AMulti k => PSet (COne (CMulti k))
  | ACategory neg n => PSet (COne (CCat neg n))
  | AClass neg d1 l d2 => PSet (cset_of_class neg d1 l d2)
  | AGroup r => tr r
  end
with tr_branch (b : branch) : list (pre * bool) :=
  match b with BEnd => [] | BPiece a q b' => quantified (tr_atom a) q :: tr_branch b' end
with tr (r : pattern) : pre :=
  match r with PBranch b => cat_of (tr_branch b) | POr b r' => PAlt (cat_of (tr_branch b)) (tr r') end.

(** The state after a pattern: the alternatives before the last one and the items of the last one. *)
Fixpoint alts_after (r : pattern) (alts : list pre) (cur : list (pre * bool)) : list pre :=
  match r with PBranch _ => alts | POr b r' => alts_after r' (cat_of (rev cur ++ tr_branch b) :: alts) [] end.
Fixpoint cur_after (r : pattern) (cur : list (pre * bool)) : list (pre * bool) :=
  match r with PBranch b => rev (tr_branch b) ++ cur | POr b r' => cur_after r' [] end.

Lemma alt_of_app l m : m <> [] -> l <> [] -> alt_of (l ++ m) = fold_right PAlt (alt_of m) l.
Proof.
  intros Hm Hl. clear Hl. induction l as [|p l IH]; [reflexivity|]. cbn [app fold_right]. rewrite <- IH.
  destruct (l ++ m) eqn:E; [|reflexivity]. apply app_eq_nil in E. destruct E as [_ E]. congruence.
Qed.
Lemma finish_tr r alts : finish (alts_after r alts []) (cur_after r []) = alt_of (rev alts ++ [tr r]).
Proof.
  revert alts. induction r as [b|b r IH] using pattern_ind; intros alts; cbn [alts_after cur_after tr].
  - unfold finish. rewrite app_nil_r, rev_involutive. reflexivity.
  - rewrite IH. cbn [rev app]. rewrite <- app_assoc. cbn [app].
    destruct (rev alts) as [|p l].
    + reflexivity.
    + rewrite !alt_of_app by discriminate. reflexivity.
Qed.

Lemma parse_all :
  (forall a ts alts cur st, parse (toks_atom a ++ ts) alts cur st = parse ts alts ((tr_atom a, true) :: cur) st) /\
  (forall b ts alts cur st, parse (toks_branch b ++ ts) alts cur st = parse ts alts (rev (tr_branch b) ++ cur) st) /\
  (forall r ts alts cur st, parse (toks r ++ ts) alts cur st = parse ts (alts_after r alts cur) (cur_after r cur) st).
Proof.
  apply regex_mind; cbn [toks_atom toks_branch toks tr_atom tr_branch tr alts_after cur_after]; try reflexivity.
  - intros r IH ts alts cur st. cbn [app parse]. rewrite <- app_assoc, IH. cbn [app parse]. now rewrite finish_tr.
  - intros a IHa q b IHb ts alts cur st. rewrite <- app_assoc, IHa, <- app_assoc.
    assert (E : parse (quant_tok q ++ toks_branch b ++ ts) alts ((tr_atom a, true) :: cur) st = parse (toks_branch b ++ ts) alts (quantified (tr_atom a) q :: cur) st) by (destruct q; reflexivity).
    rewrite E, IHb. cbn [rev]. now rewrite <- app_assoc.
  - intros b IH. exact IH.
  - intros b IHb r IHr ts alts cur st. rewrite <- app_assoc, IHb. cbn [app parse]. rewrite IHr. rewrite rev_app_distr, rev_involutive. reflexivity.
Qed.

(* ------------------------------------------------------------------ the matcher *)
Section Match.
Context (U : unicode).
Definition chars_ok (s : str) : Prop := Forall (common (u_cat U) (u_space U) (u_word U)) s.

Definition is_nil {A} (l : list A) : bool := match l with [] => true | _ => false end.
Definition steps (L : str -> Prop) (x y : at_) : Prop := exists w, snd x = w ++ snd y /\ L w /\ fst y = (fst x && is_nil w)%bool.
Definition exact_for (f : at_ -> list at_) (L : str -> Prop) : Prop := forall x, chars_ok (snd x) -> forall y, In y (f x) <-> steps L x y.

Lemma steps_ok L x y : chars_ok (snd x) -> steps L x y -> chars_ok (snd y).
Proof. intros H (w & E & _). rewrite E in H. apply Forall_app in H. tauto. Qed.
Lemma steps_ext L M : (forall s, L s <-> M s) -> forall x y, steps L x y <-> steps M x y.
Proof. intros H x y. unfold steps. split; intros (w & A & B & C); exists w; (split; [exact A|split; [now apply H|exact C]]). Qed.
Lemma exact_ext f L M : (forall s, L s <-> M s) -> exact_for f L -> exact_for f M.
Proof. intros H E x Hx y. rewrite (E x Hx y). now apply steps_ext. Qed.
Lemma is_nil_app {A} (a b : list A) : is_nil (a ++ b) = (is_nil a && is_nil b)%bool.
Proof. now destruct a. Qed.

Lemma exact_eps : exact_for (fun x => [x]) (fun s => s = []).
Proof.
  intros x _ y. split.
  - intros [<-|[]]. exists []. split; [reflexivity|]. split; [reflexivity|]. cbn. now rewrite andb_true_r.
  - intros (w & E & -> & F). cbn in *. rewrite andb_true_r in F. left. destruct x, y; cbn in *. congruence.
Qed.
Lemma exact_cat f g L M : exact_for f L -> exact_for g M -> exact_for (fun x => flat_map g (f x)) (fun s => exists a b, s = a ++ b /\ L a /\ M b).
Proof.
  intros Hf Hg x Hx y. rewrite in_flat_map. split.
  - intros (z & Hz & Hy). apply Hf in Hz; [|exact Hx]. pose proof (steps_ok _ _ _ Hx Hz) as Oz. apply Hg in Hy; [|exact Oz].
    destruct Hz as (w & A & B & C), Hy as (w' & A' & B' & C'). exists (w ++ w'). split; [rewrite A, A'; now rewrite app_assoc|].
    split; [exists w, w'; tauto|]. rewrite C', C, is_nil_app. now rewrite andb_assoc.
  - intros (w & A & (a & b & -> & Ha & Hb) & C).
    assert (S1 : steps L x (fst x && is_nil a, b ++ snd y)%bool) by (exists a; split; [rewrite A; cbn [snd]; now rewrite <- app_assoc|split; [exact Ha|reflexivity]]).
    exists (fst x && is_nil a, b ++ snd y)%bool. split; [now apply Hf|]. apply Hg; [exact (steps_ok _ _ _ Hx S1)|].
    exists b. split; [reflexivity|]. split; [exact Hb|]. cbn [fst]. rewrite C, is_nil_app. now rewrite andb_assoc.
Qed.
Lemma exact_alt f g L M : exact_for f L -> exact_for g M -> exact_for (fun x => f x ++ g x) (fun s => L s \/ M s).
Proof.
  intros Hf Hg x Hx y. rewrite in_app_iff, (Hf x Hx y), (Hg x Hx y). unfold steps. split.
  - intros [(w & A)|(w & A)]; exists w; tauto.
  - intros (w & A & [B|B] & C); [left|right]; exists w; tauto.
Qed.

(** Repetition. *)
Definition reps (L : str -> Prop) (P : nat -> Prop) (s : str) : Prop := exists ws, P (length ws) /\ Forall L ws /\ s = concat ws.
Lemma reps_S L P s : (exists a b, s = a ++ b /\ L a /\ reps L P b) <-> reps L (fun n => exists m, n = S m /\ P m) s.
Proof.
  split.
  - intros (a & b & -> & Ha & ws & Hn & Hws & ->). exists (a :: ws). split; [cbn; eauto|]. split; [now constructor|reflexivity].
  - intros (ws & (m & E & Hm) & Hws & ->). destruct ws as [|a ws]; [discriminate|]. cbn in E. injection E as E. inversion Hws; subst.
    exists a, (concat ws). split; [reflexivity|]. split; [assumption|]. exists ws. tauto.
Qed.
Lemma reps_ext L P Q s : (forall n, P n <-> Q n) -> reps L P s <-> reps L Q s.
Proof. intros H. unfold reps. split; intros (ws & A & B); exists ws; (split; [now apply H|exact B]). Qed.
Lemma exact_times f L n : exact_for f L -> exact_for (times f n) (reps L (fun k => k = n)).
Proof.
  intros H. induction n as [|n IH].
  - refine (exact_ext _ _ _ _ exact_eps). intros s. split.
    + intros ->. exists []. repeat split. constructor.
    + intros (ws & E & _ & ->). destruct ws; [reflexivity|discriminate].
  - refine (exact_ext _ _ _ _ (exact_cat _ _ _ _ H IH)). intros s. rewrite reps_S. apply reps_ext. intros k. split; [intros (m & -> & ->); reflexivity|intros ->; eauto].
Qed.
Lemma exact_upto f L n : exact_for f L -> exact_for (upto f n) (reps L (fun k => k <= n)%nat).
Proof.
  intros H. induction n as [|n IH].
  - refine (exact_ext _ _ _ _ exact_eps). intros s. split.
    + intros ->. exists []. repeat split; [cbn; lia|constructor].
    + intros (ws & E & _ & ->). destruct ws; [reflexivity|cbn in E; lia].
  - refine (exact_ext _ _ _ _ (exact_alt _ _ _ _ exact_eps (exact_cat _ _ _ _ H IH))). intros s. rewrite reps_S. split.
    + intros [->|(ws & (m & E & Hm) & B)]; [exists []; split; [cbn; lia|]; split; [constructor|reflexivity]|]. exists ws. split; [lia|exact B].
    + intros (ws & Hn & B). destruct ws as [|a ws]; [left; now destruct B|]. right. exists (a :: ws). split; [cbn in *; exists (length ws); lia|exact B].
Qed.

Lemma star_sound f L n : exact_for f L -> forall x, chars_ok (snd x) -> forall y, In y (star f n x) -> steps (reps L (fun _ => True)) x y.
Proof.
  intros H. assert (R : forall x, steps (reps L (fun _ => True)) x x).
  { intros x. exists []. split; [reflexivity|]. split; [exists []; repeat split; constructor|]. now rewrite andb_true_r. }
  induction n as [|n IH]; intros x Hx y; cbn [star].
  - intros [<-|[]]. apply R.
  - intros [<-|Hy]; [apply R|]. apply in_flat_map in Hy. destruct Hy as (z & Hz & Hy). apply filter_In in Hz. destruct Hz as [Hz _].
    apply H in Hz; [|exact Hx]. apply IH in Hy; [|exact (steps_ok _ _ _ Hx Hz)].
    destruct Hz as (w & A & B & C), Hy as (w' & A' & (ws & _ & F & ->) & C'). exists (w ++ concat ws). split; [rewrite A, A'; now rewrite app_assoc|].
    split; [exists (w :: ws); split; [exact I|]; split; [now constructor|reflexivity]|]. rewrite C', C, is_nil_app. now rewrite andb_assoc.
Qed.
Lemma nonempty_words (L : str -> Prop) (ws : list str) : Forall L ws -> exists vs, Forall (fun w => L w /\ w <> []) vs /\ concat vs = concat ws.
Proof.
  induction 1 as [|w ws Hw _ (vs & F & E)]; [exists []; split; [constructor|reflexivity]|]. destruct w as [|c w].
  - exists vs. split; [exact F|exact E].
  - exists ((c :: w) :: vs). split; [constructor; [split; [exact Hw|discriminate]|exact F]|]. cbn. now rewrite E.
Qed.
Lemma star_complete f L : exact_for f L -> forall vs n x y, chars_ok (snd x) -> Forall (fun w => L w /\ w <> []) vs -> (length (snd x) <= n)%nat ->
  snd x = concat vs ++ snd y -> fst y = (fst x && is_nil (concat vs))%bool -> In y (star f n x).
Proof.
  intros H. induction vs as [|v vs IH]; intros n x y Hx Hvs Hn E F.
  - cbn in *. rewrite andb_true_r in F. assert (x = y) as -> by (destruct x as [b s], y as [b0 s0]; cbn [fst snd concat app] in *; f_equal; [now symmetry|exact E]). destruct n; now left.
  - inversion Hvs as [|? ? [Hv Hne] Hvs']; subst. destruct v as [|c v]; [congruence|]. cbn [concat app] in E.
    destruct n as [|n]; [rewrite E in Hn; cbn in Hn; lia|]. cbn [star]. right. apply in_flat_map.
    exists (false, concat vs ++ snd y). split.
    + apply filter_In. split.
      * apply H; [exact Hx|]. exists (c :: v). split; [rewrite E; cbn [snd]; now rewrite <- app_assoc|]. split; [exact Hv|]. cbn. now rewrite andb_false_r.
      * cbn [snd]. rewrite E. apply Nat.ltb_lt. cbn [length app]. rewrite !app_length. lia.
    + apply IH.
      * cbn [snd]. rewrite E in Hx. inversion Hx as [|? ? _ Hx']; subst. rewrite <- app_assoc in Hx'. apply Forall_app in Hx'. tauto.
      * exact Hvs'.
      * cbn [snd]. rewrite E in Hn. cbn [length app] in Hn. rewrite !app_length in *. lia.
      * reflexivity.
      * cbn [fst]. rewrite F. cbn. now rewrite andb_false_r.
Qed.
Lemma exact_star f L : exact_for f L -> exact_for (fun y => star f (length (snd y)) y) (reps L (fun _ => True)).
Proof.
  intros H x Hx y. split; [now apply star_sound|]. intros (w & A & (ws & _ & F & ->) & C).
  destruct (nonempty_words L ws F) as (vs & Fv & E). rewrite <- E in A, C. now apply (star_complete f L H vs).
Qed.
Lemma reps_app L P Q s : (exists a b, s = a ++ b /\ reps L P a /\ reps L Q b) <-> reps L (fun n => exists i j, n = (i + j)%nat /\ P i /\ Q j) s.
Proof.
  split.
  - intros (a & b & -> & (ws & Hp & F & ->) & (vs & Hq & G & ->)). exists (ws ++ vs). split; [exists (length ws), (length vs); split; [apply app_length|tauto]|].
    split; [apply Forall_app; tauto|now rewrite concat_app].
  - intros (ws & (i & j & E & Hp & Hq) & F & ->). exists (concat (firstn i ws)), (concat (skipn i ws)).
    rewrite <- (firstn_skipn i ws) in F at 1. apply Forall_app in F. split; [rewrite <- concat_app; now rewrite firstn_skipn|].
    split; [exists (firstn i ws)|exists (skipn i ws)]; rewrite ?firstn_length, ?skipn_length.
    + replace (Nat.min i (length ws)) with i by lia. tauto.
    + replace (length ws - i)%nat with j by lia. tauto.
Qed.

Definition allowed (lo : nat) (hi : option nat) (n : nat) : Prop := (lo <= n)%nat /\ match hi with Some h => (n <= h)%nat | None => True end.
Lemma exact_rep p L lo hi : exact_for (ends U p) L -> match hi with Some h => (lo <= h)%nat | None => True end ->
  exact_for (ends U (PRep p lo hi)) (reps L (allowed lo hi)).
Proof.
  intros H Hle. cbn [ends]. destruct hi as [h|].
  - refine (exact_ext _ _ _ _ (exact_cat _ _ _ _ (exact_times _ _ lo H) (exact_upto _ _ (h - lo) H))). intros s. rewrite reps_app.
    apply reps_ext. intros n. unfold allowed. split; [intros (i & j & -> & -> & Hj); lia|intros Hn; exists lo, (n - lo)%nat; lia].
  - refine (exact_ext _ _ _ _ (exact_cat _ _ _ _ (exact_times _ _ lo H) (exact_star _ _ H))). intros s. rewrite reps_app.
    apply reps_ext. intros n. unfold allowed. split; [intros (i & j & -> & -> & Hj); lia|intros Hn; exists lo, (n - lo)%nat; lia].
Qed.
Lemma exact_quant p L q : quant_ok q -> exact_for (ends U p) L -> exact_for (ends U (fst (quantified p q))) (reps L (often q)).
Proof.
  intros Hq H. destruct q as [| | | |n|n|n m]; cbn [quantified quant_tok fst];
    try (refine (exact_ext _ _ _ _ (exact_rep _ _ _ _ H _)); [intros s; apply reps_ext; intros k; unfold allowed; cbn; lia|cbn in *; lia]).
  - refine (exact_ext _ _ _ _ H). intros s. split.
    + intros Hs. exists [s]. split; [reflexivity|]. split; [now repeat constructor|]. cbn. now rewrite app_nil_r.
    + intros (ws & E & F & ->). destruct ws as [|w [|? ?]]; [discriminate| |discriminate]. inversion F; subst. cbn. now rewrite app_nil_r.
Qed.

(** Sets of characters. *)
Lemma exact_set s (P : N -> Prop) : (forall c, common (u_cat U) (u_space U) (u_word U) c -> set_has U s c = true <-> P c) ->
  exact_for (ends U (PSet s)) (fun w => exists c, w = [c] /\ P c).
Proof.
  intros H x Hx y. cbn [ends]. destruct (snd x) as [|c t] eqn:E.
  - split; [intros []|]. intros (w & A & (c & -> & _) & _). rewrite E in A. discriminate.
  - inversion Hx as [|? ? Hc _]; subst. specialize (H c Hc). split.
    + destruct (set_has U s c); [|intros []]. intros [<-|[]]. exists [c]. split; [exact E|]. split; [exists c; tauto|]. cbn. now rewrite andb_false_r.
    + intros (w & A & (c' & -> & B) & C). rewrite E in A. cbn in A. injection A as <- ->. rewrite (proj2 H B). left.
      destruct y as [b0 s0]; cbn [fst snd is_nil] in *. rewrite andb_false_r in C. now rewrite C.
Qed.
Lemma multi_common k c : common (u_cat U) (u_space U) (u_word U) c -> multi_has U k c = xsd_multi (u_cat U) k c.
Proof. intros (_ & H1 & H2). unfold multi_has, xsd_multi. now rewrite H1, H2. Qed.
Lemma item_common i c : common (u_cat U) (u_space U) (u_word U) c -> item_has U (citem_of i) c = true <-> in_item (u_cat U) i c.
Proof.
  intros H. destruct i as [x|x y|k|neg n]; cbn [citem_of item_has in_item].
  - lia.
  - lia.
  - now rewrite multi_common.
  - destruct neg, (u_cat U n c); cbn; split; congruence.
Qed.
Lemma class_common neg d1 l d2 c : common (u_cat U) (u_space U) (u_word U) c -> set_has U (cset_of_class neg d1 l d2) c = true <-> in_class (u_cat U) neg d1 l d2 c.
Proof.
  intros H. unfold cset_of_class, in_class. cbn [set_has].
  set (inside := _ \/ _). set (e := existsb _ _).
  assert (E : e = true <-> inside).
  { unfold e, inside. rewrite !existsb_app, !orb_true_iff.
    assert (D : forall d : bool, existsb (fun i => item_has U i c) (if d then [CRange 45 45] else []) = true <-> d = true /\ c = 45%N).
    { intros [|]; cbn [existsb]; [|split; [discriminate|intros [? _]; discriminate]].
      cbn [item_has]. split; [intros D; split; [reflexivity|lia]|intros [_ ->]; reflexivity]. }
    rewrite !D.
    assert (M : existsb (fun i => item_has U i c) (map citem_of l) = true <-> Exists (fun i => in_item (u_cat U) i c) l).
    { rewrite existsb_exists, Exists_exists. split.
      - intros (i & Hi & F). apply in_map_iff in Hi. destruct Hi as (j & <- & Hj). exists j. split; [exact Hj|]. now apply item_common.
      - intros (j & Hj & F). exists (citem_of j). split; [now apply in_map|]. now apply item_common. }
    rewrite M. destruct d1, d2; cbn; intuition congruence. }
  destruct neg.
  - rewrite <- E. destruct e; cbn; split; intros F; [discriminate F|congruence|discriminate|reflexivity].
  - rewrite <- E. now destruct e.
Qed.

Lemma ends_cat_of l x : ends U (cat_of l) x = fold_right (fun p f y => flat_map f (ends U (fst p) y)) (fun y => [y]) l x.
Proof. revert x. induction l as [|p l IH]; intros x; [reflexivity|]. cbn [cat_of fold_right ends]. fold (cat_of l). apply flat_map_ext. exact IH. Qed.

Lemma exact_all :
  (forall a, atom_ok a -> exact_for (ends U (tr_atom a)) (lang_atom (u_cat U) a)) /\
  (forall b, branch_ok b -> exact_for (ends U (cat_of (tr_branch b))) (lang_branch (u_cat U) b)) /\
  (forall r, pattern_ok r -> exact_for (ends U (tr r)) (lang (u_cat U) r)).
Proof.
  apply regex_mind; cbn [atom_ok branch_ok pattern_ok tr_atom tr_branch tr lang_atom lang_branch lang].
  - intros x _. refine (exact_ext _ _ _ _ (exact_set _ (fun c => c = denoted x) _)).
    + intros s. split; [intros (c & -> & ->); reflexivity|eauto].
    + intros c _. cbn. lia.
  - intros _. refine (exact_ext _ _ _ _ (exact_set _ (fun c => c <> 10%N /\ c <> 13%N) _)); [reflexivity|].
    intros c (Hc & _). cbn. destruct (N.eqb_spec c 10); cbn; intuition congruence.
  - intros k _. apply exact_set. intros c Hc. cbn. now rewrite multi_common.
  - intros neg n _. apply exact_set. intros c _. cbn. destruct neg, (u_cat U n c); cbn; split; congruence.
  - intros neg d1 l d2 _. apply exact_set. intros c Hc. now apply class_common.
  - intros r IH H. now apply IH.
  - intros _. exact exact_eps.
  - intros a IHa q b IHb (Ha & Hq & Hb). cbn [cat_of fold_right]. fold (cat_of (tr_branch b)).
    refine (exact_ext _ _ _ _ (exact_cat _ _ _ _ (exact_quant _ _ q Hq (IHa Ha)) (IHb Hb))).
    intros s. split.
    + intros (a0 & b0 & -> & (ws & A & B & ->) & D). exists ws, b0. tauto.
    + intros (ws & t & -> & A & B & D). exists (concat ws), t. split; [reflexivity|]. split; [exists ws; tauto|exact D].
  - intros b IH H. now apply IH.
  - intros b IHb r IHr (Hb & Hr). exact (exact_alt _ _ _ _ (IHb Hb) (IHr Hr)).
Qed.
End Match.
