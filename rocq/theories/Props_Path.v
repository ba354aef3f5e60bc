(** Property theorems about the path helper and leafrefs: C46 to C51. *)
From Verif Require Import PyStr PyStr_facts PyVal PathHelper Spec_Path.
From Verif Require PathText_proofs PathHelper_proofs PathSim_proofs PathInv_proofs Leafref_proofs.
From Coq Require Import Lia Permutation.
Import ListNotations.

(* ------------------------------------------------------------------ C46 *)
Theorem C46_join : forall p, join (lit "/") (path_parts p) = p.
Proof. exact PathText_proofs.parts_join. Qed.
Print Assumptions C46_join.
(** Which "/" split: those after an even number of quotes and not after "[" without "]".  Missing: brackets
    in quotes (see the refutations). *)
Theorem C46_position_partial : forall u v, (outside u -> path_parts (u ++ lit "/" ++ v) = path_parts u ++ path_parts v) /\
  (~ outside u -> forall c, ~ In c [47; 34; 91; 93]%N -> length (path_parts (u ++ lit "/" ++ v)) = length (path_parts (u ++ [c] ++ v))).
Proof. exact PathText_proofs.parts_position. Qed.
Print Assumptions C46_position_partial.
Theorem C46_split_partial : forall pss, pss <> [] -> Forall (Forall chunk_ok) pss -> path_parts (join (lit "/") (map part_of pss)) = map part_of pss.
Proof. exact PathText_proofs.parts_split. Qed.
Print Assumptions C46_split_partial.
(** a/l[k="x/y"]/b"c/d" *)
Example C46_case : let pss := [[CPlain 97]; [CPlain 108; CBracket (lit "k=""x/y""")]; [CPlain 98; CQuoted (lit "c/d")]]%N in
  Forall (Forall chunk_ok) pss /\ join (lit "/") (map part_of pss) = lit "a/l[k=""x/y""]/b""c/d""" /\
  outside (lit "a/l[k=""x/y""]") /\ ~ outside (lit "a/l[k=""x") /\ ~ outside (lit "a/l[k").
Proof.
  cbv zeta. split; [|split; [vm_compute; reflexivity|]].
  - constructor; [|constructor; [|constructor; [|constructor]]].
    + constructor; [cbn; intuition discriminate|constructor].
    + constructor; [cbn; intuition discriminate|]. constructor; [|constructor]. split; [vm_compute; reflexivity|]. split; vm_compute; intuition discriminate.
    + constructor; [cbn; intuition discriminate|]. constructor; [|constructor]. split; [vm_compute; intuition discriminate|]. split; vm_compute; intuition discriminate.
  - split; [split; [vm_compute; reflexivity|vm_compute; discriminate]|]. split; intros [H1 H2]; [vm_compute in H1; discriminate|]. apply H2. vm_compute. reflexivity.
Qed.
(** l[k="]" j="/"]: the bracket in quotes ends the brackets, and the path is split in them. *)
Theorem C46_bracket_refuted : exists pss, pss <> [] /\ Forall (Forall chunk_fine) pss /\ length (path_parts (join (lit "/") (map part_of pss))) > length pss.
Proof.
  exists [[CPlain 108; CBracket (lit "k=""]"" /")]]%N. split; [discriminate|]. split.
  - constructor; [|constructor]. constructor; [cbn; intuition discriminate|]. constructor; [|constructor]. exists (lit "k="), (lit "]"), (lit " /"). split; [vm_compute; reflexivity|].
    split; [|vm_compute; intuition discriminate]. intros x [<-|[<-|[<-|[]]]]; vm_compute; intuition discriminate.
  - vm_compute. lia.
Qed.
Print Assumptions C46_bracket_refuted.
(** "["/b: nothing is split any more. *)
Theorem C46_quoted_refuted : exists pss, pss <> [] /\ Forall (Forall chunk_fine) pss /\ length (path_parts (join (lit "/") (map part_of pss))) < length pss.
Proof.
  exists [[CQuoted (lit "[")]; [CPlain 98]]%N. split; [discriminate|]. split.
  - constructor; [|constructor; [|constructor]]; (constructor; [|constructor]); vm_compute; intuition discriminate.
  - vm_compute. lia.
Qed.
Print Assumptions C46_quoted_refuted.

(* ------------------------------------------------------------------ C50 *)
(** In any of the forms that pyangbind writes and users write: with and without "@", quotes, "and", in one
    or in several brackets.  Missing: names and values outside [pred_ok] (see the refutations). *)
Theorem C50_partial : forall tag gs, tag_ok tag -> gs <> [] -> Forall (fun g => Forall pred_ok (group_preds g)) gs -> NoDup (map p_key (flat_map group_preds gs)) ->
  tag_attrs (element_text tag gs) = Ok (tag, Some (pairs gs)).
Proof. exact PathText_proofs.tag_attrs_exact. Qed.
Print Assumptions C50_partial.
Theorem C50_plain : forall tag, ~ In 91%N tag -> tag_attrs tag = Ok (tag, None).
Proof. exact PathText_proofs.tag_attrs_plain. Qed.
Print Assumptions C50_plain.

(** For literals. *)
Definition key_charb (c : N) : bool := (N.leb 97 c && N.leb c 122) || (N.leb 65 c && N.leb c 90) || (N.leb 48 c && N.leb c 57) || N.eqb c 45 || N.eqb c 95.
Lemma key_by k : forallb key_charb k = true -> Forall key_char k.
Proof.
  intros H. apply Forall_forall. rewrite forallb_forall in H. intros c Hc. specialize (H c Hc). unfold key_charb in H. unfold key_char.
  rewrite !orb_true_iff, !andb_true_iff, !N.leb_le, !N.eqb_eq in H. lia.
Qed.
Lemma bars_by s : negb (has_sub (lit "||") s) && negb (N.eqb (last s 0%N) 124) = true -> no_bars s.
Proof.
  intros H. apply andb_prop in H as [H1 H2]. apply Bool.negb_true_iff in H1, H2. split.
  - intros a b ->. assert (E : has_sub (lit "||") (a ++ lit "||" ++ b) = true); [|congruence]. clear. induction a as [|c a IH].
    + cbn [app]. unfold has_sub. now destruct b.
    + cbn [app has_sub]. rewrite IH. apply orb_true_r.
  - intros a ->. change (lit "|") with [124%N] in H2. rewrite last_last in H2. discriminate.
Qed.
Definition okb (p : pred) : bool :=
  match p_key p, p_val p with _ :: _, _ :: _ => true | _, _ => false end && forallb key_charb (p_key p) &&
  forallb (fun c => negb (existsb (N.eqb c) (lit " ^'""]"))) (p_val p) && (negb (has_sub (lit "||") (p_val p)) && negb (N.eqb (last (p_val p) 0%N) 124)) &&
  existsb (str_eqb (p_quote p)) [[]; lit "'"; lit """"] && (negb (str_eqb (p_quote p) []) || negb (existsb (N.eqb 91) (p_val p))).
Lemma pred_by p : okb p = true -> pred_ok p.
Proof.
  unfold okb. rewrite !andb_true_iff. intros (((((H1 & H2) & H3) & H4) & H5) & H6). unfold pred_ok.
  split; [destruct (p_key p); [discriminate|discriminate]|]. split; [now apply key_by|]. split; [destruct (p_key p), (p_val p); discriminate|]. split.
  - rewrite forallb_forall in H3. intros c Hc Hi. specialize (H3 c Hc). apply Bool.negb_true_iff in H3. assert (E : existsb (N.eqb c) (lit " ^'""]") = true) by (apply existsb_exists; exists c; split; [assumption|apply N.eqb_refl]). congruence.
  - split; [apply bars_by; now apply andb_true_intro|]. split.
    + apply existsb_exists in H5 as (q & Hq & E). apply str_eqb_eq in E. now subst q.
    + intros E Hi. rewrite E, str_eqb_refl in H6. cbn [negb orb] in H6. apply Bool.negb_true_iff in H6. assert (E2 : existsb (N.eqb 91) (p_val p) = true) by (apply existsb_exists; exists 91%N; split; [assumption|apply N.eqb_refl]). congruence.
Qed.
Definition P (k v : str) (at_ : bool) (q : str) : pred := {| p_key := k; p_val := v; p_sign := at_; p_quote := q |}.

(** unit[name='ge-0/0/0' and @index=7][x="a|b"] *)
Example C50_case : let gs := [(P (lit "name") (lit "ge-0/0/0") false (lit "'"), [(true, P (lit "index") (lit "7") true [])]); (P (lit "x") (lit "a|b") false (lit """"), [])] in
  tag_ok (lit "unit") /\ gs <> [] /\ Forall (fun g => Forall pred_ok (group_preds g)) gs /\ NoDup (map p_key (flat_map group_preds gs)) /\
  element_text (lit "unit") gs = lit "unit[name='ge-0/0/0' and @index=7][x=""a|b""]" /\
  tag_attrs (element_text (lit "unit") gs) = Ok (lit "unit", Some [(lit "name", lit "ge-0/0/0"); (lit "index", lit "7"); (lit "x", lit "a|b")]).
Proof.
  cbv zeta. split; [split; [discriminate|]; split; [vm_compute; intuition discriminate|apply bars_by; vm_compute; reflexivity]|]. split; [discriminate|]. split.
  - constructor; [|constructor; [|constructor]]; cbn [group_preds fst snd map].
    + constructor; [apply pred_by; vm_compute; reflexivity|]. constructor; [apply pred_by; vm_compute; reflexivity|constructor].
    + constructor; [apply pred_by; vm_compute; reflexivity|constructor].
  - split; [|split; vm_compute; reflexivity]. cbn [flat_map group_preds fst snd map app P p_key]. constructor; [vm_compute; intuition discriminate|]. constructor; [vm_compute; intuition discriminate|]. constructor; [intros []|constructor].
Qed.
(** A value with a space in it is cut off and the rest is no predicate. *)
Theorem C50_space_refuted : exists tag p, tag_ok tag /\ Forall key_char (p_key p) /\ p_key p <> [] /\ p_val p <> [] /\ (forall c, In c (p_val p) -> ~ In c (lit "'""[]|^")) /\
  tag_attrs (element_text tag [(p, [])]) = Raise XPathError.
Proof.
  exists (lit "t"), (P (lit "k") (lit "a b") false (lit "'")). split; [split; [discriminate|]; split; [vm_compute; intuition discriminate|apply bars_by; vm_compute; reflexivity]|].
  split; [apply key_by; vm_compute; reflexivity|]. split; [discriminate|]. split; [discriminate|]. split; [vm_compute; intuition (subst; discriminate)|]. vm_compute. reflexivity.
Qed.
Print Assumptions C50_space_refuted.
(** a key leaf may be called a.b in YANG *)
Theorem C50_name_refuted : exists tag p, tag_ok tag /\ xml_name (p_key p) /\ Forall key_char (p_val p) /\ p_val p <> [] /\ tag_attrs (element_text tag [(p, [])]) = Raise XPathError.
Proof.
  exists (lit "t"), (P (lit "a.b") (lit "1") false (lit "'")). split; [split; [discriminate|]; split; [vm_compute; intuition discriminate|apply bars_by; vm_compute; reflexivity]|].
  split; [exists 97%N, (lit ".b"); split; [reflexivity|]; split; [left; lia|]; constructor; [right; right; now right|]; constructor; [left; left; vm_compute; split; discriminate|constructor]|].
  split; [apply key_by; vm_compute; reflexivity|]. split; [discriminate|]. vm_compute. reflexivity.
Qed.
Print Assumptions C50_name_refuted.
(** The empty text is a value too. *)
Theorem C50_empty_refuted : exists tag p, tag_ok tag /\ Forall key_char (p_key p) /\ p_key p <> [] /\ p_val p = [] /\ p_quote p = lit "'" /\ tag_attrs (element_text tag [(p, [])]) = Raise XPathError.
Proof.
  exists (lit "t"), (P (lit "k") [] false (lit "'")). split; [split; [discriminate|]; split; [vm_compute; intuition discriminate|apply bars_by; vm_compute; reflexivity]|].
  split; [apply key_by; vm_compute; reflexivity|]. split; [discriminate|]. split; [reflexivity|]. split; [reflexivity|]. vm_compute. reflexivity.
Qed.
Print Assumptions C50_empty_refuted.
(** "or" means "and": an object that meets the first of two predicates is not found. *)
Theorem C50_or_refuted : exists (a b : pred), pred_ok a /\ pred_ok b /\ p_key a <> p_key b /\
  let search w := lit "t[" ++ pred_text a ++ w ++ pred_text b ++ lit "]" in
  tag_attrs (search (lit " or ")) = tag_attrs (search (lit " and ")) /\
  (let st := fst (register N.eqb (fun n => lit "u" ++ repeat 49%N n) [[]; element_text (lit "t") [(a, [])]] 7%N (helper_new (A := N))) in
   get [] [[]; element_text (lit "t") [(a, [])]] st = Ok [Some 7%N] /\ get [] [[]; search (lit " or ")] st = Ok []).
Proof.
  exists (P (lit "k") (lit "1") false (lit "'")), (P (lit "v") (lit "2") false (lit "'")). split; [apply pred_by; vm_compute; reflexivity|]. split; [apply pred_by; vm_compute; reflexivity|].
  split; [vm_compute; discriminate|]. cbv zeta. split; [vm_compute; reflexivity|]. split; vm_compute; reflexivity.
Qed.
Print Assumptions C50_or_refuted.

(* ------------------------------------------------------------------ C47, C48 *)
(** After any calls of register and unregister the helper holds the map from places to objects that these
    calls amount to.  [keys]: the names of the keys of each list, which the paths follow (lists themselves
    are not registered, only their entries).  Missing: names and values outside [name_ok] and [pred_ok]. *)
Theorem C47_map_partial : forall A (oeq : A -> A -> bool) uid keys (cs : list (call (A := A))), fresh uid -> Forall (call_ok keys) cs ->
  snd (helper_run oeq uid cs helper_new) = snd (map_run oeq cs (fun _ => None)) /\
  forall path q q', place_ok keys q -> same_place q q' -> Forall2 spells path q' ->
    get [] path (fst (helper_run oeq uid cs helper_new)) = Ok (match fst (map_run oeq cs (fun _ => None)) q with Some o => [Some o] | None => [] end).
Proof. exact @PathSim_proofs.helper_is_map. Qed.
Print Assumptions C47_map_partial.
Theorem C47_register_partial : forall A (oeq : A -> A -> bool) uid keys (cs : list (call (A := A))) path q o, fresh uid -> Forall (call_ok keys) cs -> Forall2 spells path q -> place_ok keys q ->
  let st := fst (helper_run oeq uid cs helper_new) in
  match register oeq uid path o st with
  | (st', Ok _) => (exists o', get [] path st' = Ok [Some o'] /\ (o' = o \/ oeq o' o = true)) /\
                   (forall path2 q2, Forall2 spells path2 q2 -> place_ok keys q2 -> q2 <> q -> get [] path2 st' = get [] path2 st)
  | (st', Raise _) => removelast path <> [] /\ get [] (removelast path) st = Ok [] /\ (forall path2 q2, Forall2 spells path2 q2 -> place_ok keys q2 -> get [] path2 st' = get [] path2 st)
  end.
Proof. exact @PathSim_proofs.register_found. Qed.
Print Assumptions C47_register_partial.
Theorem C48_partial : forall A (oeq : A -> A -> bool) uid keys (cs : list (call (A := A))) path q, fresh uid -> Forall (call_ok keys) cs -> Forall2 spells path q -> place_ok keys q ->
  let st := fst (helper_run oeq uid cs helper_new) in
  match unregister path st with
  | (st', Ok _) => (forall path2 r, Forall2 spells path2 (q ++ r) -> place_ok keys (q ++ r) -> get [] path2 st' = Ok []) /\
                   (forall path2 q2, Forall2 spells path2 q2 -> place_ok keys q2 -> (forall r, q2 <> q ++ r) -> get [] path2 st' = get [] path2 st)
  | (st', Raise _) => get [] path st = Ok [] /\ st' = st
  end.
Proof. exact @PathSim_proofs.unregister_gone. Qed.
Print Assumptions C48_partial.

(** For literals. *)
Definition letterb (c : N) : bool := (N.leb 97 c && N.leb c 122) || (N.leb 65 c && N.leb c 90) || N.eqb c 95.
Definition xml_nameb (s : str) : bool := match s with c :: r => letterb c && forallb (fun c => letterb c || (N.leb 48 c && N.leb c 57) || N.eqb c 45 || N.eqb c 46) r | [] => false end.
Lemma letter_by c : letterb c = true -> letter c.
Proof. unfold letterb, letter. rewrite !orb_true_iff, !andb_true_iff, !N.leb_le, !N.eqb_eq. lia. Qed.
Lemma xml_by s : xml_nameb s = true -> xml_name s.
Proof.
  destruct s as [|c r]; [discriminate|]. cbn [xml_nameb]. intros H. apply andb_prop in H as [H1 H2]. exists c, r. split; [reflexivity|]. split; [now apply letter_by|].
  rewrite forallb_forall in H2. apply Forall_forall. intros x Hx. specialize (H2 x Hx). rewrite !orb_true_iff, !andb_true_iff, !N.leb_le, !N.eqb_eq in H2. destruct H2 as [[[H2|H2]|H2]|H2]; [left; now apply letter_by|lia|lia|lia].
Qed.
Fixpoint nodupb (l : list str) : bool := match l with [] => true | a :: l' => negb (existsb (str_eqb a) l') && nodupb l' end.
Lemma nodup_by l : nodupb l = true -> NoDup l.
Proof.
  induction l as [|a l IH]; intros H; [constructor|]. cbn [nodupb] in H. apply andb_prop in H as [H1 H2]. constructor; [|now apply IH]. intros Hi. apply Bool.negb_true_iff in H1.
  assert (E : existsb (str_eqb a) l = true) by (apply existsb_exists; exists a; split; [assumption|apply str_eqb_refl]). congruence.
Qed.
Definition name_okb (n : node_name) : bool :=
  xml_nameb (fst n) && nodupb (map fst (snd n)) &&
  forallb (fun kv => xml_nameb (fst kv) && negb (str_eqb (fst kv) (lit "obj_ptr")) && forallb (fun c => N.leb 32 c && N.ltb c 127) (snd kv) && negb (existsb (N.eqb 40) (snd kv))) (snd n).
Lemma name_by n : name_okb n = true -> name_ok n.
Proof.
  unfold name_okb, name_ok. rewrite !andb_true_iff. intros ((H1 & H2) & H3). split; [now apply xml_by|]. split; [now apply nodup_by|]. rewrite forallb_forall in H3. apply Forall_forall. intros kv Hkv.
  specialize (H3 kv Hkv). cbv beta in H3. rewrite !andb_true_iff in H3. destruct H3 as (((A & B) & C) & D). split; [now apply xml_by|]. split; [intros E; apply str_eqb_eq in E; apply Bool.negb_true_iff in B; exact (Bool.eq_true_false_abs _ E B)|]. split.
  - rewrite forallb_forall in C. apply Forall_forall. intros c Hc. specialize (C c Hc). rewrite andb_true_iff, N.leb_le, N.ltb_lt in C. lia.
  - intros a b E. apply Bool.negb_true_iff in D. assert (E2 : existsb (N.eqb 40) (snd kv) = true). { apply existsb_exists. exists 40%N. split; [|reflexivity]. rewrite E. apply in_or_app. right. apply in_or_app. left. vm_compute. tauto. } exact (Bool.eq_true_false_abs _ E2 D).
Qed.
Lemma spells_plain t : spells t (t, []).
Proof. left. now split. Qed.
Lemma spells_by part t d gs : gs <> [] -> part = element_text t gs -> pairs gs = d -> forallb (fun g => forallb okb (group_preds g)) gs = true -> spells part (t, d).
Proof.
  intros H1 H2 H3 H4. right. exists gs. split; [assumption|]. split; [assumption|]. split; [assumption|]. rewrite forallb_forall in H4. apply Forall_forall. intros g Hg. specialize (H4 g Hg).
  rewrite forallb_forall in H4. apply Forall_forall. intros p Hp. apply pred_by. now apply H4.
Qed.

(** container interfaces { list interface { key "name unit"; leaf mtu } } *)
Definition uids (n : nat) : str := lit "u" ++ repeat 49%N n.
Lemma uids_fresh : fresh uids.
Proof.
  split; [|intros i; discriminate]. intros i j H. unfold uids in H. apply app_inv_head in H. apply (f_equal (@length _)) in H. now rewrite !repeat_length in H.
Qed.
Definition if_keys (tags : list str) : list str := match tags with [_; t] => if str_eqb t (lit "interface") then [lit "name"; lit "unit"] else [] | _ => [] end.
Definition n_ifs : node_name := (lit "interfaces", []).
Definition n_if (u : str) : node_name := (lit "interface", [(lit "name", lit "eth0"); (lit "unit", u)]).
Definition n_mtu : node_name := (lit "mtu", []).
(** as written on creation, and as written on deletion *)
Definition t_if (u : str) : str := lit "interface[name='eth0' unit='" ++ u ++ lit "']".
Definition t_if_del (u : str) : str := lit "interface[name=eth0 unit=" ++ u ++ lit "]".
Definition if_calls : list (call (A := nat)) :=
  [Register [lit "interfaces"] [n_ifs] 1%nat;
   Register [lit "interfaces"; t_if (lit "0")] [n_ifs; n_if (lit "0")] 2%nat;
   Register [lit "interfaces"; t_if (lit "1")] [n_ifs; n_if (lit "1")] 3%nat;
   Register [lit "interfaces"; t_if (lit "0"); lit "mtu"] [n_ifs; n_if (lit "0"); n_mtu] 4%nat;
   Register [lit "interfaces"; t_if (lit "2"); lit "mtu"] [n_ifs; n_if (lit "2"); n_mtu] 5%nat;
   Register [lit "interfaces"; t_if (lit "0")] [n_ifs; n_if (lit "0")] 6%nat;
   Unregister [lit "interfaces"; t_if_del (lit "1")] [n_ifs; n_if (lit "1")]].
Lemma if_ok u : name_okb (n_if u) = true -> forallb okb [P (lit "unit") u false (lit "'"); P (lit "unit") u false []] = true -> name_ok (n_if u) /\ spells (t_if u) (n_if u) /\ spells (t_if_del u) (n_if u).
Proof.
  intros H1 H2. cbn [forallb] in H2. rewrite !andb_true_iff in H2. destruct H2 as (H2 & H3 & _). split; [now apply name_by|]. split.
  - apply (spells_by _ _ _ [(P (lit "name") (lit "eth0") false (lit "'"), [(false, P (lit "unit") u false (lit "'"))])]); [discriminate| |reflexivity|].
    + unfold t_if, element_text. cbn [map concat]. unfold group_text, more_text, pred_text. cbn [fst snd map concat P p_sign p_key p_quote p_val]. cbn [lit map String.list_ascii_of_string app]. now rewrite <- !app_assoc.
    + cbn [forallb group_preds fst snd map]. rewrite H2. vm_compute. reflexivity.
  - apply (spells_by _ _ _ [(P (lit "name") (lit "eth0") false [], [(false, P (lit "unit") u false [])])]); [discriminate| |reflexivity|].
    + unfold t_if_del, element_text. cbn [map concat]. unfold group_text, more_text, pred_text. cbn [fst snd map concat P p_sign p_key p_quote p_val]. cbn [lit map String.list_ascii_of_string app]. rewrite <- !app_assoc. cbn [app]. reflexivity.
    + cbn [forallb group_preds fst snd map]. rewrite H3. vm_compute. reflexivity.
Qed.
Example C47_case : fresh uids /\ Forall (call_ok if_keys) if_calls /\
  snd (helper_run Nat.eqb uids if_calls helper_new) = [true; true; true; true; false; true; true] /\
  (let st := fst (helper_run Nat.eqb uids if_calls helper_new) in
   get [] [lit "interfaces"; lit "interface[@unit=0][@name=""eth0""]"; lit "mtu"] st = Ok [Some 4%nat] /\
   get [] [lit "interfaces"; t_if (lit "0")] st = Ok [Some 6%nat] /\ get [] [lit "interfaces"; t_if (lit "1")] st = Ok []).
Proof.
  split; [apply uids_fresh|]. split.
  - assert (N1 : name_ok n_ifs) by (apply name_by; vm_compute; reflexivity). assert (N2 : name_ok n_mtu) by (apply name_by; vm_compute; reflexivity).
    destruct (if_ok (lit "0")) as (A1 & A2 & A3); [vm_compute; reflexivity|vm_compute; reflexivity|]. destruct (if_ok (lit "1")) as (B1 & B2 & B3); [vm_compute; reflexivity|vm_compute; reflexivity|].
    destruct (if_ok (lit "2")) as (C1 & C2 & C3); [vm_compute; reflexivity|vm_compute; reflexivity|].
    assert (S1 : spells (lit "interfaces") n_ifs) by apply spells_plain. assert (S2 : spells (lit "mtu") n_mtu) by apply spells_plain.
    unfold if_calls, call_ok, place_ok.
    repeat (constructor; [split; [repeat (constructor; [assumption|]); constructor|]; split; [discriminate|]; split; [repeat (constructor; [assumption|]); constructor|]; cbn [keyed]; repeat (split; [vm_compute; reflexivity|]); exact I|]).
    constructor.
  - split; [vm_compute; reflexivity|]. cbv zeta. split; [vm_compute; reflexivity|]. split; vm_compute; reflexivity.
Qed.
Example C48_case : Forall (call_ok if_keys) if_calls /\ Forall2 spells [lit "interfaces"; t_if_del (lit "0")] [n_ifs; n_if (lit "0")] /\ place_ok if_keys [n_ifs; n_if (lit "0")] /\
  (let st := fst (helper_run Nat.eqb uids if_calls helper_new) in snd (unregister [lit "interfaces"; t_if_del (lit "0")] st) = Ok tt /\
   get [] [lit "interfaces"; t_if (lit "0"); lit "mtu"] (fst (unregister [lit "interfaces"; t_if_del (lit "0")] st)) = Ok []).
Proof.
  split; [apply C47_case|]. destruct (if_ok (lit "0")) as (A1 & A2 & A3); [vm_compute; reflexivity|vm_compute; reflexivity|]. split; [constructor; [apply spells_plain|]; constructor; [assumption|constructor]|].
  split; [split; [discriminate|]; split; [constructor; [apply name_by; vm_compute; reflexivity|]; constructor; [assumption|constructor]|cbn [keyed]; split; [vm_compute; reflexivity|]; split; [vm_compute; reflexivity|exact I]]|].
  cbv zeta. split; vm_compute; reflexivity.
Qed.
(** An object that is equal to the one that is there does not replace it: get returns the other one. *)
Theorem C47_replace_refuted : exists (oeq : nat -> nat -> bool) keys cs path q o o', fresh uids /\ Forall (call_ok keys) cs /\ Forall2 spells path q /\ place_ok keys q /\ o <> o' /\
  get [] path (fst (register oeq uids path o (fst (helper_run oeq uids cs helper_new)))) = Ok [Some o'].
Proof.
  exists (fun _ _ => true), (fun _ => []), [Register [lit "interfaces"] [n_ifs] 1%nat], [lit "interfaces"], [n_ifs], 2%nat, 1%nat.
  assert (PO : place_ok (fun _ => []) [n_ifs]) by (split; [discriminate|]; split; [constructor; [apply name_by; vm_compute; reflexivity|constructor]|]; split; [reflexivity|exact I]).
  assert (SP : Forall2 spells [lit "interfaces"] [n_ifs]) by (constructor; [apply spells_plain|constructor]).
  split; [apply uids_fresh|]. split; [constructor; [now split|constructor]|]. split; [assumption|]. split; [assumption|]. split; [discriminate|]. vm_compute. reflexivity.
Qed.
Print Assumptions C47_replace_refuted.

(* ------------------------------------------------------------------ C49 *)
(** For all paths, whatever their text.  Missing: keys called obj_ptr, the top itself, and that no stored
    object is lost (see the refutations). *)
Theorem C49_partial : forall A (oeq : A -> A -> bool) uid st, fresh uid -> reachable oeq uid st ->
  all_stored st /\ NoDup (pointers (h_root st)) /\ forall caller path, get caller path st <> Raise KeyError.
Proof. exact @PathInv_proofs.helper_sound. Qed.
Print Assumptions C49_partial.
Definition lost_st : helper nat :=
  fst (unregister [lit "a"] (fst (register Nat.eqb uids [lit "a"; lit "b"] 2%nat (fst (register Nat.eqb uids [lit "a"] 1%nat helper_new))))).
Lemma lost_reachable : reachable Nat.eqb uids lost_st.
Proof.
  unfold lost_st. apply reach_unregister; [|vm_compute; discriminate]. apply reach_register; [|vm_compute; discriminate|intros t d H; vm_compute in H; discriminate].
  apply reach_register; [apply reach_new|vm_compute; discriminate|intros t d H; vm_compute in H; discriminate].
Qed.
(** What is below an object that is unregistered stays in the library for ever. *)
Theorem C49_lost_refuted : exists st : helper nat, reachable Nat.eqb uids st /\ ~ none_lost st.
Proof.
  exists lost_st. split; [apply lost_reachable|]. intros H. specialize (H (uids 1) (Some 2%nat)). destruct H as [H|[]]; vm_compute; [reflexivity|discriminate].
Qed.
Print Assumptions C49_lost_refuted.
(** So does an object that could not be registered. *)
Theorem C49_failed_refuted : exists path (o : nat), snd (register Nat.eqb uids path o helper_new) = Raise XPathError /\
  reachable Nat.eqb uids (fst (register Nat.eqb uids path o helper_new)) /\ ~ none_lost (fst (register Nat.eqb uids path o helper_new)).
Proof.
  exists [lit "a"; lit "b"], 1%nat. split; [vm_compute; reflexivity|]. split; [apply reach_register; [apply reach_new|vm_compute; discriminate|intros t d H; vm_compute in H; discriminate]|].
  intros H. specialize (H (uids 0) (Some 1%nat)). destruct H as [H|[]]; vm_compute; [reflexivity|discriminate].
Qed.
Print Assumptions C49_failed_refuted.
(** A key leaf called obj_ptr takes the place of the pointer. *)
Theorem C49_key_refuted : exists path (o : nat), snd (register Nat.eqb uids path o helper_new) = Ok tt /\ get [] path (fst (register Nat.eqb uids path o helper_new)) = Raise KeyError.
Proof. exists [lit "l[obj_ptr='1']"], 1%nat. split; vm_compute; reflexivity. Qed.
Print Assumptions C49_key_refuted.
Example C49_case : let st := fst (register Nat.eqb uids [lit "c"; lit "l[k='1']"] 5%nat (fst (register Nat.eqb uids [lit "c"] 4%nat lost_st))) in
  reachable Nat.eqb uids st /\ get [] [lit "c"; lit "l"] st = Ok [Some 5%nat] /\ length (pointers (h_root st)) = 3%nat /\
  get [lit "c"; lit "x"] [lit ".."; lit "l[@k='1']"] st = Ok [] /\ get [lit "c"; lit "l[k='1']"] [lit ".."; lit "l[@k='1']"] st = Ok [Some 5%nat].
Proof.
  cbv zeta. split; [|split; [vm_compute; reflexivity|split; [vm_compute; reflexivity|split; vm_compute; reflexivity]]].
  apply reach_register; [|vm_compute; discriminate|].
  - apply reach_register; [apply lost_reachable|vm_compute; discriminate|intros t d H; vm_compute in H; discriminate].
  - intros t d H. vm_compute in H. injection H as _ <-. vm_compute. intuition discriminate.
Qed.

(* ------------------------------------------------------------------ C51 *)
(** Missing: paths that lead to exactly one leaf that is not a key (see the refutation). *)
Theorem C51_accepts_partial : forall ts assign v, ~ pointer_like ts -> ((exists r, reference_new true (Some ts) assign (Some v) = Ok r) <-> instance ts v).
Proof. exact Leafref_proofs.leafref_accepts. Qed.
Print Assumptions C51_accepts_partial.
Theorem C51_refers_partial : forall ts assign v, ~ pointer_like ts ->
  match reference_new true (Some ts) assign (Some v) with Ok r => refers ts r v | Raise e => e = ValueError /\ ~ instance ts v end.
Proof. exact Leafref_proofs.leafref_exact. Qed.
Print Assumptions C51_refers_partial.
(** With require-instance false, and without a path helper: any value; no value (None) refers to nothing. *)
Theorem C51_free_partial : forall assign, (forall ts v, ~ pointer_like ts -> reference_new false (Some ts) assign (Some v) = Ok RefValue) /\
  (forall require v, reference_new require None assign (Some v) = Ok RefValue) /\ (forall require helper, reference_new require helper assign None = Ok RefNone).
Proof. exact Leafref_proofs.leafref_free. Qed.
Print Assumptions C51_free_partial.
Definition leaf_target (t : str) (key : bool) : target := {| t_text := t; t_members := None; t_keyval := key; t_list := false |}.
Example C51_case : let ts := [leaf_target (lit "eth0") true; leaf_target (lit "eth1") true] in ~ pointer_like ts /\
  reference_new true (Some ts) (Ok tt) (Some (lit "eth1")) = Ok (RefTo 1) /\ reference_new true (Some ts) (Ok tt) (Some (lit "eth2")) = Raise ValueError /\
  (let tl := [{| t_text := lit "[1, 2]"; t_members := Some [lit "1"; lit "2"]; t_keyval := false; t_list := true |}] in
   ~ pointer_like tl /\ reference_new true (Some tl) (Ok tt) (Some (lit "2")) = Ok (RefMember 1)).
Proof.
  cbv zeta. split; [intros (t & E & _); discriminate|]. split; [vm_compute; reflexivity|]. split; [vm_compute; reflexivity|]. split; [|vm_compute; reflexivity].
  intros (t & E & _ & H). injection E as <-. discriminate.
Qed.
(** A leafref to a single leaf that is not a key accepts what the leaf accepts: the leaf takes the value. *)
Theorem C51_pointer_refuted : exists ts v, ~ instance ts v /\ (exists r, reference_new true (Some ts) (Ok tt) (Some v) = Ok r).
Proof. exists [leaf_target (lit "1") false], (lit "2"). split; [vm_compute; discriminate|]. exists RefPointer. vm_compute. reflexivity. Qed.
Print Assumptions C51_pointer_refuted.
