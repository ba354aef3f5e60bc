(** C86: current() in searches and in the paths of leafrefs. *)
From Coq Require Import Lia.
From Coq Require String.
From Verif Require Import PyStr PyVal PathHelper Spec_Path RegTree RegRef Spec_RegTree Spec_RegRef Current Spec_Current Props_Path Props_RegTree Props_RegRef.
From Verif Require Current_proofs.

(* ------------------------------------------------------------------ C86 *)
(** Without current() a search is what it is in C66. *)
Theorem C86_plain : forall A (text : option A -> str) caller path st r, get caller path st = Ok r -> get_in text caller path st = Ok r.
Proof. exact @Current_proofs.get_same. Qed.
Print Assumptions C86_plain.
(** Any calls of register and unregister, then a search.  Missing: expressions other than
    "current()/../…/names" with any number of ".." (none as well), texts with an apostrophe, values outside [raw_ok]. *)
Theorem C86_search_partial : forall A (text : option A -> str) (oeq : A -> A -> bool) uid keys (cs : list (call (A := A))) cpath c path raw, fresh uid -> Forall (call_ok keys) cs ->
  Forall2 spells cpath c -> place_ok keys c -> Forall2 names path raw -> Forall (raw_ok (length c)) raw -> raw <> [] ->
  let M := fst (map_run oeq cs (fun _ => None)) in let st := fst (helper_run oeq uid cs helper_new) in answers_ok text M c raw ->
  (exists pattern, means text M c raw pattern /\ found M (matching pattern) (get_in text cpath path st) /\ found M (matching pattern) (get_in text cpath ([] :: path) st)) \/
  (get_in text cpath path st = Raise XPathError /\ get_in text cpath ([] :: path) st = Raise XPathError /\ unanswered M c raw).
Proof. exact @Current_proofs.current_run. Qed.
Print Assumptions C86_search_partial.
Theorem C86_relative_partial : forall A (text : option A -> str) (oeq : A -> A -> bool) uid keys (cs : list (call (A := A))) cpath c up path raw, fresh uid -> Forall (call_ok keys) cs ->
  Forall2 spells cpath c -> place_ok keys c -> 0 < up <= length c -> Forall2 names path raw -> Forall (raw_ok (length c)) raw -> raw <> [] ->
  let M := fst (map_run oeq cs (fun _ => None)) in let st := fst (helper_run oeq uid cs helper_new) in answers_ok text M c raw ->
  (exists pattern, means text M c raw pattern /\ found M (fun q => M c <> None /\ exists r, q = firstn (length c - up) c ++ r /\ matching pattern r) (get_in text cpath (repeat (lit "..") up ++ path) st)) \/
  (get_in text cpath (repeat (lit "..") up ++ path) st = Raise XPathError /\ unanswered M c raw).
Proof. exact @Current_proofs.current_relative_run. Qed.
Print Assumptions C86_relative_partial.
(** Where nobody asks, current() stands for nothing: whatever is registered, the search is refused. *)
Theorem C86_nobody : forall A (text : option A -> str) (st : helper A) depth path raw n kv j ns, Forall2 names path raw -> Forall (raw_ok depth) raw ->
  In n raw -> In kv (snd n) -> asks (snd kv) j ns -> get_in text [] path st = Raise TypeError /\ get_in text [] ([] :: path) st = Raise TypeError.
Proof. exact @Current_proofs.nobody_asks. Qed.
Print Assumptions C86_nobody.
(** A leafref in a data tree: with the texts of the leaves that are asked for in place of the expressions,
    the values that are accepted are those of the leaves that the path then leads to. *)
Theorem C86_leafref_partial : forall text other uid, fresh uid -> forall cs os, module_ok cs -> Forall (tame cs) os ->
  let wk := session uid cs os in forall cpath c o, in_tree cs (snd wk) c o -> Forall2 spells cpath c ->
  forall ref up path raw key, up <= length c -> path_parts ref = match up with 0 => [] :: path | _ => repeat (lit "..") up ++ path end ->
  Forall2 names path raw -> Forall (raw_ok (length c)) raw -> raw <> [] -> answered text cs (snd wk) c raw ->
  exists pattern, reads_as text cs (snd wk) c raw pattern /\
  ((forall q t, in_tree cs (snd wk) q t -> wanted c up pattern q -> exists x, t = PLeaf x /\ forall y, py_eq y x = true -> text y = text x) ->
   (key = true \/ exists q1 q2 t1 t2, q1 <> q2 /\ in_tree cs (snd wk) q1 t1 /\ in_tree cs (snd wk) q2 t2 /\ wanted c up pattern q1 /\ wanted c up pattern q2) ->
   forall assign v,
   match leafref_in text other true key cpath ref (fst wk) assign v with
   | Ok _ => exists q x, in_tree cs (snd wk) q (PLeaf x) /\ wanted c up pattern q /\ text x = v
   | Raise e => e = ValueError /\ forall q x, in_tree cs (snd wk) q (PLeaf x) -> wanted c up pattern q -> text x <> v
   end).
Proof. exact Current_proofs.leafref_current_leaves. Qed.
Print Assumptions C86_leafref_partial.

(** module { list src-list { key "referenced value" }
             list referencing-list { key testnum; leaf source-val; leaf reference (the leafref) } }:
    tests/xpath/03-current/current-tc03.yang. *)
Definition cur_net : list rschema :=
  [ RList (lit "src-list") [lit "referenced"; lit "value"] [L "referenced"; L "value"];
    RList (lit "referencing-list") [lit "testnum"] [L "testnum"; L "source-val"; L "reference"] ].
Lemma cur_net_ok : module_ok cur_net.
Proof. split; [apply nodup_by; vm_compute; reflexivity|schemas_by]. Qed.
Definition cur_ops : list (list rstep * rop) :=
  [ ([Kid 0], Add [lit "x"; lit "one"] [G "x"; G "one"]); ([Kid 0], Add [lit "x"; lit "two"] [G "x"; G "two"]); ([Kid 0], Add [lit "y"; lit "three"] [G "y"; G "three"]);
    ([Kid 1], Add [lit "1"] [G "1"]); ([Kid 1], Add [lit "2"] [G "2"]);
    ([Kid 1; Ent [lit "1"]; Kid 1], Set_ (VLeaf (G "x"))); ([Kid 1; Ent [lit "2"]; Kid 1], Set_ (VLeaf (G "y"))) ].
Ltac fit2_by := let n := fresh in let k := fresh in let c := fresh in let E := fresh in intros n k c E; first [discriminate E|injection E as _ <- _; split; [reflexivity|repeat (constructor; [apply key_text_by; vm_compute; reflexivity|]); constructor]].
Lemma cur_tame : Forall (tame cur_net) cur_ops.
Proof. repeat (apply Forall_cons; [first [split; [exact I|eexists _, _; reflexivity]|exact I|split; [fit2_by|good_by]|fit2_by]|]). apply Forall_nil. Qed.
Definition cur_tree : list robj := snd (session uids cur_net cur_ops).
Definition cur_leaf (k : String.string) : place := [(lit "referencing-list", [(lit "testnum", lit k)]); (lit "reference", [])].
Definition cur_path (k : String.string) : list str := [lit "referencing-list[testnum='" ++ lit k ++ lit "']"; lit "reference"].
Definition cur_ref : str := lit "/src-list[referenced=current()/../source-val]/value".
Definition cur_ref_up : str := lit "../../src-list[referenced=current()/../../referencing-list/source-val]/value".
Definition cur_expr : str := lit "current()/../source-val".
Definition cur_raw : place := [(lit "src-list", [(lit "referenced", cur_expr)]); (lit "value", [])].
Definition cur_try (k ref v : String.string) : res reference :=
  leafref_in text_of (fun _ => lit "[]") true true (cur_path k) (lit ref) (fst (session uids cur_net cur_ops)) (Ok tt) (lit v).
Lemma cur_asks : asks cur_expr 1 [lit "source-val"].
Proof. exists [lit "source-val"]. split; [discriminate|]. split; [|vm_compute; reflexivity]. constructor; [|constructor]. split; [apply xml_by; vm_compute; reflexivity|now left]. Qed.
Lemma cur_named : Forall2 names [lit "src-list[referenced=current()/../source-val]"; lit "value"] cur_raw.
Proof.
  constructor; [|constructor; [|constructor]].
  - exists (lit "src-list[referenced=current()/../source-val]"). split; [|now left]. apply (spells_by _ _ _ [(P (lit "referenced") cur_expr false [], [])]); [discriminate|vm_compute; reflexivity..].
  - exists (lit "value"). split; [apply spells_plain|now left].
Qed.
Lemma cur_raw_ok : Forall (raw_ok 2) cur_raw.
Proof.
  constructor; [|constructor; [|constructor]].
  - split; [apply xml_by; vm_compute; reflexivity|]. split; [apply nodup_by; vm_compute; reflexivity|]. constructor; [|constructor]. split; [apply xml_by; vm_compute; reflexivity|]. split; [discriminate|]. right. exists 1, [lit "source-val"]. split; [lia|exact cur_asks].
  - split; [apply xml_by; vm_compute; reflexivity|]. split; constructor.
Qed.
Definition place_eqb (p q : place) : bool := if place_dec p q then true else false.
Lemma cur_answered : answered text_of cur_net cur_tree (cur_leaf "1") cur_raw.
Proof.
  intros n kv j ns Hn Hkv Hj Ha. assert (E : snd kv = cur_expr). { destruct Hn as [<-|[<-|[]]]; [|contradiction]. destruct Hkv as [<-|[]]. reflexivity. }
  rewrite E in Ha. destruct (Current_proofs.asks_det _ _ _ _ _ cur_asks Ha) as [<- <-]. exists [(lit "referencing-list", [(lit "testnum", lit "1")]); (lit "source-val", [])], (S_ "x").
  assert (Hin : in_tree cur_net cur_tree [(lit "referencing-list", [(lit "testnum", lit "1")]); (lit "source-val", [])] (PLeaf (S_ "x"))) by (apply (listing_only 2); vm_compute; repeat (first [left; reflexivity|right])).
  split; [|split].
  - split; [exists [(lit "source-val", [])]; split; vm_compute; reflexivity|]. split; [exact Hin|]. intros q' o (r & -> & Hr) Ho.
    destruct r as [|m [|? ?]]; try discriminate. injection Hr as Hm. destruct m as [t d]. cbn [fst] in Hm. subst t. pose proof (listing_all _ _ _ _ Ho 2 ltac:(vm_compute; lia)) as Hl.
    assert (Hc : forallb (fun qo => match fst qo with [_; (t, d)] => negb (str_eqb t (lit "source-val")) || match d with [] => true | _ => false end | _ => true end) (listing 2 cur_net cur_tree) = true) by (vm_compute; reflexivity).
    rewrite forallb_forall in Hc. specialize (Hc _ Hl). cbn [fst] in Hc. assert (Ef : firstn (length (cur_leaf "1") - 1) (cur_leaf "1") = [(lit "referencing-list", [(lit "testnum", lit "1")])]) by (vm_compute; reflexivity). rewrite Ef in Hc |- *. cbn [app] in Hc |- *.
    rewrite PyStr_facts.str_eqb_refl in Hc. cbn [negb orb] in Hc. destruct d; [reflexivity|discriminate].
  - assert (Hq : text_of (S_ "x") = [120%N]) by (vm_compute; reflexivity). rewrite Hq. split; [constructor; [lia|constructor]|]. split; [intros [H|[]]; discriminate|]. intros a b H. apply (f_equal (@length N)) in H. rewrite !app_length in H. cbn in H. lia.
  - intros y Hy. cbn [text_of S_]. destruct (strings_by [] (PLeaf (S_ "x")) ltac:(vm_compute; reflexivity)) as (x & E' & Hx). injection E' as <-. now apply Hx.
Qed.
Definition cur_wanted (qo : place * pobj) : bool := match map fst (fst qo) with [s; v] => negb (str_eqb s (lit "src-list") && str_eqb v (lit "value")) || holds_string qo | _ => true end.
(** The values of the entries of src-list that have the source-val of the entry; the same with a relative
    path, and with one more "..", where it is not unique. *)
Example C86_case : module_ok cur_net /\ Forall (tame cur_net) cur_ops /\ (exists t, in_tree cur_net cur_tree (cur_leaf "1") t) /\ Forall2 spells (cur_path "1") (cur_leaf "1") /\
  path_parts cur_ref = [] :: [lit "src-list[referenced=current()/../source-val]"; lit "value"] /\ Forall2 names [lit "src-list[referenced=current()/../source-val]"; lit "value"] cur_raw /\
  Forall (raw_ok (length (cur_leaf "1"))) cur_raw /\ answered text_of cur_net cur_tree (cur_leaf "1") cur_raw /\
  (forall pattern q t, in_tree cur_net cur_tree q t -> reads_as text_of cur_net cur_tree (cur_leaf "1") cur_raw pattern -> wanted (cur_leaf "1") 0 pattern q -> exists x, t = PLeaf x /\ forall y, py_eq y x = true -> text_of y = text_of x) /\
  cur_try "1" "/src-list[referenced=current()/../source-val]/value" "one" = Ok (RefTo 0) /\ cur_try "1" "/src-list[referenced=current()/../source-val]/value" "two" = Ok (RefTo 1) /\
  cur_try "1" "/src-list[referenced=current()/../source-val]/value" "three" = Raise ValueError /\ cur_try "2" "/src-list[referenced=current()/../source-val]/value" "three" = Ok (RefTo 0) /\
  cur_try "1" "../../src-list[referenced=current()/../source-val]/value" "two" = Ok (RefTo 1) /\ cur_try "2" "../../src-list[referenced=current()/../source-val]/value" "two" = Raise ValueError /\
  cur_try "1" "/src-list[referenced=current()/../../referencing-list/source-val]/value" "one" = Raise XPathError /\ cur_try "1" "/src-list[referenced=current()/../target-val]/value" "one" = Raise XPathError.
Proof.
  split; [exact cur_net_ok|]. split; [exact cur_tame|]. split; [eexists; apply (listing_only 2); vm_compute; repeat (first [left; reflexivity|right])|].
  split; [constructor; [apply (spells_by _ _ _ [(P (lit "testnum") (lit "1") false (lit "'"), [])]); [discriminate|vm_compute; reflexivity..]|constructor; [apply spells_plain|constructor]]|].
  split; [vm_compute; reflexivity|]. split; [exact cur_named|]. split; [exact cur_raw_ok|]. split; [exact cur_answered|]. split.
  { intros pattern q t Hq Hr Hw. apply (strings_by q t). assert (Ef : map fst q = [lit "src-list"; lit "value"]).
    { unfold reads_as, cur_raw in Hr. inversion Hr as [|? m1 ? pat1 [R1 _] Hr1]; subst. inversion Hr1 as [|? m2 ? pat2 [R2 _] Hr2]; subst. inversion Hr2; subst. cbn [wanted] in Hw. inversion Hw as [|? q1 ? qs1 [W1 _] Hw1]; subst. inversion Hw1 as [|? q2 ? qs2 [W2 _] Hw2]; subst. inversion Hw2; subst.
      cbn [fst] in R1, R2. cbn [map]. now rewrite <- W1, <- W2, <- R1, <- R2. }
    pose proof (listing_all _ _ _ _ Hq 2) as Hl. assert (El : length q = 2) by (pose proof (f_equal (@length str) Ef) as El; rewrite map_length in El; exact El). rewrite El in Hl. specialize (Hl (le_n 2)).
    assert (Hc : forallb cur_wanted (listing 2 cur_net cur_tree) = true) by (vm_compute; reflexivity). rewrite forallb_forall in Hc. specialize (Hc _ Hl). unfold cur_wanted in Hc. cbn [fst] in Hc. rewrite Ef, !PyStr_facts.str_eqb_refl in Hc. exact Hc. }
  repeat (split; [vm_compute; reflexivity|]). vm_compute; reflexivity.
Qed.
(** A container that asks for its own leaf: /interface[name=current()/chosen]. *)
Definition own_keys (tags : list str) : list str := match tags with [t] => if str_eqb t (lit "interface") then [lit "name"] else [] | _ => [] end.
Definition own_if (n : String.string) : node_name := (lit "interface", [(lit "name", lit n)]).
Definition own_cfg : node_name := (lit "cfg", []).
Definition own_chosen : node_name := (lit "chosen", []).
Definition own_calls : list (call (A := nat)) :=
  [Register [lit "cfg"] [own_cfg] 1; Register [lit "cfg"; lit "chosen"] [own_cfg; own_chosen] 2;
   Register [lit "interface[name='a']"] [own_if "a"] 3; Register [lit "interface[name='b']"] [own_if "b"] 4].
Definition own_text (o : option nat) : str := match o with Some 2 => lit "b" | _ => lit "none" end.
Definition own_expr : str := lit "current()/chosen".
Definition own_raw : place := [(lit "interface", [(lit "name", own_expr)])].
Lemma own_asks : asks own_expr 0 [lit "chosen"].
Proof. exists [lit "chosen"]. split; [discriminate|]. split; [|vm_compute; reflexivity]. constructor; [|constructor]. split; [apply xml_by; vm_compute; reflexivity|now left]. Qed.
Example C86_below_case : Forall (call_ok own_keys) own_calls /\ Forall2 spells [lit "cfg"] [own_cfg] /\ place_ok own_keys [own_cfg] /\
  Forall2 names [lit "interface[name=current()/chosen]"] own_raw /\ Forall (raw_ok 1) own_raw /\ answers_ok own_text (fst (map_run Nat.eqb own_calls (fun _ => None))) [own_cfg] own_raw /\
  get_in own_text [lit "cfg"] [lit "interface[name=current()/chosen]"] (fst (helper_run Nat.eqb uids own_calls helper_new)) = Ok [Some 4].
Proof.
  assert (S1 : spells (lit "cfg") own_cfg) by apply spells_plain. assert (S2 : spells (lit "chosen") own_chosen) by apply spells_plain.
  assert (S3 : forall t n, (t = lit "interface[name='a']" /\ n = own_if "a") \/ (t = lit "interface[name='b']" /\ n = own_if "b") -> spells t n).
  { intros t n [[-> ->]|[-> ->]].
    - apply (spells_by _ _ _ [(P (lit "name") (lit "a") false (lit "'"), [])]); [discriminate|vm_compute; reflexivity..].
    - apply (spells_by _ _ _ [(P (lit "name") (lit "b") false (lit "'"), [])]); [discriminate|vm_compute; reflexivity..]. }
  assert (PO : forall q, In q [[own_cfg]; [own_cfg; own_chosen]; [own_if "a"]; [own_if "b"]] -> place_ok own_keys q).
  { intros q Hq. repeat (destruct Hq as [<-|Hq]; [split; [discriminate|]; split; [repeat (constructor; [apply name_by; vm_compute; reflexivity|]); constructor|vm_compute; repeat split]|]). destruct Hq. }
  split; [|split; [constructor; [exact S1|constructor]|split; [apply PO; now left|split; [|split; [|split]]]]].
  - repeat (constructor; [split; [repeat (constructor; [first [exact S1|exact S2|apply S3; left; split; reflexivity|apply S3; right; split; reflexivity]|]); constructor|apply PO; repeat (first [left; reflexivity|right])]|]). constructor.
  - constructor; [|constructor]. exists (lit "interface[name=current()/chosen]"). split; [|now left]. apply (spells_by _ _ _ [(P (lit "name") own_expr false [], [])]); [discriminate|vm_compute; reflexivity..].
  - constructor; [|constructor]. split; [apply xml_by; vm_compute; reflexivity|]. split; [apply nodup_by; vm_compute; reflexivity|]. constructor; [|constructor]. split; [apply xml_by; vm_compute; reflexivity|]. split; [discriminate|].
    right. exists 0, [lit "chosen"]. split; [lia|exact own_asks].
  - intros n kv j ns q Hn Hkv Hj Ha (r & -> & Hr) HM. assert (E : snd kv = own_expr). { destruct Hn as [<-|[]]. destruct Hkv as [<-|[]]. reflexivity. }
    rewrite E in Ha. destruct (Current_proofs.asks_det _ _ _ _ _ own_asks Ha) as [<- <-]. destruct r as [|[tag d] [|? ?]]; try discriminate. injection Hr as Hr. cbn [fst] in Hr. subst tag.
    destruct d as [|kv' d]; [|exfalso; apply HM; vm_compute; reflexivity]. match goal with |- quotable ?t => assert (Et : t = [98%N]) by (vm_compute; reflexivity) end.
    rewrite Et. split; [constructor; [lia|constructor]|]. split; [intros [H|[]]; discriminate|]. intros a b H. apply (f_equal (@length N)) in H. rewrite !app_length in H. cbn in H. lia.
  - vm_compute. reflexivity.
Qed.
(** current() alone, the value of the leaf itself, is not understood. *)
Theorem C86_self_refuted : exists (cs : list (call (A := nat))) cpath c path n o, Forall (call_ok if_keys) cs /\ Forall2 spells cpath c /\ place_ok if_keys c /\
  let M := fst (map_run Nat.eqb cs (fun _ => None)) in M c = Some o /\ names (last path []) n /\ snd n = [(lit "name", lit "current()")] /\
  get_in (fun _ => lit "eth0") cpath path (fst (helper_run Nat.eqb uids cs helper_new)) = Raise IndexError.
Proof.
  exists if_calls2, [lit "interfaces"], [n_ifs], [lit "interfaces"; lit "interface[name=current()]"], (lit "interface", [(lit "name", lit "current()")]), 1. split; [exact if_calls2_ok|]. split; [constructor; [apply spells_plain|constructor]|].
  split; [split; [discriminate|split; [constructor; [apply name_by; vm_compute; reflexivity|constructor]|vm_compute; repeat split]]|].
  cbv zeta. split; [vm_compute; reflexivity|]. split; [|split; [reflexivity|vm_compute; reflexivity]].
  exists (lit "interface[name=current()]"). split; [|now left]. apply (spells_by _ _ _ [(P (lit "name") (lit "current()") false [], [])]); [discriminate|vm_compute; reflexivity..].
Qed.
Print Assumptions C86_self_refuted.
(** A key that merely contains the text "current()" is taken for an expression, in quotes as well: what is
    not there is not just not found. *)
Theorem C86_literal_refuted : exists path v, names (last path []) (lit "interface", [(lit "name", v)]) /\ xml_text v /\ (exists a b, v = a ++ lit "current()" ++ b /\ a <> []) /\
  forall A (text : option A -> str), exists e, get_in text [] path helper_new = Raise e.
Proof.
  exists [lit "interface[@name='the-current()-one']"], (lit "the-current()-one"). split; [|split; [|split]].
  - exists (lit "interface[@name='the-current()-one']"). split; [|now left]. apply (spells_by _ _ _ [(P (lit "name") (lit "the-current()-one") true (lit "'"), [])]); [discriminate|vm_compute; reflexivity..].
  - unfold xml_text. repeat (constructor; [vm_compute; intuition discriminate|]). constructor.
  - exists (lit "the-"), (lit "-one"). split; [vm_compute; reflexivity|discriminate].
  - intros A text. exists IndexError. vm_compute. reflexivity.
Qed.
Print Assumptions C86_literal_refuted.
(** A leaf with an apostrophe in its text: the search fails, where nothing matches. *)
Theorem C86_apostrophe_refuted : exists (cs : list (call (A := nat))) (text : option nat -> str) cpath c path raw, Forall (call_ok if_keys) cs /\ Forall2 spells cpath c /\ place_ok if_keys c /\
  Forall2 names path raw /\ Forall (raw_ok (length c)) raw /\ ~ unanswered (fst (map_run Nat.eqb cs (fun _ => None))) c raw /\
  get_in text cpath path (fst (helper_run Nat.eqb uids cs helper_new)) = Raise RuntimeError.
Proof.
  set (t := lit "interface[name=current()/../interfaces]"). set (v := lit "current()/../interfaces"). assert (Ha : asks v 1 [lit "interfaces"]). { exists [lit "interfaces"]. split; [discriminate|]. split; [|vm_compute; reflexivity]. constructor; [|constructor]. split; [apply xml_by; vm_compute; reflexivity|now left]. }
  exists if_calls2, (fun _ => lit "it's"), [lit "interfaces"], [n_ifs], [lit "interfaces"; t], [n_ifs; (lit "interface", [(lit "name", v)])]. split; [exact if_calls2_ok|]. split; [constructor; [apply spells_plain|constructor]|].
  split; [split; [discriminate|split; [constructor; [apply name_by; vm_compute; reflexivity|constructor]|vm_compute; repeat split]]|].
  split. { constructor; [exists (lit "interfaces"); split; [apply spells_plain|now left]|]. constructor; [|constructor]. exists t. split; [|now left]. apply (spells_by _ _ _ [(P (lit "name") v false [], [])]); [discriminate|vm_compute; reflexivity..]. }
  split.
  { constructor; [split; [apply xml_by; vm_compute; reflexivity|split; constructor]|]. constructor; [|constructor]. split; [apply xml_by; vm_compute; reflexivity|]. split; [apply nodup_by; vm_compute; reflexivity|]. constructor; [|constructor].
    split; [apply xml_by; vm_compute; reflexivity|]. split; [discriminate|]. right. exists 1, [lit "interfaces"]. split; [cbn; lia|exact Ha]. }
  split; [|vm_compute; reflexivity].
  intros (n & kv & j & ns & Hn & Hkv & Hj & Hasks & Hno). assert (E : snd kv = v). { destruct Hn as [<-|[<-|[]]]; [contradiction|]. destruct Hkv as [<-|[]]. reflexivity. }
  rewrite E in Hasks. destruct (Current_proofs.asks_det _ _ _ _ _ Ha Hasks) as [<- <-]. apply (Hno [n_ifs]). split; [left; lia|]. split; [exists [n_ifs]; split; vm_compute; reflexivity|]. split; [vm_compute; discriminate|].
  intros q' (r & -> & Hr) HM. destruct r as [|[tag d] [|? ?]]; try discriminate. injection Hr as Hr. cbn [fst] in Hr. subst tag. destruct d as [|kv' d]; [reflexivity|]. exfalso. apply HM. vm_compute. reflexivity.
Qed.
Print Assumptions C86_apostrophe_refuted.
