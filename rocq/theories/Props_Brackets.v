(** C50: brackets that are no predicates. *)
From Coq Require Import Lia.
From Verif Require Import PyStr PyVal PathHelper Spec_Path Spec_Brackets Props_Path.
From Verif Require Brackets_proofs.

(** A bracket that does not begin with a predicate is refused, whatever is in the other brackets. *)
Theorem C50_malformed : forall tag bodies, tag_ok tag -> Forall body_ok bodies -> (exists b, In b bodies /\ ~ begins_predicate b) -> tag_attrs (bracketed tag bodies) = Raise XPathError.
Proof. exact Brackets_proofs.tag_malformed. Qed.
Print Assumptions C50_malformed.
(** So are searches, registrations and removals with such a part after parts that are well formed; what is registered
    remains as it is. *)
Theorem C50_refused : forall A (oeq : A -> A -> bool) uid keys (cs : list (call (A := A))) caller good pattern bad more o, fresh uid -> Forall (call_ok keys) cs ->
  Forall2 names good pattern -> Forall name_ok pattern -> malformed bad -> let st := fst (helper_run oeq uid cs helper_new) in let path := good ++ bad :: more in
  get caller path st = Raise XPathError /\ get caller ([] :: path) st = Raise XPathError /\ register oeq uid path o st = (st, Raise XPathError) /\ unregister path st = (st, Raise XPathError).
Proof. exact @Brackets_proofs.refused_calls. Qed.
Print Assumptions C50_refused.

Lemma no_equals b : ~ In 61%N b -> ~ begins_predicate b.
Proof. intros H (word & sign & key & b1 & b2 & q & v & rest & -> & _). apply H. rewrite !in_app_iff. do 4 right. left. now left. Qed.
(** interface[name], interface['eth0'], interface[='eth0'], interface[unit=0][name]: /interfaces/interface[name]/mtu. *)
Example C50_malformed_case : malformed (lit "interface[name]") /\ malformed (lit "interface['eth0']") /\ malformed (lit "interface[='eth0']") /\ malformed (lit "interface[unit=0][name]") /\
  Forall (call_ok if_keys) if_calls /\ Forall2 names [lit "interfaces"] [n_ifs] /\ Forall name_ok [n_ifs] /\
  get [] [lit "interfaces"; lit "interface[name]"; lit "mtu"] (fst (helper_run Nat.eqb uids if_calls helper_new)) = Raise XPathError.
Proof.
  assert (X : forall bodies b, Forall body_ok bodies -> In b bodies -> ~ begins_predicate b -> malformed (bracketed (lit "interface") bodies)).
  { intros bodies b H1 H2 H3. exists (lit "interface"), bodies. split; [reflexivity|]. split; [apply xml_by; vm_compute; reflexivity|]. split; [assumption|]. now exists b. }
  assert (B : forall b, match b with [] => false | _ => true end && forallb (fun c => negb (N.eqb c 91 || N.eqb c 93 || N.eqb c 124)) b = true -> body_ok b).
  { intros b H. apply andb_prop in H as [H1 H2]. split; [now destruct b|]. apply Forall_forall. intros c Hc Hi. rewrite forallb_forall in H2. specialize (H2 c Hc). cbn in Hi. destruct Hi as [<-|[<-|[<-|[]]]]; discriminate. }
  assert (N61 : forall b, forallb (fun c => negb (N.eqb c 61)) b = true -> ~ begins_predicate b).
  { intros b H. apply no_equals. intros Hi. rewrite forallb_forall in H. specialize (H _ Hi). discriminate. }
  split; [apply (X [lit "name"] (lit "name")); [constructor; [apply B; vm_compute; reflexivity|constructor]|now left|apply N61; vm_compute; reflexivity]|].
  split; [apply (X [lit "'eth0'"] (lit "'eth0'")); [constructor; [apply B; vm_compute; reflexivity|constructor]|now left|apply N61; vm_compute; reflexivity]|].
  split.
  { apply (X [lit "='eth0'"] (lit "='eth0'")); [constructor; [apply B; vm_compute; reflexivity|constructor]|now left|].
    intros (word & sign & key & b1 & b2 & q & v & rest & E & Hw & Hs & Hk & Fk & _). assert (Eh : hd 0%N (lit "='eth0'") = 61%N) by (vm_compute; reflexivity). rewrite E in Eh.
    destruct Hw as [<-|[<-|[<-|[]]]]; [|vm_compute in Eh; discriminate..]. destruct Hs as [<-|[<-|[]]]; [|vm_compute in Eh; discriminate]. destruct key as [|k key]; [congruence|]. cbn [app hd] in Eh. subst k.
    inversion Fk as [|? ? Hc _]; subst. unfold key_char in Hc. lia. }
  split; [apply (X [lit "unit=0"; lit "name"] (lit "name")); [constructor; [apply B; vm_compute; reflexivity|constructor; [apply B; vm_compute; reflexivity|constructor]]|right; now left|apply N61; vm_compute; reflexivity]|].
  split; [apply C47_case|]. split; [constructor; [exists (lit "interfaces"); split; [apply spells_plain|now left]|constructor]|]. split; [constructor; [apply name_by; vm_compute; reflexivity|constructor]|].
  vm_compute. reflexivity.
Qed.
