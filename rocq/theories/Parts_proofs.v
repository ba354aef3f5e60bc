(** Lemmas about the documents of parts. *)
From Verif Require Import PyStr PyStr_facts PyVal Restricted SafeName Tree Serialise Json_proofs Emit_proofs Xml Xml_proofs Parts Spec_Parts.

Section P.
Context (O : oracle) (im ins : einfo -> str -> option str) (flt : bool).
Notation kids_els := (kids_els O im ins flt).
Notation kid_els := (kid_els O im ins flt).

Lemma kids_els_nth : forall cs kids els n s x, kids_els cs kids = Ok els -> nth_error cs n = Some s -> nth_error kids n = Some x ->
  exists g, kid_els s x = Ok g /\ incl g els.
Proof.
  induction cs as [|s0 cs IH]; intros kids els n s x H Hs Hx; [destruct n; discriminate|]. destruct kids as [|x0 kids]; [destruct n; discriminate|].
  apply kids_els_cons in H. destruct H as (g & gs & Hg & Hgs & ->). destruct n as [|n]; cbn [nth_error] in Hs, Hx.
  - injection Hs as ->. injection Hx as ->. exists g. split; [assumption|]. apply incl_appl, incl_refl.
  - destruct (IH kids gs n s x Hgs Hs Hx) as (g' & H1 & H2). exists g'. split; [assumption|]. apply incl_appr; assumption.
Qed.

Lemma part_els cs kids i b cs' kids' : part cs kids i b cs' kids' -> forall els ns name, kids_els cs kids = Ok els ->
  exists els', kids_els cs' kids' = Ok els' /\ (b = true \/ els' <> [] -> inside (XElem (e_ns i) (e_yang i) [] [] els') (XElem ns name [] [] els)).
Proof.
  induction 1 as [cs kids n i pr cs' ch pres kids' Hs Hx|cs kids n i keys od cs' ch es k ch' pres kids' Hs Hx Hin|cs kids j b csj kidsj i b' cs' kids' H1 IH1 H2 IH2]; intros els ns name He.
  - destruct (kids_els_nth _ _ _ _ _ _ He Hs Hx) as (g & Hg & Hi). apply kid_els_cont in Hg. destruct Hg as (l & ks & Hl & Hk & ->).
    exists (concat ks). split; [unfold Xml_proofs.kids_els; rewrite Hl; cbn [bind]; rewrite Hk; reflexivity|]. intros Hb. apply InKid. cbn [x_kids]. apply Hi.
    destruct l as [|a l]; [|left; reflexivity]. cbn in Hk. injection Hk as <-. cbn [concat] in *. destruct Hb as [Hb|Hb]; [|contradiction]. apply Bool.andb_true_iff in Hb. destruct Hb as [_ ->]. left; reflexivity.
  - destruct (kids_els_nth _ _ _ _ _ _ He Hs Hx) as (g & Hg & Hi). apply kid_els_list in Hg.
    apply In_nth_error in Hin. destruct Hin as (n' & Hn'). destruct (map_res_nth _ _ _ _ _ Hg Hn') as (e & Ee & Hne). unfold entry_els in Ee. cbn [snd] in Ee.
    destruct (kids_els cs' kids') as [els'|] eqn:E; [|discriminate]. cbn [bind] in Ee. injection Ee as <-. exists els'. split; [reflexivity|]. intros _. apply InKid. cbn [x_kids].
    apply Hi. eapply nth_error_In; eassumption.
  - destruct (IH1 els ns name He) as (els1 & E1 & P1). destruct (IH2 els1 (e_ns j) (e_yang j) E1) as (els2 & E2 & P2). exists els2. split; [assumption|].
    intros Hb. specialize (P2 Hb). assert (Hne : els1 <> []) by (intros ->; inversion P2 as [? H|? ? H]; destruct H). specialize (P1 (or_intror Hne)).
    clear - P1 P2. induction P1 as [d H|k d H P1 IH]; [eapply InDeeper; eassumption|]. eapply InDeeper; eassumption.
Qed.
End P.

Lemma parts_thm O im ins flt ctx m cs kids d i b cs' kids' : encode_module O im ins flt ctx m cs kids = Ok d -> part cs kids i b cs' kids' ->
  exists e, encode_part O im ins flt ctx m i cs' kids' = Ok e /\ x_ns e = x_ns d /\
    (b = true \/ x_kids e <> [] -> inside (in_namespace (e_ns i) e) d) /\ (e = in_namespace (e_ns i) e <-> x_ns d = e_ns i).
Proof.
  unfold encode_module, encode_part. intros Hd Hp. destruct (class_namespace ctx m) as [ns|]; [|discriminate]. cbn [bind] in *. rewrite encode_els in Hd.
  destruct (kids_els O im ins flt cs kids) as [els|] eqn:E; [|discriminate]. cbn [bind] in Hd. injection Hd as <-.
  destruct (part_els O im ins flt cs kids i b cs' kids' Hp els ns (m_name m) E) as (els' & E' & H). exists (XElem ns (e_yang i) [] [] els').
  rewrite encode_els, E'. cbn [bind]. split; [reflexivity|]. split; [reflexivity|]. cbn [x_kids in_namespace x_ns]. split; [exact H|].
  split; [intros Eq; injection Eq as Eq; exact Eq|intros ->; reflexivity].
Qed.

Lemma find_named (ctx : list ymodule) : NoDup (map m_name ctx) -> forall v, In v ctx -> find (fun w => str_eqb (m_name w) (m_name v)) ctx = Some v.
Proof.
  induction ctx as [|w ctx IH]; intros Hd v Hv; [destruct Hv|]. cbn [find]. inversion Hd as [|? ? Hn Hd']; subst. destruct Hv as [->|Hv].
  - rewrite str_eqb_refl. reflexivity.
  - destruct (str_eqb (m_name w) (m_name v)) eqn:E; [|apply IH; assumption]. apply str_eqb_eq in E. exfalso. apply Hn. rewrite E. apply in_map. assumption.
Qed.
Lemma module_thm O im ins flt ctx m main ns cs kids d : NoDup (map m_name ctx) -> In main ctx -> m_namespace main = Some ns ->
  (m = main /\ m_belongs m = None) \/ m_belongs m = Some (m_name main) -> encode_module O im ins flt ctx m cs kids = Ok d -> x_ns d = ns /\ x_name d = m_name m.
Proof.
  intros Hn Hin Hns Hm. unfold encode_module. assert (E : class_namespace ctx m = Ok ns).
  { unfold class_namespace. destruct Hm as [[Hm Hb]|Hb]; rewrite Hb; [rewrite Hm; cbn [bind]; rewrite Hns; reflexivity|]. rewrite (find_named ctx Hn main Hin). cbn [bind]. rewrite Hns. reflexivity. }
  rewrite E. cbn [bind]. rewrite encode_els. destruct (kids_els O im ins flt cs kids); [|discriminate]. cbn [bind]. intros H. injection H as <-. split; reflexivity.
Qed.
