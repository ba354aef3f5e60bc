(** Trees with data in one case of every choice have no rivals. *)
From Verif Require Import PyStr PyVal Restricted YList Tree Spec_Tree Tree_proofs Tree_main Tree_dump Serialise Load_proofs.
From Coq Require Import Lia.
Import ListNotations.

Lemma data_up s x p t y : conf s x -> sub s p = Some t -> node x p = Some y -> has_data t y -> has_data s x.
Proof.
  revert s x. induction p as [|[n|k] p IH]; intros s x Hc Hs Hx Hd.
  - cbn in Hs, Hx. congruence.
  - inversion Hc as [| |i pr cs ch ps ks Hf|]; subst; try discriminate. cbn in Hs, Hx.
    destruct (nth_error cs n) as [s'|] eqn:Es; [|discriminate]. destruct (nth_error ks n) as [x'|] eqn:Ex; [|discriminate].
    assert (Hc' : conf s' x').
    { clear -Hf Es Ex. revert n Es Ex. induction Hf; intros [|n] Es Ex; try discriminate; cbn in Es, Ex; [congruence|eauto]. }
    eapply has_kid; eauto. clear -Hf. induction Hf; cbn; congruence.
  - inversion Hc as [| | |i keys od cs ch es Hf]; subst; try discriminate. cbn in Hx.
    destruct (mget k es) eqn:Ee; [|discriminate]. unfold has_data. rewrite get_list. destruct es; discriminate.
Qed.

(** Of every object but the module: nothing with data is in another case than something at or below a sibling with data. *)
Definition calm (cs : list schema) (kids : list obj) : Prop :=
  forall p i pr cs' ch ps ks, p <> [] -> schema_at cs p = Some (SCont i pr cs') -> at_path kids p = Some (OCont ch ps ks) -> kids_settled cs' ks.
Lemma nth_conf cs kids m s x : Forall2 conf cs kids -> nth_error cs m = Some s -> nth_error kids m = Some x -> conf s x.
Proof. intros Hf. revert m. induction Hf; intros [|m] Es Ex; try discriminate; cbn in Es, Ex; [congruence|eauto]. Qed.
Lemma emits_at s x p t y tg : sub s p = Some t -> node x p = Some y -> has_data t y -> s_tag t = Some tg -> emits s x tg.
Proof.
  revert s x. induction p as [|[n|k] p IH]; intros s x Hs Hx Hd Ht; cbn in Hs, Hx.
  - injection Hs as ->. injection Hx as ->. now apply EmOwn.
  - destruct s as [| |i pr cs|]; try discriminate. destruct (nth_error cs n) as [s'|] eqn:Es; [|discriminate].
    destruct x as [| |ch ps ks|]; try discriminate. destruct (nth_error ks n) as [x'|] eqn:Ex; [|discriminate]. eapply EmKid; eauto.
  - destruct s as [| | |i keys od cs]; try discriminate. destruct x as [| | |ch es]; try discriminate.
    destruct (mget k es) as [e|] eqn:Ee; [|discriminate]. eapply EmEnt; eauto.
Qed.

Lemma calm_unrivalled cs kids : shaped cs kids -> calm cs kids -> unrivalled cs kids.
Proof.
  intros Hsh Hcalm p r s t x y Hs Hx Hd (s1 & c & k' & tp & st & k & Hlen & Hst & Hr & Ht & Hpre & Hle & Htp & Htt & Hk) Hr' Hy.
  rewrite Hr in Hr'. injection Hr' as <-.
  destruct (exists_last (l := r)) as (r0 & z & ->); [destruct r; [cbn in Hlen; lia|discriminate]|].
  rewrite removelast_last, app_length in Hst. cbn [length] in Hst. replace (length r0 + 1 - 1)%nat with (length r0) in Hst by lia.
  rewrite app_length in Hlen, Hle. cbn [length] in Hlen, Hle.
  destruct Hpre as [w ->].
  assert (Hb : exists b v q, tp = b ++ v :: q /\ length b = length r0).
  { exists (firstn (length r0) tp). destruct (skipn (length r0) tp) as [|v q] eqn:Esk.
    - pose proof (skipn_length (length r0) tp) as H. rewrite Esk in H. cbn in H. lia.
    - exists v, q. split; [rewrite <- Esk; symmetry; apply firstn_skipn|]. rewrite firstn_length. lia. }
  destruct Hb as (b & v & q & -> & Hlb).
  rewrite <- Hlb, <- app_assoc, firstn_app, firstn_all, Nat.sub_diag in Hst. cbn [firstn app] in Hst. rewrite app_nil_r in Hst.
  assert (Hr2 : schema_at cs (b ++ [z]) = Some s1 /\ at_path kids (b ++ [z]) = Some y).
  { unfold schema_at, at_path in *. rewrite sub_app in *. rewrite node_app in *. rewrite <- (schema_steps _ _ Hst), <- (node_steps _ _ Hst). auto. }
  destruct Hr2 as [Hr2 Hy2]. clear Hr Hy Hst.
  rewrite <- app_assoc in Hs, Hx. cbn [app] in Hs, Hx.
  assert (Hcont : exists i pr cs' ch ps ks n m, schema_at cs b = Some (SCont i pr cs') /\ at_path kids b = Some (OCont ch ps ks) /\ z = Kid n /\ v = Kid m).
  { pose proof Hr2 as Hr3. unfold schema_at in Hr3, Htp. rewrite sub_app in Hr3, Htp. unfold at_path in Hy2. rewrite node_app in Hy2.
    destruct (sub (entry_schema cs) b) as [sb|] eqn:Esb; [|discriminate].
    destruct (node (OCont false false kids) b) as [xb|] eqn:Exb; [|discriminate].
    destruct z as [n|kk]; cbn [sub] in Hr3.
    - destruct sb as [| |i pr cs'|]; try discriminate. destruct v as [m|kk]; cbn [sub] in Htp; [|discriminate].
      destruct xb as [| |ch ps ks|]; try discriminate. exists i, pr, cs', ch, ps, ks, n, m. auto.
    - destruct sb as [| | |i keys od cs']; try discriminate. injection Hr3 as <-. discriminate. }
  destruct Hcont as (i & pr & cs' & ch & ps & ks & n & m & Hb1 & Hb2 & -> & ->).
  destruct (at_path_conf cs kids b _ Hsh Hb2) as (sb & Hsb & Hcb). rewrite Hb1 in Hsb. injection Hsb as <-. inversion Hcb as [| |? ? ? ? ? ? Hf|]; subst.
  unfold schema_at, at_path in Hs, Hx, Htp, Hr2, Hy2, Hb1, Hb2. rewrite sub_app in Hs, Htp, Hr2. rewrite node_app in Hx, Hy2.
  rewrite Hb1 in Hs, Htp, Hr2. rewrite Hb2 in Hx, Hy2. cbn [sub node] in Hs, Hx, Htp, Hr2, Hy2.
  destruct (nth_error cs' m) as [u|] eqn:Hu; [|discriminate]. destruct (nth_error ks m) as [xu|] eqn:Hxu; [|discriminate].
  destruct (nth_error cs' n) as [s0|] eqn:Hn; [|discriminate]. destruct (nth_error ks n) as [y0|] eqn:Hyn; [|discriminate].
  injection Hr2 as ->. injection Hy2 as ->.
  rewrite sub_app, Htp in Hs. rewrite node_app in Hx. destruct (node xu q) as [xt|] eqn:Hxt; [|discriminate].
  assert (Hct : conf st xt).
  { pose proof (nth_conf _ _ _ _ _ Hf Hu Hxu) as Hcu. destruct (conf_node q u xu Hcu xt Hxt) as (st' & E & H). congruence. }
  apply (Hcalm b i pr cs' ch ps ks) with (n1 := m) (n2 := n) (s1 := u) (x1 := xu) (s2 := s1) (c := c) (k1 := k) (k2 := k'); auto.
  - intros ->. cbn in Hlb. lia.
  - eapply emits_at; eauto. eapply data_up; eauto.
Qed.

Lemma one_case_unrivalled cs kids : shaped cs kids -> uniform cs -> own_choices cs -> one_case cs kids -> unrivalled cs kids.
Proof.
  intros Hsh Hun Hown Hone. apply calm_unrivalled; auto.
  intros b i pr cs' ch ps ks Hb Hb1 Hb2 n1 n2 s1 s2 x1 x2 c k1 k2 Hs1 Hs2 Hx1 Hx2 He Ht Hk Hd2.
  destruct (emits_path _ _ _ He) as (q & t & y & A & B & C & D).
  assert (Hcf : Forall2 conf cs' ks).
  { destruct (at_path_conf cs kids b _ Hsh Hb2) as (sb & Hsb & Hcb). rewrite Hb1 in Hsb. injection Hsb as <-. now inversion Hcb. }
  assert (H1 : forall m s, nth_error cs' m = Some s -> schema_at cs (b ++ [Kid m]) = Some s).
  { intros m s E. unfold schema_at in *. rewrite sub_app, Hb1. cbn [sub]. now rewrite E. }
  assert (Hq : schema_at cs (b ++ Kid n1 :: q) = Some t).
  { unfold schema_at in *. rewrite sub_app, Hb1. cbn [sub]. now rewrite Hs1. }
  destruct (s_tag s1) as [tg|] eqn:Et; [|exact (Hown b n2 n1 q s2 t s1 c k2 k1 (H1 _ _ Hs2) Ht (H1 _ _ Hs1) Hq D Et)].
  assert (tg = (c, k1)) as ->.
  { assert (H : (c, k1) = tg); [|congruence]. apply (Hun (b ++ [Kid n1]) q s1 t tg (c, k1)); auto. rewrite <- app_assoc. exact Hq. }
  apply (Hone b i pr cs' ch ps ks n1 n2 s1 s2 x1 x2 c k1 k2); auto. split; [|exact Hd2].
  eapply (data_up s1 x1 q t y); auto. eapply nth_conf; eauto.
Qed.
