(** Valid documents with data in one case of each choice are accepted, and the tree then holds what they say. *)
From Coq Require Import Lia.
From Verif Require Import PyStr PyStr_facts PyVal Restricted TypedList YList SafeName
  Tree Spec_Tree Tree_proofs Serialise Spec_Serialise Xml Spec_Loading Spec_Accept Spec_AcceptJson Spec_AcceptXml Spec_AcceptChoice AcceptBase_proofs.
From Verif Require Accept_proofs AcceptJson_proofs AcceptXml_proofs LoadingMain_proofs.

Section S.
Context (O : oracle) (ft : str -> option pyval) (uid : list (pyval * obj) -> str) (cs : list schema) (l : list deed).
Context (Hu : uniform cs) (Hk : even_keys cs) (Hn : python_names cs) (Hl : plain_deeds O ft uid cs l).
Lemma settled : settled_tree cs (after O ft uid cs l).
Proof. exact (LoadingMain_proofs.deeds_ok O uid cs ft l Hl). Qed.
Lemma law (about : list pstep -> Prop) : consistent cs about -> lawful (settled_tree cs) (fun q => exists z, about (q ++ z)) O cs.
Proof. intros H. now apply cases_lawful. Qed.
Lemma itself {A} (about : list pstep -> A -> Prop) : forall r w, about r w -> exists z, exists w, about (r ++ z) w.
Proof. intros r w H. exists [], w. now rewrite app_nil_r. Qed.
Theorem ietf_choice skip ms : ietf_valid O skip (entry_schema cs) (JObj ms) -> consistent cs (fun q => exists w, says O (entry_schema cs) (JObj ms) q w) ->
  exists m', load_ietf_json O uid cs false skip (JObj ms) (after O ft uid cs l) = (m', Ok tt) /\
    forall q w, says O (entry_schema cs) (JObj ms) q w -> exists x, at_path m' q = Some x /\ meets w x.
Proof. intros Hv Hc. apply (Accept_proofs.ietf_accepted_in O uid cs skip _ _ (law _ Hc) Hn _ ms settled Hv). apply itself. Qed.
Theorem json_choice skip ms : json_valid O skip false (entry_schema cs) (JObj ms) -> consistent cs (fun q => exists w, tells O false (entry_schema cs) (JObj ms) q w) ->
  exists m', load_json O uid cs false skip (JObj ms) (after O ft uid cs l) = (m', Ok tt) /\
    forall q w, tells O false (entry_schema cs) (JObj ms) q w -> exists x, at_path m' q = Some x /\ so w x.
Proof. intros Hv Hc. apply (AcceptJson_proofs.json_accepted_in O uid cs skip _ _ (law _ Hc) Hn _ ms settled Hv). apply itself. Qed.
Theorem xml_choice e : xml_valid O ft (entry_schema cs) e -> consistent cs (fun q => exists w, xtells O ft (entry_schema cs) e q w) ->
  exists m', load_doc O ft uid cs e (after O ft uid cs l) = (m', Ok tt) /\
    forall q w, xtells O ft (entry_schema cs) e q w -> exists x, at_path m' q = Some x /\ shows w x.
Proof. intros Hv Hc. apply (AcceptXml_proofs.xml_accepted_in O ft uid cs _ _ (law _ Hc) Hn _ e settled Hv). apply itself. Qed.
End S.

(** For concrete documents. *)
Definition fronts (q : list pstep) : list (list pstep) := map (fun n => firstn n q) (seq 0 (S (length q))).
Lemma front_in r q : prefix r q -> In r (fronts q).
Proof.
  intros (z & ->). apply in_map_iff. exists (length r). split; [rewrite firstn_app, firstn_all, Nat.sub_diag; cbn; apply app_nil_r|].
  apply in_seq. rewrite app_length. lia.
Qed.
Definition tag_at (cs : list schema) (q : list pstep) : option (str * str) := match schema_at cs q with Some s => s_tag s | None => None end.
Definition rival_b (cs : list schema) (p r : list pstep) : bool :=
  match tag_at cs r with
  | None => false
  | Some (c, k') => existsb (fun t => Nat.leb (length r) (length t) && match tag_at cs t with Some (c1, k) => str_eqb c c1 && negb (str_eqb k k') | None => false end) (fronts p)
  end.
Lemma rival_by cs p r : rival cs p r -> rival_b cs p r = true.
Proof.
  intros (s & c & k' & t & st & k & _ & _ & Hs & Ht & Hp & Hl & Hst & Htt & Hk). unfold rival_b, tag_at. rewrite Hs, Ht. apply existsb_exists. exists t. split; [now apply front_in|].
  rewrite Hst, Htt, str_eqb_refl, Accept_proofs.str_neqb by exact Hk. cbn. rewrite andb_true_r. now apply Nat.leb_le.
Qed.
Lemma consistent_by cs (about : list pstep -> Prop) qs : (forall q, about q -> In q qs) ->
  forallb (fun q1 => forallb (fun q2 => forallb (fun r => negb (rival_b cs q1 r)) (fronts q2)) qs) qs = true -> consistent cs about.
Proof.
  intros Hin Hb q1 q2 r H1 H2 Hr Hri. rewrite forallb_forall in Hb. specialize (Hb q1 (Hin q1 H1)). rewrite forallb_forall in Hb. specialize (Hb q2 (Hin q2 H2)).
  rewrite forallb_forall in Hb. specialize (Hb r (front_in r q2 Hr)). now rewrite (rival_by cs q1 r Hri) in Hb.
Qed.
