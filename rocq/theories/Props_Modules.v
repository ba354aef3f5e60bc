(** C96: several modules with one path helper, and loading with a path helper. *)
From Verif Require Import PyStr PyVal PathHelper Spec_Path RegTree Spec_RegTree RegTree_proofs Modules Spec_Modules Modules_proofs Props_Path Props_RegTree.

(** Whatever objects of whatever modules were made and used: what is in the trees that the program now has is found.
    Missing: as for [C65_found_partial]; modules with the same name at the top. *)
Theorem C96_found_partial : forall uid mods es, fresh uid -> modules_ok mods -> Forall (fine_event mods) es ->
  forall m cs kids, nth_error mods m = Some cs -> nth_error (snd (happen_all uid mods es)) m = Some (Some kids) ->
  forall q o, in_tree cs kids q o -> is_leaf_list o = false -> forall path q', same_place q q' -> Forall2 spells path q' ->
  exists o', get [] path (w_help (fst (happen_all uid mods es))) = Ok [Some o'] /\ agrees o' o.
Proof. intros uid mods es Hu Hm. exact (Modules_proofs.modules_found uid Hu mods Hm es). Qed.
Print Assumptions C96_found_partial.
(** A new object, and so the one that a document is loaded into, has no data, whatever an earlier one had. *)
Theorem C96_new_partial : forall uid mods es m cs, fresh uid -> modules_ok mods -> Forall (fine_event mods) es -> nth_error mods m = Some cs ->
  exists kids, nth_error (snd (happen_all uid mods (es ++ [New m]))) m = Some (Some kids) /\ Forall2 (blank (w_heap (fst (happen_all uid mods (es ++ [New m]))))) cs kids.
Proof. intros uid mods es m cs Hu Hm. exact (Modules_proofs.module_again uid Hu mods Hm es m cs). Qed.
Print Assumptions C96_new_partial.

Definition two : list (list rschema) := [net; box].
Lemma two_ok : modules_ok two.
Proof.
  split; [apply nodup_by; vm_compute; reflexivity|]. intros cs s [<-|[<-|[]]]; [apply net_ok|apply box_ok].
Qed.
Definition add_box (k : str) : list rstep * rop := ([Kid 0; Kid 0], Add [k] [Good (VStr k)]).
Definition two_events : list event := load_events 0 net_fine ++ load_events 1 [add_box (lit "a")] ++ load_events 1 [add_box (lit "b")].
Lemma add_fine k : key_textb k = true -> fine box (add_box k).
Proof. intros H n keys cs' E. injection E as _ <- _. split; [reflexivity|]. constructor; [now apply key_text_by|constructor]. Qed.
Lemma load_fine mods m cs os : nth_error mods m = Some cs -> Forall (fine cs) os -> Forall (fine_event mods) (load_events m os).
Proof.
  intros E H. apply Forall_cons; [exact I|]. apply Forall_map. eapply Forall_impl; [|exact H]. intros [p o] Ho cs' E'. rewrite E in E'. injection E' as <-. exact Ho.
Qed.
Lemma two_fine : Forall (fine_event two) two_events.
Proof.
  apply Forall_app. split; [apply (load_fine two 0 net); [reflexivity|exact net_fine_ok]|].
  apply Forall_app. split; (apply (load_fine two 1 box); [reflexivity|]; apply Forall_cons; [apply add_fine; vm_compute; reflexivity|apply Forall_nil]).
Qed.
Example C96_case : fresh uids /\ modules_ok two /\ Forall (fine_event two) two_events /\
  let wt := happen_all uids two two_events in
  get [] [lit "interfaces"; part_if; lit "config"; lit "descr"] (w_help (fst wt)) = Ok [Some (PLeaf (S_ "e"))] /\
  (exists id, nth_error (snd wt) 1 = Some (Some [TCont id [TList [([lit "b"], (S id, [TLeaf (S_ "b"); TLeaf (VStr [])]))]]]) /\
     get [] [lit "c"; box_part (lit "b")] (w_help (fst wt)) = Ok [Some (PNode (S id))]) /\
  exists kids, nth_error (snd (happen_all uids two (two_events ++ [New 0]))) 0 = Some (Some (TCont 19 [TList []] :: kids)).
Proof.
  split; [exact uids_fresh|]. split; [exact two_ok|]. split; [exact two_fine|]. cbv zeta. split; [vm_compute; reflexivity|]. split.
  - eexists. split; vm_compute; reflexivity.
  - eexists. vm_compute. reflexivity.
Qed.

(** A second document that is loaded with the helper does not update the tree of the first: its data is not there. *)
Theorem C96_update_refuted : exists mods m cs os os' q o kids kids', modules_ok mods /\ nth_error mods m = Some cs /\ Forall (fine cs) os /\ Forall (fine cs) os' /\
  nth_error (snd (happen_all uids mods (load_events m os))) m = Some (Some kids) /\ in_tree cs kids q o /\
  nth_error (snd (happen_all uids mods (load_events m os ++ load_events m os'))) m = Some (Some kids') /\ forall o', ~ in_tree cs kids' q o'.
Proof.
  exists two, 1%nat, box, [add_box (lit "a")], [], (box_entry (lit "a")). eexists _, _, _. split; [exact two_ok|]. split; [reflexivity|].
  split; [apply Forall_cons; [apply add_fine; vm_compute; reflexivity|apply Forall_nil]|]. split; [apply Forall_nil|]. split; [vm_compute; reflexivity|]. split; [|split; [vm_compute; reflexivity|]].
  - eapply (in_cont_below _ _ 0); [reflexivity|reflexivity|]. eapply (in_entry _ _ 0 (lit "l") [lit "k"] _ _ (lit "a" :: nil)); [reflexivity|reflexivity|left; reflexivity].
  - intros o'. apply box_empty.
Qed.
Print Assumptions C96_update_refuted.
(** It stays with the helper: the entry of the first tree is found, in place of none. *)
Theorem C96_stale_refuted : exists mods m cs os os' path q o kids', modules_ok mods /\ nth_error mods m = Some cs /\ Forall (fine cs) os /\ Forall (fine cs) os' /\ Forall2 spells path q /\
  nth_error (snd (happen_all uids mods (load_events m os ++ load_events m os'))) m = Some (Some kids') /\ (forall o', ~ in_tree cs kids' q o') /\
  get [] path (w_help (fst (happen_all uids mods (load_events m os ++ load_events m os')))) = Ok [Some o].
Proof.
  exists two, 1%nat, box, [add_box (lit "a")], [], [lit "c"; box_part (lit "a")], (box_entry (lit "a")). eexists _, _. split; [exact two_ok|]. split; [reflexivity|].
  split; [apply Forall_cons; [apply add_fine; vm_compute; reflexivity|apply Forall_nil]|]. split; [apply Forall_nil|]. split; [apply box_spelled|]. split; [vm_compute; reflexivity|]. split; [intros o'; apply box_empty|vm_compute; reflexivity].
Qed.
Print Assumptions C96_stale_refuted.
