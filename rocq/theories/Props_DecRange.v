(** C93: ranges of decimal64. *)
From Coq Require Import QArith Qabs.
From Verif Require Import PyStr PyVal Restricted Spec_Types Spec_Defaults Spec_Native Spec_DecRange.
From Verif Require DecRange_proofs.
Local Open Scope Z_scope.

(** A leaf with ranges keeps a value if the number that is kept for it is in all of them, and refuses it otherwise.
    Missing: single numbers that are no doubles, more than two ranges for refusals, False (all refuted below). *)
Theorem C93_ranges_partial : forall O d levels v q, dlevels_wf d levels -> means v q -> in_reach d q -> exists w r, number w r /\ kept d q r /\
  (in_dlevels r levels -> leaf_assign O (LOne (dec_type d levels)) v = {| d_notified := true; d_out := Ok w |}) /\
  (~ in_dlevels r levels -> (length levels <= 2)%nat -> d_out (leaf_assign O (LOne (dec_type d levels)) v) = Raise ValueError).
Proof. exact DecRange_proofs.decimal_ranges. Qed.
Print Assumptions C93_ranges_partial.

Definition num (minus : bool) (w f : list Z) : bound := {| b_minus := minus; b_whole := w; b_fraction := f |}.
(** -1.25 .. max in a typedef of two fraction digits, -1.2 .. 3.14 | 7.5 in the leaf. *)
Definition ranges : list (list dpart) := [[DBetween (Some (num true [1] [2])) (Some (num false [3] [1; 4])) 1 0; DExactly (num false [7] [5])]; [DBetween (Some (num true [1] [2; 5])) None 0 0]].
Example C93_text : map (map dpart_text) ranges = [[lit "-1.2 ..3.14"; lit "7.5"]; [lit "-1.25..max"]].
Proof. vm_compute. reflexivity. Qed.
Lemma below_by b ds : forallb (fun d => (0 <=? d) && (d <? b)) ds = true -> all_below b ds.
Proof. intros H. rewrite forallb_forall in H. apply Forall_forall. intros x Hx. specialize (H x Hx). apply andb_prop in H as [H1 H2]. apply Z.leb_le in H1. apply Z.ltb_lt in H2. split; assumption. Qed.
Lemma bound_by b : match b_whole b with [] => false | _ => true end && forallb (fun d => (0 <=? d) && (d <? 10)) (b_whole b) && forallb (fun d => (0 <=? d) && (d <? 10)) (b_fraction b) = true -> bound_wf b.
Proof. intros H. apply andb_prop in H as [H H3]. apply andb_prop in H as [H1 H2]. split; [destruct (b_whole b); [discriminate|intros C; discriminate]|]. split; apply below_by; assumption. Qed.
Example C93_case : forall O, dlevels_wf (Some 2%nat) ranges /\
  d_out (leaf_assign O (LOne (dec_type (Some 2%nat) ranges)) (VStr (lit "3.141"))) = Ok (VDec 314 (-2)) /\
  d_out (leaf_assign O (LOne (dec_type (Some 2%nat) ranges)) (VFloat 15 (-1))) = Ok (VDec 750 (-2)) /\
  d_out (leaf_assign O (LOne (dec_type (Some 2%nat) ranges)) (VDec (-121) (-2))) = Raise ValueError /\
  d_out (leaf_assign O (LOne (dec_type (Some 2%nat) ranges)) (VStr (lit "-1.26"))) = Raise ValueError /\
  d_out (leaf_assign O (LOne (dec_type (Some 2%nat) ranges)) (VInt 7)) = Raise ValueError /\
  d_out (leaf_assign O (LOne (dec_type (Some 2%nat) ranges)) (VInt 0)) = Ok (VDec 0 (-2)).
Proof.
  intros O. split.
  { cbn [ranges dlevels_wf]. split; [|split; [|split; [|split; [|exact I]]]].
    - constructor; [exact I|]. constructor; [|constructor]. exists 15, (-1). split; [reflexivity|vm_compute; reflexivity].
    - constructor; [|constructor; [|constructor]]; cbn [dpart_bounds app]; repeat (apply Forall_cons || apply Forall_nil); (split; [apply bound_by; vm_compute; reflexivity|]); (split; [split; [cbn; auto|vm_compute; discriminate]|]); (constructor; [|constructor]); constructor; cbn [in_dpart]; (split; [vm_compute; discriminate|exact I]).
    - constructor; [exact I|constructor].
    - constructor; [|constructor]. cbn [dpart_bounds app]. constructor; [|constructor]. split; [apply bound_by; vm_compute; reflexivity|]. split; [split; [cbn; auto|vm_compute; discriminate]|constructor]. }
  split; [vm_compute; reflexivity|]. split; [vm_compute; reflexivity|]. split; [vm_compute; reflexivity|]. split; [vm_compute; reflexivity|]. split; [vm_compute; reflexivity|]. vm_compute; reflexivity.
Qed.

(** A leaf with the range "0.1" refuses 0.1: the value is compared with a float. *)
Theorem C93_single_refuted : forall O, exists b v, bound_wf b /\ number v (bound_value b) /\ in_dlevels (bound_value b) [[DExactly b]] /\
  d_out (leaf_assign O (LOne (dec_type None [[DExactly b]])) v) = Raise ValueError.
Proof.
  intros O. exists (num false [0] [1]), (VDec 1 (-1)). split; [apply bound_by; vm_compute; reflexivity|]. split; [constructor|]. split; [constructor; [|constructor]; constructor; cbn [in_dpart]; reflexivity|]. vm_compute; reflexivity.
Qed.
Print Assumptions C93_single_refuted.
Definition to10 : dpart := DBetween (Some (num false [0] [])) (Some (num false [1; 0] [])) 0 0.
Definition from1 : dpart := DBetween (Some (num false [1] [])) (Some (num false [1; 0] [])) 0 0.
(** A value that is outside the range of a typedef of a typedef becomes 0. *)
Theorem C93_three_refuted : forall O, exists levels v, dlevels_wf None levels /\ ~ in_dlevels 11 levels /\ number v 11 /\
  leaf_assign O (LOne (dec_type None levels)) v = {| d_notified := true; d_out := Ok (VDec 0 0) |} /\ ~ in_dlevels 0 levels.
Proof.
  intros O. exists [[from1]; [from1]; [from1]], (VInt 11). split.
  { assert (B : forall q ls, in_dlevels q ls -> in_dpart q from1 -> in_dlevels q ([from1] :: ls)) by (intros q ls H K; constructor; [constructor; exact K|exact H]).
    cbn [dlevels_wf]. assert (S : Forall (fun p => match p with DExactly b => double (bound_value b) | _ => True end) [from1]) by (constructor; [exact I|constructor]).
    assert (F : forall ls, (forall b, In b [num false [1] []; num false [1; 0] []] -> in_dlevels (bound_value b) ls) -> Forall (fun p => Forall (fun b => bound_wf b /\ bound_fits None b /\ in_dlevels (bound_value b) ls) (dpart_bounds p)) [from1]).
    { intros ls H. constructor; [|constructor]. constructor; [|constructor; [|constructor]]; (split; [apply bound_by; vm_compute; reflexivity|]); (split; [exact I|]); apply H; [left; reflexivity|right; left; reflexivity]. }
    assert (P : forall b, In b [num false [1] []; num false [1; 0] []] -> in_dpart (bound_value b) from1) by (intros b [<-|[<-|[]]]; cbn [from1 in_dpart]; split; vm_compute; discriminate).
    split; [exact S|]. split; [apply F; intros b Hb; apply B; [apply B; [constructor|apply P, Hb]|apply P, Hb]|]. split; [exact S|]. split; [apply F; intros b Hb; apply B; [constructor|apply P, Hb]|]. split; [exact S|]. split; [apply F; intros b Hb; constructor|exact I]. }
  split; [intros H; inversion H as [|? ? E _]; subst; apply Exists_cons in E as [E|E]; [destruct E as [_ C]; vm_compute in C; apply C; reflexivity|inversion E]|].
  split; [apply (NInt 11)|]. split; [vm_compute; reflexivity|]. intros H; inversion H as [|? ? E _]; subst; apply Exists_cons in E as [E|E]; [destruct E as [C _]; vm_compute in C; apply C; reflexivity|inversion E].
Qed.
Print Assumptions C93_three_refuted.
(** False passes the range of the leaf: only the range of its typedef is applied to it. *)
Theorem C93_false_refuted : forall O, exists levels, number (VBool false) 0 /\ ~ in_dlevels 0 levels /\ leaf_assign O (LOne (dec_type None levels)) (VInt 0) = {| d_notified := false; d_out := Raise ValueError |} /\
  leaf_assign O (LOne (dec_type None levels)) (VBool false) = {| d_notified := true; d_out := Ok (VDec 0 0) |}.
Proof.
  intros O. exists [[from1]; [to10]]. split; [apply (NBool false)|]. split; [intros H; inversion H as [|? ? E _]; subst; apply Exists_cons in E as [E|E]; [destruct E as [C _]; vm_compute in C; apply C; reflexivity|inversion E]|]. split; vm_compute; reflexivity.
Qed.
Print Assumptions C93_false_refuted.
