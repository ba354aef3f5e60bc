(** Property theorems about the extensions stored with the objects: C94. *)
From Coq Require Import String.
From Verif Require Import PyStr PyStr_facts PyVal Restricted SafeName Extensions Spec_Extensions.
From Verif Require Extensions_proofs.
Import ListNotations.

(* ------------------------------------------------------------------ C94 *)
(** With no module of a one-letter name among the interesting ones: every object has exactly the extensions of interesting
    modules that its statement gives, the last of each name; an entry has those of its list; without any [_extensions()]
    is None. *)
Theorem C94_partial : forall ints, (forall m, In m ints -> length m <> 1%nat) -> forall po top, apart top -> forall p ss, stands po top p ss ->
  exists es x, gather_all ints po top = Ok es /\ extensions_at es p = Some x /\
    (forall m n a, found x m n = Some a <-> says ints ss m n a) /\ (x = None <-> says_nothing ints ss).
Proof. exact Extensions_proofs.extensions_ok. Qed.
Print Assumptions C94_partial.

(** A list in a choice in a container, with extensions of two modules, one of them given twice. *)
Definition xt_ext (m n a : string) : sub := {| sb_kw := Ext (lit m) (lit n); sb_arg := Some (lit a) |}.
Definition xt_descr (a : string) : sub := {| sb_kw := Word 100 (lit "escription"); sb_arg := Some (lit a) |}.
Definition xt_subs : list sub := [xt_ext "tags" "owner" "x"; xt_descr "text"; xt_ext "tags" "owner" "y"; xt_ext "other" "owner" "z"; {| sb_kw := Ext (lit "tags") (lit "hidden"); sb_arg := None |}].
Definition xt_top : list ynode :=
  [NCont (lit "c") [xt_ext "other" "note" "n"] false
     [NChoice [[NLeaf (lit "a") []]; [NList (lit "in") xt_subs [NLeaf (lit "k") [xt_ext "tags" "key" "1"]]]]]].
Definition xt_ints : list str := [lit "tags"].
Definition xt_entry : list xstep := [Child (safe_name (lit "c")); Child (safe_name (lit "in")); AnEntry].
Lemma xt_within : within [NChoice [[NLeaf (lit "a") []]; [NList (lit "in") xt_subs [NLeaf (lit "k") [xt_ext "tags" "key" "1"]]]]] (NList (lit "in") xt_subs [NLeaf (lit "k") [xt_ext "tags" "key" "1"]]).
Proof. apply WCase with [[NLeaf (lit "a") []]; [NList (lit "in") xt_subs [NLeaf (lit "k") [xt_ext "tags" "key" "1"]]]] [NList (lit "in") xt_subs [NLeaf (lit "k") [xt_ext "tags" "key" "1"]]]; [now left|right; now left|apply WHere; now left]. Qed.
Lemma nodup_strs (l : list str) : (fix go l := match l with [] => true | a :: l' => negb (str_in a l') && go l' end)%bool l = true -> NoDup l.
Proof.
  induction l as [|a l IH]; intros H; [constructor|]. apply andb_prop in H. destruct H as [H1 H2]. constructor; [|auto]. intros Hi. apply Extensions_proofs.in_str in Hi. rewrite Hi in H1. discriminate.
Qed.
Lemma xt_levels l : level xt_top l -> In (map safe_name (flat_map data_names l)) (map (fun k => map safe_name (flat_map data_names k)) [xt_top; [NChoice [[NLeaf (lit "a") []]; [NList (lit "in") xt_subs [NLeaf (lit "k") [xt_ext "tags" "key" "1"]]]]]; [NLeaf (lit "k") [xt_ext "tags" "key" "1"]]]).
Proof.
  intros H. apply (in_map (fun k => map safe_name (flat_map data_names k))).
  induction H as [|l n ss pr ks _ IH Hw|l n ss ks _ IH Hw]; [now left| |]; destruct IH as [<-|[<-|[<-|[]]]];
    inversion Hw as [? ? Hi|? cases c ? Hi Hc Hw']; subst; destruct Hi as [E|[]]; try discriminate E.
  - injection E as _ _ _ <-. right. now left.
  - injection E as <-. destruct Hc as [<-|[<-|[]]]; inversion Hw' as [? ? Hi|? cases c ? Hi]; subst; destruct Hi as [E|[]]; discriminate E.
  - injection E as <-. destruct Hc as [<-|[<-|[]]]; inversion Hw' as [? ? Hi|? cases c ? Hi]; subst; destruct Hi as [E|[]]; try discriminate E. injection E as _ _ <-. right. right. now left.
Qed.
Example C94_case :
  (forall m, In m xt_ints -> length m <> 1%nat) /\ apart xt_top /\ stands false xt_top xt_entry xt_subs /\
  says xt_ints xt_subs (lit "tags") (lit "owner") (Some (lit "y")) /\ says xt_ints xt_subs (lit "tags") (lit "hidden") None /\
  (exists es, gather_all xt_ints false xt_top = Ok es /\
     extensions_at es xt_entry = Some (Some [(lit "tags", [(lit "owner", Some (lit "y")); (lit "hidden", None)])]) /\
     extensions_at es [Child (lit "c")] = Some None).
Proof.
  split; [intros m [<-|[]]; vm_compute; discriminate|].
  split. { intros l Hl. apply xt_levels in Hl. destruct Hl as [<-|[<-|[<-|[]]]]; apply nodup_strs; vm_compute; reflexivity. }
  split. { apply StInCont with [xt_ext "other" "note" "n"] false [NChoice [[NLeaf (lit "a") []]; [NList (lit "in") xt_subs [NLeaf (lit "k") [xt_ext "tags" "key" "1"]]]]]; [apply WHere; now left|].
    apply StEntry with [NLeaf (lit "k") [xt_ext "tags" "key" "1"]]; [exact xt_within|discriminate]. }
  split. { split; [now left|]. exists [xt_ext "tags" "owner" "x"; xt_descr "text"], [xt_ext "other" "owner" "z"; {| sb_kw := Ext (lit "tags") (lit "hidden"); sb_arg := None |}]. split; [reflexivity|]. intros b [E|[E|[]]]; apply (f_equal sb_kw) in E; discriminate E. }
  split. { split; [now left|]. exists [xt_ext "tags" "owner" "x"; xt_descr "text"; xt_ext "tags" "owner" "y"; xt_ext "other" "owner" "z"], []. split; [reflexivity|]. intros b []. }
  eexists. split; [vm_compute; reflexivity|]. split; vm_compute; reflexivity.
Qed.

(** A module with a name of one letter: the other statements of the node that begin with this letter are taken for its
    extensions, under their second letter. *)
Theorem C94_word_refuted : exists ints top p ss es x, apart top /\ stands false top p ss /\ says_nothing ints ss /\ gather_all ints false top = Ok es /\ extensions_at es p = Some (Some x) /\
  found (Some x) (lit "d") (lit "e") = Some (Some (lit "text")).
Proof.
  exists [lit "d"], [NLeaf (lit "l") [xt_descr "text"]], [Child (lit "l")], [xt_descr "text"]. eexists. eexists.
  split. { intros l Hl. assert (l = [NLeaf (lit "l") [xt_descr "text"]]) as ->; [|apply nodup_strs; vm_compute; reflexivity]. induction Hl as [|l n ss pr ks _ IH Hw|l n ss ks _ IH Hw]; [reflexivity| |]; subst; inversion Hw as [? ? Hi|? cases c ? Hi]; subst; destruct Hi as [E|[]]; discriminate E. }
  split; [apply (StLeaf false _ (lit "l")); apply WHere; now left|].
  split; [intros m n a [E|[]]; apply (f_equal sb_kw) in E; discriminate E|].
  split; [vm_compute; reflexivity|]. split; vm_compute; reflexivity.
Qed.
Print Assumptions C94_word_refuted.
(** Of several statements of one extension only the last is kept. *)
Theorem C94_repeated_refuted : exists ints top p ss es x, stands false top p ss /\ In (xt_ext "tags" "owner" "x") ss /\ In (lit "tags") ints /\ gather_all ints false top = Ok es /\ extensions_at es p = Some (Some x) /\
  x = [(lit "tags", [(lit "owner", Some (lit "y"))])].
Proof.
  exists [lit "tags"], [NLeaf (lit "l") [xt_ext "tags" "owner" "x"; xt_ext "tags" "owner" "y"]], [Child (lit "l")], [xt_ext "tags" "owner" "x"; xt_ext "tags" "owner" "y"]. eexists. eexists.
  split; [apply (StLeaf false _ (lit "l")); apply WHere; now left|]. split; [now left|]. split; [now left|]. split; [vm_compute; reflexivity|]. split; [vm_compute; reflexivity|]. vm_compute. reflexivity.
Qed.
Print Assumptions C94_repeated_refuted.
