(** Vocabulary for the property that documents with data in one case of each choice are accepted (C89). *)
From Verif Require Import PyStr PyVal Tree Spec_Tree.

(** Of the nodes that a document says something about, none belongs to another case than one on the way to another. *)
Definition consistent (cs : list schema) (about : list pstep -> Prop) : Prop :=
  forall q1 q2 r, about q1 -> about q2 -> prefix r q2 -> ~ rival cs q1 r.
