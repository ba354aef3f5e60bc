(** Vocabulary for the property that what is written for one tree can be loaded into another (C90). *)
From Verif Require Import PyStr PyVal Tree Spec_Tree Serialise Spec_Accept Spec_AcceptJson Xml Spec_AcceptXml.

(** What a node of a tree holds: in the words in which documents in the default format ... *)
Inductive holds : schema -> obj -> told -> Prop :=
| HoldsValue i lt d yt k v : holds (SLeaf i lt d yt k) (OLeaf true v) (ToldValue v)
| HoldsMembers i ts yt c l : l <> [] -> holds (SLeafList i ts yt) (OLeafList c l) (ToldMembers l)
| HoldsPresent i cs c kids : holds (SCont i true cs) (OCont c true kids) ToldPresent.
(** ... and in the IETF format say something.  The values of keys are in the keys of the entries. *)
Inductive holds_ietf : schema -> obj -> want -> Prop :=
| HoldsLeaf i lt d yt v : holds_ietf (SLeaf i lt d yt false) (OLeaf true v) (WLeaf v)
| HoldsList i ts yt l : l <> [] -> holds_ietf (SLeafList i ts yt) (OLeafList true l) (WLeafList l)
| HoldsThere i cs c kids : holds_ietf (SCont i true cs) (OCont c true kids) WPresent.
(** ... and in XML. *)
Inductive holds_xml : schema -> obj -> shown -> Prop :=
| HoldsShown i lt d yt v : holds_xml (SLeaf i lt d yt false) (OLeaf true v) (ShownValue v)
| HoldsMember i ts yt c l v : In v l -> holds_xml (SLeafList i ts yt) (OLeafList c l) (ShownMember [v])
| HoldsElement i cs c kids : holds_xml (SCont i true cs) (OCont c true kids) ShownPresent.
