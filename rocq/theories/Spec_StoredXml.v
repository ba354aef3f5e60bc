(** Vocabulary: programs whose trees survive being written as XML and read (C73). *)
From Verif Require Import PyStr PyVal Restricted Spec_Types Spec_Lists IntTypes StrTypes MemberTypes YList Tree Spec_Tree Serialise Spec_Serialise
  Xml Spec_Xml Spec_Stored.

Section X.
Context (O : oracle) (ft : str -> option pyval) (im ins : einfo -> str -> option str).
(** Arguments may be refused, but those that are not survive. *)
Definition xgiven (i : einfo) (t : mtype) (yt : str) (a v : pyval) : Prop :=
  mtype_wf t /\ shallow t /\ type_name (WVal t) yt /\ stands t a v /\ (is_value (o_match O) t v -> xleaf_ok O im ins i (WVal t) yt v).
Definition xgiven_member (t : mtype) (yt : str) (a : pyval) : Prop :=
  spelled t a /\ (is_value (o_match O) t a -> xmember_ok O ft t yt a).
(** The texts of the key leaves of a new entry. *)
Definition xkey_texts (keys : list str) (cs : list schema) (parts : list str) : Prop :=
  Forall2 (fun n p => key_arg O Ietf cs n (VStr p) (fun t yt v => yt <> lit "identityref" /\ xkey_part O ft t v p)) keys parts.

(** As [proper] of Spec_Stored.v.  Texts with spaces in them can be keys if given by keyword. *)
Inductive xproper : schema -> op -> Prop :=
| XpLeaf i t d yt w a v : xgiven i t yt a v -> xproper (SLeaf i (LOne (pty_of t)) d yt false) (ASet w (AVal a))
| XpOwn i t d yt w a v : type_name t yt -> xleaf_ok O im ins i t yt v -> own_text t a v -> xproper (SLeaf i (ltype_of t) d yt false) (ASet w (AVal a))
| XpKey i lt d yt w a : w <> Priv true -> xproper (SLeaf i lt d yt true) (ASet w (AVal a))
| XpUnset s : is_key s = false -> xproper s AUnset
| XpMembers i t yt w a : mtype_wf t -> yt <> lit "identityref" -> Forall (xgiven_member t yt) (match a with VList vs => vs | _ => [a] end) ->
    xproper (SLeafList i [pty_of t] yt) (ASet w (AVal a))
| XpMember i t yt lo : mtype_wf t -> yt <> lit "identityref" -> Forall (xgiven_member t yt) (op_args lo) -> xproper (SLeafList i [pty_of t] yt) (ALeafList lo)
| XpPresent i pr cs : xproper (SCont i pr cs) (APresent true)
| XpEmpty i keys od cs w a : xproper (SList i keys od cs) (ASet w (AVal a))
| XpAdd i keys od cs uid parts : match parts with [_] => True | _ => Forall no_space parts end -> xkey_texts keys cs parts ->
    xproper (SList i keys od cs) (AList uid (YAdd (VStr (join [32%N] parts))))
| XpAddKw i keys od cs uid kw parts : Forall2 (fun n p => kw_get n kw = Some (VStr p)) keys parts -> xkey_texts keys cs parts ->
    xproper (SList i keys od cs) (AList uid (YAddKw kw))
| XpDelete i keys od cs uid k : xproper (SList i keys od cs) (AList uid (YDelete k))
| XpDeleteKw i keys od cs uid kw : xproper (SList i keys od cs) (AList uid (YDeleteKw kw)).

Definition xprogram (cs : list schema) (os : list (list pstep * op)) : Prop :=
  Forall (fun po => exists s, schema_at cs (fst po) = Some s /\ xproper s (snd po)) os.
End X.
