(** Vocabulary: programs whose trees survive being written and read (C73). *)
From Verif Require Import PyStr PyVal Restricted Spec_Types Spec_Lists IntTypes StrTypes MemberTypes YList Tree Spec_Tree Serialise Spec_Serialise.
Local Open Scope Z_scope.

(** Schemas: leaf-lists have a single member type; lists have keys, which are different and leaves marked as keys. *)
Inductive suited : schema -> Prop :=
| SuLeaf i w d yt k : suited (SLeaf i (ltype_of w) d yt k)
| SuLeafList i t yt : mtype_wf t -> yt <> lit "empty" -> suited (SLeafList i [pty_of t] yt)
| SuCont i pr cs : Forall suited cs -> suited (SCont i pr cs)
| SuList i keys od cs : keys <> [] -> NoDup keys -> Forall suited cs ->
    (forall s, In s cs -> In (e_py (s_info s)) keys -> is_key s = true) -> suited (SList i keys od cs).

(** The argument [a] stands for [v]: numbers and booleans may be given as texts. *)
Definition stands (t : mtype) (a v : pyval) : Prop :=
  match t with
  | MInt _ => exists z, v = VInt z /\ (a = VInt z \/ a = VStr (print_Z z))
  | MBool => exists b, v = VBool b /\ bool_spells a b
  | _ => spelled t v /\ a = v
  end.
(** The argument may be refused, but if not it is one that survives. *)
Definition given (O : oracle) (f : fmt) (t : mtype) (yt : str) (a v : pyval) : Prop :=
  mtype_wf t /\ shallow t /\ type_name (WVal t) yt /\ stands t a v /\ (is_value (o_match O) t v -> value_ok O f t yt v).
Definition given_member (O : oracle) (f : fmt) (t : mtype) (yt : str) (a : pyval) : Prop :=
  spelled t a /\ (is_value (o_match O) t a -> member_ok O f t yt a).

(** The argument [a] is the value [v]; sets of bits are given as texts. *)
Definition own_text (w : wtype) (a v : pyval) : Prop :=
  match w with WBits _ => exists l, v = VBits l /\ a = VStr (join [32%N] l) | _ => a = v end.

(** [a] is given for the key leaf named [n]; it stands for a [v] with [R]. *)
Definition key_arg (O : oracle) (f : fmt) (cs : list schema) (n : str) (a : pyval) (R : mtype -> str -> pyval -> Prop) : Prop :=
  exists j i t d yt v, nth_error cs j = Some (SLeaf i (LOne (pty_of t)) d yt true) /\ e_py i = n /\ given O f t yt a v /\ R t yt v.
Definition key_texts (O : oracle) (f : fmt) (keys : list str) (cs : list schema) (parts : list str) : Prop :=
  match f, keys with
  | Ietf, [n] => exists p, parts = [p] /\ key_arg O Ietf cs n (VStr p) (fun t yt v => ietf_single t yt v (VStr p))
  | Ietf, _ => last (join [32%N] parts) 0%N <> 32%N /\ Forall no_space parts /\
      Forall2 (fun n p => key_arg O Ietf cs n (VStr p) (fun t yt v => ietf_text t yt v p)) keys parts
  | Plain, _ => match parts with [p] => p <> [] | _ => Forall no_space parts end /\
      Forall2 (fun n p => key_arg O Plain cs n (VStr p) (fun t yt v => key_part t v p)) keys parts
  end.
(** Keys of new entries: the texts of the key leaves, or (IETF format) the value of the only one. *)
Definition key_given (O : oracle) (f : fmt) (keys : list str) (cs : list schema) (k : pyval) : Prop :=
  (exists parts, k = VStr (join [32%N] parts) /\ key_texts O f keys cs parts) \/
  (exists n, f = Ietf /\ keys = [n] /\ key_arg O Ietf cs n k (fun t yt v => ietf_single t yt v k)).

(** Operations on a node.  Not among them: assignments of whole objects, setting or clearing key leaves, and (IETF
    format) taking back the presence of a container. *)
Inductive proper (O : oracle) (f : fmt) : schema -> op -> Prop :=
| PrLeaf i t d yt k w a v : given O f t yt a v -> (k = true -> w <> Priv true) ->
    proper O f (SLeaf i (LOne (pty_of t)) d yt k) (ASet w (AVal a))
| PrOwn i t d yt k w a v : type_name t yt -> leaf_ok O f t yt v -> own_text t a v -> (k = true -> w <> Priv true) ->
    proper O f (SLeaf i (ltype_of t) d yt k) (ASet w (AVal a))
| PrUnset s : is_key s = false -> proper O f s AUnset
| PrMembers i t yt w a : mtype_wf t -> Forall (given_member O f t yt) (match a with VList vs => vs | _ => [a] end) ->
    proper O f (SLeafList i [pty_of t] yt) (ASet w (AVal a))
| PrMember i t yt lo : mtype_wf t -> Forall (given_member O f t yt) (op_args lo) -> proper O f (SLeafList i [pty_of t] yt) (ALeafList lo)
| PrPresent i pr cs b : (f = Ietf -> b = true) -> proper O f (SCont i pr cs) (APresent b)
| PrEmpty i keys od cs w a : proper O f (SList i keys od cs) (ASet w (AVal a))
| PrAdd i keys od cs uid k : key_given O f keys cs k -> proper O f (SList i keys od cs) (AList uid (YAdd k))
| PrAddKw i keys od cs uid kw parts : Forall2 (fun n p => kw_get n kw = Some (VStr p)) keys parts -> key_texts O f keys cs parts ->
    proper O f (SList i keys od cs) (AList uid (YAddKw kw))
| PrDelete i keys od cs uid k : proper O f (SList i keys od cs) (AList uid (YDelete k))
| PrDeleteKw i keys od cs uid kw : proper O f (SList i keys od cs) (AList uid (YDeleteKw kw)).

(** A program: each operation is proper for the node it is applied to. *)
Definition program (O : oracle) (f : fmt) (cs : list schema) (os : list (list pstep * op)) : Prop :=
  Forall (fun po => exists s, schema_at cs (fst po) = Some s /\ proper O f s (snd po)) os.
