(** Property theorems about leaf-lists and lists: C20-C26, C61. *)
From Verif Require Import PyStr PyVal Restricted IntTypes Spec_Types Spec_Lists TypedList MemberTypes YList.
From Verif Require Member_proofs TypedList_proofs YList_proofs.
From Coq Require Import Lia.
Local Open Scope Z_scope.

(* ------------------------------------------------------------------ C20 *)
(** Full statement: after any operations every member of a leaf-list is a value of one of its
    types.  False: the Python value False gets past the inner range of a typedef chain. *)
Theorem C20_members_typed_refuted : forall O, exists t v w,
  mtype_wf t /\ ~ is_value (o_match O) t w /\
  tl_op O [pty_of t] true [] (LAppend v) = ([w], Ok tt).
Proof.
  intros O. exists (MInt [[Between (Some 5) (Some 10) 0 0]; [Between (Some 0) (Some 255) 0 0]]), (VBool false), (VInt 0).
  split; [|split].
  - split; [discriminate|]. cbn [levels_wf]. split; [repeat constructor|]. split.
    + repeat constructor; cbn; lia.
    + split; [repeat constructor|]. split; [repeat constructor|exact I].
  - intros (z & Hz & Hl). injection Hz as <-. inversion Hl as [|? ? H]; subst. inversion H as [? ? H'|? ? H']; subst; [cbn in H'; lia|inversion H'].
  - vm_compute. reflexivity.
Qed.
Print Assumptions C20_members_typed_refuted.

(** Missing: for types with several levels, the argument False (and for strings also lists,
    dicts, bytes and sets as arguments); strings with several restrictions on an outer level
    (C08); bits (C61), leafref and union members. *)
Theorem C20_members_typed_partial : forall O ts l os,
  Forall mtype_wf ts ->
  Forall (fun o => Forall (fun v => forall t, In t ts -> arg_ok t v) (op_args o)) os ->
  Forall (fun w => Exists (fun t => is_value (o_match O) t w) ts) l ->
  Forall (fun w => Exists (fun t => is_value (o_match O) t w) ts) (tl_run O (map pty_of ts) true l os).
Proof. exact TypedList_proofs.types_safe. Qed.
Print Assumptions C20_members_typed_partial.

(** The same for assigning a whole list (or a single value). *)
Theorem C20_assigned_typed_partial : forall O ts v l,
  Forall mtype_wf ts ->
  Forall (fun a => forall t, In t ts -> arg_ok t a) (match v with VList vs => vs | _ => [v] end) ->
  tl_init O (map pty_of ts) true v = Ok l ->
  Forall (fun w => Exists (fun t => is_value (o_match O) t w) ts) l.
Proof. exact TypedList_proofs.init_safe. Qed.
Print Assumptions C20_assigned_typed_partial.

Example C20_case : forall O,
  let ts := [MInt [[Between (Some 0) (Some 255) 0 0]]; MEnum [lit "up"; lit "down"]] in
  Forall mtype_wf ts /\
  tl_run O (map pty_of ts) true []
    [LAppend (VStr (lit "7")); LAppend (VStr (lit "left")); LInsert 0 (VStr (lit "up")); LExtend [VInt 3; VInt 300; VInt 4]]
    = [VStr (lit "up"); VInt 7; VInt 3].
Proof.
  intros O. cbv zeta. split.
  - constructor; [|constructor; [exact I|constructor]]. split; [discriminate|]. cbn [levels_wf].
    split; [repeat constructor|]. split; [repeat constructor|exact I].
  - vm_compute. reflexivity.
Qed.

(* ------------------------------------------------------------------ C21 *)
(** Full statement: a leaf-list never holds two equal members.  False: membership is tested
    before the value is converted. *)
Theorem C21_members_unique_refuted : forall O, exists t os,
  mtype_wf t /\ ~ all_distinct (tl_run O [pty_of t] true [] os).
Proof.
  intros O. exists (MInt [[Between (Some 0) (Some 255) 0 0]]), [LAppend (VInt 1); LAppend (VStr (lit "1"))]. split.
  - split; [discriminate|]. cbn [levels_wf]. split; [repeat constructor|]. split; [repeat constructor|exact I].
  - intros H. specialize (H 0%nat 1%nat (VInt 1) (VInt 1)).
    assert (E : tl_run O [pty_of (MInt [[Between (Some 0) (Some 255) 0 0]])] true [] [LAppend (VInt 1); LAppend (VStr (lit "1"))]
                = [VInt 1; VInt 1]) by (vm_compute; reflexivity).
    rewrite E in H. discriminate (H eq_refl eq_refl ltac:(discriminate)).
Qed.
Print Assumptions C21_members_unique_refuted.

(** Missing: arguments not written as values of the member type (a number given as text, ...),
    and several member types. *)
Theorem C21_members_unique_partial : forall O t l os,
  mtype_wf t -> Forall (fun o => Forall (spelled t) (op_args o)) os -> all_distinct l ->
  all_distinct (tl_run O [pty_of t] true l os).
Proof. exact TypedList_proofs.unique_spelled. Qed.
Print Assumptions C21_members_unique_partial.

Theorem C21_assigned_unique_partial : forall O t v l,
  mtype_wf t -> Forall (spelled t) (match v with VList vs => vs | _ => [v] end) ->
  tl_init O [pty_of t] true v = Ok l -> all_distinct l.
Proof. exact TypedList_proofs.unique_init. Qed.
Print Assumptions C21_assigned_unique_partial.

Example C21_case : forall O,
  tl_run O [pty_of MText] true []
    [LExtend [VStr (lit "a"); VStr (lit "b"); VStr (lit "a")]; LSetItem 0 (VStr (lit "b")); LSetItem (-1) (VStr (lit "c"))]
    = [VStr (lit "a"); VStr (lit "c"); VStr (lit "b")].
Proof. intros O. vm_compute. reflexivity. Qed.

(* ------------------------------------------------------------------ C22 *)
(** Every operation on a leaf-list, whatever its arguments and outcome, is a step of the sequence
    specification [seq_step]; in particular a failing one leaves the members alone (except the
    part of an extend before the failure). *)
Theorem C22_sequence : forall O ts l o,
  seq_step (member_value O ts) l o (fst (tl_op O ts true l o)) (snd (tl_op O ts true l o)).
Proof. exact TypedList_proofs.op_step. Qed.
Print Assumptions C22_sequence.

(** [member_value] is what the first accepting type makes of the argument. *)
Theorem C22_member_type : forall O ts v w, member_value O ts v = Some w <->
  exists ts1 t ts2, ts = ts1 ++ t :: ts2 /\ Forall (fun t' => member_try O t' v = None) ts1 /\ member_try O t v = Some w.
Proof. exact TypedList_proofs.member_first. Qed.
Print Assumptions C22_member_type.

Example C22_case : forall O, tl_op O [TStr] true [VStr (lit "a"); VStr (lit "b"); VStr (lit "c")] (LSetItem (-2) (VStr (lit "x")))
  = ([VStr (lit "a"); VStr (lit "x"); VStr (lit "b"); VStr (lit "c")], Ok tt).
Proof. intros O. vm_compute. reflexivity. Qed.

(* ------------------------------------------------------------------ C23 *)
(** A list with keys is an insertion-ordered map, whatever its entries are: adding appends one
    entry under a key that was absent. *)
Theorem C23_add : forall A E O keys mk mkv (mk0 : A) ext uid ms k ms' (ev : list E),
  keys <> [] -> yl_op O keys mk mkv mk0 ext uid ms (YAdd k) = (ms', ev, Ok tt) ->
  exists a kd, mk kd = (ev, Ok a) /\ key_dict keys k = Ok kd /\ map_add k a ms ms'.
Proof. exact (fun A E O keys mk mkv mk0 ext => @YList_proofs.add_key A E O keys mk mkv mk0 ext). Qed.
Print Assumptions C23_add.

(** Adding an existing key is a KeyError without effect. *)
Theorem C23_add_existing : forall A E O keys mk mkv (mk0 : A) ext uid ms k,
  hashable k = true -> has_key ms k ->
  yl_op (E := E) O keys mk mkv mk0 ext uid ms (YAdd k) = (ms, [], Raise KeyError).
Proof. exact (fun A E O keys mk mkv mk0 ext => @YList_proofs.add_existing A E O keys mk mkv mk0 ext). Qed.
Print Assumptions C23_add_existing.

(** Adding by keywords does the same with the joined texts of the values as the key. *)
Theorem C23_add_keyword : forall A E O keys mk mkv (mk0 : A) ext uid ms kw ms' (ev : list E),
  kw <> [] -> yl_op O keys mk mkv mk0 ext uid ms (YAddKw kw) = (ms', ev, Ok tt) ->
  exists a kd, mk kd = (ev, Ok a) /\ kw_keys keys kw = Ok kd /\
    map_add (VStr (join [32%N] (map (fun p => py_str O (snd p)) kd))) a ms ms'.
Proof. exact (fun A E O keys mk mkv mk0 ext => @YList_proofs.add_kw A E O keys mk mkv mk0 ext). Qed.
Print Assumptions C23_add_keyword.

(** Deleting removes exactly that entry, or is a KeyError without effect if it is absent. *)
Theorem C23_delete : forall A E O keys mk mkv (mk0 : A) ext uid ms k ms' (ev : list E),
  all_distinct (map fst ms) -> yl_op O keys mk mkv mk0 ext uid ms (YDelete k) = (ms', ev, Ok tt) ->
  map_remove k ms ms' /\ ~ has_key ms' k.
Proof.
  exact (fun A E O keys mk mkv mk0 ext uid ms k ms' ev H =>
    @YList_proofs.delete_key A E O keys mk mkv mk0 ext uid ms k ms' ev (proj2 (YList_proofs.all_distinct_iff ms) H)).
Qed.
Print Assumptions C23_delete.

Theorem C23_delete_iff : forall A E O keys mk mkv (mk0 : A) ext uid ms k, hashable k = true ->
  (has_key ms k -> exists ms', yl_op (E := E) O keys mk mkv mk0 ext uid ms (YDelete k) = (ms', [], Ok tt)) /\
  (~ has_key ms k -> yl_op (E := E) O keys mk mkv mk0 ext uid ms (YDelete k) = (ms, [], Raise KeyError)).
Proof.
  exact (fun A E O keys mk mkv mk0 ext uid ms k H =>
    conj (@YList_proofs.delete_present A E O keys mk mkv mk0 ext uid ms k H)
         (@YList_proofs.delete_absent A E O keys mk mkv mk0 ext uid ms k H)).
Qed.
Print Assumptions C23_delete_iff.

(** Index assignment replaces the entry in place or appends it. *)
Theorem C23_setitem : forall A E O keys mk mkv (mk0 : A) ext uid ms k a ms' (ev : list E),
  keys <> [] -> yl_op O keys mk mkv mk0 ext uid ms (YSet k a) = (ms', ev, Ok tt) ->
  exists a' kd, mkv a kd = (ev, Ok a') /\ key_dict keys k = Ok kd /\ (map_replace k a' ms ms' \/ map_add k a' ms ms').
Proof. exact (fun A E O keys mk mkv mk0 ext => @YList_proofs.set_key A E O keys mk mkv mk0 ext). Qed.
Print Assumptions C23_setitem.

(** No operation that raises changes the entries. *)
Theorem C23_failure : forall A E O keys mk mkv (mk0 : A) ext uid ms o ms' (ev : list E) e,
  yl_op O keys mk mkv mk0 ext uid ms o = (ms', ev, Raise e) -> ms' = ms.
Proof. exact (fun A E O keys mk mkv mk0 ext => @YList_proofs.fail_keeps A E O keys mk mkv mk0 ext). Qed.
Print Assumptions C23_failure.

(** Keys stay distinct, so that looking up a key finds exactly the entry stored under it. *)
Theorem C23_distinct_keys : forall A E O keys mk mkv (mk0 : A) ext os ms,
  all_distinct (map fst ms) -> all_distinct (map fst (yl_run (E := E) O keys mk mkv mk0 ext ms os)).
Proof.
  exact (fun A E O keys mk mkv mk0 ext os ms H =>
    proj1 (YList_proofs.all_distinct_iff _)
      (@YList_proofs.run_kdist A E O keys mk mkv mk0 ext os ms (proj2 (YList_proofs.all_distinct_iff ms) H))).
Qed.
Print Assumptions C23_distinct_keys.

Theorem C23_lookup : forall A (ms : list (pyval * A)) k a, all_distinct (map fst ms) ->
  (mget k ms = Some a <-> exists k', In (k', a) ms /\ py_eq k k' = true).
Proof. exact (fun A ms k a H => @YList_proofs.mget_in A ms k a (proj2 (YList_proofs.all_distinct_iff ms) H)). Qed.
Print Assumptions C23_lookup.

Example C23_case : forall O,
  entry_run O [lit "id"] [LOne TInt] tt []
    [([], YAdd (VInt 1)); ([], YAdd (VStr (lit "2"))); ([], YAdd (VInt 3)); ([], YAdd (VInt 1)); ([], YDelete (VStr (lit "2"))); ([], YAdd (VStr (lit "x")))]
  = [(VInt 1, ([VInt 1], tt)); (VInt 3, ([VInt 3], tt))].
Proof. intros O. vm_compute. reflexivity. Qed.

(* ------------------------------------------------------------------ C24 *)
(** Full statement: no two entries have the same key-leaf values.  False: the key given to add()
    is compared before it is converted. *)
Theorem C24_keys_agree_refuted : forall O, exists t os e1 e2,
  mtype_wf t /\ entry_run O [lit "id"] [LOne (pty_of t)] tt [] os = [e1; e2] /\
  fst (snd e1) = fst (snd e2) /\ py_eq (fst e2) (hd VNone (fst (snd e2))) = false.
Proof.
  intros O. exists (MInt [[Between (Some 0) (Some 255) 0 0]]), [([], YAdd (VInt 5)); ([], YAddKw [(lit "id", VInt 5)])].
  do 2 eexists. split.
  - split; [discriminate|]. cbn [levels_wf]. split; [repeat constructor|]. split; [repeat constructor|exact I].
  - split; [vm_compute; reflexivity|]. split; vm_compute; reflexivity.
Qed.
Print Assumptions C24_keys_agree_refuted.

(** One key, given positionally and written as a value of its type.  Missing: keyword adds and
    differently written values for non-string keys, append(); integer keys with more than two
    range levels (C60). *)
Theorem C24_single_key_partial : forall O B (rest : B) t n os ms,
  mtype_wf t -> shallow t -> Forall (fun p => positional (spelled t) (snd p)) os ->
  Forall (fun p => exists v, fst (snd p) = [v] /\ py_eq v (fst p) = true) ms ->
  Forall (fun p => exists v, fst (snd p) = [v] /\ py_eq v (fst p) = true) (entry_run O [n] [LOne (pty_of t)] rest ms os).
Proof.
  exact (fun O B rest t n os ms H1 H2 H3 H4 => @YList_proofs.single_run O B rest t n os H1 H2 H3 ms H4).
Qed.
Print Assumptions C24_single_key_partial.

(** Any number of string-valued keys, given as strings in any of the ways. *)
Theorem C24_string_keys_partial : forall O B (rest : B) ts keys os ms,
  length keys = length ts -> keys <> [] -> Forall mtype_wf ts -> Forall string_like ts ->
  Forall (fun p => string_args (snd p)) os ->
  Forall (fun p => exists ss, fst (snd p) = map VStr ss /\ fst p = VStr (join [32%N] ss)) ms ->
  Forall (fun p => exists ss, fst (snd p) = map VStr ss /\ fst p = VStr (join [32%N] ss))
    (entry_run O keys (map (fun t => LOne (pty_of t)) ts) rest ms os).
Proof.
  exact (fun O B rest ts keys os ms H1 H2 H3 H4 H5 H6 => @YList_proofs.joined_run O B rest ts keys os H1 H2 H3 H4 H5 ms H6).
Qed.
Print Assumptions C24_string_keys_partial.

(** With either, the key leaves of two entries are never the same. *)
Theorem C24_entries_differ_partial : forall B (ms : list (pyval * (list pyval * B))) i j p q,
  all_distinct (map fst ms) ->
  Forall (fun p => exists v, fst (snd p) = [v] /\ py_eq v (fst p) = true) ms \/
  Forall (fun p => exists ss, fst (snd p) = map VStr ss /\ fst p = VStr (join [32%N] ss)) ms ->
  nth_error ms i = Some p -> nth_error ms j = Some q -> i <> j -> fst (snd p) <> fst (snd q).
Proof.
  exact (fun B ms i j p q H1 H2 => match H2 with
    | or_introl H => @YList_proofs.single_unique B ms i j p q (proj2 (YList_proofs.all_distinct_iff ms) H1) H
    | or_intror H => @YList_proofs.joined_unique B ms i j p q (proj2 (YList_proofs.all_distinct_iff ms) H1) H
    end).
Qed.
Print Assumptions C24_entries_differ_partial.

Example C24_case : forall O,
  let ts := [MText; MEnum [lit "tcp"; lit "udp"]] in
  Forall mtype_wf ts /\ Forall string_like ts /\
  entry_run O [lit "name"; lit "proto"] (map (fun t => LOne (pty_of t)) ts) tt []
    [([], YAdd (VStr (lit "a tcp"))); ([], YAddKw [(lit "proto", VStr (lit "udp")); (lit "name", VStr (lit "a"))]); ([], YAdd (VStr (lit "a icmp")))]
  = [(VStr (lit "a tcp"), ([VStr (lit "a"); VStr (lit "tcp")], tt)); (VStr (lit "a udp"), ([VStr (lit "a"); VStr (lit "udp")], tt))].
Proof.
  intros O. cbv zeta. split; [repeat constructor|]. split; [repeat constructor|]. vm_compute. reflexivity.
Qed.

(* ------------------------------------------------------------------ C25 *)
(** Full statement: two different tuples of key values never address the same entry.  False:
    the texts are joined with spaces. *)
Theorem C25_composite_keys_refuted : forall O, exists keys kw1 kw2 ms e,
  entry_run O keys [LOne TStr; LOne TStr] tt [] [([], YAddKw kw1)] = ms /\
  map snd kw1 <> map snd kw2 /\
  yl_item O keys ms kw2 = Ok e /\ fst e = map snd kw1.
Proof.
  intros O. exists [lit "a"; lit "b"], [(lit "a", VStr (lit "x y")); (lit "b", VStr (lit "z"))],
    [(lit "a", VStr (lit "x")); (lit "b", VStr (lit "y z"))]. do 2 eexists.
  split; [vm_compute; reflexivity|]. split; [discriminate|]. split; vm_compute; reflexivity.
Qed.
Print Assumptions C25_composite_keys_refuted.

(** Adding an entry under string values without spaces does not change what any other such tuple
    addresses.  Missing: values with spaces; non-string values. *)
Theorem C25_composite_keys_partial : forall A E O keys mk mkv (mk0 : A) ext uid ms ms' (ev : list E) kw kw' kd kd',
  keys <> [] -> kw <> [] ->
  yl_op O keys mk mkv mk0 ext uid ms (YAddKw kw) = (ms', ev, Ok tt) ->
  kw_keys keys kw = Ok kd -> kw_keys keys kw' = Ok kd' ->
  Forall (fun p => exists s, snd p = VStr s /\ no_space s) kd -> Forall (fun p => exists s, snd p = VStr s /\ no_space s) kd' ->
  map snd kd <> map snd kd' ->
  yl_item O keys ms' kw' = yl_item O keys ms kw'.
Proof. exact (fun A E => @YList_proofs.add_other_absent A E). Qed.
Print Assumptions C25_composite_keys_partial.

Example C25_case : forall O,
  let keys := [lit "a"; lit "b"] in
  let kw := [(lit "b", VStr (lit "2")); (lit "a", VStr (lit "1"))] in
  let kw' := [(lit "a", VStr (lit "12")); (lit "b", VStr [])] in
  let ms := entry_run O keys [LOne TStr; LOne TStr] tt [] [([], YAddKw kw')] in
  yl_item O keys ms kw' = Ok ([VStr (lit "12"); VStr []], tt) /\ yl_item O keys ms kw = Raise KeyError.
Proof. intros O. cbv zeta. split; vm_compute; reflexivity. Qed.

(* ------------------------------------------------------------------ C26 *)
(** [n] calls of add() on a list without keys, drawing pairwise different uuids, append [n] new
    entries. *)
Theorem C26_keyless : forall A E O mk mkv (mk0 : A) ext os ms,
  Forall (fun p => snd p = YAddNone \/ snd p = YAddKw []) os -> NoDup (map fst os) -> ~ has_key ms VNone ->
  (forall u, In u (map fst os) -> ~ has_key ms (VStr u)) ->
  yl_run (E := E) O [] mk mkv mk0 ext ms os = ms ++ map (fun p => (VStr (fst p), mk0)) os.
Proof. exact (fun A E => @YList_proofs.keyless_run A E). Qed.
Print Assumptions C26_keyless.

(** With a positional argument: refused if the argument is the uuid of an entry, otherwise it is
    ignored and a new entry appended. *)
Theorem C26_keyless_argument : forall A E O mk mkv (mk0 : A) ext u ms k, hashable k = true -> ~ has_key ms (VStr u) ->
  (has_key ms k -> yl_op (E := E) O [] mk mkv mk0 ext u ms (YAdd k) = (ms, [], Raise KeyError)) /\
  (~ has_key ms k -> yl_op (E := E) O [] mk mkv mk0 ext u ms (YAdd k) = (ms ++ [(VStr u, mk0)], [], Ok tt)).
Proof. exact (fun A E => @YList_proofs.keyless_add A E). Qed.
Print Assumptions C26_keyless_argument.

Example C26_case : forall O, entry_run O [] [] tt [] [(lit "u1", YAddNone); (lit "u2", YAdd (VInt 1)); (lit "u3", YAdd (VStr (lit "u1")))]
  = [(VStr (lit "u1"), ([], tt)); (VStr (lit "u2"), ([], tt))].
Proof. intros O. vm_compute. reflexivity. Qed.

(* ------------------------------------------------------------------ C61 *)
(** Full statement: a leaf-list of bits can hold every legal bits value.  False: it never holds
    anything, whatever is done to it. *)
Theorem C61_bits_leaf_list_refuted : forall O, exists allowed v,
  (exists w, ty_call O (TBits allowed) v = Ok w) /\
  forall os, tl_run O [TBits allowed] true [] os = [].
Proof.
  intros O. exists [(lit "a", lit "0"); (lit "b", lit "1")], (VStr (lit "b a")).
  split; [eexists; vm_compute; reflexivity|]. exact (TypedList_proofs.bits_never O _ true).
Qed.
Print Assumptions C61_bits_leaf_list_refuted.
