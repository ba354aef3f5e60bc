(** Properties C79 and C80: the attributes of generated objects are the nodes of the schema. *)
From Verif Require Import PyStr PyStr_facts PyVal SafeName Restricted Tree Compile Spec_Compile Split Spec_Split File Spec_File File_proofs Assign Spec_Assign Assign_proofs.
Import ListNotations.

Definition as_head (n : str) : yhead := {| y_name := n; y_ns := lit "urn:m"; y_mod := lit "m"; y_config := None |}.
Definition as_ro (n : str) : yhead := {| y_name := n; y_ns := lit "urn:m"; y_mod := lit "m"; y_config := Some false |}.
Definition as_leaf (n : str) : ystmt := YLeaf (as_head n) (LUnion []) None (lit "string").
Definition as_cont (n : str) (cs : list ystmt) : ystmt := YCont (as_head n) false cs.

(** A leaf called "append" in a container: reading its attribute gives a method of the library, it cannot be assigned, and get()
    of the module raises. *)
Definition as_append : list ystmt := [as_cont (lit "c") [as_leaf (lit "append")]].
Lemma as_append_at : stmt_at true as_append ([lit "c"] ++ [lit "append"]) (as_leaf (lit "append")) true.
Proof.
  apply (SaIn true _ (as_cont (lit "c") [as_leaf (lit "append")]) _ [as_leaf (lit "append")]); [apply ch_here; [now left|discriminate]|left; now eexists _, _|].
  apply (SaHere true); [apply ch_here; [now left|discriminate]|reflexivity].
Qed.
Lemma as_append_apart : attrs_apart_all as_append.
Proof. split; [constructor; [intros []|constructor]|]. intros s [<-|[]]. constructor; [constructor; [intros []|constructor]|]. intros s [<-|[]]. constructor. Qed.
Theorem C79_method_refuted : exists po ss p m z w cs, attrs_apart_all ss /\ stmt_at true ss (p ++ [m]) z true /\ kept po z /\
  object_at 0 WNone (compile_module po ss) (map safe_name p) = Ok (w, cs) /\ read w cs (safe_name m) = Ok VMethod /\ assign w cs (safe_name m) = Raise AttributeError /\
  gets_all WNone (compile_module po ss) = Raise AttributeError.
Proof.
  exists false, as_append, [lit "c"], (lit "append"), (as_leaf (lit "append")). do 2 eexists. split; [exact as_append_apart|].
  split; [apply as_append_at|]. split; [exact I|]. split; [vm_compute; reflexivity|]. split; [vm_compute; reflexivity|]. split; vm_compute; reflexivity.
Qed.
Print Assumptions C79_method_refuted.
(** Objects that take any attribute: a presence container without children, an entry of a list without keys, the input of an rpc. *)
Theorem C79_any_name_refuted :
  (exists ss q w cs, object_at 0 WNone (compile_module true ss) q = Ok (w, cs) /\ forall a, assign w cs a = Ok Stored) /\
  (exists ss q w cs, object_at 0 WNone (compile_module false ss) q = Ok (w, cs) /\ forall a, a <> lit "x" -> assign w cs a = Ok Stored) /\
  (exists ss q w cs, object_at 2 WNone (compile_module false ss) q = Ok (w, cs) /\ forall a, a <> lit "x" -> assign w cs a = Ok Stored).
Proof.
  assert (Any : forall w cs a, has_dict w cs = true -> (forall s, element cs a <> Some s) -> assign w cs a = Ok Stored).
  { intros w cs a Hd He. unfold assign, lookup. rewrite Hd. destruct (wrapped w && _); [reflexivity|]. destruct (element cs a) as [s|]; [now destruct (He s)|]. now destruct (str_in _ _). }
  assert (Only : forall i lt d y k a s, e_py i = lit "x" -> a <> lit "x" -> element [SLeaf i lt d y k] a <> Some s).
  { intros i lt d y k a s Hi Ha H. unfold element in H. cbn [find s_info] in H. rewrite Hi in H. destruct (str_eqb a (lit "x")) eqn:E; [|discriminate].
    apply str_eqb_eq in E. contradiction. }
  split; [|split].
  - exists [YCont (as_head (lit "p")) true []], [lit "p"], WCont, []. split; [vm_compute; reflexivity|]. intros a. apply Any; [reflexivity|]. discriminate.
  - exists [YList (as_head (lit "l")) None false [as_leaf (lit "x")]], [lit "l"]. do 2 eexists. split; [vm_compute; reflexivity|]. intros a Ha. apply Any; [reflexivity|]. intros s. apply Only; [reflexivity|exact Ha].
  - exists [as_cont (lit "r") [as_cont (lit "input") [as_leaf (lit "x")]]], [lit "r"; lit "input"]. do 2 eexists. split; [vm_compute; reflexivity|]. intros a Ha. apply Any; [reflexivity|].
    intros s. apply Only; [reflexivity|exact Ha].
Qed.
Print Assumptions C79_any_name_refuted.

(** Every node is read through its attribute and written if it is configuration, with the two names out of the way. *)
Theorem C79_nodes_partial : forall po ss p m z b, attrs_apart_all ss -> stmt_at true ss (p ++ [m]) z b -> kept po z -> clear (p ++ [m]) ->
  exists w cs s, object_at 0 WNone (compile_module po ss) (map safe_name p) = Ok (w, cs) /\ stands_for po s z /\ read w cs (safe_name m) = Ok (VChild s) /\
    assign w cs (safe_name m) = if b then Ok (Setter s) else Raise AttributeError.
Proof. exact declared_reads. Qed.
Print Assumptions C79_nodes_partial.
(** Nothing else can be assigned, unless the object has no children or is an entry of a list without keys. *)
Theorem C79_only_partial : forall po ss q w cs a, public a -> attrs_apart_all ss -> object_at 0 WNone (compile_module po ss) q = Ok (w, cs) ->
  (forall p y b, map safe_name p = q -> stmt_at true ss p y b -> keyed y) -> (exists m z b, child_at po ss q m z b) ->
  (forall m z b, child_at po ss q m z b -> safe_name m <> a) -> assign w cs a = Raise AttributeError.
Proof. intros po ss q w cs a _. apply only_declared. Qed.
Print Assumptions C79_only_partial.
(** get() of a module works exactly if no container and no list has a child of these names. *)
Theorem C79_get : forall po ss,
  ((forall p m z b, stmt_at true ss (p ++ [m]) z b -> kept po z -> p <> [] -> ~ In m taken) -> gets_all WNone (compile_module po ss) = Ok tt) /\
  (forall p m z b, stmt_at true ss (p ++ [m]) z b -> kept po z -> p <> [] -> In m taken -> gets_all WNone (compile_module po ss) = Raise AttributeError).
Proof. exact get_works. Qed.
Print Assumptions C79_get.

(** A container with a leaf in a case, a state leaf and a list with a key; "append" at the top of the module is harmless. *)
Definition as_demo : list ystmt :=
  [as_cont (lit "c") [YChoice (lit "h") None [(lit "k", [as_leaf (lit "a-b")])]; YLeaf (as_ro (lit "up")) (LUnion []) None (lit "string");
                      YList (as_head (lit "if")) (Some (lit "id")) false [as_leaf (lit "id"); as_leaf (lit "mtu")]];
   as_leaf (lit "append")].
Lemma as_demo_apart : attrs_apart_all as_demo.
Proof.
  split; [vm_compute; repeat (constructor; [intros H; repeat (destruct H as [H|H]; [discriminate|]); contradiction|]); constructor|]. intros s [<-|[<-|[]]]; [|constructor]. constructor.
  - vm_compute; repeat (constructor; [intros H; repeat (destruct H as [H|H]; [discriminate|]); contradiction|]); constructor.
  - intros s [<-|[<-|[<-|[]]]].
    + constructor. intros k ss s [E|[]]. injection E as _ <-. intros [<-|[]]. constructor.
    + constructor.
    + constructor; [vm_compute; repeat (constructor; [intros H; repeat (destruct H as [H|H]; [discriminate|]); contradiction|]); constructor|]. intros s [<-|[<-|[]]]; constructor.
Qed.
Lemma as_demo_list : stmt_at true as_demo ([lit "c"; lit "if"] ++ [lit "mtu"]) (as_leaf (lit "mtu")) true.
Proof.
  eapply (SaIn true as_demo); [apply ch_here; [now left|discriminate]|left; now eexists _, _|].
  eapply SaIn; [apply ch_here; [do 2 right; now left|discriminate]|right; now eexists _, _, _|].
  apply (SaHere true); [apply ch_here; [right; now left|discriminate]|reflexivity].
Qed.
Lemma as_demo_state : exists z, stmt_at true as_demo ([lit "c"] ++ [lit "up"]) z false /\ kept false z.
Proof.
  eexists. split; [|shelve]. eapply (SaIn true as_demo); [apply ch_here; [now left|discriminate]|left; now eexists _, _|].
  apply (SaHere true _ (YLeaf (as_ro (lit "up")) (LUnion []) None (lit "string"))); [apply ch_here; [right; now left|discriminate]|reflexivity].
  Unshelve. exact I.
Qed.
Example C79_case : attrs_apart_all as_demo /\ stmt_at true as_demo ([lit "c"; lit "if"] ++ [lit "mtu"]) (as_leaf (lit "mtu")) true /\ clear ([lit "c"; lit "if"] ++ [lit "mtu"]) /\
  (exists z, stmt_at true as_demo ([lit "c"] ++ [lit "up"]) z false /\ kept false z) /\
  (exists w cs, object_at 0 WNone (compile_module false as_demo) (map safe_name [lit "c"; lit "if"]) = Ok (w, cs) /\
    (forall p y b, map safe_name p = map safe_name [lit "c"; lit "if"] -> stmt_at true as_demo p y b -> keyed y) /\
    (exists m z b, child_at false as_demo (map safe_name [lit "c"; lit "if"]) m z b) /\ public (lit "mut") /\
    assign w cs (lit "mut") = Raise AttributeError /\ exists s, assign w cs (lit "mtu") = Ok (Setter s)) /\
  gets_all WNone (compile_module false as_demo) = Ok tt.
Proof.
  split; [exact as_demo_apart|]. split; [exact as_demo_list|]. split.
  { repeat (constructor; [intros H; vm_compute in H; repeat (destruct H as [H|H]; [discriminate|]); contradiction|]). constructor. }
  split; [exact as_demo_state|]. split; [|vm_compute; reflexivity]. do 2 eexists. split; [vm_compute; reflexivity|]. split.
  { intros p y b _ H. assert (G : forall ctx ss p y b, stmt_at ctx ss p y b -> (forall s, In s ss -> s = as_leaf (lit "id") \/ s = as_leaf (lit "mtu")) -> keyed y).
    { intros ctx ss p0 y0 b0 H0 Hs. inversion H0 as [? z n Hc Hl|? z n cs p' z' b' Hc Hn H']; subst.
      - inversion Hc as [? ? Hin|? ? ? ? ? ? ? Hin]; subst; destruct (Hs _ Hin) as [E|E]; subst; try discriminate; exact I.
      - inversion Hc as [? ? Hin|? ? ? ? ? ? ? Hin]; subst; destruct (Hs _ Hin) as [E|E]; try discriminate; subst; destruct Hn as [(h & pr & E' & _)|(h & k & od & E' & _)]; discriminate. }
    clear - H G. unfold keyed. destruct y as [| | |h [k|] od cs|]; try exact I. exfalso.
    inversion H as [? z n Hc Hl|? z n cs' p' z' b' Hc Hn H']; subst.
    - inversion Hc as [? ? Hin|? ? ? ? ? ? ? Hin]; subst; destruct Hin as [E|[E|[]]]; discriminate.
    - assert (Ez : z = as_cont (lit "c") cs').
      { inversion Hc as [? ? Hin|? ? ? ? ? ? ? Hin]; subst; destruct Hin as [E|[E|[]]]; try discriminate; subst; destruct Hn as [(h' & pr & E' & _)|(h' & k & od' & E' & _)]; try discriminate; injection E' as _ _ <-; reflexivity. }
      assert (Ec : cs' = [YChoice (lit "h") None [(lit "k", [as_leaf (lit "a-b")])]; YLeaf (as_ro (lit "up")) (LUnion []) None (lit "string"); YList (as_head (lit "if")) (Some (lit "id")) false [as_leaf (lit "id"); as_leaf (lit "mtu")]]).
      { inversion Hc as [? ? Hin|? ? ? ? ? ? ? Hin]; subst; destruct Hin as [E|[E|[]]]; try discriminate; injection E as <-; reflexivity. }
      clear Hc Hn. subst z cs'. inversion H' as [? z n0 Hc Hl|? z n0 cs' p0 z0 b0 Hc Hn H2]; subst.
      + inversion Hc as [? ? Hin|? ? ? ? ? ? ? Hin Hk Hc']; subst; [destruct Hin as [E|[E|[E|[]]]]; discriminate|].
        destruct Hin as [E|[E|[E|[]]]]; try discriminate. injection E as <- <- <-. destruct Hk as [E|[]]. injection E as <- <-.
        inversion Hc' as [? ? Hin|? ? ? ? ? ? ? Hin]; subst; destruct Hin as [E|[]]; discriminate.
      + assert (Hs : cs' = [as_leaf (lit "id"); as_leaf (lit "mtu")]).
        { inversion Hc as [? ? Hin|? ? ? ? ? ? ? Hin Hk Hc']; subst.
          - destruct Hin as [E|[E|[E|[]]]]; subst; destruct Hn as [(h' & pr & E' & _)|(h' & k & od' & E' & _)]; try discriminate. injection E' as _ _ _ <-. reflexivity.
          - destruct Hin as [E|[E|[E|[]]]]; try discriminate. injection E as <- <- <-. destruct Hk as [E|[]]. injection E as <- <-.
            inversion Hc' as [? ? Hin|? ? ? ? ? ? ? Hin]; subst; destruct Hin as [E|[]]; try discriminate. subst. destruct Hn as [(h' & pr & E' & _)|(h' & k & od' & E' & _)]; discriminate. }
        subst cs'. apply (G _ _ _ _ _ H2). intros s [<-|[<-|[]]]; auto. }
  split; [exists (lit "mtu"), (as_leaf (lit "mtu")), true, [lit "c"; lit "if"]; split; [reflexivity|split; [exact as_demo_list|exact I]]|].
  split; [vm_compute; discriminate|]. split; [vm_compute; reflexivity|]. eexists. vm_compute. reflexivity.
Qed.

(** C80.  Indexing raises for every node there is. *)
Theorem C80_index_never : forall po ss p m z b, attrs_apart_all ss -> stmt_at true ss (p ++ [m]) z b -> kept po z -> clear p ->
  exists w cs, object_at 0 WNone (compile_module po ss) (map safe_name p) = Ok (w, cs) /\ get_item w cs (safe_name m) = Raise TypeError.
Proof. exact index_never. Qed.
Print Assumptions C80_index_never.
Theorem C80_index_refuted : exists po ss p m z w cs s, attrs_apart_all ss /\ stmt_at true ss (p ++ [m]) z true /\ kept po z /\
  object_at 0 WNone (compile_module po ss) (map safe_name p) = Ok (w, cs) /\ read w cs (safe_name m) = Ok (VChild s) /\ get_item w cs (safe_name m) = Raise TypeError.
Proof.
  exists false, as_demo, [lit "c"; lit "if"], (lit "mtu"), (as_leaf (lit "mtu")). do 3 eexists. split; [exact as_demo_apart|]. split; [exact as_demo_list|]. split; [exact I|].
  split; [vm_compute; reflexivity|]. split; vm_compute; reflexivity.
Qed.
Print Assumptions C80_index_refuted.
(** Iteration over a container with a node called "append" gives a method instead of that node. *)
Theorem C80_iteration_refuted : exists po ss p m z w cs, attrs_apart_all ss /\ stmt_at true ss (p ++ [m]) z true /\ kept po z /\
  object_at 0 WNone (compile_module po ss) (map safe_name p) = Ok (w, cs) /\ iterate w cs = [(safe_name m, Ok VMethod)].
Proof.
  exists false, as_append, [lit "c"], (lit "append"), (as_leaf (lit "append")). do 2 eexists. split; [exact as_append_apart|].
  split; [apply as_append_at|]. split; [exact I|]. split; vm_compute; reflexivity.
Qed.
Print Assumptions C80_iteration_refuted.
(** Iteration gives the names in the order of the module, each with the node of that name. *)
Theorem C80_iteration_partial : forall po ss p cs, attrs_apart_all ss -> clear p ->
  (p = [] /\ cs = ss \/ exists y n b, stmt_at true ss p y b /\ kept po y /\ node_of y n cs) ->
  exists w kids, object_at 0 WNone (compile_module po ss) (map safe_name p) = Ok (w, kids) /\ map fst (iterate w kids) = map safe_name (flat_map (kept_names po) cs) /\
    forall a r, In (a, r) (iterate w kids) -> (p = [] \/ ~ In a taken) -> exists s, r = Ok (VChild s) /\ e_py (s_info s) = a.
Proof. exact iteration. Qed.
Print Assumptions C80_iteration_partial.
Example C80_case : exists y n b, stmt_at true as_demo [lit "c"] y b /\ kept false y /\ node_of y n [YChoice (lit "h") None [(lit "k", [as_leaf (lit "a-b")])];
    YLeaf (as_ro (lit "up")) (LUnion []) None (lit "string"); YList (as_head (lit "if")) (Some (lit "id")) false [as_leaf (lit "id"); as_leaf (lit "mtu")]] /\ clear [lit "c"] /\
  exists w kids, object_at 0 WNone (compile_module false as_demo) [lit "c"] = Ok (w, kids) /\ map fst (iterate w kids) = [lit "a_b"; lit "up"; lit "if_"] /\
    get_item w kids (lit "a_b") = Raise TypeError /\ get_item w kids (lit "zz") = Raise KeyError.
Proof.
  do 3 eexists. split; [apply (SaHere true as_demo); [apply ch_here; [now left|discriminate]|reflexivity]|]. split; [left; discriminate|]. split; [left; now eexists _, _|]. split; [constructor|].
  do 2 eexists. split; [vm_compute; reflexivity|]. split; [vm_compute; reflexivity|]. split; vm_compute; reflexivity.
Qed.
