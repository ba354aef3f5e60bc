(** Scalar types: RestrictedClassType, YANGBool, YANGBinary, YANGBits, decimals, and the
    YANGDynClass construction protocol that wraps every leaf.  No proofs in this file. *)
From Verif Require Import PyStr PyVal Base64.
Local Open Scope Z_scope.

(* ------------------------------------------------------------------ range syntax *)
(** [0-9\.] of the regular expressions at pyangbind/lib/yangtypes.py:230-231. *)
Definition is_rchar (c : N) : bool := is_digit c || N.eqb c 46.

Fixpoint rrun (s : str) : str * str :=
  match s with
  | c :: s' => if is_rchar c then let '(a, b) := rrun s' in (c :: a, b) else ([], s)
  | [] => ([], [])
  end.

Fixpoint skip_sp (s : str) : str :=
  match s with
  | c :: s' => if N.eqb c 32 then skip_sp s' else s
  | [] => []
  end.

(** Optional minus sign of [\-?[0-9\.]+]. *)
Definition opt_minus (s : str) : str * str :=
  match s with
  | c :: s' => if N.eqb c 45 then ([45%N], s') else ([], s)
  | [] => ([], [])
  end.

(** [(\-?[0-9\.]+|max)]. *)
Definition match_high (s : str) : option (str * str) :=
  let '(sg, s1) := opt_minus s in
  match rrun s1 with
  | ([], _) => if startswith (lit "max") s then Some (lit "max", skipn 3 s) else None
  | (r, rest) => Some (sg ++ r, rest)
  end.

(** [([ ]+)?\.\.([ ]+)?] followed by the high part. *)
Definition match_tail (s : str) : option (str * str) :=
  match skip_sp s with
  | c1 :: c2 :: s' => if (N.eqb c1 46 && N.eqb c2 46)%bool then match_high (skip_sp s') else None
  | _ => None
  end.

(** Backtracking over the length of the low number, longest first. *)
Fixpoint try_low (k : nat) (sg s1 : str) : option (str * str * str) :=
  match k with
  | O => None
  | S k' => match match_tail (skipn k s1) with
            | Some (h, rest) => Some (sg ++ firstn k s1, h, rest)
            | None => try_low k' sg s1
            end
  end.

(** yangtypes.py:230, [range_regex] matched at the start of [s]: (low, high, rest). *)
Definition match_range (s : str) : option (str * str * str) :=
  let '(sg, s1) := opt_minus s in
  match try_low (length (fst (rrun s1))) sg s1 with
  | Some r => Some r
  | None =>
      if startswith (lit "min") s then
        match match_tail (skipn 3 s) with
        | Some (h, rest) => Some (lit "min", h, rest)
        | None => None
        end
      else None
  end.

(** yangtypes.py:257, [range_regex.sub("\g<low>,\g<high>", spec)]: every (non-overlapping,
    leftmost) match is replaced.  Fuel: the length of the string. *)
Fixpoint sub_all (fuel : nat) (s : str) : str :=
  match fuel with
  | O => s
  | S f =>
      match s with
      | [] => []
      | c :: s' =>
          match match_range s with
          | Some (l, h, rest) => l ++ [44%N] ++ h ++ sub_all f rest
          | None => c :: sub_all f s'
          end
      end
  end.

(** yangtypes.py:231, [range_single_value_regex] matches at the start of [s]. *)
Definition match_single (s : str) : bool :=
  let '(_, s1) := opt_minus s in
  match rrun s1 with ([], _) => false | _ => true end.

(** The tuples built for the parts of a range or length. *)
Inductive rtuple := RTwo (lo hi : option pyval) | ROne (v : pyval).

(** yangtypes.py:255-273, [build_length_range_tuples]; [conv] is [base_type] for ranges and
    [int] for lengths (the multiplier is always 1). *)
Definition range_tuple (conv : str -> res pyval) (spec : str) : res rtuple :=
  match match_range spec with
  | Some _ =>
      match split_on 44 (sub_all (length spec) spec) with
      | [low; high] =>
          hi <- (if str_eqb high (lit "max") then Ok None else v <- conv high ;; Ok (Some v)) ;;
          lo <- (if str_eqb low (lit "min") then Ok None else v <- conv low ;; Ok (Some v)) ;;
          Ok (RTwo lo hi)
      | _ => Raise ValueError  (* "too many values to unpack" *)
      end
  | None => if match_single spec then v <- conv spec ;; Ok (ROne v) else Raise ValueError
  end.

Fixpoint range_tuples (conv : str -> res pyval) (specs : list str) : res (list rtuple) :=
  match specs with
  | [] => Ok []
  | s :: ss => t <- range_tuple conv s ;; ts <- range_tuples conv ss ;; Ok (t :: ts)
  end.

(* ------------------------------------------------------------------ tests *)
(** [value != float(x)] (yangtypes.py:288): numeric inequality, True for non-numbers. *)
Definition neq_float (value x : pyval) : res bool :=
  f <- py_float x ;; Ok (negb (py_eq value (VFloat (fst f) (snd f)))).

(** yangtypes.py:280-292, one tuple of [range_check]. *)
Definition check_tuple (value : pyval) (t : rtuple) : res bool :=
  match t with
  | RTwo lo hi =>
      c1 <- (match lo with None => Ok true | Some l => b <- py_lt value l ;; Ok (negb b) end) ;;
      c2 <- (match hi with None => Ok true | Some h => b <- py_lt h value ;; Ok (negb b) end) ;;
      Ok (c1 && c2)%bool
  | ROne x => b <- neq_float value x ;; Ok (negb b)
  end.

Fixpoint check_tuples (value : pyval) (ts : list rtuple) : res bool :=
  match ts with
  | [] => Ok false
  | t :: ts' => b <- check_tuple value t ;; r <- check_tuples value ts' ;; Ok (b || r)%bool
  end.

(** yangtypes.py:233-253, [convert_regexp]; an empty pattern is an IndexError. *)
Definition convert_regexp (p : str) : res str :=
  match rev p with
  | [] => Raise IndexError
  | c :: rp =>
      let trimmed := N.eqb c 36 in
      let tmp := if trimmed then rev rp else p in
      let tmp := replace_str 36 (lit "\$") tmp in
      let p1 := if trimmed then tmp ++ [36%N] else tmp in
      let p2 := if startswith [94%N] p1 then p1 else 94%N :: p1 in
      Ok (if startswith [36%N] (rev p2) then p2 else p2 ++ [36%N])
  end.

Inductive restr :=
| RPattern (p : str)            (** restriction_dict["pattern"] *)
| RRange (specs : list str)     (** restriction_dict["range"], one string per part *)
| RLength (specs : list str)    (** restriction_dict["length"] *)
| RDict (keys : list str).      (** restriction_dict["dict_key"], the keys not starting with '@' *)

Definition test := pyval -> res bool.

(** yangtypes.py:297-303. *)
Definition pattern_test (O : oracle) (p : str) : test :=
  fun v => q <- convert_regexp p ;; Ok (o_match O q (py_str O v)).
(** yangtypes.py:275-295. *)
Definition range_test (ts : list rtuple) : test := fun v => check_tuples v ts.
Definition length_test (ts : list rtuple) : test := fun v => n <- py_len v ;; check_tuples (VInt n) ts.
(** yangtypes.py:305-306. *)
Definition dict_test (O : oracle) (keys : list str) : test := fun v => Ok (str_in (py_str O v) keys).

Definition conv_len (s : str) : res pyval := z <- py_int (VStr s) ;; Ok (VInt z).

(** yangtypes.py:319-358: the loop over the restrictions, building the tests and, for a
    "range", converting the (truthy) value with [base_type]; any exception of that conversion
    becomes a TypeError.  [callb] is [base_type(...)]. *)
Fixpoint build (O : oracle) (callb : pyval -> res pyval) (rs : list restr) (val : pyval)
  : res (list test * pyval) :=
  match rs with
  | [] => Ok ([], val)
  | RPattern p :: rs' =>
      r <- build O callb rs' val ;; Ok (pattern_test O p :: fst r, snd r)
  | RRange specs :: rs' =>
      ts <- range_tuples (fun s => callb (VStr s)) specs ;;
      val' <- (if truthy val then match callb val with Ok v => Ok v | Raise _ => Raise TypeError end
               else Ok val) ;;
      r <- build O callb rs' val' ;; Ok (range_test ts :: fst r, snd r)
  | RLength specs :: rs' =>
      ts <- range_tuples conv_len specs ;;
      r <- build O callb rs' val ;; Ok (length_test ts :: fst r, snd r)
  | RDict keys :: rs' =>
      r <- build O callb rs' val ;; Ok (dict_test O keys :: fst r, snd r)
  end.

(** yangtypes.py:361-367: is there a passing test (exceptions propagate)? *)
Fixpoint any_pass (ts : list test) (v : pyval) : res bool :=
  match ts with
  | [] => Ok false
  | t :: ts' => b <- t v ;; if b then Ok true else any_pass ts' v
  end.

(** yangtypes.py:381-383: do all tests pass (stopping at the first failure)? *)
Fixpoint all_pass (ts : list test) (v : pyval) : res bool :=
  match ts with
  | [] => Ok true
  | t :: ts' => b <- t v ;; if b then all_pass ts' v else Ok false
  end.

(* ------------------------------------------------------------------ types *)
(** The Python classes a leaf can be based on. [TDecPrec n] is
    RestrictedPrecisionDecimalType(precision=n); [TBits] lists the allowed bits with their
    positions (strings, as generated); [TRef] is ReferenceType without a path helper;
    [TRestr b rs] is RestrictedClassType(base_type=b, restriction_dict=rs). *)
Inductive pty :=
| TInt | TStr | TDecimal | TDecPrec (n : Z) | TBool | TBinary
| TBits (allowed : list (str * str))
| TRef
| TRestr (base : pty) (rs : list restr).

(** yangtypes.py:884-893, YANGBool.__new__. *)
Definition bool_false_args : list pyval :=
  [VStr (lit "false"); VStr (lit "False"); VBool false; VInt 0; VStr (lit "0")].
Definition bool_true_args : list pyval :=
  [VStr (lit "true"); VStr (lit "True"); VBool true; VInt 1; VStr (lit "1")].
Definition yang_bool (v : pyval) : res pyval :=
  if py_in v (bool_false_args ++ bool_true_args)
  then Ok (VBool (negb (py_in v bool_false_args)))
  else Raise ValueError.

(** yangtypes.py:1357-1368, YANGBinary.__new__. *)
Definition yang_binary (v : pyval) : res pyval :=
  match v with
  | VStr s => b <- b64decode s ;; Ok (VBytes b)
  | VBytes b => Ok (VBytes b)
  | _ => Raise ValueError
  end.

(** yangtypes.py:1418-1422, YANGBits.add. *)
Definition bits_add (allowed : list (str * str)) (l : list str) (b : str) : res (list str) :=
  if str_in b (map fst allowed) then Ok (if str_in b l then l else l ++ [b]) else Raise ValueError.

Fixpoint bits_add_all (allowed : list (str * str)) (l : list str) (bs : list str) : res (list str) :=
  match bs with
  | [] => Ok l
  | b :: bs' => l' <- bits_add allowed l b ;; bits_add_all allowed l' bs'
  end.

(** yangtypes.py:1404-1411, YANGBits.__init__ with an argument: only str and bytes have a
    [split] method; bytes pieces are never allowed bits. *)
Definition yang_bits (allowed : list (str * str)) (v : pyval) : res pyval :=
  match v with
  | VStr s => l <- bits_add_all allowed [] (split_ws s) ;; Ok (VBits l)
  | VBytes b => match split_ws b with [] => Ok (VBits []) | _ => Raise ValueError end
  | _ => Raise AttributeError
  end.

(** yangtypes.py:151-166, RestrictedPrecisionDecimal.__new__ with an argument. *)
Definition yang_decprec (n : Z) (v : pyval) : res pyval :=
  d <- py_decimal v ;; q <- quantize (fst d) (snd d) n ;; Ok (VDec (fst q) (snd q)).

Definition is_restr (t : pty) : bool := match t with TRestr _ _ => true | _ => false end.

(** [t.__new__(cls, arg)] ([arg = None]: called without argument), [t.__init__(obj, arg)] with the
    resulting object, and the tests left in [cls._restriction_tests] after [__new__].

    For [TRestr]: yangtypes.py:221-373 and 206-219.  [__new__] runs the restriction loop, then the
    any-of test (skipped when the value [is False]; with no tests at all the name [passed] is
    unbound), then [base_type.__new__] with the TypeError fallback.  Because the nested
    [base_type.__new__] receives the same class object, it resets [_restriction_tests]: after
    [__new__] the class holds the tests of the innermost restricted type.  [__init__] runs
    [__check] (of the outermost class: converting with its own [base_type]), which uses those
    tests; an IndexError is swallowed.  The [__check] of inner levels is the same call on the same
    arguments and is not repeated; int/str/bytes/Decimal [__init__] do nothing. *)
Fixpoint ty_new (O : oracle) (t : pty) (arg : option pyval) {struct t} : res pyval :=
  match t with
  | TInt => match arg with None => Ok (VInt 0) | Some v => z <- py_int v ;; Ok (VInt z) end
  | TStr => match arg with None => Ok (VStr []) | Some v => Ok (VStr (py_str O v)) end
  | TDecimal => match arg with None => Ok (VDec 0 0)
                | Some v => d <- py_decimal v ;; Ok (VDec (fst d) (snd d)) end
  | TDecPrec n => match arg with None => Ok (VDec 0 0) | Some v => yang_decprec n v end
  | TBool => match arg with None => Ok (VBool false) | Some v => yang_bool v end
  | TBinary => match arg with None => Ok (VBytes []) | Some v => yang_binary v end
  | TBits _ => Ok (VBits [])
  | TRef => Ok (VBool false)
  | TRestr b rs =>
      let callb v := match ty_new O b (Some v) with Raise e => Raise e | Ok o => ty_init O b o v end in
      r <- build O callb rs (match arg with None => VBool false | Some v => v end) ;;
      _ <- (if is_False (snd r) then Ok tt
            else match fst r with
                 | [] => Raise NameError
                 | ts => p <- any_pass ts (snd r) ;; if p then Ok tt else Raise ValueError
                 end) ;;
      match ty_new O b arg with
      | Raise TypeError => ty_new O b None
      | r' => r'
      end
  end
with ty_init (O : oracle) (t : pty) (o v : pyval) {struct t} : res pyval :=
  match t with
  | TBits allowed => yang_bits allowed v
  | TRef => Ok (match v with VNone => VBool false | _ => v end)
  | TRestr b rs =>
      let callb v := match ty_new O b (Some v) with Raise e => Raise e | Ok o => ty_init O b o v end in
      let chk :=
        v' <- callb v ;;
        ts <- (if is_restr b then ty_tests O b
               else r <- build O callb rs (VBool false) ;; Ok (fst r)) ;;
        p <- all_pass ts v' ;;
        if p then Ok tt else Raise ValueError in
      match chk with
      | Ok _ => Ok o
      | Raise IndexError => Ok o
      | Raise e => Raise e
      end
  | _ => Ok o
  end
with ty_tests (O : oracle) (t : pty) {struct t} : res (list test) :=
  match t with
  | TRestr b rs =>
      let callb v := match ty_new O b (Some v) with Raise e => Raise e | Ok o => ty_init O b o v end in
      if is_restr b then ty_tests O b
      else r <- build O callb rs (VBool false) ;; Ok (fst r)
  | _ => Ok []
  end.

(** [t(v)]. *)
Definition ty_call (O : oracle) (t : pty) (v : pyval) : res pyval :=
  match ty_new O t (Some v) with Raise e => Raise e | Ok o => ty_init O t o v end.

(* ------------------------------------------------------------------ YANGDynClass *)
(** The effects of evaluating [YANGDynClass(v, base=t, ...)] for a leaf: did the wrapper's
    [__init__] call [_set()] (which marks ancestors and clears other choice branches), and what
    came out? *)
Record dyn := { d_notified : bool; d_out : res pyval }.

(** yangtypes.py:1023-1028 ([__new__] with TypeError fallback to an argument-less call) and
    1067-1091 ([_set()] first, then [super().__init__] with TypeError fallback to an
    argument-less call, which checks nothing). *)
Definition dyn_leaf (O : oracle) (t : pty) (v : pyval) : dyn :=
  let n := match ty_new O t (Some v) with Raise TypeError => ty_new O t None | r => r end in
  match n with
  | Raise e => {| d_notified := false; d_out := Raise e |}
  | Ok o => {| d_notified := true;
               d_out := match ty_init O t o v with Raise TypeError => Ok o | r => r end |}
  end.

(** Leaf types as generated: one class or, for a union, a list of candidate classes. *)
Inductive ltype := LOne (t : pty) | LUnion (ts : list pty).

(** yangtypes.py:960-971: the first candidate type whose constructor accepts the value. *)
Fixpoint union_pick (O : oracle) (ts : list pty) (v : pyval) : option pty :=
  match ts with
  | [] => None
  | t :: ts' => match ty_call O t v with Ok _ => Some t | Raise _ => union_pick O ts' v end
  end.

Definition dyn_ltype (O : oracle) (lt : ltype) (v : pyval) : dyn :=
  match lt with
  | LOne t => dyn_leaf O t v
  | LUnion ts => match union_pick O ts v with
                 | None => {| d_notified := false; d_out := Raise TypeError |}
                 | Some t => dyn_leaf O t v
                 end
  end.

(** The argument-less construction of an unset leaf, [YANGDynClass(base=..., ...)]
    (pyangbind/plugin/pybind.py:1061, 1181); a union uses its first member type. *)
Definition dyn_unset (O : oracle) (lt : ltype) : res pyval :=
  match lt with
  | LOne t => ty_new O t None
  | LUnion [] => Raise IndexError
  | LUnion (t :: _) => ty_new O t None
  end.

(** pyangbind/plugin/pybind.py:1119-1172, generated setter: TypeError and ValueError become a
    ValueError, everything else propagates. *)
Definition setter_exn (e : exn) : exn := match e with TypeError => ValueError | e => e end.

Definition leaf_assign (O : oracle) (lt : ltype) (v : pyval) : dyn :=
  let d := dyn_ltype O lt v in
  {| d_notified := d_notified d;
     d_out := match d_out d with Raise e => Raise (setter_exn e) | Ok o => Ok o end |}.
