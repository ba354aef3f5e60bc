(** What the extensions of a data node are, from its statement alone. *)
From Verif Require Import PyStr PyVal Restricted SafeName Extensions.

(** The extension [n] of module [m] is given with argument [a], and not again afterwards. *)
Definition says (ints : list str) (subs : list sub) (m n : str) (a : option str) : Prop :=
  In m ints /\ exists s1 s2, subs = s1 ++ {| sb_kw := Ext m n; sb_arg := a |} :: s2 /\ forall b, ~ In {| sb_kw := Ext m n; sb_arg := b |} s2.
Definition says_nothing (ints : list str) (subs : list sub) : Prop := forall m n a, In {| sb_kw := Ext m n; sb_arg := a |} subs -> ~ In m ints.

(** What a program finds under [m] and [n] in the result of [_extensions()]. *)
Definition found (x : option exts) (m n : str) : option (option str) :=
  match x with
  | Some d => match dget m d with Some e => dget n e | None => None end
  | None => None
  end.

(** The data nodes among statements, those in choices included. *)
Inductive within : list ynode -> ynode -> Prop :=
| WHere l s : In s l -> within l s
| WCase l cases c s : In (NChoice cases) l -> In c cases -> within c s -> within l s.
(** Containers and lists without children have no class, unless presence is asked for. *)
Definition has_class (presence_opt : bool) (s : ynode) : Prop :=
  match s with
  | NLeaf _ _ => True
  | NCont _ _ pr ks => ks <> [] \/ presence_opt = true /\ pr = true
  | NList _ _ ks => ks <> []
  | NChoice _ => False
  end.
(** The object at a path belongs to the statement with these substatements. *)
Inductive stands (po : bool) : list ynode -> list xstep -> list sub -> Prop :=
| StLeaf l n ss : within l (NLeaf n ss) -> stands po l [Child (safe_name n)] ss
| StCont l n ss pr ks : within l (NCont n ss pr ks) -> has_class po (NCont n ss pr ks) -> stands po l [Child (safe_name n)] ss
| StInCont l n ss pr ks p ss' : within l (NCont n ss pr ks) -> stands po ks p ss' -> stands po l (Child (safe_name n) :: p) ss'
| StList l n ss ks : within l (NList n ss ks) -> ks <> [] -> stands po l [Child (safe_name n)] ss
| StEntry l n ss ks : within l (NList n ss ks) -> ks <> [] -> stands po l [Child (safe_name n); AnEntry] ss
| StInEntry l n ss ks p ss' : within l (NList n ss ks) -> stands po ks p ss' -> stands po l (Child (safe_name n) :: AnEntry :: p) ss'.

(** Siblings have different names in Python, at every level. *)
Definition names_of (s : ynode) : list str :=
  match s with NLeaf n _ | NCont n _ _ _ | NList n _ _ => [n] | NChoice _ => [] end.
Fixpoint data_names (s : ynode) : list str :=
  match s with
  | NChoice cases => (fix cs l := match l with [] => [] | c :: l' => (fix ns k := match k with [] => [] | s :: k' => data_names s ++ ns k' end) c ++ cs l' end) cases
  | _ => names_of s
  end.
Inductive level (top : list ynode) : list ynode -> Prop :=
| LvTop : level top top
| LvCont l n ss pr ks : level top l -> within l (NCont n ss pr ks) -> level top ks
| LvList l n ss ks : level top l -> within l (NList n ss ks) -> level top ks.
Definition apart (top : list ynode) : Prop := forall l, level top l -> NoDup (map safe_name (flat_map data_names l)).
