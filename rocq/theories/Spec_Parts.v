(** What is asked of the documents of parts of a tree (C97). *)
From Verif Require Import PyStr PyVal Restricted SafeName Tree Serialise Xml.

(** An element somewhere below another one. *)
Inductive inside (e : xml) : xml -> Prop :=
| InKid d : In e (x_kids d) -> inside e d
| InDeeper k d : In k (x_kids d) -> inside e k -> inside e d.

(** The containers and the entries of lists in a tree, at any depth: the node, whether it is there without content as well
    (entries and present containers are), and what it holds. *)
Inductive part (cs : list schema) (kids : list obj) : einfo -> bool -> list schema -> list obj -> Prop :=
| PCont n i pr cs' ch pres kids' : nth_error cs n = Some (SCont i pr cs') -> nth_error kids n = Some (OCont ch pres kids') ->
    part cs kids i (pr && pres) cs' kids'
| PEntry n i keys od cs' ch es k ch' pres kids' : nth_error cs n = Some (SList i keys od cs') -> nth_error kids n = Some (OList ch es) ->
    In (k, OCont ch' pres kids') es -> part cs kids i true cs' kids'
| PIn j b csj kidsj i b' cs' kids' : part cs kids j b csj kidsj -> part csj kidsj i b' cs' kids' -> part cs kids i b' cs' kids'.

(** The same element in another namespace. *)
Definition in_namespace (ns : str) (e : xml) : xml := match e with XElem _ n d t ks => XElem ns n d t ks end.

(** Objects somewhere in a JSON document, with the name of the member: of the member itself, or of the array ([Els]) or object
    ([Ent]) of entries.  The entries of lists that are ordered by the user have their position as a further member. *)
Definition with_position (z : Z) (j : json) : json :=
  match j with JObj ms => JObj (ms ++ [(lit "__yang_order", JInt z)]) | _ => j end.
Inductive held (n : str) (j : json) : json -> Prop :=
| HMember ms : In (n, j) ms -> held n j (JObj ms)
| HEls ms js : In (n, JArr js) ms -> In j js -> held n j (JObj ms)
| HEnt ms es k j' : In (n, JObj es) ms -> In (k, j') es -> j' = j \/ (exists z, j' = with_position z j) -> held n j (JObj ms)
| HIn n' j' d : held n' j' d -> held n j j' -> held n j d.
(** Two objects with the same values, where the names of the second may have the name of a module in front. *)
Definition same_but_prefixes (ms ms' : list (str * json)) : Prop :=
  Forall2 (fun a b => snd a = snd b /\ (fst b = fst a \/ exists m, fst b = m ++ lit ":" ++ fst a)) ms ms'.
(** The lists in a tree, at any depth. *)
Definition list_in (cs : list schema) (kids : list obj) (i : einfo) (keys : list str) (od : bool) (cs' : list schema) (es : list (pyval * obj)) : Prop :=
  (exists n ch, nth_error cs n = Some (SList i keys od cs') /\ nth_error kids n = Some (OList ch es)) \/
  exists j b csj kidsj n ch, part cs kids j b csj kidsj /\ nth_error csj n = Some (SList i keys od cs') /\ nth_error kidsj n = Some (OList ch es).
