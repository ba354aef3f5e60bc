(** Independent vocabulary for the naming properties: YANG identifiers, Python
    identifiers and keywords.  Nothing here comes from the modelled code. *)
From Verif Require Import PyStr.

Definition is_alpha (c : N) : bool :=
  (N.leb 65 c && N.leb c 90) || (N.leb 97 c && N.leb c 122).

(** RFC 6020 section 6.2: identifier = (ALPHA / "_") *(ALPHA / DIGIT / "_" / "-" / "."). *)
Definition yang_start (c : N) : bool := is_alpha c || N.eqb c 95.
Definition yang_char (c : N) : bool :=
  is_alpha c || is_digit c || N.eqb c 95 || N.eqb c 45 || N.eqb c 46.
Definition yang_identifier (s : str) : Prop :=
  exists c s', s = c :: s' /\ yang_start c = true /\ Forall (fun x => yang_char x = true) s'.

(** Python identifiers (ASCII). *)
Definition py_start (c : N) : bool := is_alpha c || N.eqb c 95.
Definition py_char (c : N) : bool := is_alpha c || is_digit c || N.eqb c 95.
(** keyword.kwlist of Python 3.7 and later. *)
Definition py_keywords : list str := map lit
 ["False"; "None"; "True"; "and"; "as"; "assert"; "async"; "await"; "break"; "class"; "continue";
  "def"; "del"; "elif"; "else"; "except"; "finally"; "for"; "from"; "global"; "if"; "import"; "in";
  "is"; "lambda"; "nonlocal"; "not"; "or"; "pass"; "raise"; "return"; "try"; "while"; "with"; "yield"]%string.
Definition py_legal (s : str) : Prop :=
  (exists c s', s = c :: s' /\ py_start c = true /\ Forall (fun x => py_char x = true) s')
  /\ ~ In s py_keywords.

(** The image of a YANG name under "every '-' and '.' becomes '_'". *)
Definition underscored (s : str) : str :=
  map (fun c => if (N.eqb c 45 || N.eqb c 46)%bool then 95%N else c) s.

(** The words that the documentation reserves: reserved words of the library (methods
    of generated classes) and of Python. *)
Definition escaped_words : list str := map lit
 ["list"; "str"; "int"; "global"; "decimal"; "float"; "as"; "if"; "else"; "elif"; "map"; "set";
  "class"; "from"; "import"; "pass"; "return"; "is"; "exec"; "pop"; "insert"; "remove"; "add";
  "delete"; "local"; "get"; "default"; "yang_name"; "def"; "print"; "del"; "break"; "continue";
  "raise"; "in"; "assert"; "while"; "for"; "try"; "finally"; "with"; "except"; "lambda"; "or";
  "and"; "not"; "yield"; "property"; "min"; "max"; "async"]%string.

(** The five Python keywords that are not in that list. *)
Definition unescaped_keywords : list str := map lit ["False"; "None"; "True"; "await"; "nonlocal"]%string.
