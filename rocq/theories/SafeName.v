(** Naming: [safe_name] and the names that the code generator derives from it. *)
From Verif Require Import PyStr.

(** pyangbind/lib/yangtypes.py:37-89, [reserved_name]. *)
Definition reserved_name : list str := map lit
 ["list"; "str"; "int"; "global"; "decimal"; "float"; "as"; "if"; "else"; "elif"; "map"; "set";
  "class"; "from"; "import"; "pass"; "return"; "is"; "exec"; "pop"; "insert"; "remove"; "add";
  "delete"; "local"; "get"; "default"; "yang_name"; "def"; "print"; "del"; "break"; "continue";
  "raise"; "in"; "assert"; "while"; "for"; "try"; "finally"; "with"; "except"; "lambda"; "or";
  "and"; "not"; "yield"; "property"; "min"; "max"; "async"]%string.

(** pyangbind/lib/yangtypes.py:121-131, [safe_name]. *)
Definition safe_name (arg : str) : str :=
  let a1 := replace_ch 45 95 arg in
  let a2 := replace_ch 46 95 a1 in
  if str_in a2 reserved_name then a2 ++ [95%N] else a2.

(** pyangbind/plugin/pybind.py:1541-1543: the Python-side key string of a list,
    [safe_name(element.search_one("key").arg)], applied to the whole key argument. *)
Definition list_key_string (key_arg : str) : str := safe_name key_arg.

(** pyangbind/lib/yangtypes.py:640-655 and 751-785: the list splits that key string
    on single spaces to obtain the attribute names of the key leaves. *)
Definition list_key_attrs (key_arg : str) : list str := split_on 32 (list_key_string key_arg).

(** pyangbind/plugin/pybind.py:1503 (["name": safe_name(element.arg)]): the attribute
    name generated for a leaf. *)
Definition leaf_attr (yang_name : str) : str := safe_name yang_name.

(** The path string handed down by get_children/get_element
    (pyangbind/plugin/pybind.py:690, [path + "/" + e.arg]). *)
Definition path_string (p : list str) : str := flat_map (fun n => 47%N :: n) p.

(** pyangbind/plugin/pybind.py:1532-1536 and 800-805: the class name of the container
    or list with schema path [p] (non-empty) in module [m] for single-file output;
    [elem] is the last component of [p]. *)
Definition class_name (m elem : str) (p : list str) : str :=
  lit "yc_" ++ safe_name elem ++ lit "_" ++ safe_name m ++ lit "_"
    ++ safe_name (replace_ch 47 95 (path_string p)).
