(** The Go types that stand for the types a schema is written with. *)
From Coq Require Import ZArith List Bool String.
Import ListNotations.
From Verif.Model Require Import Base Idl.
From Verif.Spec Require Import Idl.
Local Open Scope Z_scope.

(** Built-in types: the names in the schema and in Go. *)
Definition go_names : list (string * string) := [
  ("bool", "bool"); ("int8", "int8"); ("int16", "int16"); ("int32", "int32"); ("int64", "int64");
  ("uint8", "uint8"); ("uint16", "uint16"); ("uint32", "uint32"); ("uint64", "uint64");
  ("float32", "float32"); ("float64", "float64"); ("string", "string"); ("bytes", "[]byte") ]%string.

Section Types.
Variable F : file.
Variable ext : bytes -> option file.
(** The elements of a field, and what it holds if it is no list. *)
Inductive elem_type : bytes -> bytes -> Prop :=
| et_plain c g : In (c, g) go_names -> elem_type (lit c) (lit g)
| et_any : elem_type (lit "Any") (lit "any")
| et_enum w e : stands_for F ext w (DEnum e) -> elem_type w w
| et_struct w s : stands_for F ext w (DStruct s) -> elem_type w (lit "*" ++ w ++ lit "Raw").
(** The values of a map. *)
Inductive value_type : bytes -> bytes -> Prop :=
| vt_plain c g : In (c, g) go_names -> value_type (lit c) (lit g)
| vt_any : value_type (lit "Any") (lit "*segment.MapAnyValue")
| vt_anys : value_type (lit "[]Any") (lit "[]segment.MapAnyValue")
| vt_struct w s : stands_for F ext w (DStruct s) -> value_type w (lit "*" ++ w ++ lit "Raw")
| vt_map k v g : In (k, k) go_names -> value_type v g ->
    value_type (lit "map[" ++ lit k ++ lit "]" ++ v) (lit "map[" ++ lit k ++ lit "]" ++ g).
(** The type of a field of the Raw struct. *)
Inductive raw_type : bytes -> bytes -> Prop :=
| rt_one w g : elem_type w g -> raw_type w g
| rt_list w g : elem_type w g -> raw_type (lit "[]" ++ w) (lit "[]" ++ g)
| rt_map k v g : In (k, k) go_names -> value_type v g ->
    raw_type (lit "map[" ++ lit k ++ lit "]" ++ v) (lit "map[" ++ lit k ++ lit "]" ++ g).

(** The numbers in lists of numbers: the number type or the enum. *)
Inductive number_type : bytes -> bytes -> Prop :=
| nt_plain c : In (c, c) go_names -> c <> "bool"%string -> c <> "string"%string -> number_type (lit c) (lit c)
| nt_enum w e : stands_for F ext w (DEnum e) -> number_type w w.

(** The variable with the table of the Struct of a type: of this package or of another. *)
Inductive table_of : bytes -> bytes -> Prop :=
| to_here w s : In (DStruct s) F.(f_idents) -> s.(s_name) = w -> table_of w (lit "XXXMapping" ++ w)
| to_there w p n : dotted w p n -> imports_pkg F p -> table_of w (p ++ lit ".XXXMapping" ++ n).
End Types.

(** What is inside all the maps of a map type: the type of the values and its name. *)
Fixpoint innermost (m : minfo) : Z * bytes :=
  match m with MInfo _ v w None => (v, w) | MInfo _ _ _ (Some n) => innermost n end.
