(** The names of a schema, and which do not get into the way of generated names. *)
From Coq Require Import ZArith List Bool String.
Import ListNotations.
From Verif.Model Require Import Base Idl.
Local Open Scope Z_scope.

(** The names of a schema: of the Enums and their values, and of the Structs. *)
Definition decl_words (d : decl) : list bytes :=
  match d with DEnum e => e.(e_name) :: map ev_name e.(e_vals) | DStruct s => [s.(s_name)] end.
Definition schema_words (f : file) : list bytes := flat_map decl_words f.(f_idents).
Definition pkg_starts : list string := ["New"; "XXX"]%string.
Definition pkg_ends : list string := ["Raw"; "ByName"; "ByValue"; "From"; "FromRaw"]%string.
Definition pkg_taken : list string := ["SyntaxVersion"; "_package"; "_packagePath"; "PackageDescr"; "s"]%string.
Definition pkg_free (n : bytes) : Prop :=
  n <> [] /\ (forall p q, In p pkg_starts -> n <> lit p ++ q) /\ (forall p q, In p pkg_ends -> n <> q ++ lit p) /\ forall w, In w pkg_taken -> n <> lit w.
