(** The names that a generated package declares: clawc/internal/idl/struct.tmpl, and claw.tmpl, enums.tmpl, mappings.tmpl and reflect.tmpl of
    clawc/internal/render/golang/templates.  Left out: init and _, which Go lets a package declare often, and the imports of a file. *)
From Coq Require Import ZArith List Bool String.
Import ListNotations.
From Verif.Model Require Import Base Idl.
Local Open Scope Z_scope.

(** claw.tmpl:37-40, reflect.tmpl:39,88,95,121 *)
Definition pkgFixed : list string :=
  ["SyntaxVersion"; "_package"; "_packagePath"; "XXXEnumGroups"; "XXXStructDescrs"; "XXXPackageDescr"; "PackageDescr"]%string.
(** What is before and behind the name of an Enum: enums.tmpl:5,38,45, reflect.tmpl:22. *)
Definition enumShapes : list (string * string) := [("", ""); ("", "ByName"); ("", "ByValue"); ("XXXEnumGroup", "")]%string.
(** And of a Struct: struct.tmpl:8,14,36,929,937, mappings.tmpl:9,14, reflect.tmpl:54. *)
Definition structShapes : list (string * string) :=
  [("", ""); ("New", ""); ("XXXNew", "From"); ("", "Raw"); ("New", "FromRaw"); ("XXXTypeHash", ""); ("XXXMapping", ""); ("XXXStructDescr", "")]%string.
Definition wrap (n : bytes) (ps : string * string) : bytes := lit (fst ps) ++ n ++ lit (snd ps).
(** The constants of an Enum have the names of its values, enums.tmpl:34; here in the order of the schema. *)
Definition declNames (d : decl) : list bytes :=
  match d with
  | DEnum e => map (wrap e.(e_name)) enumShapes ++ map ev_name e.(e_vals)
  | DStruct s => map (wrap s.(s_name)) structShapes
  end.
Definition pkgNames (f : file) : list bytes := map lit pkgFixed ++ flat_map declNames f.(f_idents).
