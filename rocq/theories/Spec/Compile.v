(** Which files a compilation is about. *)
From Coq Require Import ZArith List String.
Import ListNotations.
From Verif.Model Require Import Base Idl Compile.
From Verif.Spec Require Import ClawText VendorFind.
Local Open Scope Z_scope.

(** A schema in the directory itself. *)
Definition schema_in (d f : bytes) : Prop := exists n, f = d ++ lit "/" ++ n /\ ~ In 47 n /\ ends_in (lit ".claw") n.
Definition part_of (t s : bytes) : Prop := exists a b, s = a ++ t ++ b.
Section Where.
Variable readDir : bytes -> option (list bytes).
Variable workDir repo vendorDir : bytes.
(** The directory of a package whose path begins with that of the workspace; other repositories, whose name begins with
    that of this one, have no sensible one. *)
Definition own_dir (q d : bytes) : Prop :=
  (exists rel, q = repo ++ lit "/" ++ rel /\ d = workDir ++ lit "/" ++ rel) \/
  (~ starts (repo ++ lit "/") q /\ d = workDir ++ lit "/" ++ q).
(** A package is compiled from the only schema in its directory in the workspace, or in the vendor directory, of which
    [files] are the files. *)
Definition compiled_from (files : list bytes) (q : bytes) (j : job) : Prop :=
  (starts repo q /\ exists d es e, own_dir q d /\ readDir d = Some es /\ only_schema es e /\ j = Local (d ++ lit "/" ++ e)) \/
  (~ starts repo q /\ exists f, In f files /\ schema_in (vendorDir ++ lit "/" ++ q) f /\
    (forall f', In f' files -> schema_in (vendorDir ++ lit "/" ++ q) f' -> f' = f) /\ j = Vendored f).
End Where.
