(** Which schema stands for a package path. *)
From Coq Require Import ZArith List String.
Import ListNotations.
From Verif.Model Require Import Base Idl ClawMod.
From Verif.Spec Require Import ClawText.
Local Open Scope Z_scope.

Definition ends_in (t w : bytes) : Prop := exists a, w = a ++ t.
(** The first directive of a list for a path. *)
Definition first_for (rs : list replace) (p t : bytes) : Prop := exists a b, rs = a ++ mkRep p t :: b /\ forall r, In r a -> r.(rp_from) <> p.
Definition none_for (rs : list replace) (p : bytes) : Prop := forall r, In r rs -> r.(rp_from) <> p.
(** [a] is looked up for [p]: local.replace counts before the root's claw.mod. *)
Definition stands_for (own local : list replace) (p a : bytes) : Prop :=
  first_for local p a \/ (none_for local p /\ first_for own p a) \/ (none_for local p /\ none_for own p /\ a = p).
(** A path in the file system. *)
Definition on_disk (a : bytes) : Prop := starts (lit "/") a \/ starts (lit "./") a \/ starts (lit "../") a.
(** The one among [es] that ends in .claw. *)
Definition only_schema (es : list bytes) (e : bytes) : Prop :=
  exists l1 l2, es = l1 ++ e :: l2 /\ ends_in (lit ".claw") e /\ forall x, In x (l1 ++ l2) -> ~ ends_in (lit ".claw") x.
Section Find.
Variable readDir : bytes -> option (list bytes).
Variable readFile : bytes -> option bytes.
Variable join : bytes -> bytes -> bytes.
Variable hasGit : bool.
Variable inRepo : bytes -> bool.
Variable abs : bytes -> option bytes.
Variable fetch : bytes -> option bytes.
(** The schema [c] is the file, or the only one in the directory. *)
Definition schema_at (a c : bytes) : Prop :=
  (ends_in (lit ".claw") a /\ readFile a = Some c) \/
  (~ ends_in (lit ".claw") a /\ exists es e, readDir a = Some es /\ only_schema es e /\ readFile (join a e) = Some c).
(** The schema of what is looked up, and whether it has to be vendored. *)
Definition schema_of (a c : bytes) (vendored : bool) : Prop :=
  (on_disk a /\ schema_at a c /\ vendored = false) \/
  (~ on_disk a /\ hasGit = true /\ inRepo a = true /\ (exists d, abs a = Some d /\ schema_at d c) /\ vendored = false) \/
  (~ on_disk a /\ ~ (hasGit = true /\ inRepo a = true) /\ fetch a = Some c /\ vendored = true).
End Find.
