(** Graphs of packages: [E x y], x imports y. *)
From Coq Require Import List.
Import ListNotations.
Section Graph.
Context {A : Type}.
Variable E : A -> A -> Prop.
Inductive reach : A -> A -> Prop :=
| re_here x : reach x x
| re_step x y z : E x y -> reach y z -> reach x z.
(** From [r] one comes to a package that imports itself, in one or more steps. *)
Definition cycle_from (r : A) : Prop := exists x y, reach r x /\ E x y /\ reach y x.
(** All that can be reached is among finitely many. *)
Definition finite_from (r : A) (U : list A) : Prop := forall x, reach r x -> In x U.
(** Every package before all that it imports; every package behind all that it imports. *)
Definition importers_first (l : list A) : Prop := forall a x b, l = a ++ x :: b -> forall y, E x y -> In y b.
Definition imported_first (l : list A) : Prop := forall a x b, l = a ++ x :: b -> forall y, E x y -> In y a.
End Graph.
