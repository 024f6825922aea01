(** The order of names. *)
From Coq Require Import ZArith List.
Import ListNotations.
From Verif.Model Require Import Base.
Local Open Scope Z_scope.

(** As in a dictionary of bytes. *)
Definition name_le (a b : bytes) : Prop :=
  (exists r, b = a ++ r) \/ exists p x y a' b', a = p ++ x :: a' /\ b = p ++ y :: b' /\ x < y.
(** [r] is what of [l] has the property [P]; there is at most one. *)
Definition finds {A} (l : list A) (P : A -> Prop) (r : option A) : Prop :=
  match r with Some a => In a l /\ P a /\ (forall b, In b l -> P b -> b = a) | None => forall a, In a l -> ~ P a end.
