(** C149, the words of the property. *)
From Coq Require Import List ZArith.
From Verif.Model Require Import Base BinaryPkg.
Local Open Scope Z_scope.

(** v is a value of the type. *)
Definition fits (t : itype) (v : Z) : Prop :=
  let n := 8 * Z.of_nat (tbytes t) in
  if it_signed t then - 2 ^ (n - 1) <= v < 2 ^ (n - 1) else 0 <= v < 2 ^ n.
(** b' is b with v in its first n bytes: little endian, two's complement, and nothing else changed. *)
Definition holds_le (n : nat) (v : Z) (b b' : bytes) : Prop :=
  length b' = length b /\
  (forall i, (i < n)%nat -> nth_error b' i = Some (v / 256 ^ Z.of_nat i mod 256)) /\
  (forall i, (n <= i)%nat -> nth_error b' i = nth_error b i).
