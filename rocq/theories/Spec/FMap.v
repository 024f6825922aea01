(** Finite maps from field numbers, as association lists sorted by number. *)
From Coq Require Export ZArith List Bool.
From Coq Require Export Sorting.Sorted.
Export ListNotations.
Open Scope Z_scope.

Section FMap.
Context {A : Type}.

(** Strictly increasing numbers. *)
Definition fsorted (fs : list (Z * A)) : Prop := StronglySorted (fun a b => fst a < fst b) fs.

Fixpoint flook (f : Z) (fs : list (Z * A)) : option A :=
  match fs with
  | [] => None
  | (g, c) :: r => if f =? g then Some c else flook f r
  end.
Fixpoint fput (f : Z) (b : A) (fs : list (Z * A)) : list (Z * A) :=
  match fs with
  | [] => [(f, b)]
  | (g, c) :: r =>
      if f <? g then (f, b) :: (g, c) :: r
      else if f =? g then (f, b) :: r else (g, c) :: fput f b r
  end.
Fixpoint fdel (f : Z) (fs : list (Z * A)) : list (Z * A) :=
  match fs with
  | [] => []
  | (g, c) :: r => if f =? g then r else (g, c) :: fdel f r
  end.
End FMap.
