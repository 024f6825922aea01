(** What the compiler's output is meant to be. *)
From Coq Require Import String.
From Verif.Model Require Import Base Idl.
From Coq Require Import List.
Import ListNotations.
Open Scope list_scope. Open Scope Z_scope.

(** The helper packages that generated code may import, and how their names are used. *)
Definition helpers : list (bytes * bytes) :=
    [(lit "github.com/bearlytools/claw/clawc/languages/go/mapping", lit "mapping.");
     (lit "github.com/bearlytools/claw/languages/go/reflect", lit "reflect.");
     (lit "github.com/bearlytools/claw/languages/go/reflect/runtime", lit "runtime.");
     (lit "github.com/bearlytools/claw/clawc/languages/go/conversions", lit "conversions.");
     (lit "github.com/bearlytools/claw/clawc/languages/go/field", lit "field.");
     (lit "github.com/bearlytools/claw/clawc/languages/go/clawiter", lit "clawiter.")].
Definition helper (path use : bytes) : Prop := In (path, use) helpers.
Definition occurs (u b : bytes) : Prop := exists x y, b = x ++ u ++ y.
Definition blank (s : bytes) : Prop := Forall (fun c => 9 <= c <= 13 \/ c = 32) s.
Definition quote_or_not (s : bytes) : Prop := s = [] \/ s = [34].
(** A line that imports [path]. *)
Definition import_line (path line : bytes) : Prop :=
  exists w1 q1 q2 w2, blank w1 /\ quote_or_not q1 /\ quote_or_not q2 /\ blank w2 /\ line = w1 ++ q1 ++ path ++ q2 ++ w2.
(** A line that is superfluous in the text [b]: it imports a helper that [b] does not use. *)
Definition superfluous (b line : bytes) : Prop :=
  exists path use, helper path use /\ import_line path line /\ ~ occurs use b.
(** [ls] are the lines of [b]: each but the last one ends with its line feed. *)
Definition lines_of (b : bytes) (ls : list bytes) : Prop :=
  exists init last, ls = init ++ [last] /\ b = concat init ++ last /\ ~ In 10 last /\
    Forall (fun l => exists t, l = t ++ [10] /\ ~ In 10 t) init.
(** [out] has the lines of [ls] that do not satisfy [P], in order. *)
Inductive without (P : bytes -> Prop) : list bytes -> list bytes -> Prop :=
| W_nil : without P [] []
| W_drop l ls out : P l -> without P ls out -> without P (l :: ls) out
| W_keep l ls out : ~ P l -> without P ls out -> without P (l :: ls) (l :: out).
