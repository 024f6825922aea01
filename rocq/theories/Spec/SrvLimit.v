(** Handlers that read their stream to its end. *)
From Coq Require Import List Bool Arith.
Import ListNotations.
From Verif.Model Require Export SrvLimit.

(** A handler that returns only when it was given the end of the stream or its session was cancelled. *)
Definition patient (c : lconn) (e : levent) : Prop :=
  match e with
  | EEnd i => exists x, nth_error (l_sess c) i = Some x /\ (In true (l_got x) \/ l_can x = true)
  | _ => True
  end.
Fixpoint all_patient (max : nat) (c : lconn) (es : list levent) : Prop :=
  match es with [] => True | e :: q => patient c e /\ match step max c e with Some c => all_patient max c q | None => True end end.
(** What the session i was sent so far: its handler has it or finds it in the channel; and whether it was cancelled. *)
Definition delivered (c : lconn) (i : nat) : option (list bool * bool) :=
  match nth_error (l_sess c) i with Some x => Some (l_got x ++ l_q x, l_can x) | None => None end.
