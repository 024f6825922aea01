(** C147, the words of the property: what it means that a connection is closed for its callers. *)
From Coq Require Import List ZArith.
Import ListNotations.
From Verif.Model Require Import Base Compress Client.
From Verif.Spec Require Import Delivery.
Local Open Scope Z_scope.

(** The i-th call that opened a session has returned the session [x]. *)
Definition given (s : client) (i o : nat) (x : sess) : Prop :=
  nth_error (c_openers s) i = Some (OGot o) /\ nth_error (c_objs s) o = Some x.
(** A call that has not returned. *)
Definition running (s : client) (i : nat) : Prop :=
  exists w, nth_error (c_openers s) i = Some w /\ w <> OErr /\ forall o, w <> OGot o.
(** The i-th call has not got a session and will not start to wait for one: it has yet to look at the connection, or failed. *)
Definition without_session (s : client) (i : nat) : Prop :=
  nth_error (c_openers s) i = None \/ nth_error (c_openers s) i = Some OTop \/ nth_error (c_openers s) i = Some OErr.
(** The user of a session is told: it is cancelled, or its channel is closed, or the read loop is about to close it. *)
Definition told (s : client) (o : nat) (x : sess) : Prop :=
  so_cancel x = true \/ so_recv_closed x = true \/ exists c, c_reader s = RClose o c.
(** The server gives no session id twice, and fewer than 2^32 sessions are opened. *)
Definition fair_ids (s : client) : Prop := NoDup (accepted_ids (c_log s)) /\ Z.of_nat (length (c_objs s)) <= 2 ^ 32.
