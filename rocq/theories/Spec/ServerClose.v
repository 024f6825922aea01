(** C148, the words of the property: what it means that the handlers of a server connection are told of its end. *)
From Coq Require Import List ZArith.
Import ListNotations.
From Verif.Model Require Import Base Compress Client ServerConn.
Local Open Scope Z_scope.

(** The handler of a session has not returned: it waits for its turn, or runs. *)
Definition alive (x : ssess) : Prop := ss_h x = HNot \/ ss_h x = HRun.
(** The handler is told: the session is cancelled, or the channel of its requests is closed, or the read loop is about to close it. *)
Definition told (s : sconn) (o : nat) (x : ssess) : Prop :=
  ss_cancel x = true \/ ss_recv_closed x = true \/ exists c, v_reader s = VClosing o c.
(** Fewer than 2^32 - 1 sessions so far. *)
Definition few (s : sconn) : Prop := Z.of_nat (length (v_objs s)) < 2 ^ 32.
