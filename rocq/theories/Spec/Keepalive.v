(** What is assumed of the peer, the transport and the users of a connection in the theorems about the keepalive. *)
From Coq Require Import List.
Import ListNotations.
From Verif.Model Require Import Keepalive.
Local Open Scope nat_scope.

(** Something holds at every moment of a run. *)
Definition always (i t cap : nat) (P : st -> Prop) (es : list event) : Prop := forall a b s, es = a ++ b -> run i t cap (init i) a = Some s -> P s.
(** No ping has been without a Pong on its way back for longer than r. *)
Definition prompt (r : nat) (s : st) : Prop := forall p, k_owe s = Some p -> k_now s <= p + r.
(** And the read loop does not wait for a session. *)
Definition answered (r : nat) (s : st) : Prop := k_busy s = false /\ prompt r s.
(** Nothing is read, the transport goes on taking data and the context does not end. *)
Definition silent (e : event) : Prop := e <> ERead /\ e <> EStuck true /\ e <> ECtx.
