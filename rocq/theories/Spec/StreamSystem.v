(** A stream from end to end: what the server's session has sent, and what of it the client's connection has brought. *)
From Coq Require Import ZArith List Bool.
Import ListNotations.
From Verif.Model Require Import Base Compress Client.
From Verif.Model Require SrvSession.
From Verif.Spec Require Import Delivery.
Local Open Scope Z_scope.

(** The message is for the session. *)
Definition for_sess (sid : Z) (m : smsg) : bool :=
  match m with MPayload w => wp_sess w =? sid | MClose s _ => s =? sid | _ => false end.
(** The message on the wire that the server made of a payload or a Close. *)
Inductive carries (reg : creg) (sid : Z) : smsg -> SrvSession.wmsg -> Prop :=
| c_data r d f w : wp_sess w = sid -> wp_req w = r -> wp_end w = f -> Decompress reg (wp_comp w) (wp_data w) = Ok d ->
    carries reg sid (MPayload w) (SrvSession.WData r d f)
| c_close code md : carries reg sid (MClose sid code) (SrvSession.WClose code md).
(** No longer than the client takes. *)
Definition within (limit : Z) (w : SrvSession.wmsg) : Prop :=
  match w with SrvSession.WData _ d _ => limit <= 0 \/ Z.of_nat (length d) <= limit | SrvSession.WClose _ _ => True end.
(** The messages l that the client has read bring the first of those, ws, that the server sent in the session. *)
Definition brought (reg : creg) (limit sid : Z) (l : list smsg) (ws : list SrvSession.wmsg) : Prop :=
  exists a b, ws = a ++ b /\ Forall2 (carries reg sid) (filter (for_sess sid) l) a /\ Forall (within limit) a.
(** The data of the Sends of the handler that succeeded, in the order in which it went out. *)
Definition handler_sends (x : SrvSession.st) : list bytes :=
  flat_map (fun e => match e with (Some _, SrvSession.WData _ d _) => [d] | _ => [] end) (SrvSession.x_wire x).
