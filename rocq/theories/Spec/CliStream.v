(** What the user of a client's stream and the handler can count on. *)
From Coq Require Import ZArith List Bool.
Import ListNotations.
From Verif.Model Require Import Base CliStream.
From Verif.Model Require SrvSession.
Local Open Scope nat_scope.

(** The data of the Sends that went out, in that order. *)
Definition sends (s : st) : list bytes := flat_map (fun e => match snd e with UData d false => [d] | _ => [] end) (l_wire s).
(** A message with which the client ends the session, or its part of it. *)
Definition ending (m : umsg) : Prop := match m with UData _ f => f = true | _ => True end.
Definition closing (m : umsg) : Prop := m = UCancel \/ m = UClose.
(** A call with which its user ends it. *)
Definition ends (c : call) : Prop := match c_op c with OSend _ => False | _ => True end.
(** No longer than the server takes. *)
Definition fits (limit : Z) (d : bytes) : bool := negb ((0 <? limit)%Z && (limit <? Z.of_nat (length d))%Z).
(** The payloads up to the end of the session that the server takes: it drops those that are too long, rpc/server/conn.go:568-572. *)
Fixpoint payloads (limit : Z) (ws : list umsg) : list SrvSession.pay :=
  match ws with
  | UData d f :: q => (if fits limit d then [SrvSession.mkP 0 d f] else []) ++ payloads limit q
  | _ => []
  end.
(** The server has read the first messages of the client's, those in a. *)
Definition fed (limit : Z) (s : st) (a : list umsg) (y : SrvSession.st) : Prop :=
  (exists b, map snd (l_wire s) = a ++ b) /\ SrvSession.x_arrived y = payloads limit a.
