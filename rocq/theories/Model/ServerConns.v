(** Server.Serve and Server.Shutdown, rpc/server/server.go:152-229: the set of connections.
    A step is a critical section of s.mu or one action outside it. *)
From Verif.Model Require Import Base.

(** A goroutine that runs Serve for transport t (transports are numbered). *)
Inductive serving :=
| VCalled                 (* before the lock of 160 *)
| VServing                (* in s.conns, in conn.serve (178) *)
| VEnded                  (* conn.serve has returned, before the lock of 180 *)
| VReturned               (* removed from s.conns *)
| VRejected.              (* transport closed, an error returned (161-172) *)

Record server := mkServer {
  sv_max : Z;                    (* maxConnections; 0 is no limit *)
  sv_closed : bool;
  sv_conns : list nat;           (* s.conns *)
  sv_calls : list serving;       (* the state of the Serve call of each transport *)
  sv_told : list nat }.          (* the connections some Shutdown has collected (195-199) *)

Fixpoint put_call (l : list serving) (i : nat) (x : serving) : list serving :=
  match l, i with
  | [], _ => []
  | _ :: l, O => x :: l
  | y :: l, S i => y :: put_call l i x
  end.
Definition rem (t : nat) (l : list nat) : list nat := filter (fun x => negb (x =? t)%nat) l.

(** Shutdown's critical section, 193-200; what it then does to the connections it collected makes
    them end. *)
Definition Shutdown (s : server) : server := mkServer (sv_max s) true (sv_conns s) (sv_calls s) (sv_conns s ++ sv_told s).

Inductive svstep : server -> server -> Prop :=
| VCall m c l v d : svstep (mkServer m c l v d) (mkServer m c l (v ++ [VCalled]) d)
(* 160-165 *)
| VRejectClosed m l v d i : nth_error v i = Some VCalled ->
    svstep (mkServer m true l v d) (mkServer m true l (put_call v i VRejected) d)
(* 168-172 *)
| VRejectFull m l v d i : nth_error v i = Some VCalled -> m > 0 -> len l >= m ->
    svstep (mkServer m false l v d) (mkServer m false l (put_call v i VRejected) d)
(* 174-176 *)
| VAccept m l v d i : nth_error v i = Some VCalled -> ~ (m > 0 /\ len l >= m) ->
    svstep (mkServer m false l v d) (mkServer m false (i :: l) (put_call v i VServing) d)
(* conn.serve returns, 178 *)
| VEnd m c l v d i : nth_error v i = Some VServing -> svstep (mkServer m c l v d) (mkServer m c l (put_call v i VEnded) d)
(* 180-182 *)
| VRemove m c l v d i : nth_error v i = Some VEnded -> svstep (mkServer m c l v d) (mkServer m c (rem i l) (put_call v i VReturned) d)
| VShutdown s : svstep s (Shutdown s).

Definition sv_new (m : Z) : server := mkServer m false [] [] [].
Inductive svsteps : server -> server -> Prop :=
| SVRefl s : svsteps s s
| SVTrans s s' s'' : svsteps s s' -> svstep s' s'' -> svsteps s s''.
