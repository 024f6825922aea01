(** Pool, rpc/client/pool/pool.go and health.go: the list of ready backends, the calls that
    wait for one, and Close.  A step is a critical section of p.mu or one channel operation. *)
From Verif.Model Require Import Base.

(** A call of getSubConnWait (pool.go:158-190), with its waitForReady argument. *)
Inductive caller :=
| CTop (wait : bool)              (* before line 161 *)
| CPast (wait : bool)             (* p.closed was not closed; before line 168 *)
| CBlocked (b : nat)              (* in the select of 183-189, on broadcast channel b *)
| CGot (sc : Z)                   (* returned a SubConn *)
| CErrNotReady | CErrClosed | CErrCtx.
(** A call of Close (306-323) or GracefulClose (330-373). *)
Inductive closer :=
| KTop            (* before the select of 307 / 331 *)
| KPast           (* took the default branch, before close(p.closed) *)
| KRest           (* has closed the channel *)
| KDone | KPanic.

Record pool := mkPool {
  pl_health : bool;                (* enableHealthCheck && healthCheckInterval > 0 *)
  pl_subs : list (Z * bool);       (* p.subConns: each SubConn with what IsReady says *)
  pl_ready : list Z;               (* p.readySubConns *)
  pl_bcast : nat;                  (* p.readyBroadcast; the channels with smaller numbers are closed *)
  pl_closed : bool;                (* p.closed is closed *)
  pl_callers : list caller;
  pl_closers : list closer }.

Fixpoint put_nth {A} (l : list A) (i : nat) (x : A) : list A :=
  match l, i with
  | [], _ => []
  | _ :: l, O => x :: l
  | y :: l, S i => y :: put_nth l i x
  end.

(** updateReadySubConns, health.go:87-110. *)
Definition updateReadySubConns (s : pool) : pool :=
  let ready := map fst (filter snd (pl_subs s)) in
  let bc := match ready, pl_ready s with _ :: _, [] => S (pl_bcast s) | _, _ => pl_bcast s end in
  mkPool (pl_health s) (pl_subs s) ready bc (pl_closed s) (pl_callers s) (pl_closers s).
Definition with_caller (s : pool) (i : nat) (c : caller) : pool :=
  mkPool (pl_health s) (pl_subs s) (pl_ready s) (pl_bcast s) (pl_closed s) (put_nth (pl_callers s) i c) (pl_closers s).
Definition with_closer (s : pool) (i : nat) (k : closer) : pool :=
  mkPool (pl_health s) (pl_subs s) (pl_ready s) (pl_bcast s) (pl_closed s) (pl_callers s) (put_nth (pl_closers s) i k).

Inductive plstep : pool -> pool -> Prop :=
(* a SubConn connects, fails, or changes its health (subconn.go) *)
| PFlip h l1 x b b' l2 r bc c cs ks :
    plstep (mkPool h (l1 ++ (x, b) :: l2) r bc c cs ks) (mkPool h (l1 ++ (x, b') :: l2) r bc c cs ks)
(* checkAllHealth, health.go:43-76, called by the loop of 25-40 when health checks are on *)
| PTick s : pl_health s = true -> plstep s (updateReadySubConns s)
(* a call on a SubConn that the pool handed out failed with a connection error, pool.go:211-217 *)
| PCallFailed s i x : nth_error (pl_callers s) i = Some (CGot x) -> plstep s (updateReadySubConns s)
(* getSubConnWait *)
| PCall s w : plstep s (mkPool (pl_health s) (pl_subs s) (pl_ready s) (pl_bcast s) (pl_closed s) (pl_callers s ++ [CTop w]) (pl_closers s))
| PClosed s i w : nth_error (pl_callers s) i = Some (CTop w) -> pl_closed s = true -> plstep s (with_caller s i CErrClosed)
| POpen s i w : nth_error (pl_callers s) i = Some (CTop w) -> pl_closed s = false -> plstep s (with_caller s i (CPast w))
| PPick s i w x : nth_error (pl_callers s) i = Some (CPast w) -> In x (pl_ready s) -> plstep s (with_caller s i (CGot x))
| PFail s i : nth_error (pl_callers s) i = Some (CPast false) -> pl_ready s = [] -> plstep s (with_caller s i CErrNotReady)
| PBlock s i : nth_error (pl_callers s) i = Some (CPast true) -> pl_ready s = [] -> plstep s (with_caller s i (CBlocked (pl_bcast s)))
| PWake s i b : nth_error (pl_callers s) i = Some (CBlocked b) -> (b < pl_bcast s)%nat -> plstep s (with_caller s i (CTop true))
| PWakeClosed s i b : nth_error (pl_callers s) i = Some (CBlocked b) -> pl_closed s = true -> plstep s (with_caller s i CErrClosed)
| PCtx s i b : nth_error (pl_callers s) i = Some (CBlocked b) -> plstep s (with_caller s i CErrCtx)
(* Close, GracefulClose *)
| PCloseCall s : plstep s (mkPool (pl_health s) (pl_subs s) (pl_ready s) (pl_bcast s) (pl_closed s) (pl_callers s) (pl_closers s ++ [KTop]))
| PCloseAgain s i : nth_error (pl_closers s) i = Some KTop -> pl_closed s = true -> plstep s (with_closer s i KDone)
| PCloseFirst s i : nth_error (pl_closers s) i = Some KTop -> pl_closed s = false -> plstep s (with_closer s i KPast)
| PCloseChan h su r bc c cs ks i : nth_error ks i = Some KPast ->
    plstep (mkPool h su r bc c cs ks) (mkPool h su r bc true cs (put_nth ks i (if c then KPanic else KRest)))
| PCloseRest h su r bc c cs ks i : nth_error ks i = Some KRest ->
    plstep (mkPool h su r bc c cs ks) (mkPool h [] [] bc c cs (put_nth ks i KDone)).

(** New, 51-99, for the addresses the resolver gave; the SubConns start connecting. *)
Definition pool_new (health : bool) (addrs : list Z) : pool := mkPool health (map (fun a => (a, false)) addrs) [] 0 false [] [].
Inductive plsteps : pool -> pool -> Prop :=
| PLRefl s : plsteps s s
| PLTrans s s' s'' : plsteps s s' -> plstep s' s'' -> plsteps s s''.
