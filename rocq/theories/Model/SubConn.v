(** SubConn, rpc/client/pool/subconn.go: one backend's connection.  A step is a critical
    section of sc.mu, or one action outside it. *)
From Verif.Model Require Import Base.

(** ConnState, 19-33. *)
Inductive cstate := Idle | Connecting | Ready | TransientFailure | Shutdown.

(** Where a goroutine that runs connectWithRetry (152-191) is.  Connections are numbered in
    the order they were established. *)
Inductive worker :=
| WDial               (* in tryConnect, before dialFunc returns (196) *)
| WGot (c : nat)      (* dialled, client.New done (202), before the lock of 204 *)
| WFailed             (* tryConnect returned an error, before the lock of 170 *)
| WOut                (* Retry has given up, before the lock of 184 *)
| WDone.

(** The fields of SubConn (62-76) that decide the behaviour; health as "is Serving".
    sc_next counts the connections established so far, sc_pend are those a goroutine has
    unhooked and is about to close, sc_closed those that Close was called on. *)
Record subconn := mkSC {
  sc_state : cstate; sc_conn : option nat; sc_serving : bool;
  sc_next : nat; sc_pend : list nat; sc_closed : list nat; sc_workers : list worker }.

Definition sc_new : subconn := mkSC Idle None false 0 [] [] [].   (* newSubConn, 79-90 *)

Fixpoint set_worker (l : list worker) (i : nat) (w : worker) : list worker :=
  match l, i with
  | [], _ => []
  | _ :: l, O => w :: l
  | x :: l, S i => x :: set_worker l i w
  end.
Definition opt_list {A} (o : option A) : list A := match o with Some x => [x] | None => [] end.

Inductive sc_event := EConnect | EFailure | EShutdown | EDisconnect | EInternal.

Inductive scstep : subconn -> sc_event -> subconn -> Prop :=
(* Connect, 132-149; in the other states it returns at once *)
| SConnect st c h n p cl w : st = Idle \/ st = TransientFailure ->
    scstep (mkSC st c h n p cl w) EConnect (mkSC Connecting c h n p cl (w ++ [WDial]))
(* tryConnect, 194-200: dialling fails, or gives a connection *)
| SDialFail st c h n p cl w i : nth_error w i = Some WDial ->
    scstep (mkSC st c h n p cl w) EInternal (mkSC st c h n p cl (set_worker w i WFailed))
| SDialOk st c h n p cl w i : nth_error w i = Some WDial ->
    scstep (mkSC st c h n p cl w) EInternal (mkSC st c h (S n) p cl (set_worker w i (WGot n)))
(* tryConnect, 204-216, and the return of Retry without an error *)
| SInstall st c h n p cl w i x : nth_error w i = Some (WGot x) -> st <> Shutdown ->
    scstep (mkSC st c h n p cl w) EInternal (mkSC Ready (Some x) true n p cl (set_worker w i WDone))
| SRefuse c h n p cl w i x : nth_error w i = Some (WGot x) ->
    scstep (mkSC Shutdown c h n p cl w) EInternal (mkSC Shutdown c h n (x :: p) cl (set_worker w i WFailed))
(* the function given to Retry, 169-177: stop after shutdown, otherwise try again or give up *)
| SStop c h n p cl w i : nth_error w i = Some WFailed ->
    scstep (mkSC Shutdown c h n p cl w) EInternal (mkSC Shutdown c h n p cl (set_worker w i WDone))
| SAgain st c h n p cl w i : nth_error w i = Some WFailed -> st <> Shutdown ->
    scstep (mkSC st c h n p cl w) EInternal (mkSC TransientFailure c h n p cl (set_worker w i WDial))
| SGiveUp st c h n p cl w i : nth_error w i = Some WFailed -> st <> Shutdown ->
    scstep (mkSC st c h n p cl w) EInternal (mkSC TransientFailure c h n p cl (set_worker w i WOut))
(* 183-190 *)
| SOut st c h n p cl w i : nth_error w i = Some WOut ->
    scstep (mkSC st c h n p cl w) EInternal
      (mkSC match st with Shutdown => Shutdown | _ => TransientFailure end c h n p cl (set_worker w i WDone))
(* CheckHealth 222-245 and setHealth 249-253, whatever the answer and whenever it comes *)
| SHealth st c h h' n p cl w : scstep (mkSC st c h n p cl w) EInternal (mkSC st c h' n p cl w)
(* disconnect, 256-270 *)
| SDisconnect st c h n p cl w :
    scstep (mkSC st c h n p cl w) EDisconnect
      (mkSC match st with Shutdown => Shutdown | _ => Idle end None false n (opt_list c ++ p) cl w)
(* shutdown 273-293 and gracefulShutdown 297-318; on a SubConn that is shut down they return *)
| SShutdown st c h n p cl w : st <> Shutdown ->
    scstep (mkSC st c h n p cl w) EShutdown (mkSC Shutdown None h n (opt_list c ++ p) cl w)
(* handleConnectionFailure, 322-344 *)
| SFailure st c h n p cl w : st <> Shutdown ->
    scstep (mkSC st c h n p cl w) EFailure (mkSC Connecting None false n (opt_list c ++ p) cl (w ++ [WDial]))
(* the conn.Close() (or GracefulClose) after the lock of 206-207, 267-269, 290-292, 314-316, 335-337 *)
| SClose st c h n p1 x p2 cl w :
    scstep (mkSC st c h n (p1 ++ x :: p2) cl w) EInternal (mkSC st c h n (p1 ++ p2) (x :: cl) w).

Inductive scsteps : subconn -> subconn -> Prop :=
| SCRefl s : scsteps s s
| SCTrans s s' e s'' : scsteps s s' -> scstep s' e s'' -> scsteps s s''.

(** IsReady, 113-117. *)
Definition IsReady (s : subconn) : bool :=
  match sc_state s with Ready => sc_serving s | _ => false end.
