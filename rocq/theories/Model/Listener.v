(** The listener and the accepting server of the TCP and the Unix socket transport: rpc/transport/tcp/server.go
    (Listener, Server) and rpc/transport/unix/server.go, which have the same code.

    Goroutines are interleaved at the mutexes, the select of Accept and the system's accept.  The system hands out any
    of the waiting connections (it has a queue); where the listener is closed it closes those that wait.  pool.Submit is
    taken to run the function.  What happens on a connection is in Model/ServerConn.v and Model/ServerConns.v. *)
From Coq Require Import List Bool Arith.
Import ListNotations.

Definition fupd {A} (f : nat -> A) (k : nat) (v : A) : nat -> A := fun j => if j =? k then v else f j.

(** Where a connection is: waiting in the system; taken by the goroutine [g] of an Accept; given to the call [t]
    (returned by Accept, or handed to the RPC server by Serve); closed by the system. *)
Inductive place := Queue | Chan (g : nat) | Given (t : nat) | Gone.
Record conn := mkC { c_lis : nat; c_at : place }.
(** The goroutine of an Accept (tcp/server.go 85-88): it waits in accept, or it has put a connection or an error into
    resultCh. *)
Inductive got := Waits | GotConn (c : nat) | GotErr.
Record gor := mkG { g_lis : nat; g_got : got }.
(** What a call returns: a connection; nil; ErrClosed; the error of accept; the error of the context. *)
Inductive result := RConn (c : nat) | RNil | RClosed | RErr | RCtx.
(** Accept: 71-104.  Listener.Close: 107-117.  Serve: 307-345.  Server.Close: 369-379 (and Shutdown 352-365 as far as
    the listener goes). *)
Inductive call := Accept (l : nat) | CloseLis (l : nat) | Serve (l : nat) | CloseSrv.
Inductive pc :=
| AStart                              (* Accept: before the test of closed *)
| ASel (g : nat)                      (* in the select *)
| LStart                              (* Listener.Close *)
| SStart                              (* Serve: before the test of closed *)
| SAcc                                (* at the head of the loop: Accept before its test *)
| SSel (g : nat)                      (* Accept, in the select *)
| SErr (r : result)                   (* Accept returned the error r; before closed is read *)
| SEnd (r : result)                   (* before the deferred function sets listener to nil *)
| SLast (r : result)                  (* before listener.Close() in it *)
| XStart                              (* Server.Close: before closed is set *)
| XLis (l : nat)                      (* before listener.Close() *)
| Done (r : result).
Record thread := mkT { t_call : call; t_pc : pc; t_ctx : bool }.   (* t_ctx: the context of the call is cancelled *)

Record st := mkSt {
  s_nl : nat; s_shut : nat -> bool;                (* listeners: how many; closed? *)
  s_nc : nat; s_conn : nat -> conn;                (* connections *)
  s_ng : nat; s_gor : nat -> gor;                  (* goroutines of Accept *)
  s_nt : nat; s_thread : nat -> thread;            (* calls *)
  s_closed : bool; s_listener : option nat }.      (* Server.closed, Server.listener *)

Definition init : st := mkSt 0 (fun _ => true) 0 (fun _ => mkC 0 Gone) 0 (fun _ => mkG 0 Waits) 0 (fun _ => mkT CloseSrv (Done RNil) false) false None.

(** Listen succeeds; a connection comes in for the listener [l]; a call; its context is cancelled; its next step; the
    select takes the context; accept hands the connection [c] to [g]; accept fails. *)
Inductive event := EListen | EArrive (l : nat) | ECall (c : call) | ECancel (t : nat) | EStep (t : nat) | ECtx (t : nat)
                 | ETake (g c : nat) | EFail (g : nat).

Definition start (c : call) : pc := match c with Accept _ => AStart | CloseLis _ => LStart | Serve _ => SStart | CloseSrv => XStart end.
Definition fits (c : call) (s : st) : bool :=
  match c with Accept l | CloseLis l | Serve l => l <? s.(s_nl) | CloseSrv => true end.
Definition to (t : nat) (p : pc) (s : st) : st :=
  mkSt s.(s_nl) s.(s_shut) s.(s_nc) s.(s_conn) s.(s_ng) s.(s_gor) s.(s_nt)
       (fupd s.(s_thread) t (mkT (s.(s_thread) t).(t_call) p (s.(s_thread) t).(t_ctx))) s.(s_closed) s.(s_listener).
Definition withConn (f : nat -> conn) (s : st) : st :=
  mkSt s.(s_nl) s.(s_shut) s.(s_nc) f s.(s_ng) s.(s_gor) s.(s_nt) s.(s_thread) s.(s_closed) s.(s_listener).
Definition withServer (b : bool) (l : option nat) (s : st) : st :=
  mkSt s.(s_nl) s.(s_shut) s.(s_nc) s.(s_conn) s.(s_ng) s.(s_gor) s.(s_nt) s.(s_thread) b l.
(** Listener.Close: nothing if closed; otherwise the system's listener is closed. *)
Definition closeLis (l : nat) (s : st) : st :=
  mkSt s.(s_nl) (fupd s.(s_shut) l true) s.(s_nc)
       (fun c => let x := s.(s_conn) c in
                 match x.(c_at) with Queue => if x.(c_lis) =? l then mkC l Gone else x | _ => x end)
       s.(s_ng) s.(s_gor) s.(s_nt) s.(s_thread) s.(s_closed) s.(s_listener).
(** go func() { conn, err := listener.Accept() ... } *)
Definition spawn (l : nat) (s : st) : st :=
  mkSt s.(s_nl) s.(s_shut) s.(s_nc) s.(s_conn) (S s.(s_ng)) (fupd s.(s_gor) s.(s_ng) (mkG l Waits)) s.(s_nt) s.(s_thread) s.(s_closed) s.(s_listener).
Definition give (c t : nat) (s : st) : st := withConn (fupd s.(s_conn) c (mkC (s.(s_conn) c).(c_lis) (Given t))) s.

Definition stepT (t : nat) (x : thread) (s : st) : option st :=
  match x.(t_pc), x.(t_call) with
  | AStart, Accept l =>
    Some (if s.(s_shut) l then to t (Done RClosed) s else to t (ASel s.(s_ng)) (spawn l s))
  | ASel g, Accept l =>
    match (s.(s_gor) g).(g_got) with
    | Waits => None
    | GotConn c => Some (to t (Done (RConn c)) (give c t s))
    | GotErr => Some (to t (Done RErr) s)
    end
  | LStart, CloseLis l => Some (to t (Done RNil) (closeLis l s))
  | SStart, Serve l =>
    Some (if s.(s_closed) then to t (Done RClosed) (closeLis l s) else to t SAcc (withServer s.(s_closed) (Some l) s))
  | SAcc, Serve l =>
    Some (if s.(s_shut) l then to t (SErr RClosed) s else to t (SSel s.(s_ng)) (spawn l s))
  | SSel g, Serve l =>
    match (s.(s_gor) g).(g_got) with
    | Waits => None
    | GotConn c => Some (to t SAcc (give c t s))
    | GotErr => Some (to t (SErr RErr) s)
    end
  | SErr r, Serve l => Some (to t (SEnd (if s.(s_closed) then RNil else r)) s)
  | SEnd r, Serve l => Some (to t (SLast r) (withServer s.(s_closed) None s))
  | SLast r, Serve l => Some (to t (Done r) (closeLis l s))
  | XStart, CloseSrv =>
    Some (to t (match s.(s_listener) with Some l => XLis l | None => Done RNil end) (withServer true s.(s_listener) s))
  | XLis l, CloseSrv => Some (to t (Done RNil) (closeLis l s))
  | _, _ => None
  end.
Definition step (s : st) (e : event) : option st :=
  match e with
  | EListen =>
    Some (mkSt (S s.(s_nl)) (fupd s.(s_shut) s.(s_nl) false) s.(s_nc) s.(s_conn) s.(s_ng) s.(s_gor) s.(s_nt) s.(s_thread) s.(s_closed) s.(s_listener))
  | EArrive l =>
    if (l <? s.(s_nl)) && negb (s.(s_shut) l) then
      Some (mkSt s.(s_nl) s.(s_shut) (S s.(s_nc)) (fupd s.(s_conn) s.(s_nc) (mkC l Queue)) s.(s_ng) s.(s_gor) s.(s_nt) s.(s_thread) s.(s_closed) s.(s_listener))
    else None
  | ECall c =>
    if fits c s then
      Some (mkSt s.(s_nl) s.(s_shut) s.(s_nc) s.(s_conn) s.(s_ng) s.(s_gor) (S s.(s_nt)) (fupd s.(s_thread) s.(s_nt) (mkT c (start c) false)) s.(s_closed) s.(s_listener))
    else None
  | ECancel t =>
    if t <? s.(s_nt) then
      Some (mkSt s.(s_nl) s.(s_shut) s.(s_nc) s.(s_conn) s.(s_ng) s.(s_gor) s.(s_nt)
                 (fupd s.(s_thread) t (mkT (s.(s_thread) t).(t_call) (s.(s_thread) t).(t_pc) true)) s.(s_closed) s.(s_listener))
    else None
  | EStep t => if t <? s.(s_nt) then stepT t (s.(s_thread) t) s else None
  | ECtx t =>
    if (t <? s.(s_nt)) && (s.(s_thread) t).(t_ctx) then
      match (s.(s_thread) t).(t_pc) with
      | ASel _ => Some (to t (Done RCtx) s)
      | SSel _ => Some (to t (SErr RCtx) s)
      | _ => None
      end
    else None
  | ETake g c =>
    if (g <? s.(s_ng)) && (c <? s.(s_nc)) then
      match (s.(s_gor) g).(g_got), (s.(s_conn) c).(c_at) with
      | Waits, Queue =>
        if (s.(s_conn) c).(c_lis) =? (s.(s_gor) g).(g_lis) then
          Some (mkSt s.(s_nl) s.(s_shut) s.(s_nc) (fupd s.(s_conn) c (mkC (s.(s_conn) c).(c_lis) (Chan g))) s.(s_ng)
                     (fupd s.(s_gor) g (mkG (s.(s_gor) g).(g_lis) (GotConn c))) s.(s_nt) s.(s_thread) s.(s_closed) s.(s_listener))
        else None
      | _, _ => None
      end
    else None
  | EFail g =>
    if g <? s.(s_ng) then
      match (s.(s_gor) g).(g_got) with
      | Waits => Some (mkSt s.(s_nl) s.(s_shut) s.(s_nc) s.(s_conn) s.(s_ng) (fupd s.(s_gor) g (mkG (s.(s_gor) g).(g_lis) GotErr)) s.(s_nt) s.(s_thread) s.(s_closed) s.(s_listener))
      | _ => None
      end
    else None
  end.
Fixpoint run (s : st) (es : list event) : option st :=
  match es with [] => Some s | e :: q => match step s e with Some s' => run s' q | None => None end end.
