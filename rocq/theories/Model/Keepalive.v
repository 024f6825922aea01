(** The keepalive of a client's connection: pingLoop, rpc/client/client.go:1217-1266, with what it works on: the time of the last message
    (markActivity, 548-550 and 594), the read loop (553-614) as far as it is held up by a session (handlePayload, 741-744), handlePong
    (747-755) and the sending of the ping (sendMsg, 767-805).  Time is discrete; a goroutine that can take a step does so before
    time passes.  One session is modelled; the payloads' contents are left out. *)
From Coq Require Import Arith List Bool ZArith.
Import ListNotations.
From Verif.Model Require Import Base.
Local Open Scope nat_scope.

(** A message that has arrived and has not been read: a Pong, or a payload for the session. *)
Inductive inmsg := IPong | IData.
(** Where pingLoop is: at the select of 1223, before the ping is written (1244), at the select of 1250 with the time its timer fires. *)
Inductive kpc := KSelect | KPing | KWait (deadline : nat) | KDone.
(** A ping was written, a pong was read, at that time (history). *)
Inductive hist := HPing (t : nat) | HPong (t : nat).

(** k_next: the next tick; k_tick: the tick in the ticker's channel; k_pong: what is in pongCh; k_stuck: the transport takes no data;
    k_used: the payloads in the session's recvCh; k_busy: the read loop waits for a place there; k_owe (history): the time of the
    ping for which no Pong has arrived; k_dead (history): when the keepalive closed the connection. *)
Record st := mkK {
  k_now : nat; k_last : nat; k_next : nat; k_tick : bool; k_pong : bool; k_pc : kpc; k_closed : bool; k_ctx : bool; k_stuck : bool;
  k_inbox : list inmsg; k_used : nat; k_busy : bool;
  k_hist : list hist; k_owe : option nat; k_dead : option nat }.

(** Time passes; a message arrives; the read loop reads it; the session's user takes a payload, or cancels the session; the tick is
    taken; the ping is written, or writing fails; pongCh is received from; the timer fires; the loop sees that the connection was
    closed or the context ended; the connection is closed; the context ends; the transport takes data or not. *)
Inductive event := ETime | EArrive (m : inmsg) | ERead | EConsume | ECancel | ETick | EWrite (ok : bool) | EPong | ETimeout | EStop
  | EClose | ECtx | EStuck (b : bool).

Section Loop.
Context (interval timeout cap : nat).

(** The loop can take a step. *)
Definition loop_ready (s : st) : bool :=
  match k_pc s with
  | KSelect => k_tick s || k_closed s || k_ctx s
  | KPing => k_closed s || negb (k_stuck s)
  | KWait d => k_pong s || k_closed s || k_ctx s || (d <=? k_now s)
  | KDone => false
  end.
(** The read loop has a message to read. *)
Definition read_ready (s : st) : bool :=
  negb (k_busy s) && match k_inbox s with [] => false | _ => true end && negb (k_closed s) && negb (k_ctx s).

(** time.Ticker: a tick that finds its channel full is dropped. *)
Definition pass (s : st) : st :=
  let n := S (k_now s) in
  mkK n (k_last s) (if k_next s =? n then n + interval else k_next s) (k_tick s || (k_next s =? n)) (k_pong s) (k_pc s) (k_closed s) (k_ctx s)
      (k_stuck s) (k_inbox s) (k_used s) (k_busy s) (k_hist s) (k_owe s) (k_dead s).
Definition arrive (s : st) (m : inmsg) : st :=
  mkK (k_now s) (k_last s) (k_next s) (k_tick s) (k_pong s) (k_pc s) (k_closed s) (k_ctx s) (k_stuck s) (k_inbox s ++ [m]) (k_used s) (k_busy s)
      (k_hist s) (match m with IPong => None | IData => k_owe s end) (k_dead s).
(** 586-611: the message is read, markActivity, then its handler. *)
Definition read (s : st) (m : inmsg) (q : list inmsg) : st :=
  match m with
  | IPong =>
    mkK (k_now s) (k_now s) (k_next s) (k_tick s) true (k_pc s) (k_closed s) (k_ctx s) (k_stuck s) q (k_used s) (k_busy s)
        (k_hist s ++ [HPong (k_now s)]) (k_owe s) (k_dead s)
  | IData =>
    mkK (k_now s) (k_now s) (k_next s) (k_tick s) (k_pong s) (k_pc s) (k_closed s) (k_ctx s) (k_stuck s) q
        (if k_used s <? cap then S (k_used s) else k_used s) (negb (k_used s <? cap)) (k_hist s) (k_owe s) (k_dead s)
  end.
Definition with_sess (s : st) (used : nat) (busy : bool) : st :=
  mkK (k_now s) (k_last s) (k_next s) (k_tick s) (k_pong s) (k_pc s) (k_closed s) (k_ctx s) (k_stuck s) (k_inbox s) used busy
      (k_hist s) (k_owe s) (k_dead s).
Definition with_flags (s : st) (closed ctx stuck : bool) : st :=
  mkK (k_now s) (k_last s) (k_next s) (k_tick s) (k_pong s) (k_pc s) closed ctx stuck (k_inbox s) (k_used s) (k_busy s)
      (k_hist s) (k_owe s) (k_dead s).
Definition with_pc (s : st) (pc : kpc) : st :=
  mkK (k_now s) (k_last s) (k_next s) (k_tick s) (k_pong s) pc (k_closed s) (k_ctx s) (k_stuck s) (k_inbox s) (k_used s) (k_busy s)
      (k_hist s) (k_owe s) (k_dead s).
(** 1228-1241: not idle, or a stale pong is dropped and the ping comes next. *)
Definition ticked (s : st) : st :=
  let idle := negb (k_now s - k_last s <? interval) in
  mkK (k_now s) (k_last s) (k_next s) false (if idle then false else k_pong s) (if idle then KPing else KSelect) (k_closed s) (k_ctx s)
      (k_stuck s) (k_inbox s) (k_used s) (k_busy s) (k_hist s) (k_owe s) (k_dead s).
Definition pinged (s : st) : st :=
  mkK (k_now s) (k_last s) (k_next s) (k_tick s) (k_pong s) (KWait (k_now s + timeout)) (k_closed s) (k_ctx s) (k_stuck s) (k_inbox s) (k_used s)
      (k_busy s) (k_hist s ++ [HPing (k_now s)]) (Some (k_now s)) (k_dead s).
Definition ponged (s : st) : st :=
  mkK (k_now s) (k_last s) (k_next s) (k_tick s) false KSelect (k_closed s) (k_ctx s) (k_stuck s) (k_inbox s) (k_used s) (k_busy s)
      (k_hist s) (k_owe s) (k_dead s).
(** 1258-1261: setFatalError closes the connection (Close, 372-392). *)
Definition timed_out (s : st) : st :=
  mkK (k_now s) (k_last s) (k_next s) (k_tick s) (k_pong s) KDone true (k_ctx s) (k_stuck s) (k_inbox s) (k_used s) (k_busy s)
      (k_hist s) (k_owe s) (if k_closed s then k_dead s else Some (k_now s)).

Definition step (s : st) (e : event) : option st :=
  match e with
  | ETime => if loop_ready s || read_ready s then None else Some (pass s)
  | EArrive m => Some (arrive s m)
  | ERead => if read_ready s then match k_inbox s with m :: q => Some (read s m q) | [] => None end else None
  | EConsume => match k_used s with S n => Some (if k_busy s then with_sess s (S n) false else with_sess s n false) | O => None end
  | ECancel => Some (with_sess s (k_used s) false)
  | ETick => match k_pc s with KSelect => if k_tick s then Some (ticked s) else None | _ => None end
  | EWrite ok =>
    match k_pc s with
    | KPing => if k_closed s then Some (with_pc s KDone)
               else if k_stuck s then None
               else Some (if ok then pinged s else with_pc (with_flags s true (k_ctx s) (k_stuck s)) KDone)
    | _ => None
    end
  | EPong => match k_pc s with KWait _ => if k_pong s then Some (ponged s) else None | _ => None end
  | ETimeout => match k_pc s with KWait d => if d <=? k_now s then Some (timed_out s) else None | _ => None end
  | EStop => match k_pc s with KSelect | KWait _ => if k_closed s || k_ctx s then Some (with_pc s KDone) else None | _ => None end
  | EClose => Some (with_flags s true (k_ctx s) (k_stuck s))
  | ECtx => Some (with_flags s (k_closed s) true (k_stuck s))
  | EStuck b => Some (with_flags s (k_closed s) (k_ctx s) b)
  end.
Fixpoint run (s : st) (es : list event) : option st :=
  match es with [] => Some s | e :: q => match step s e with Some s' => run s' q | None => None end end.
(** New, 332-368: the loop begins; time.NewTicker panics where the interval is not positive. *)
Definition init : st := mkK 0 0 interval false false KSelect false false false [] 0 false [] None None.
Definition New : res st := if interval =? 0 then Panic else Ok init.
End Loop.
