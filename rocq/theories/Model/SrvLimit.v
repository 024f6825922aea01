(** The limit of concurrent handlers: WithMaxConcurrentRPCs, rpc/server/server.go:89-96; newServerConn 110-113, serve 119-175 and handleOpen
    302-380 of rpc/server/conn.go.  One connection: the messages that wait in the transport, the read loop, and the sessions.  Submit on the
    pool that Limited makes (github.com/gostdlib/base, which is not in the tree) waits until fewer than its size of its functions run, or until its
    context ends, and returns an error then, which handleOpen drops.  Simplifications: a session's channel takes any number of payloads (16 in the
    code, conn.go:47; a full one also holds up the loop, C67); every Open has a handler; Close, Ping and unknown messages are left out. *)
From Coq Require Import List Bool Arith.
Import ListNotations.

(** A message of the client: an Open; a payload of the session number i, which ends the stream or not; a Cancel. *)
Inductive lmsg := LOpen | LPay (i : nat) (fin : bool) | LCancel (i : nat).
(** Where a session's handler is: its function is not started; it runs; it has returned; it was given up. *)
Inductive lpc := LWait | LRun | LDone | LLost.
(** l_q: the channel, l_got: what the handler has taken of it, l_can: it was cancelled. *)
Record lsess := mkLS { l_pc : lpc; l_q : list bool; l_got : list bool; l_can : bool }.
(** The read loop: at its top; in the Submit for the session i; ended. *)
Inductive lloop := LTop | LSubmit (i : nat) | LOut.
Record lconn := mkLC { l_in : list lmsg; l_loop : lloop; l_sess : list lsess }.
Definition l_new : lconn := mkLC [] LTop [].

Inductive levent :=
| ESend (m : lmsg)      (* the client sends *)
| ERead                 (* the loop reads a message and handles it up to Submit, 144-170, 302-364 *)
| EStart                (* Submit gets a place and starts the handler, 373-378 *)
| ECtx                  (* the context ends: Submit gives up, or the loop ends (131-132) *)
| ETake (i : nat)       (* the handler takes a payload *)
| EEnd (i : nat).       (* the handler returns *)

Definition is_run (x : lsess) : bool := match l_pc x with LRun => true | _ => false end.
Definition running (s : list lsess) : nat := length (filter is_run s).
Definition put (s : list lsess) (i : nat) (x : lsess) : list lsess := firstn i s ++ x :: skipn (S i) s.
(** handlePayload 543-579, handleCancel 581-594: a session that has ended is not there. *)
Definition to_sess (s : list lsess) (i : nat) (f : lsess -> lsess) : list lsess :=
  match nth_error s i with Some x => match l_pc x with LDone => s | _ => put s i (f x) end | None => s end.

Section Limit.
Context (max : nat).   (* maxConcurrentRPCs; 0: no limit *)
Definition free (s : list lsess) : bool := (max =? 0) || (running s <? max).
Definition step (c : lconn) (e : levent) : option lconn :=
  match e with
  | ESend m => Some (mkLC (l_in c ++ [m]) (l_loop c) (l_sess c))
  | ERead =>
    match l_loop c, l_in c with
    | LTop, LOpen :: r => Some (mkLC r (LSubmit (length (l_sess c))) (l_sess c ++ [mkLS LWait [] [] false]))
    | LTop, LPay i fin :: r => Some (mkLC r LTop (to_sess (l_sess c) i (fun x => mkLS (l_pc x) (l_q x ++ [fin]) (l_got x) (l_can x))))
    | LTop, LCancel i :: r => Some (mkLC r LTop (to_sess (l_sess c) i (fun x => mkLS (l_pc x) (l_q x) (l_got x) true)))
    | _, _ => None
    end
  | EStart =>
    match l_loop c with
    | LSubmit i => match nth_error (l_sess c) i with
                   | Some x => if free (l_sess c) then Some (mkLC (l_in c) LTop (put (l_sess c) i (mkLS LRun (l_q x) (l_got x) (l_can x)))) else None
                   | None => None
                   end
    | _ => None
    end
  | ECtx =>
    match l_loop c with
    | LSubmit i => match nth_error (l_sess c) i with
                   | Some x => Some (mkLC (l_in c) LOut (put (l_sess c) i (mkLS LLost (l_q x) (l_got x) (l_can x))))
                   | None => None
                   end
    | LTop => Some (mkLC (l_in c) LOut (l_sess c))
    | LOut => None
    end
  | ETake i =>
    match nth_error (l_sess c) i with
    | Some x => match l_pc x, l_q x with
                | LRun, d :: q => Some (mkLC (l_in c) (l_loop c) (put (l_sess c) i (mkLS LRun q (l_got x ++ [d]) (l_can x))))
                | _, _ => None
                end
    | None => None
    end
  | EEnd i =>
    match nth_error (l_sess c) i with
    | Some x => match l_pc x with
                | LRun => Some (mkLC (l_in c) (l_loop c) (put (l_sess c) i (mkLS LDone (l_q x) (l_got x) (l_can x))))
                | _ => None
                end
    | None => None
    end
  end.
Fixpoint run (c : lconn) (es : list levent) : option lconn :=
  match es with [] => Some c | e :: q => match step c e with Some c => run c q | None => None end end.
(** The server: any number of connections, each with a pool of its own (111-113). *)
Definition sv_step (s : list lconn) (e : option (nat * levent)) : option (list lconn) :=
  match e with
  | None => Some (s ++ [l_new])
  | Some (k, e) => match nth_error s k with
                   | Some c => match step c e with Some c => Some (firstn k s ++ c :: skipn (S k) s) | None => None end
                   | None => None
                   end
  end.
Fixpoint sv_run (s : list lconn) (es : list (option (nat * levent))) : option (list lconn) :=
  match es with [] => Some s | e :: q => match sv_step s e with Some s => sv_run s q | None => None end end.
End Limit.
Definition handlers (s : list lconn) : nat := fold_right (fun c n => running (l_sess c) + n) 0 s.
