(** rpc/hedge/hedge.go: the hedging interceptor as a transition system.
    One step is one channel operation, one start or one return of an invocation.  The timers
    of line 87 may fire at any moment (time is not modelled, so every delay is covered), the
    caller's context may end at any moment, and the pool runs every submitted function. *)
From Verif.Model Require Import Base ErrText.

Section Hedge.
Variable Resp : Type.
(** result, hedge.go:37-40: a response or the text of an error. *)
Definition outcome : Type := Resp + bytes.

(** One of the submitted functions (71-77, 82-102). *)
Inductive rstate :=
| RDelay             (* in the select of 84-88; only hedges *)
| RReady             (* past the check of 91-95 (or the original), about to invoke *)
| RInvoking          (* in invoker *)
| RReturned (o : outcome)  (* in the select of 73-76 / 98-101 *)
| RSent | RQuit.

(** The function the caller runs (58-132). *)
Inductive mstate :=
| MLoop (received : nat) (lastErr : option bytes)
| MReturned (o : outcome).

Record hstate := mkH {
  h_reqs : list rstate;        (* the original and the hedges *)
  h_chan : list outcome;       (* results, oldest first *)
  h_main : mstate;
  h_ctx : bool;                (* ctx is done *)
  h_cancel : bool }.           (* cancel() was called: hedgeCtx is done *)

(** The state after the submissions, hedge.go:60-107, for MaxHedgedRequests = hedges > 0. *)
Definition h_init (hedges : nat) : hstate :=
  mkH (RReady :: repeat RDelay hedges) [] (MLoop 0 None) false false.

Fixpoint set_req (l : list rstate) (i : nat) (r : rstate) : list rstate :=
  match l, i with
  | [], _ => []
  | _ :: l, O => r :: l
  | x :: l, S i => x :: set_req l i r
  end.

Variables (ctxErr : bytes) (nonFatal : list code).

(** The loop head of hedge.go:109 and the return of 131. *)
Definition loop_head (total received : nat) (lastErr : option bytes) : mstate :=
  if (received <? total)%nat then MLoop received lastErr
  else MReturned (inr (match lastErr with Some e => e | None => [] end)).

(** The events: invocations start and end, results arrive in the channel, the call returns. *)
Inductive hevent := EInvoke (i : nat) | EResult (i : nat) (o : outcome) | ESend (i : nat) (o : outcome) | EReturn (o : outcome) | ECtxDone | ETau.

Inductive hstep : hstate -> hevent -> hstate -> Prop :=
(* 84-95: the delay is over and hedgeCtx is not done at the check *)
| SDelayOver q c m cd cc i : nth_error q i = Some RDelay -> cd = false -> cc = false ->
    hstep (mkH q c m cd cc) ETau (mkH (set_req q i RReady) c m cd cc)
(* 85-86, 92-93 *)
| SQuit q c m cd cc i : nth_error q i = Some RDelay -> cd = true \/ cc = true ->
    hstep (mkH q c m cd cc) ETau (mkH (set_req q i RQuit) c m cd cc)
(* 72, 97: the invocation starts *)
| SInvoke q c m cd cc i : nth_error q i = Some RReady ->
    hstep (mkH q c m cd cc) (EInvoke i) (mkH (set_req q i RInvoking) c m cd cc)
(* ... and returns, with any outcome *)
| SResult q c m cd cc i o : nth_error q i = Some RInvoking ->
    hstep (mkH q c m cd cc) (EResult i o) (mkH (set_req q i (RReturned o)) c m cd cc)
(* 74, 99: the channel has room for every request *)
| SSend q c m cd cc i o : nth_error q i = Some (RReturned o) ->
    hstep (mkH q c m cd cc) (ESend i o) (mkH (set_req q i RSent) (c ++ [o]) m cd cc)
(* 75, 100 *)
| SDrop q c m cd cc i o : nth_error q i = Some (RReturned o) -> cd = true \/ cc = true ->
    hstep (mkH q c m cd cc) ETau (mkH (set_req q i RQuit) c m cd cc)
(* the caller's context ends *)
| SCtx q c m cc : hstep (mkH q c m false cc) ECtxDone (mkH q c m true cc)
(* 111-112; the deferred cancel (67) runs on every return *)
| SMainCtx q c n e cc :
    hstep (mkH q c (MLoop n e) true cc) (EReturn (inr ctxErr)) (mkH q c (MReturned (inr ctxErr)) true true)
(* 113-119 *)
| SMainOk q c n e cd cc r :
    hstep (mkH q (inl r :: c) (MLoop n e) cd cc) (EReturn (inl r)) (mkH q c (MReturned (inl r)) cd true)
(* 122-125 *)
| SMainFatal q c n e cd cc er : isFatal er nonFatal = true ->
    hstep (mkH q (inr er :: c) (MLoop n e) cd cc) (EReturn (inr er)) (mkH q c (MReturned (inr er)) cd true)
(* 127, and round the loop or 131 *)
| SMainNext q c n e cd cc er n' e' : isFatal er nonFatal = false ->
    loop_head (length q) (S n) (Some er) = MLoop n' e' ->
    hstep (mkH q (inr er :: c) (MLoop n e) cd cc) ETau (mkH q c (MLoop n' e') cd cc)
| SMainAll q c n e cd cc er o : isFatal er nonFatal = false ->
    loop_head (length q) (S n) (Some er) = MReturned o ->
    hstep (mkH q (inr er :: c) (MLoop n e) cd cc) (EReturn o) (mkH q c (MReturned o) cd true).

(** Runs, with their events. *)
Inductive hruns (s0 : hstate) : list hevent -> hstate -> Prop :=
| HNil : hruns s0 [] s0
| HSnoc t s e s' : hruns s0 t s -> hstep s e s' -> hruns s0 (t ++ [e]) s'.
End Hedge.
