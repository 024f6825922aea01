(** The synchronous client: concurrent calls sharing one session
    (rpc/client/sync.go:40-98, 119-130) and the server's synchronous handler loop
    (rpc/server/conn.go:runSyncHandler 491-521).
    The session's channels are filled by the read loop, modelled in Model/Client.v; here the read
    loop appears as the steps [Y_Arrive], [Y_SrvClose] and [Y_ConnClosed], in any order. *)
From Coq Require Import ZArith List Bool.
Import ListNotations.
From Verif.Model Require Import Base Client.
Open Scope Z_scope.

(** What a call returns.  [RCrash] is the nil dereference of Payload.ReqID on the zero Payload a
    closed channel gives (rpc/internal/msgs, segment.GetUint32 on a nil *Struct). *)
Inductive yres := ROk (d : bytes) | RErr | RCrash.

(** Where a call is: about to register (42), to send (61), in the select (67), holding a response
    of another request (81-86), in the deferred delete (54-58), returned. *)
Inductive ystate := KTop | KSend | KWait | KTook (p : payload) | KLeave (r : yres) | KDone (r : yres).

(** One doCall: whether it got a request id and how many payloads had arrived by then (ghosts), the
    id, the argument, respCh (capacity 1, 50). *)
Record ycall := mkK { k_reg : bool; k_from : nat; k_req : Z; k_arg : bytes; k_resp : option bytes; k_st : ystate }.

Record syncc := mkY {
  y_calls : list ycall;
  y_pending : list (Z * nat);   (* reqID -> the call whose respCh it is *)
  y_next : Z;
  y_closed : bool;
  y_recv : list payload;        (* recvCh *)
  y_recv_closed : bool;
  y_close : option Z;           (* closeCh, capacity 1 *)
  y_cancel : bool;              (* cancelCh closed *)
  y_conn : bool;                (* conn.closed closed *)
  y_up : list (Z * bytes);      (* requests handed to sendPayload, in order *)
  y_log : list payload          (* payloads put in recvCh, in order *)
}.
Definition newSync : syncc := mkY [] [] 0 false [] false None false false [] [].

Definition set_calls (s : syncc) v := mkY v (y_pending s) (y_next s) (y_closed s) (y_recv s) (y_recv_closed s) (y_close s) (y_cancel s) (y_conn s) (y_up s) (y_log s).
Definition set_pend (s : syncc) v := mkY (y_calls s) v (y_next s) (y_closed s) (y_recv s) (y_recv_closed s) (y_close s) (y_cancel s) (y_conn s) (y_up s) (y_log s).
Definition set_next (s : syncc) v := mkY (y_calls s) (y_pending s) v (y_closed s) (y_recv s) (y_recv_closed s) (y_close s) (y_cancel s) (y_conn s) (y_up s) (y_log s).
Definition set_recv (s : syncc) v := mkY (y_calls s) (y_pending s) (y_next s) (y_closed s) v (y_recv_closed s) (y_close s) (y_cancel s) (y_conn s) (y_up s) (y_log s).
Definition set_env (s : syncc) rc cl ca cn := mkY (y_calls s) (y_pending s) (y_next s) (y_closed s) (y_recv s) rc cl ca cn (y_up s) (y_log s).
Definition set_sclosed (s : syncc) v := mkY (y_calls s) (y_pending s) (y_next s) v (y_recv s) (y_recv_closed s) (y_close s) (y_cancel s) (y_conn s) (y_up s) (y_log s).
Definition set_up (s : syncc) v := mkY (y_calls s) (y_pending s) (y_next s) (y_closed s) (y_recv s) (y_recv_closed s) (y_close s) (y_cancel s) (y_conn s) v (y_log s).
Definition set_ylog (s : syncc) v := mkY (y_calls s) (y_pending s) (y_next s) (y_closed s) (y_recv s) (y_recv_closed s) (y_close s) (y_cancel s) (y_conn s) (y_up s) v.

Definition st (k : ystate) (c : ycall) : ycall := mkK (k_reg c) (k_from c) (k_req c) (k_arg c) (k_resp c) k.
Definition with_req (n : nat) (r : Z) (c : ycall) : ycall := mkK true n r (k_arg c) (k_resp c) KSend.
(** 88-91: the send is dropped when the channel is full. *)
Definition offer_resp (d : bytes) (c : ycall) : ycall :=
  mkK (k_reg c) (k_from c) (k_req c) (k_arg c) (match k_resp c with None => Some d | Some x => Some x end) (k_st c).
Definition upc (s : syncc) (i : nat) (f : ycall -> ycall) : syncc := set_calls s (put_at (y_calls s) i f).

(** 41-52 *)
Definition y_register (s : syncc) (i : nat) : syncc :=
  if y_closed s then upc s i (st (KDone RErr))
  else let r := y_next s in
    upc (set_pend (set_next s ((r + 1) mod 2 ^ 32)) (put r i (y_pending s))) i (with_req (length (y_log s)) r).

(** 86-93, one critical section. *)
Definition y_forward (s : syncc) (i : nat) (p : payload) : syncc :=
  let s := match find (p_req p) (y_pending s) with
           | Some j => upc s j (offer_resp (p_data p))
           | None => s
           end in
  upc s i (st KWait).

(** 81-83: what a received payload does to the call that took it. *)
Definition y_take (r : Z) (p : payload) : ystate :=
  if p_req p =? r then KLeave (ROk (p_data p)) else KTook p.

(** 54-58 *)
Definition y_leave (s : syncc) (i : nat) (c : ycall) (r : yres) : syncc :=
  upc (set_pend s (del (k_req c) (y_pending s))) i (st (KDone r)).

Inductive yevent := YCtx | YEnd | YOther.

Inductive ystep : syncc -> yevent -> syncc -> Prop :=
| Y_Call s arg : ystep s YOther (set_calls s (y_calls s ++ [mkK false 0 0 arg None KTop]))
| Y_Register s i c : nth_error (y_calls s) i = Some c -> k_st c = KTop -> ystep s YOther (y_register s i)
| Y_Send s i c : nth_error (y_calls s) i = Some c -> k_st c = KSend ->
    ystep s YOther (set_up (upc s i (st KWait)) (y_up s ++ [(k_req c, k_arg c)]))
| Y_SendErr s i c : nth_error (y_calls s) i = Some c -> k_st c = KSend -> ystep s YOther (upc s i (st (KLeave RErr)))
(* the select, 67-96; any ready case may be chosen *)
| Y_Ctx s i c : nth_error (y_calls s) i = Some c -> k_st c = KWait -> ystep s YCtx (upc s i (st (KLeave RErr)))
| Y_Conn s i c : nth_error (y_calls s) i = Some c -> k_st c = KWait -> y_conn s = true -> ystep s YOther (upc s i (st (KLeave RErr)))
| Y_Cancelled s i c : nth_error (y_calls s) i = Some c -> k_st c = KWait -> y_cancel s = true -> ystep s YOther (upc s i (st (KLeave RErr)))
| Y_Closed s i c code : nth_error (y_calls s) i = Some c -> k_st c = KWait -> y_close s = Some code ->
    ystep s YOther (set_env (upc s i (st (KLeave RErr))) (y_recv_closed s) None (y_cancel s) (y_conn s))
| Y_Take s i c p q : nth_error (y_calls s) i = Some c -> k_st c = KWait -> y_recv s = p :: q ->
    ystep s YOther (upc (set_recv s q) i (st (y_take (k_req c) p)))
(* 81-82 on a closed and empty channel: there is no ok check, and ReqID dereferences nil; the
   deferred delete runs while panicking *)
| Y_TakeClosed s i c : nth_error (y_calls s) i = Some c -> k_st c = KWait -> y_recv s = [] -> y_recv_closed s = true ->
    ystep s YOther (upc s i (st (KLeave RCrash)))
| Y_Forward s i c p : nth_error (y_calls s) i = Some c -> k_st c = KTook p -> ystep s YOther (y_forward s i p)
| Y_Resp s i c d : nth_error (y_calls s) i = Some c -> k_st c = KWait -> k_resp c = Some d ->
    ystep s YOther (upc s i (fun c => mkK (k_reg c) (k_from c) (k_req c) (k_arg c) None (KLeave (ROk d))))
| Y_Leave s i c r : nth_error (y_calls s) i = Some c -> k_st c = KLeave r -> ystep s YOther (y_leave s i c r)
(* Close, 119-130 *)
| Y_Close s : ystep s YOther (set_sclosed (set_env s (y_recv_closed s) (y_close s) true (y_conn s)) true)
(* the read loop: handlePayload, handleClose, exit and Conn.Close *)
| Y_Arrive s p : y_recv_closed s = false -> ystep s YOther (set_ylog (set_recv s (y_recv s ++ [p])) (y_log s ++ [p]))
| Y_SrvClose s code : y_recv_closed s = false ->
    ystep s YEnd (set_env s true (match y_close s with None => Some code | Some x => Some x end) (y_cancel s) (y_conn s))
| Y_ConnClosed s : ystep s YEnd (set_env s (y_recv_closed s) (y_close s) true true)
| Y_ReadExit s : y_conn s = true -> ystep s YEnd (set_env s true (y_close s) (y_cancel s) (y_conn s)).

Inductive yrun : syncc -> list yevent -> syncc -> Prop :=
| yr_refl s : yrun s [] s
| yr_step s es s1 e s2 : yrun s es s1 -> ystep s1 e s2 -> yrun s (es ++ [e]) s2.

(** runSyncHandler, 506-521: the responses to the received requests, in order, and whether the
    handler ended with an error.  [h] is the user's handler (with its interceptor). *)
Fixpoint runSync (h : bytes -> option bytes) (reqs : list payload) : list (Z * bytes) * bool :=
  match reqs with
  | [] => ([], false)
  | p :: q =>
    match h (p_data p) with
    | None => ([], true)
    | Some r => let '(l, e) := runSync h q in ((p_req p, r) :: l, e)
    end
  end.
