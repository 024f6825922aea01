(** A client connection, rpc/client/client.go: sessions, pending opens, the read loop, Close
    and GracefulClose.  A step is one critical section of c.mu or one channel operation; any
    number of goroutines take steps in any order.  The server is not assumed to follow the
    protocol: the read loop may receive any message.  Writing to the transport is only a
    success or a failure here; what is written is the subject of Model/Packing.v.
    The times of keepalive (1218-1265) are not modelled; a failed ping is an S_Fatal step. *)
From Verif.Model Require Import Base Compress.
Local Open Scope Z_scope.

(** A Payload message as it arrives. *)
Record wpayload := mkWP { wp_sess : Z; wp_req : Z; wp_data : bytes; wp_end : bool; wp_comp : Z }.
(** What handlePayload puts into recvCh, 727-733: the same with the data decompressed. *)
Record payload := mkP { p_req : Z; p_data : bytes; p_end : bool }.

(** Messages from the server; other types are ignored, 610.  The close code is what doCall
    and the stream types report. *)
Inductive smsg :=
| MOpenAck (openID sessID : Z) (ok : bool)
| MClose (sess code : Z)
| MPayload (w : wpayload)
| MPong
| MGoAway (err : Z)
| MOther.

(** A session, 256-276.  recvCh and closeCh are buffered; so_oid, so_in, so_out and so_start are
    history: the open id, what the read loop accepted for the session, what its consumers
    received, and how many messages had been read when it was accepted. *)
Record sess := mkS {
  so_id : Z;
  so_recv : list payload;          (* content of recvCh *)
  so_recv_closed : bool;
  so_close : option Z;             (* content of closeCh, capacity 1 *)
  so_cancel : bool;                (* cancelCh is closed *)
  so_ready : bool;                 (* readyCh is closed *)
  so_in : list payload;
  so_out : list payload;
  so_start : option nat }.
(** newSession, 267-276. *)
Definition newSession : sess := mkS 0 [] false None false false [] [] None.

(** The read loop, 553-614. *)
Inductive reader :=
| RTop                              (* at 564 *)
| RPayload (o : nat) (p : payload)  (* in the select of 741-744 *)
| RClose (o : nat) (code : Z)       (* in handleClose, after 700 *)
| RFatal (exit : bool)              (* in setFatalError, after 543; exit: it returns afterwards *)
| RExit                             (* before the deferred function of 556-562 *)
| RDone.

(** A call of openSession, 808-892. *)
Inductive opener :=
| OTop
| OSend (openID : Z) (o : nat)      (* after 828, before or in sendMsg *)
| OWait (openID : Z) (o : nat)      (* in the select of 870 *)
| OGot (o : nat) | OErr.

(** A call of GracefulClose, 400-440. *)
Inductive graceful :=
| GTop | GWait | GClose | GDone.

Record client := mkC {
  c_objs : list sess;              (* every session ever created; the maps refer to them *)
  c_sessions : list (Z * nat);     (* c.sessions *)
  c_pending : list (Z * nat);      (* c.pending *)
  c_next : Z;                      (* c.nextOpenID *)
  c_closed : bool;
  c_draining : bool;
  c_drained : option bool;         (* nil, or whether the channel is closed *)
  c_fatal : option Z;              (* c.fatalErr *)
  c_errs : list Z;                 (* history: the errors given to setFatalError, in order *)
  c_reader : reader;
  c_log : list smsg;               (* history: the messages read *)
  c_openers : list opener;
  c_graceful : list graceful;
  c_panic : bool }.                (* a goroutine sent on, or closed, a closed channel *)

(** New, 332-368. *)
Definition New : client := mkC [] [] [] 0 false false None None [] RTop [] [] [] false.

(** Maps with uint32 keys. *)
Fixpoint find (k : Z) (m : list (Z * nat)) : option nat :=
  match m with [] => None | (k', v) :: m => if k =? k' then Some v else find k m end.
Definition del (k : Z) (m : list (Z * nat)) : list (Z * nat) := filter (fun kv => negb (k =? fst kv)) m.
Definition put (k : Z) (v : nat) (m : list (Z * nat)) : list (Z * nat) := (k, v) :: del k m.

Fixpoint put_at {A} (l : list A) (i : nat) (f : A -> A) : list A :=
  match l, i with
  | [], _ => []
  | x :: l, O => f x :: l
  | x :: l, S i => x :: put_at l i f
  end.

Definition with_objs (s : client) v := mkC v (c_sessions s) (c_pending s) (c_next s) (c_closed s) (c_draining s) (c_drained s) (c_fatal s) (c_errs s) (c_reader s) (c_log s) (c_openers s) (c_graceful s) (c_panic s).
Definition with_sessions (s : client) v := mkC (c_objs s) v (c_pending s) (c_next s) (c_closed s) (c_draining s) (c_drained s) (c_fatal s) (c_errs s) (c_reader s) (c_log s) (c_openers s) (c_graceful s) (c_panic s).
Definition with_pending (s : client) v := mkC (c_objs s) (c_sessions s) v (c_next s) (c_closed s) (c_draining s) (c_drained s) (c_fatal s) (c_errs s) (c_reader s) (c_log s) (c_openers s) (c_graceful s) (c_panic s).
Definition with_next (s : client) v := mkC (c_objs s) (c_sessions s) (c_pending s) v (c_closed s) (c_draining s) (c_drained s) (c_fatal s) (c_errs s) (c_reader s) (c_log s) (c_openers s) (c_graceful s) (c_panic s).
Definition with_closed (s : client) v := mkC (c_objs s) (c_sessions s) (c_pending s) (c_next s) v (c_draining s) (c_drained s) (c_fatal s) (c_errs s) (c_reader s) (c_log s) (c_openers s) (c_graceful s) (c_panic s).
Definition with_drain (s : client) d v := mkC (c_objs s) (c_sessions s) (c_pending s) (c_next s) (c_closed s) d v (c_fatal s) (c_errs s) (c_reader s) (c_log s) (c_openers s) (c_graceful s) (c_panic s).
Definition with_fatal (s : client) f e := mkC (c_objs s) (c_sessions s) (c_pending s) (c_next s) (c_closed s) (c_draining s) (c_drained s) f e (c_reader s) (c_log s) (c_openers s) (c_graceful s) (c_panic s).
Definition with_reader (s : client) v := mkC (c_objs s) (c_sessions s) (c_pending s) (c_next s) (c_closed s) (c_draining s) (c_drained s) (c_fatal s) (c_errs s) v (c_log s) (c_openers s) (c_graceful s) (c_panic s).
Definition with_log (s : client) v := mkC (c_objs s) (c_sessions s) (c_pending s) (c_next s) (c_closed s) (c_draining s) (c_drained s) (c_fatal s) (c_errs s) (c_reader s) v (c_openers s) (c_graceful s) (c_panic s).
Definition with_openers (s : client) v := mkC (c_objs s) (c_sessions s) (c_pending s) (c_next s) (c_closed s) (c_draining s) (c_drained s) (c_fatal s) (c_errs s) (c_reader s) (c_log s) v (c_graceful s) (c_panic s).
Definition with_graceful (s : client) v := mkC (c_objs s) (c_sessions s) (c_pending s) (c_next s) (c_closed s) (c_draining s) (c_drained s) (c_fatal s) (c_errs s) (c_reader s) (c_log s) (c_openers s) v (c_panic s).
Definition panics (s : client) (b : bool) := mkC (c_objs s) (c_sessions s) (c_pending s) (c_next s) (c_closed s) (c_draining s) (c_drained s) (c_fatal s) (c_errs s) (c_reader s) (c_log s) (c_openers s) (c_graceful s) (c_panic s || b).

(** session.close, 278-282: sync.Once makes it idempotent. *)
Definition sclose (x : sess) : sess := mkS (so_id x) (so_recv x) (so_recv_closed x) (so_close x) true (so_ready x) (so_in x) (so_out x) (so_start x).
Definition close_recv (x : sess) : sess := mkS (so_id x) (so_recv x) true (so_close x) (so_cancel x) (so_ready x) (so_in x) (so_out x) (so_start x).
Definition close_ready (x : sess) : sess := mkS (so_id x) (so_recv x) (so_recv_closed x) (so_close x) (so_cancel x) true (so_in x) (so_out x) (so_start x).
Definition accept (id : Z) (at_ : nat) (x : sess) : sess := mkS id (so_recv x) (so_recv_closed x) (so_close x) (so_cancel x) (so_ready x) (so_in x) (so_out x) (Some at_).
(** the non-blocking send of 703-706 *)
Definition offer_close (code : Z) (x : sess) : sess :=
  mkS (so_id x) (so_recv x) (so_recv_closed x) (match so_close x with None => Some code | Some c => Some c end) (so_cancel x) (so_ready x) (so_in x) (so_out x) (so_start x).
Definition arrived (p : payload) (x : sess) : sess := mkS (so_id x) (so_recv x) (so_recv_closed x) (so_close x) (so_cancel x) (so_ready x) (so_in x ++ [p]) (so_out x) (so_start x).
Definition enqueue (p : payload) (x : sess) : sess := mkS (so_id x) (so_recv x ++ [p]) (so_recv_closed x) (so_close x) (so_cancel x) (so_ready x) (so_in x) (so_out x) (so_start x).
Definition dequeue (p : payload) (x : sess) : sess := mkS (so_id x) (tl (so_recv x)) (so_recv_closed x) (so_close x) (so_cancel x) (so_ready x) (so_in x) (so_out x ++ [p]) (so_start x).

Definition upd_obj (s : client) (o : nat) (f : sess -> sess) : client := with_objs s (put_at (c_objs s) o f).
Fixpoint upd_all (s : client) (os : list nat) (f : sess -> sess) : client :=
  match os with [] => s | o :: os => upd_all (upd_obj s o f) os f end.
Definition recv_closed (s : client) (o : nat) : bool :=
  match nth_error (c_objs s) o with Some x => so_recv_closed x | None => false end.
Definition ready_closed (s : client) (o : nat) : bool :=
  match nth_error (c_objs s) o with Some x => so_ready x | None => false end.

(** Close, 372-389. *)
Definition Close (s : client) : client :=
  if c_closed s then s
  else upd_all (upd_all (with_closed s true) (map snd (c_sessions s)) sclose) (map snd (c_pending s)) sclose.

(** checkDrained, 451-463. *)
Definition checkDrained (s : client) : client :=
  if negb (c_draining s) then s
  else match c_sessions s, c_pending s, c_drained s with
  | [], [], Some _ => with_drain s (c_draining s) (Some true)
  | _, _, _ => s
  end.

(** setFatalError up to 543. *)
Definition setFatal (s : client) (e : Z) : client :=
  with_fatal s (match c_fatal s with None => Some e | Some e0 => Some e0 end) (c_errs s ++ [e]).

(** handlePayload, 719-739: the payload to deliver, None when it is dropped. *)
Definition admit (reg : creg) (maxRecv : Z) (w : wpayload) : option payload :=
  match Decompress reg (wp_comp w) (wp_data w) with
  | Ok d => if (0 <? maxRecv) && (maxRecv <? Z.of_nat (length d)) then None else Some (mkP (wp_req w) d (wp_end w))
  | _ => None
  end.

(** handleOpenAck, 649-688, one critical section. *)
Definition handleOpenAck (s : client) (oid sid : Z) (ok : bool) : client :=
  match find oid (c_pending s) with
  | None => s
  | Some o =>
    let s := with_pending s (del oid (c_pending s)) in
    if negb ok then
      let s := checkDrained s in
      let s := panics s (ready_closed s o) in
      upd_obj (upd_obj s o close_ready) o sclose
    else
      let s := upd_obj s o (accept sid (length (c_log s))) in
      let s := with_sessions s (put sid o (c_sessions s)) in
      let s := panics s (ready_closed s o) in
      upd_obj s o close_ready
  end.

(** handleClose, 691-700. *)
Definition handleClose (s : client) (sid code : Z) : client :=
  match find sid (c_sessions s) with
  | None => s
  | Some o => with_reader (checkDrained (with_sessions s (del sid (c_sessions s)))) (RClose o code)
  end.

(** handlePayload up to 739. *)
Definition handlePayload (reg : creg) (maxRecv : Z) (s : client) (w : wpayload) : client :=
  match find (wp_sess w) (c_sessions s) with
  | None => s
  | Some o =>
    match admit reg maxRecv w with
    | None => s
    | Some p => with_reader (upd_obj s o (arrived p)) (RPayload o p)
    end
  end.

(** The dispatch of 599-612 up to the first point where the read loop may wait or release c.mu. *)
Definition dispatch (reg : creg) (maxRecv : Z) (s : client) (m : smsg) : client :=
  match m with
  | MOpenAck oid sid ok => handleOpenAck s oid sid ok
  | MClose sid code => handleClose s sid code
  | MPayload w => handlePayload reg maxRecv s w
  | MGoAway e => with_reader (setFatal s e) (RFatal false)
  | MPong | MOther => s
  end.

(** openSession's critical section, 809-828. *)
Definition register (s : client) (i : nat) : client :=
  if c_closed s || c_draining s then with_openers s (put_at (c_openers s) i (fun _ => OErr))
  else
    let oid := c_next s in
    let o := length (c_objs s) in
    let s := with_next s ((oid + 1) mod 2 ^ 32) in
    let s := with_objs s (c_objs s ++ [newSession]) in
    let s := with_pending s (put oid o (c_pending s)) in
    with_openers s (put_at (c_openers s) i (fun _ => OSend oid o)).

(** openSession gives up: 860-863, 872-875 and 879-882. *)
Definition abandon (s : client) (i : nat) (oid : Z) : client :=
  with_openers (with_pending s (del oid (c_pending s))) (put_at (c_openers s) i (fun _ => OErr)).

(** GracefulClose's critical section, 401-425. *)
Definition startGraceful (s : client) (i : nat) : client :=
  let go s g := with_graceful s (put_at (c_graceful s) i (fun _ => g)) in
  if c_closed s then go s GDone
  else match c_sessions s, c_pending s with
  | [], [] => go (with_drain s true (c_drained s)) GClose
  | _, _ => go (with_drain s true (match c_drained s with None => Some false | Some b => Some b end)) GWait
  end.

(** Which step it is; only the steps some theorem has to single out are told apart. *)
Inductive cevent := EAbandon | ECtx | ECloseUser | ERead (m : smsg) | EOther.

Section Steps.
Variable reg : creg.
Variable maxRecv : Z.

Inductive cstep : client -> cevent -> client -> Prop :=
(* readLoop: c.closed or c.ctx.Done, 565-571 *)
| S_Stop s : c_reader s = RTop -> cstep s EOther (with_reader s RExit)
(* a read error, 577-593 *)
| S_ReadErr s e : c_reader s = RTop -> cstep s EOther (with_reader (setFatal s e) (RFatal true))
(* a message, 596-612 *)
| S_Read s m : c_reader s = RTop ->
    cstep s (ERead m) (with_log (dispatch reg maxRecv (with_log s (c_log s ++ [m])) m) (c_log s ++ [m]))
(* setFatalError's Close, 544 *)
| S_FatalClose s x : c_reader s = RFatal x ->
    cstep s EOther (with_reader (Close s) (if x then RExit else RTop))
(* 742: the channel has room (capacity 16, 271) or a receiver waits *)
| S_Deliver s o p x : c_reader s = RPayload o p -> nth_error (c_objs s) o = Some x ->
    (length (so_recv x) < 16)%nat ->
    cstep s EOther (with_reader (panics (upd_obj s o (enqueue p)) (recv_closed s o)) RTop)
(* 743 *)
| S_Drop s o p x : c_reader s = RPayload o p -> nth_error (c_objs s) o = Some x -> so_cancel x = true ->
    cstep s EOther (with_reader s RTop)
(* 703-707 *)
| S_CloseObj s o code : c_reader s = RClose o code ->
    cstep s EOther (with_reader (upd_obj (upd_obj (panics s (recv_closed s o)) o (offer_close code)) o close_recv) RTop)
(* the deferred function, 556-562 *)
| S_Exit s : c_reader s = RExit ->
    cstep s EOther (with_reader (upd_all (panics s (existsb (recv_closed s) (map snd (c_sessions s)))) (map snd (c_sessions s)) close_recv) RDone)
(* openSession *)
| S_Open s : cstep s EOther (with_openers s (c_openers s ++ [OTop]))
| S_Register s i : nth_error (c_openers s) i = Some OTop -> cstep s EOther (register s i)
| S_Sent s i oid o : nth_error (c_openers s) i = Some (OSend oid o) ->
    cstep s EOther (with_openers s (put_at (c_openers s) i (fun _ => OWait oid o)))
| S_SendFailed s i oid o : nth_error (c_openers s) i = Some (OSend oid o) -> cstep s EAbandon (abandon s i oid)
| S_Abandon s i oid o : nth_error (c_openers s) i = Some (OWait oid o) -> cstep s EAbandon (abandon s i oid)
| S_OpenClosed s i oid o : nth_error (c_openers s) i = Some (OWait oid o) -> c_closed s = true ->
    cstep s EOther (with_openers s (put_at (c_openers s) i (fun _ => OErr)))
| S_Ready s i oid o x : nth_error (c_openers s) i = Some (OWait oid o) -> nth_error (c_objs s) o = Some x ->
    so_ready x = true ->
    cstep s EOther (with_openers s (put_at (c_openers s) i (fun _ => if so_id x =? 0 then OErr else OGot o)))
(* a consumer of the session's channel: recvIter 1161-1215, doCall (sync.go), Recv *)
| S_Consume s o x p q : nth_error (c_objs s) o = Some x -> so_recv x = p :: q ->
    cstep s EOther (upd_obj s o (dequeue p))
(* a stream or SyncClient is closed or cancelled by its user: session.close() *)
| S_UserClose s o : cstep s EOther (upd_obj s o sclose)
(* Close, and setFatalError by a goroutine other than the read loop (sendMsg, pingLoop) *)
| S_Close s : cstep s ECloseUser (Close s)
| S_Fatal s e : cstep s EOther (setFatal s e)
(* GracefulClose *)
| S_Graceful s : cstep s EOther (with_graceful s (c_graceful s ++ [GTop]))
| S_GStart s i : nth_error (c_graceful s) i = Some GTop -> cstep s EOther (startGraceful s i)
| S_GDrained s i : nth_error (c_graceful s) i = Some GWait -> c_drained s = Some true ->
    cstep s EOther (with_graceful s (put_at (c_graceful s) i (fun _ => GClose)))
| S_GCtx s i : nth_error (c_graceful s) i = Some GWait ->
    cstep s ECtx (with_graceful s (put_at (c_graceful s) i (fun _ => GClose)))
| S_GClosed s i : nth_error (c_graceful s) i = Some GWait -> c_closed s = true ->
    cstep s EOther (with_graceful s (put_at (c_graceful s) i (fun _ => GDone)))
| S_GClose s i : nth_error (c_graceful s) i = Some GClose ->
    cstep s EOther (with_graceful (Close s) (put_at (c_graceful s) i (fun _ => GDone))).

(** Executions, with the events in order. *)
Inductive crun : client -> list cevent -> client -> Prop :=
| cr_refl s : crun s [] s
| cr_step s es s1 e s2 : crun s es s1 -> cstep s1 e s2 -> crun s (es ++ [e]) s2.
End Steps.
