(** A server connection, rpc/server/conn.go: the read loop, the sessions, the handlers, Close and
    GracefulClose.  A step is one critical section of c.mu or one channel operation; any number of
    goroutines take steps in any order, and the client may send any messages.  What is written to
    the transport is not modelled here (Model/Packing.v has the packing of messages), and the
    pool that runs the handlers starts each submitted handler at some later time. *)
From Verif.Model Require Import Base Compress Client.
Local Open Scope Z_scope.

(** Messages from the client.  served: the registry has a handler of the right type, 319-330. *)
Inductive cmsg :=
| COpen (openID : Z) (served : bool)
| CClose (sess : Z)
| CPayload (w : wpayload)
| CCancel (sess req : Z)
| CPing
| COther.

(** The goroutine of runHandler, 382-432. *)
Inductive hstate :=
| HNot       (* not yet started by the pool *)
| HRun       (* started, before the deferred function *)
| HDeleted   (* after 386 *)
| HDone.

(** serverSession, 38-65.  ss_in, ss_out, ss_start: history, as in Model/Client.v. *)
Record ssess := mkSS {
  ss_id : Z; ss_recv : list payload; ss_recv_closed : bool; ss_cancel : bool; ss_h : hstate;
  ss_in : list payload; ss_out : list payload; ss_start : nat }.

Inductive sreader :=
| VTop
| VOpen                            (* in handleOpen, between 317 and 333 *)
| VSubmit (o : nat)                (* in handleOpen, after 355 *)
| VPayload (o : nat) (p : payload) (* in the select of handlePayload *)
| VClosing (o : nat) (cancel : bool) (* in handleClose or handleCancel, after its critical section *)
| VFatal
| VExit
| VDone.

(** A call of GracefulClose, 227-268. *)
Inductive sgraceful := VGTop | VGWait | VGClose | VGDone.

Record sconn := mkV {
  v_objs : list ssess;
  v_sessions : list (Z * nat);
  v_next : Z;
  v_closed : bool;
  v_draining : bool;
  v_active : Z;                    (* the counter of activeHandlers *)
  v_fatal : option Z;
  v_errs : list Z;
  v_reader : sreader;
  v_log : list cmsg;
  v_graceful : list sgraceful;
  v_panic : bool }.                (* send on / close of a closed channel, or a negative WaitGroup counter *)

(** newServerConn, 95-116. *)
Definition newServerConn : sconn := mkV [] [] 1 false false 0 None [] VTop [] [] false.

Definition v_with_objs s v := mkV v (v_sessions s) (v_next s) (v_closed s) (v_draining s) (v_active s) (v_fatal s) (v_errs s) (v_reader s) (v_log s) (v_graceful s) (v_panic s).
Definition v_with_sessions s v := mkV (v_objs s) v (v_next s) (v_closed s) (v_draining s) (v_active s) (v_fatal s) (v_errs s) (v_reader s) (v_log s) (v_graceful s) (v_panic s).
Definition v_with_next s v := mkV (v_objs s) (v_sessions s) v (v_closed s) (v_draining s) (v_active s) (v_fatal s) (v_errs s) (v_reader s) (v_log s) (v_graceful s) (v_panic s).
Definition v_with_closed s v := mkV (v_objs s) (v_sessions s) (v_next s) v (v_draining s) (v_active s) (v_fatal s) (v_errs s) (v_reader s) (v_log s) (v_graceful s) (v_panic s).
Definition v_with_draining s v := mkV (v_objs s) (v_sessions s) (v_next s) (v_closed s) v (v_active s) (v_fatal s) (v_errs s) (v_reader s) (v_log s) (v_graceful s) (v_panic s).
Definition v_with_active s v := mkV (v_objs s) (v_sessions s) (v_next s) (v_closed s) (v_draining s) v (v_fatal s) (v_errs s) (v_reader s) (v_log s) (v_graceful s) (v_panic s).
Definition v_with_fatal s f e := mkV (v_objs s) (v_sessions s) (v_next s) (v_closed s) (v_draining s) (v_active s) f e (v_reader s) (v_log s) (v_graceful s) (v_panic s).
Definition v_with_reader s v := mkV (v_objs s) (v_sessions s) (v_next s) (v_closed s) (v_draining s) (v_active s) (v_fatal s) (v_errs s) v (v_log s) (v_graceful s) (v_panic s).
Definition v_with_log s v := mkV (v_objs s) (v_sessions s) (v_next s) (v_closed s) (v_draining s) (v_active s) (v_fatal s) (v_errs s) (v_reader s) v (v_graceful s) (v_panic s).
Definition v_with_graceful s v := mkV (v_objs s) (v_sessions s) (v_next s) (v_closed s) (v_draining s) (v_active s) (v_fatal s) (v_errs s) (v_reader s) (v_log s) v (v_panic s).
Definition v_panics s b := mkV (v_objs s) (v_sessions s) (v_next s) (v_closed s) (v_draining s) (v_active s) (v_fatal s) (v_errs s) (v_reader s) (v_log s) (v_graceful s) (v_panic s || b).

(** serverSession.close, 60-64. *)
Definition ss_close x := mkSS (ss_id x) (ss_recv x) (ss_recv_closed x) true (ss_h x) (ss_in x) (ss_out x) (ss_start x).
Definition ss_close_recv x := mkSS (ss_id x) (ss_recv x) true (ss_cancel x) (ss_h x) (ss_in x) (ss_out x) (ss_start x).
Definition ss_to h x := mkSS (ss_id x) (ss_recv x) (ss_recv_closed x) (ss_cancel x) h (ss_in x) (ss_out x) (ss_start x).
Definition ss_arrived p x := mkSS (ss_id x) (ss_recv x) (ss_recv_closed x) (ss_cancel x) (ss_h x) (ss_in x ++ [p]) (ss_out x) (ss_start x).
Definition ss_enqueue p x := mkSS (ss_id x) (ss_recv x ++ [p]) (ss_recv_closed x) (ss_cancel x) (ss_h x) (ss_in x) (ss_out x) (ss_start x).
Definition ss_dequeue p x := mkSS (ss_id x) (tl (ss_recv x)) (ss_recv_closed x) (ss_cancel x) (ss_h x) (ss_in x) (ss_out x ++ [p]) (ss_start x).

Fixpoint put_all {A} (l : list A) (os : list nat) (f : A -> A) : list A :=
  match os with [] => l | o :: os => put_all (put_at l o f) os f end.
Definition v_upd s o f := v_with_objs s (put_at (v_objs s) o f).
Definition v_recv_closed s o : bool := match nth_error (v_objs s) o with Some x => ss_recv_closed x | None => false end.

(** Close, 203-217. *)
Definition v_Close (s : sconn) : sconn :=
  if v_closed s then s
  else v_with_objs (v_with_closed s true) (put_all (v_objs s) (map snd (v_sessions s)) ss_close).

(** setFatalError, 278-283. *)
Definition v_setFatal s e := v_with_fatal s (match v_fatal s with None => Some e | Some e0 => Some e0 end) (v_errs s ++ [e]).

(** handleClose and handleCancel up to the end of their critical sections. *)
Definition v_remove (s : sconn) (sid : Z) (cancel : bool) : sconn :=
  match find sid (v_sessions s) with
  | None => s
  | Some o => v_with_reader (v_with_sessions s (del sid (v_sessions s))) (VClosing o cancel)
  end.
(** handlePayload up to its select. *)
Definition v_handlePayload (reg : creg) (maxRecv : Z) (s : sconn) (w : wpayload) : sconn :=
  match find (wp_sess w) (v_sessions s) with
  | None => s
  | Some o =>
    match admit reg maxRecv w with
    | None => s
    | Some p => v_with_reader (v_upd s o (ss_arrived p)) (VPayload o p)
    end
  end.
(** handleOpen, 311-330: the first check and the lookup. *)
Definition v_handleOpen (s : sconn) (served : bool) : sconn :=
  if v_draining s then s else if served then v_with_reader s VOpen else s.
Definition v_dispatch (reg : creg) (maxRecv : Z) (s : sconn) (m : cmsg) : sconn :=
  match m with
  | COpen _ served => v_handleOpen s served
  | CClose sid => v_remove s sid false
  | CCancel sid _ => v_remove s sid true
  | CPayload w => v_handlePayload reg maxRecv s w
  | CPing | COther => s
  end.
(** handleOpen's second critical section, 333-355. *)
Definition v_create (s : sconn) : sconn :=
  if v_draining s then v_with_reader s VTop
  else
    let id := v_next s in
    let o := length (v_objs s) in
    let s := v_with_next s ((id + 1) mod 2 ^ 32) in
    let s := v_with_objs s (v_objs s ++ [mkSS id [] false false HNot [] [] (length (v_log s))]) in
    let s := v_with_sessions s (put id o (v_sessions s)) in
    let s := v_with_active s (v_active s + 1) in
    v_with_reader s (VSubmit o).

Inductive sevent := VEOpen | VECtx | VEOther.

Section Steps.
Variable reg : creg.
Variable maxRecv : Z.

Inductive sstep : sconn -> sevent -> sconn -> Prop :=
(* serve: c.closed or ctx.Done *)
| V_Stop s : v_reader s = VTop -> sstep s VEOther (v_with_reader s VExit)
| V_ReadErr s e : v_reader s = VTop -> sstep s VEOther (v_with_reader (v_setFatal s e) VFatal)
| V_FatalClose s : v_reader s = VFatal -> sstep s VEOther (v_with_reader (v_Close s) VExit)
| V_Read s m : v_reader s = VTop ->
    sstep s VEOther (v_with_log (v_dispatch reg maxRecv (v_with_log s (v_log s ++ [m])) m) (v_log s ++ [m]))
| V_Create s : v_reader s = VOpen -> sstep s VEOpen (v_create s)
(* pool.Submit, 370-379; the handler starts whenever the pool likes *)
| V_Submit s o : v_reader s = VSubmit o -> sstep s VEOther (v_with_reader s VTop)
| V_Deliver s o p x : v_reader s = VPayload o p -> nth_error (v_objs s) o = Some x -> (length (ss_recv x) < 16)%nat ->
    sstep s VEOther (v_with_reader (v_panics (v_upd s o (ss_enqueue p)) (v_recv_closed s o)) VTop)
| V_Drop s o p x : v_reader s = VPayload o p -> nth_error (v_objs s) o = Some x -> ss_cancel x = true ->
    sstep s VEOther (v_with_reader s VTop)
(* handleClose: close(recvCh); handleCancel: sess.close() first *)
| V_CloseCh s o c : v_reader s = VClosing o c ->
    sstep s VEOther (v_with_reader (v_upd (v_upd (v_panics s (v_recv_closed s o)) o (if c then ss_close else fun x => x)) o ss_close_recv) VTop)
(* serve's deferred function *)
| V_Exit s : v_reader s = VExit ->
    sstep s VEOther (v_with_reader (v_with_objs (v_panics s (existsb (v_recv_closed s) (map snd (v_sessions s)))) (put_all (v_objs s) (map snd (v_sessions s)) ss_close_recv)) VDone)
(* handlers *)
| V_HStart s o x : nth_error (v_objs s) o = Some x -> ss_h x = HNot -> v_reader s <> VSubmit o -> sstep s VEOther (v_upd s o (ss_to HRun))
| V_Consume s o x p q : nth_error (v_objs s) o = Some x -> ss_h x = HRun -> ss_recv x = p :: q -> sstep s VEOther (v_upd s o (ss_dequeue p))
| V_HDelete s o x : nth_error (v_objs s) o = Some x -> ss_h x = HRun ->
    sstep s VEOther (v_with_sessions (v_upd s o (ss_to HDeleted)) (del (ss_id x) (v_sessions s)))
| V_HDone s o x : nth_error (v_objs s) o = Some x -> ss_h x = HDeleted ->
    sstep s VEOther (v_panics (v_with_active (v_upd (v_upd s o ss_close) o (ss_to HDone)) (v_active s - 1)) (v_active s <=? 0))
(* Close, and setFatalError in sendMsg *)
| V_Close s : sstep s VEOther (v_Close s)
| V_Fatal s e : sstep s VEOther (v_setFatal s e)
(* GracefulClose *)
| V_Graceful s : sstep s VEOther (v_with_graceful s (v_graceful s ++ [VGTop]))
| V_GNop s i : nth_error (v_graceful s) i = Some VGTop -> v_closed s = true ->
    sstep s VEOther (v_with_graceful s (put_at (v_graceful s) i (fun _ => VGDone)))
| V_GStart s i : nth_error (v_graceful s) i = Some VGTop -> v_closed s = false ->
    sstep s VEOther (v_with_graceful (v_with_draining s true) (put_at (v_graceful s) i (fun _ => VGWait)))
| V_GAll s i : nth_error (v_graceful s) i = Some VGWait -> v_active s = 0 ->
    sstep s VEOther (v_with_graceful s (put_at (v_graceful s) i (fun _ => VGClose)))
| V_GCtx s i : nth_error (v_graceful s) i = Some VGWait ->
    sstep s VECtx (v_with_graceful s (put_at (v_graceful s) i (fun _ => VGClose)))
| V_GClose s i : nth_error (v_graceful s) i = Some VGClose ->
    sstep s VEOther (v_with_graceful (v_Close s) (put_at (v_graceful s) i (fun _ => VGDone))).

Inductive srun : sconn -> list sevent -> sconn -> Prop :=
| sr_refl s : srun s [] s
| sr_step s es s1 e s2 : srun s es s1 -> sstep s1 e s2 -> srun s (es ++ [e]) s2.
End Steps.
