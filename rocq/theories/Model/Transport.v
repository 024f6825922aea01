(** The TCP and the Unix socket transport: rpc/transport/tcp/client.go, rpc/transport/tcp/server.go (ServerTransport),
    rpc/transport/unix/client.go and server.go, which have the same code.

    Goroutines are interleaved at the mutexes connMu and writeMu.  readMu is held for one assignment only and is left
    out.  bufio.Writer is taken as this: Write and then Flush bring the bytes to the connection in pieces of any size;
    after a failure of the connection nothing more is written (its error stays); between two calls nothing is left in
    the buffer that could still go out, so that the Flush of Close and cleanupLocked sends nothing. *)
From Coq Require Import ZArith List Bool Lia.
Import ListNotations.
From Verif.Model Require Import Base.
Local Open Scope nat_scope.

(** A net.Conn: what it has sent, whether a write failed, whether it was closed. *)
Record net := mkNet { n_wire : bytes; n_bad : bool; n_shut : bool }.
(** What a call returns: nil; ErrClosed; ErrNotConnected; the error of the connection. *)
Inductive result := ROk | RClosed | RNotConn | RFail.
(** Where a call is.  Write: tcp/client.go 195-239, tcp/server.go 177-204.  Read: 162-189, 154-171.  Close: 242-253,
    207-230 and cleanupLocked 139-158.  connect: 83-136 (Dial, and each attempt of Reconnect). *)
Inductive pc :=
| WStart                              (* before the tests under connMu *)
| WLock                               (* before writeMu.Lock() *)
| WBody (n : nat) (c : nat)           (* has writeMu; n bytes are sent on the connection c *)
| WErr (n : nat) (c : nat)            (* client: has writeMu; before connMu.Lock() to set connErr *)
| RStart                              (* before the tests *)
| RWait (c : nat)                     (* in reader.Read *)
| RErr                                (* client: before connMu.Lock() to set connErr *)
| CStart                              (* before connMu.Lock() *)
| CLock                               (* has connMu, closed is set; before writeMu.Lock() *)
| CShut                               (* has connMu; before conn.Close() *)
| NStart                              (* connect: before connMu.Lock() *)
| NLock                               (* cleanupLocked: has connMu; before writeMu.Lock() *)
| NShut                               (* has connMu; before conn.Close() *)
| NDial                               (* dialing *)
| NSet (c : nat)                      (* before connMu.Lock() *)
| NBufs (c : nat)                     (* has connMu; before writeMu.Lock() to set the writer *)
| Done (r : result).
Inductive call := Write (p : bytes) | Read | Close | Connect.
Record thread := mkT { t_call : call; t_pc : pc }.
(** [s_sent]: the calls of Write that ended well and the connections they used, in the order in which they gave back
    writeMu; it is history and not in the program. *)
Record st := mkSt {
  s_connMu : option nat; s_writeMu : option nat; s_closed : bool; s_connected : bool; s_connErr : bool;
  s_conn : option nat; s_reader : option nat; s_writer : option nat;
  s_nets : list net; s_threads : list thread; s_sent : list (nat * nat) }.

(** A call; the next step of a call; the connection takes up to [k] more bytes of a write, or fails; bytes or an
    error come from the connection; a dial ends. *)
Inductive event := ECall (c : call) | EStep (t : nat) | EChunk (t k : nat) | EFail (t : nat)
                 | EGot (t : nat) | EBroken (t : nat) | EDial (t : nat) (ok : bool).

Definition start (c : call) : pc := match c with Write _ => WStart | Read => RStart | Close => CStart | Connect => NStart end.
Definition setPc (t : nat) (p : pc) (ts : list thread) : list thread :=
  match nth_error ts t with Some x => set_nth t (mkT x.(t_call) p) ts | None => ts end.
Definition to (t : nat) (p : pc) (s : st) : st :=
  mkSt s.(s_connMu) s.(s_writeMu) s.(s_closed) s.(s_connected) s.(s_connErr) s.(s_conn) s.(s_reader) s.(s_writer) s.(s_nets) (setPc t p s.(s_threads)) s.(s_sent).
Definition withConnMu (m : option nat) (s : st) : st :=
  mkSt m s.(s_writeMu) s.(s_closed) s.(s_connected) s.(s_connErr) s.(s_conn) s.(s_reader) s.(s_writer) s.(s_nets) s.(s_threads) s.(s_sent).
Definition withWriteMu (m : option nat) (s : st) : st :=
  mkSt s.(s_connMu) m s.(s_closed) s.(s_connected) s.(s_connErr) s.(s_conn) s.(s_reader) s.(s_writer) s.(s_nets) s.(s_threads) s.(s_sent).
Definition withClosed (s : st) : st :=
  mkSt s.(s_connMu) s.(s_writeMu) true s.(s_connected) s.(s_connErr) s.(s_conn) s.(s_reader) s.(s_writer) s.(s_nets) s.(s_threads) s.(s_sent).
Definition withConnected (b : bool) (s : st) : st :=
  mkSt s.(s_connMu) s.(s_writeMu) s.(s_closed) b s.(s_connErr) s.(s_conn) s.(s_reader) s.(s_writer) s.(s_nets) s.(s_threads) s.(s_sent).
Definition withConnErr (b : bool) (s : st) : st :=
  mkSt s.(s_connMu) s.(s_writeMu) s.(s_closed) s.(s_connected) b s.(s_conn) s.(s_reader) s.(s_writer) s.(s_nets) s.(s_threads) s.(s_sent).
Definition withConn (c : option nat) (s : st) : st :=
  mkSt s.(s_connMu) s.(s_writeMu) s.(s_closed) s.(s_connected) s.(s_connErr) c s.(s_reader) s.(s_writer) s.(s_nets) s.(s_threads) s.(s_sent).
Definition withBufs (r w : option nat) (s : st) : st :=
  mkSt s.(s_connMu) s.(s_writeMu) s.(s_closed) s.(s_connected) s.(s_connErr) s.(s_conn) r w s.(s_nets) s.(s_threads) s.(s_sent).
Definition withNets (l : list net) (s : st) : st :=
  mkSt s.(s_connMu) s.(s_writeMu) s.(s_closed) s.(s_connected) s.(s_connErr) s.(s_conn) s.(s_reader) s.(s_writer) l s.(s_threads) s.(s_sent).
Definition withSent (l : list (nat * nat)) (s : st) : st :=
  mkSt s.(s_connMu) s.(s_writeMu) s.(s_closed) s.(s_connected) s.(s_connErr) s.(s_conn) s.(s_reader) s.(s_writer) s.(s_nets) s.(s_threads) l.

Definition netAt (c : nat) (s : st) : net := nth c s.(s_nets) (mkNet [] true true).
Definition setNet (c : nat) (n : net) (s : st) : st := withNets (set_nth c n s.(s_nets)) s.
(** conn.Close() *)
Definition shut (c : nat) (s : st) : st := let n := netAt c s in setNet c (mkNet n.(n_wire) n.(n_bad) true) s.
Definition free (m : option nat) : bool := match m with None => true | Some _ => false end.
Definition payload (x : thread) : bytes := match x.(t_call) with Write p => p | _ => [] end.

Section Kind.
(** A ClientTransport; otherwise a ServerTransport. *)
Variable client : bool.

(** The tests at the start of Read and Write. *)
Definition refused (s : st) : option result :=
  if s.(s_closed) then Some RClosed else if client && negb s.(s_connected) then Some RNotConn else None.
(** What is returned where the reader or the writer is nil. *)
Definition gone : result := if client then RNotConn else RClosed.

Definition stepT (t : nat) (x : thread) (s : st) : option st :=
  match x.(t_pc) with
  | WStart => if free s.(s_connMu) then Some (to t (match refused s with Some r => Done r | None => WLock end) s) else None
  | WLock =>
    if free s.(s_writeMu) then
      match s.(s_writer) with
      | None => Some (to t (Done gone) s)
      | Some c => Some (to t (WBody 0 c) (withWriteMu (Some t) s))
      end
    else None
  | WBody n c =>
    if length (payload x) <=? n then
      (* unlock and return: all is sent; where the connection had failed before (and p is empty) the error is returned *)
      if (netAt c s).(n_bad) then None
      else Some (to t (Done ROk) (withWriteMu None (withSent (s.(s_sent) ++ [(t, c)]) s)))
    else None
  | WErr n c => if free s.(s_connMu) then Some (to t (Done RFail) (withWriteMu None (withConnErr true s))) else None
  | RStart =>
    if free s.(s_connMu) then
      Some (to t (match refused s with
                  | Some r => Done r
                  | None => match s.(s_reader) with None => Done gone | Some c => RWait c end
                  end) s)
    else None
  | RErr => if free s.(s_connMu) then Some (to t (Done RFail) (withConnErr true s)) else None
  | CStart =>
    if free s.(s_connMu) then
      if s.(s_closed) then Some (to t (Done ROk) s)
      else
        let s := withClosed s in
        let s := if client then withConnected false s else s in
        match s.(s_conn) with
        | None => Some (to t (Done ROk) s)
        | Some _ => Some (to t CLock (withConnMu (Some t) s))
        end
    else None
  | CLock => if free s.(s_writeMu) then Some (to t CShut (withBufs None None s)) else None
  | CShut =>
    match s.(s_conn) with
    | None => None
    | Some c => Some (to t (Done ROk) (withConnMu None (withConn None (shut c s))))
    end
  | NStart =>
    if free s.(s_connMu) then
      if s.(s_closed) then Some (to t (Done RClosed) s)
      else
        let s := withConnected false s in
        match s.(s_conn) with
        | None => Some (to t NDial s)
        | Some _ => Some (to t NLock (withConnMu (Some t) s))
        end
    else None
  | NLock => if free s.(s_writeMu) then Some (to t NShut (withBufs None None s)) else None
  | NShut =>
    match s.(s_conn) with
    | None => None
    | Some c => Some (to t NDial (withConnMu None (withConn None (shut c s))))
    end
  | NSet c =>
    if free s.(s_connMu) then
      if s.(s_closed) then Some (to t (Done RClosed) (shut c s))
      else Some (to t (NBufs c) (withConnMu (Some t) (withConnErr false (withConnected true (withConn (Some c) s)))))
    else None
  | NBufs c => if free s.(s_writeMu) then Some (to t (Done ROk) (withConnMu None (withBufs (Some c) (Some c) s))) else None
  | RWait _ | NDial | Done _ => None
  end.

Definition step (s : st) (e : event) : option st :=
  match e with
  | ECall c =>
    match c, client with
    | Connect, false => None
    | _, _ => Some (mkSt s.(s_connMu) s.(s_writeMu) s.(s_closed) s.(s_connected) s.(s_connErr) s.(s_conn) s.(s_reader) s.(s_writer) s.(s_nets) (s.(s_threads) ++ [mkT c (start c)]) s.(s_sent))
    end
  | EStep t => match nth_error s.(s_threads) t with None => None | Some x => stepT t x s end
  | EChunk t k =>
    match nth_error s.(s_threads) t with
    | Some x =>
      match x.(t_pc) with
      | WBody n c =>
        let m := netAt c s in
        if m.(n_bad) || m.(n_shut) then None
        else
          let chunk := firstn k (skipn n (payload x)) in
          Some (to t (WBody (n + length chunk) c) (setNet c (mkNet (m.(n_wire) ++ chunk) false m.(n_shut)) s))
      | _ => None
      end
    | None => None
    end
  | EFail t =>
    match nth_error s.(s_threads) t with
    | Some x =>
      match x.(t_pc) with
      | WBody n c =>
        let m := netAt c s in
        let s := setNet c (mkNet m.(n_wire) true m.(n_shut)) s in
        Some (if client then to t (WErr n c) s else to t (Done RFail) (withWriteMu None s))
      | _ => None
      end
    | None => None
    end
  | EGot t =>
    match nth_error s.(s_threads) t with
    | Some x => match x.(t_pc) with RWait _ => Some (to t (Done ROk) s) | _ => None end
    | None => None
    end
  | EBroken t =>
    match nth_error s.(s_threads) t with
    | Some x => match x.(t_pc) with RWait _ => Some (to t (if client then RErr else Done RFail) s) | _ => None end
    | None => None
    end
  | EDial t ok =>
    match nth_error s.(s_threads) t with
    | Some x =>
      match x.(t_pc) with
      | NDial => Some (if ok then to t (NSet (length s.(s_nets))) (withNets (s.(s_nets) ++ [mkNet [] false false]) s)
                       else to t (Done RFail) s)
      | _ => None
      end
    | None => None
    end
  end.
Fixpoint run (s : st) (es : list event) : option st :=
  match es with [] => Some s | e :: q => match step s e with Some s' => run s' q | None => None end end.
(** A client before Dial; a server transport when the connection was accepted (newServerTransport 144-151). *)
Definition init : st :=
  if client then mkSt None None false false false None None None [] [] []
  else mkSt None None false false false (Some 0) (Some 0) (Some 0) [mkNet [] false false] [] [].
End Kind.
