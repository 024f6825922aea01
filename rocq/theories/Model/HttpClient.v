(** The client side of the HTTP transport: rpc/transport/http/client.go (connect, cleanupLocked, Read, Write, Close).

    One step per section under t.mu (no call blocks while it has t.mu), per unlocked read of a field, per select and per
    operation of the pipe.  Reconnect is calls of connect one after another (359-371: the backoff calls connect until it
    returns nil or it gives up), and so is Dial (115-118).  What the HTTP client does with a request is left open: it
    reads from the body, closes it, answers or fails at any time. *)
From Coq Require Import ZArith List Bool.
Import ListNotations.
From Verif.Model Require Import Base.
Local Open Scope nat_scope.

(** nil; ErrClosed; ErrNotConnected; the error of a context; any other error. *)
Inductive result := ROk | RClosed | RNot | RCtx | RFail.
Inductive call := Connect | Write (p : bytes) | Read | Close.
Inductive pc :=
| NStart                              (* connect: before the lock 127 *)
| NBuild                              (* 146: before t.ctx and t.pipeReader are read for the request *)
| NWait (q : nat)                     (* 181: the request runs, before t.ctx is read for the select *)
| NSel (q c : nat)                    (* 181: in the select *)
| NCtx                                (* 183: before the lock, the context ended *)
| NErr2                               (* 186: before t.ctx is read for the error *)
| NErr                                (* 188 and 197: before the lock, the request failed or has a bad status *)
| NGot (q : nat)                      (* 203: before the lock *)
| WStart                              (* Write 273: before the lock *)
| WPipe (p : nat)                     (* 285: before the pipe is looked at *)
| WLock (p : nat)                     (* io.Pipe: before its write lock *)
| WIn (p n : nat) (once : bool)       (* has the write lock of the pipe; n bytes were taken; something was taken *)
| RStart                              (* Read 251: before the lock *)
| RIn (q : nat)                       (* 263: in the body of the answer *)
| CStart                              (* Close 297: before the lock *)
| Done (r : result).
Record thread := mkT { t_call : call; t_pc : pc }.
(** A pipe: open; who has its write lock; what was read from it; which Writes how many bytes were read of (history). *)
Record pipe := mkPipe { p_open : bool; p_wr : option nat; p_wire : bytes; p_log : list (nat * nat) }.
(** A request: still without answer, answered with status 200, with another, or failed. *)
Inductive rstate := Flying | Answered | Bad | Failed.
(** Its body (None is the nil pointer); its context; what was read from the body; whether the answer's body is closed. *)
Record req := mkRq { r_pipe : option nat; r_ctx : nat; r_state : rstate; r_wire : bytes; r_closed : bool }.
(** The fields of ClientTransport; pipeReader and pipeWriter are set and cleared together.  Pipes and contexts are made
    together: number k of both by the same connect. *)
Record st := mkSt {
  c_closed : bool; c_connected : bool; c_pipe : option nat; c_ctx : nat; c_cancel : option nat; c_resp : option nat;
  c_panic : bool;
  c_np : nat; c_pipes : nat -> pipe; c_live : nat -> bool;
  c_nq : nat; c_reqs : nat -> req;
  c_nt : nat; c_thread : nat -> thread }.

(** A call; the next step of a call; the select takes the end of the context, or what became of the request; request [q]
    reads [k] bytes from the Write [t]; it is answered; it fails; its body is closed; the parent of a context ends; a Read
    gets bytes, or an error. *)
Inductive event := ECall (c : call) | EStep (t : nat) | ECtx (t : nat) | EReq (t : nat) | ETake (t q k : nat)
                 | EAnswer (q : nat) (ok : bool) | EFail (q : nat) | EBody (q : nat) | EEnd (k : nat) | EGot (t : nat) (ok : bool).

Definition start (c : call) : pc := match c with Connect => NStart | Write _ => WStart | Read => RStart | Close => CStart end.
Definition payload (c : call) : bytes := match c with Write p => p | _ => [] end.
Definition upd {A} (f : nat -> A) (k : nat) (a : A) : nat -> A := fun i => if i =? k then a else f i.
Definition shut (p : pipe) : pipe := mkPipe false p.(p_wr) p.(p_wire) p.(p_log).
Definition to (t : nat) (p : pc) (s : st) : st :=
  mkSt s.(c_closed) s.(c_connected) s.(c_pipe) s.(c_ctx) s.(c_cancel) s.(c_resp) s.(c_panic) s.(c_np) s.(c_pipes) s.(c_live) s.(c_nq) s.(c_reqs)
       s.(c_nt) (upd s.(c_thread) t (mkT (s.(c_thread) t).(t_call) p)).
Definition withPipe (k : nat) (p : pipe) (s : st) : st :=
  mkSt s.(c_closed) s.(c_connected) s.(c_pipe) s.(c_ctx) s.(c_cancel) s.(c_resp) s.(c_panic) s.(c_np) (upd s.(c_pipes) k p) s.(c_live) s.(c_nq) s.(c_reqs)
       s.(c_nt) s.(c_thread).
Definition withReq (q : nat) (r : req) (s : st) : st :=
  mkSt s.(c_closed) s.(c_connected) s.(c_pipe) s.(c_ctx) s.(c_cancel) s.(c_resp) s.(c_panic) s.(c_np) s.(c_pipes) s.(c_live) s.(c_nq) (upd s.(c_reqs) q r)
       s.(c_nt) s.(c_thread).
Definition panic (s : st) : st :=
  mkSt s.(c_closed) s.(c_connected) s.(c_pipe) s.(c_ctx) s.(c_cancel) s.(c_resp) true s.(c_np) s.(c_pipes) s.(c_live) s.(c_nq) s.(c_reqs)
       s.(c_nt) s.(c_thread).
Definition setState (x : rstate) (r : req) : req := mkRq r.(r_pipe) r.(r_ctx) x r.(r_wire) r.(r_closed).
Definition closeBody (r : req) : req := mkRq r.(r_pipe) r.(r_ctx) r.(r_state) r.(r_wire) true.

(** cleanupLocked 222-244 *)
Definition cleanup (s : st) : st :=
  mkSt s.(c_closed) false None s.(c_ctx) None None s.(c_panic) s.(c_np)
       (match s.(c_pipe) with Some k => upd s.(c_pipes) k (shut (s.(c_pipes) k)) | None => s.(c_pipes) end)
       (match s.(c_cancel) with Some k => upd s.(c_live) k false | None => s.(c_live) end)
       s.(c_nq)
       (match s.(c_resp) with Some q => upd s.(c_reqs) q (closeBody (s.(c_reqs) q)) | None => s.(c_reqs) end)
       s.(c_nt) s.(c_thread).
(** connect 137-142: a pipe and a context *)
Definition fresh (s : st) : st :=
  mkSt s.(c_closed) s.(c_connected) (Some s.(c_np)) s.(c_np) (Some s.(c_np)) s.(c_resp) s.(c_panic) (S s.(c_np))
       (upd s.(c_pipes) s.(c_np) (mkPipe true None [] [])) (upd s.(c_live) s.(c_np) true) s.(c_nq) s.(c_reqs) s.(c_nt) s.(c_thread).
(** connect 146-178: the request is made and starts.  That NewRequest fails is left out: the method is POST and the URL
    was parsed. *)
Definition launch (s : st) : st :=
  mkSt s.(c_closed) s.(c_connected) s.(c_pipe) s.(c_ctx) s.(c_cancel) s.(c_resp) s.(c_panic) s.(c_np) s.(c_pipes) s.(c_live) (S s.(c_nq))
       (upd s.(c_reqs) s.(c_nq) (mkRq s.(c_pipe) s.(c_ctx) Flying [] false)) s.(c_nt) s.(c_thread).
(** connect 203-207 *)
Definition got (q : nat) (s : st) : st :=
  mkSt s.(c_closed) true s.(c_pipe) s.(c_ctx) s.(c_cancel) (Some q) s.(c_panic) s.(c_np) s.(c_pipes) s.(c_live) s.(c_nq) s.(c_reqs) s.(c_nt) s.(c_thread).
(** Close 302-304 *)
Definition shutdown (s : st) : st :=
  cleanup (mkSt true s.(c_connected) s.(c_pipe) s.(c_ctx) s.(c_cancel) s.(c_resp) s.(c_panic) s.(c_np) s.(c_pipes) s.(c_live) s.(c_nq) s.(c_reqs) s.(c_nt) s.(c_thread)).
(** The count of the last entry. *)
Definition count (n : nat) (l : list (nat * nat)) : list (nat * nat) :=
  match rev l with (t, _) :: q => rev q ++ [(t, n)] | [] => [] end.

Definition stepT (t : nat) (x : thread) (s : st) : option st :=
  match x.(t_pc) with
  | NStart => Some (if s.(c_closed) then to t (Done RClosed) s else to t NBuild (fresh (cleanup s)))
  | NBuild => Some (to t (NWait s.(c_nq)) (launch s))
  | NWait q => Some (to t (NSel q s.(c_ctx)) s)
  | NCtx => Some (to t NErr2 (cleanup s))
  | NErr2 => Some (to t (Done (if s.(c_live) s.(c_ctx) then ROk else RCtx)) s)
  | NErr => Some (to t (Done RFail) (cleanup s))
  | NGot q => Some (to t (Done ROk) (got q s))
  | WStart =>
    Some (if s.(c_closed) then to t (Done RClosed) s
          else if s.(c_connected) then match s.(c_pipe) with Some p => to t (WPipe p) s | None => panic s end
          else to t (Done RNot) s)
  | WPipe p => Some (to t (if (s.(c_pipes) p).(p_open) then WLock p else Done RFail) s)
  | WLock p =>
    let b := s.(c_pipes) p in
    match b.(p_wr) with
    | Some _ => None
    | None => Some (to t (WIn p 0 false) (withPipe p (mkPipe b.(p_open) (Some t) b.(p_wire) (b.(p_log) ++ [(t, 0)])) s))
    end
  | WIn p n once =>
    let b := s.(c_pipes) p in
    let free := withPipe p (mkPipe b.(p_open) None b.(p_wire) b.(p_log)) s in
    if once && (length (payload x.(t_call)) <=? n) then Some (to t (Done ROk) free)
    else if b.(p_open) then None else Some (to t (Done RFail) free)
  | RStart =>
    Some (if s.(c_closed) then to t (Done RClosed) s
          else if s.(c_connected) then match s.(c_resp) with Some q => to t (RIn q) s | None => panic s end
          else to t (Done RNot) s)
  | RIn q => if (s.(c_reqs) q).(r_closed) || negb (s.(c_live) (s.(c_reqs) q).(r_ctx)) then Some (to t (Done RFail) s) else None
  | CStart => Some (to t (Done ROk) (if s.(c_closed) then s else shutdown s))
  | NSel _ _ | Done _ => None
  end.
Definition step (s : st) (e : event) : option st :=
  if s.(c_panic) then None else
  match e with
  | ECall c =>
    Some (mkSt s.(c_closed) s.(c_connected) s.(c_pipe) s.(c_ctx) s.(c_cancel) s.(c_resp) s.(c_panic) s.(c_np) s.(c_pipes) s.(c_live) s.(c_nq) s.(c_reqs)
               (S s.(c_nt)) (upd s.(c_thread) s.(c_nt) (mkT c (start c))))
  | EStep t => if t <? s.(c_nt) then stepT t (s.(c_thread) t) s else None
  | ECtx t =>
    match (s.(c_thread) t).(t_pc) with
    | NSel q c => if s.(c_live) c then None else Some (to t NCtx s)
    | _ => None
    end
  | EReq t =>
    match (s.(c_thread) t).(t_pc) with
    | NSel q c =>
      match (s.(c_reqs) q).(r_state) with
      | Flying => None
      | Answered => Some (to t (NGot q) s)
      | Bad => Some (to t NErr (withReq q (closeBody (s.(c_reqs) q)) s))
      | Failed => Some (to t NErr s)
      end
    | _ => None
    end
  | ETake t q k =>
    match (s.(c_thread) t).(t_pc) with
    | WIn p n once =>
      let b := s.(c_pipes) p in
      let r := s.(c_reqs) q in
      match r.(r_pipe) with
      | Some p' =>
        if (q <? s.(c_nq)) && (p' =? p) && b.(p_open) && (negb once || (n <? length (payload (s.(c_thread) t).(t_call)))) then
          let chunk := firstn k (skipn n (payload (s.(c_thread) t).(t_call))) in
          Some (to t (WIn p (n + length chunk) true)
                  (withReq q (mkRq r.(r_pipe) r.(r_ctx) r.(r_state) (r.(r_wire) ++ chunk) r.(r_closed))
                     (withPipe p (mkPipe b.(p_open) b.(p_wr) (b.(p_wire) ++ chunk) (count (n + length chunk) b.(p_log))) s)))
        else None
      | None => None
      end
    | _ => None
    end
  | EAnswer q ok =>
    if q <? s.(c_nq) then
      match (s.(c_reqs) q).(r_state) with
      | Flying => Some (withReq q (setState (if ok then Answered else Bad) (s.(c_reqs) q)) s)
      | _ => None
      end
    else None
  | EFail q =>
    if q <? s.(c_nq) then
      match (s.(c_reqs) q).(r_state) with Flying => Some (withReq q (setState Failed (s.(c_reqs) q)) s) | _ => None end
    else None
  | EBody q =>
    if q <? s.(c_nq) then
      Some (match (s.(c_reqs) q).(r_pipe) with Some p => withPipe p (shut (s.(c_pipes) p)) s | None => panic s end)
    else None
  | EEnd k =>
    if k <? s.(c_np) then
      Some (mkSt s.(c_closed) s.(c_connected) s.(c_pipe) s.(c_ctx) s.(c_cancel) s.(c_resp) s.(c_panic) s.(c_np) s.(c_pipes) (upd s.(c_live) k false) s.(c_nq) s.(c_reqs)
                 s.(c_nt) s.(c_thread))
    else None
  | EGot t ok =>
    match (s.(c_thread) t).(t_pc) with
    | RIn q => if (s.(c_reqs) q).(r_closed) then None else Some (to t (Done (if ok then ROk else RFail)) s)
    | _ => None
    end
  end.
Fixpoint run (s : st) (es : list event) : option st :=
  match es with [] => Some s | e :: q => match step s e with Some s' => run s' q | None => None end end.
(** A new ClientTransport, before connect. *)
Definition init : st :=
  mkSt false false None 0 None None false 0 (fun _ => mkPipe false None [] []) (fun _ => false)
       0 (fun _ => mkRq None 0 Failed [] true) 0 (fun _ => mkT Read (Done RFail)).
