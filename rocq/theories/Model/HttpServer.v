(** The server side of the HTTP transport: rpc/transport/http/server.go (Handler.ServeHTTP 53-106) and conn.go
    (serverTransport).

    Goroutines are interleaved at the mutex of the transport and at the calls of the ResponseWriter and of the request
    body; the ResponseWriter takes the bytes of a Write in pieces of any size and may fail at any moment.  What
    server.Serve does with the transport is left open: any calls at any time, also after it returned. *)
From Coq Require Import ZArith List Bool String Ascii.
Import ListNotations.
From Verif.Model Require Import Base.
Local Open Scope nat_scope.

Definition text (s : string) : bytes := map (fun c => Z.of_nat (nat_of_ascii c)) (list_ascii_of_string s).
Definition same (a b : bytes) : bool := if list_eq_dec Z.eq_dec a b then true else false.
(** What ServeHTTP looks at in a request: the method, the header Content-Type (empty where there is none), and whether
    the ResponseWriter is a Flusher. *)
Record request := mkReq { q_method : bytes; q_type : bytes; q_flusher : bool }.
(** conn.go 13-14 *)
Definition ContentType : bytes := text "application/x-claw-rpc".
(** server.go 54-74: an error status, or nothing: then the headers go out with status 200 and the transport is made. *)
Definition admit (r : request) : option Z :=
  if negb (same r.(q_method) (text "POST")) then Some 405%Z
  else if negb (same r.(q_type) []) && negb (same r.(q_type) ContentType) then Some 415%Z
  else if negb r.(q_flusher) then Some 500%Z
  else None.

(** What a call returns: nil; io.ErrClosedPipe; the error of the ResponseWriter or of the body. *)
Inductive result := ROk | RClosed | RFail.
(** Write: conn.go 68-87.  Read: 57-66.  Close: 89-101.  Handle: ServeHTTP from 90 on: Serve, then trans.Close(). *)
Inductive call := Write (p : bytes) | Read | Close | Handle.
Inductive pc :=
| WStart                              (* before mu.Lock() *)
| WIn (n : nat)                       (* has mu; writer.Write has taken n bytes *)
| WFlush                              (* has mu; before Flush *)
| RStart                              (* before the test of closed *)
| RIn                                 (* in reader.Read *)
| CStart                              (* before mu.Lock() *)
| CIn                                 (* has mu, closed is set; in reader.Close *)
| HServe                              (* in server.Serve *)
| Done (r : result).
Record thread := mkT { t_call : call; t_pc : pc }.
(** [s_body]: what the ResponseWriter took; [s_flushed]: how many of these bytes have been flushed; [s_log]: which calls
    it took how many bytes from, in order, and [s_log] is history and not in the program. *)
Record st := mkSt {
  s_mu : option nat; s_closed : bool; s_cerr : result;
  s_body : bytes; s_flushed : nat; s_log : list (nat * nat);
  s_nt : nat; s_thread : nat -> thread }.

(** A call; the next step of a call; the ResponseWriter takes [k] more bytes of a Write, or fails; the body has bytes or an
    error; the body is closed; Serve returns. *)
Inductive event := ECall (c : call) | EStep (t : nat) | EPut (t k : nat) | EFail (t : nat) | EGot (t : nat) (ok : bool)
                 | EClosed (t : nat) (ok : bool) | EServed (t : nat).

Definition start (c : call) : pc := match c with Write _ => WStart | Read => RStart | Close => CStart | Handle => HServe end.
Definition payload (c : call) : bytes := match c with Write p => p | _ => [] end.
Definition to (t : nat) (p : pc) (s : st) : st :=
  mkSt s.(s_mu) s.(s_closed) s.(s_cerr) s.(s_body) s.(s_flushed) s.(s_log) s.(s_nt)
       (fun u => if u =? t then mkT (s.(s_thread) t).(t_call) p else s.(s_thread) u).
Definition withMu (m : option nat) (s : st) : st :=
  mkSt m s.(s_closed) s.(s_cerr) s.(s_body) s.(s_flushed) s.(s_log) s.(s_nt) s.(s_thread).
Definition withClosed (b : bool) (r : result) (s : st) : st :=
  mkSt s.(s_mu) b r s.(s_body) s.(s_flushed) s.(s_log) s.(s_nt) s.(s_thread).
Definition withBody (b : bytes) (f : nat) (l : list (nat * nat)) (s : st) : st :=
  mkSt s.(s_mu) s.(s_closed) s.(s_cerr) b f l s.(s_nt) s.(s_thread).
(** The count of the last entry. *)
Definition count (n : nat) (l : list (nat * nat)) : list (nat * nat) :=
  match rev l with (t, _) :: q => rev q ++ [(t, n)] | [] => [] end.

Definition stepT (t : nat) (x : thread) (s : st) : option st :=
  match x.(t_pc), s.(s_mu) with
  | WStart, None =>
    Some (if s.(s_closed) then to t (Done RClosed) s
          else to t (WIn 0) (withMu (Some t) (withBody s.(s_body) s.(s_flushed) (s.(s_log) ++ [(t, 0)]) s)))
  | WIn n, _ => if List.length (payload x.(t_call)) <=? n then Some (to t WFlush s) else None
  | WFlush, _ => Some (to t (Done ROk) (withMu None (withBody s.(s_body) (List.length s.(s_body)) s.(s_log) s)))
  | RStart, None => Some (to t (if s.(s_closed) then Done RClosed else RIn) s)
  | CStart, None =>
    Some (if s.(s_closed) then to t (Done s.(s_cerr)) s
          else to t CIn (withMu (Some t) (withClosed true ROk s)))
  | _, _ => None
  end.
Definition step (s : st) (e : event) : option st :=
  match e with
  | ECall Handle => None
  | ECall c =>
    Some (mkSt s.(s_mu) s.(s_closed) s.(s_cerr) s.(s_body) s.(s_flushed) s.(s_log) (S s.(s_nt))
               (fun u => if u =? s.(s_nt) then mkT c (start c) else s.(s_thread) u))
  | EStep t => if t <? s.(s_nt) then stepT t (s.(s_thread) t) s else None
  | EPut t k =>
    if t <? s.(s_nt) then
      match (s.(s_thread) t).(t_pc) with
      | WIn n =>
        let chunk := firstn k (skipn n (payload (s.(s_thread) t).(t_call))) in
        Some (to t (WIn (n + List.length chunk)) (withBody (s.(s_body) ++ chunk) s.(s_flushed) (count (n + List.length chunk) s.(s_log)) s))
      | _ => None
      end
    else None
  | EFail t =>
    if t <? s.(s_nt) then
      match (s.(s_thread) t).(t_pc) with WIn n => Some (to t (Done RFail) (withMu None s)) | _ => None end
    else None
  | EGot t ok =>
    if t <? s.(s_nt) then
      match (s.(s_thread) t).(t_pc) with RIn => Some (to t (Done (if ok then ROk else RFail)) s) | _ => None end
    else None
  | EClosed t ok =>
    if t <? s.(s_nt) then
      match (s.(s_thread) t).(t_pc) with
      | CIn => let r := if ok then ROk else RFail in Some (to t (Done r) (withMu None (withClosed true r s)))
      | _ => None
      end
    else None
  | EServed t =>
    if t <? s.(s_nt) then
      match (s.(s_thread) t).(t_pc) with HServe => Some (to t CStart s) | _ => None end
    else None
  end.
Fixpoint run (s : st) (es : list event) : option st :=
  match es with [] => Some s | e :: q => match step s e with Some s' => run s' q | None => None end end.
(** When the headers are out: the handler is call 0. *)
Definition init : st := mkSt None false ROk [] 0 [] 1 (fun _ => mkT Handle HServe).
