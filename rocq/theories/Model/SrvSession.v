(** The server's side of one session, rpc/server/conn.go:382-527 and 603-703 (runHandler, the handlers of the four kinds, sendPayload,
    sendClose) and rpc/server/handlers.go (the streams).  The session is open; what comes before is in Model/ServerConn.v.  One step
    is one channel operation, one section of a mutex or one message given to the transport; the handler's own code, the goroutines
    it starts, the connection and the peer do what they like in any order.  Interceptors are left out (Model/Chain.v), compression
    is transparent (Model/Compress.v), a message that the transport does not take whole is not on the wire. *)
From Coq Require Import ZArith List Bool.
Import ListNotations.
From Verif.Model Require Import Base.
Local Open Scope nat_scope.

(** msgs.Payload: request id, data, EndStream. *)
Record pay := mkP { p_req : Z; p_data : bytes; p_end : bool }.
(** An error, as errCodeFromError sees it: the category of the rpc error in its chain, whether it is DeadlineExceeded, Canceled. *)
Record gerr := mkGE { g_cat : option Z; g_deadline : bool; g_canceled : bool }.
Definition cat (c : Z) : gerr := mkGE (Some c) false false.
(** errCodeFromError, handlers.go:380-402; a Category has 32 bits and an ErrCode 16. *)
Definition errCode (e : option gerr) : Z :=
  match e with
  | None => 0%Z
  | Some e =>
    match e.(g_cat) with
    | Some c => (c mod 2 ^ 16)%Z
    | None => if e.(g_deadline) then 4%Z else if e.(g_canceled) then 1%Z else 13%Z
    end
  end.

(** metadata.MD. *)
Definition MD := list (bytes * list bytes).
Definition md_put (k : bytes) (v : list bytes) (m : MD) : MD := (k, v) :: filter (fun p => negb (if list_eq_dec Z.eq_dec (fst p) k then true else false)) m.
(** What goes to the client: a payload; the Close of the session with its code and trailer. *)
Inductive wmsg := WData (req : Z) (data : bytes) (fin : bool) | WClose (code : Z) (md : option MD).
(** The kinds of handlers, 398-417: SendH is for methods to which the client sends, RecvH for those the server sends on. *)
Inductive hkind := Sync | BiDir | SendH | RecvH.
Definition has_recv (k : hkind) : bool := match k with BiDir | SendH => true | _ => false end.
Definition has_send (k : hkind) : bool := match k with BiDir | RecvH => true | _ => false end.

(** The goroutine of runHandler. *)
Inductive hpc :=
| HTake                               (* 511: before a payload is taken *)
| HCall (p : pay)                     (* 515-519: in the handler *)
| HAnswer (p : pay) (resp : bytes)    (* 523: before the answer is sent *)
| HUser                               (* in the code of a stream handler *)
| HRecv (drain : bool)                (* in Recv, at its select, or at the one of the draining loop *)
| HYield (drain : bool) (last : bool) (* in the body of the loop over Recv; last: the payload had EndStream *)
| HEnd (e : option gerr)              (* the handler has returned: before Trailer *)
| HShut (e : option gerr) (md : option MD)  (* before stream.close *)
| HFin (e : option gerr) (md : option MD)   (* before the EndStream payload *)
| HClose (e : option gerr) (md : option MD) (* before sendClose *)
| HDone.
(** A call of Send, handlers.go:111-120 and 241-256. *)
Inductive spc := SCheck | SCancel | SSend | SDone (e : option gerr).
Record sender := mkS { s_data : bytes; s_pc : spc }.
(** Why a loop over Recv came to its end (history). *)
Inductive over := OClosed | OEnd | OCtx | OStopped.

(** x_arrived, x_begun, x_calls, x_got, x_over, x_sets and the first part of x_wire (who sent it) are history: what was put into recvCh, the
    requests the handler was called with, what it returned, what Recv yielded, the ends of loops, the calls of SetTrailer, *)
Record st := mkX {
  x_q : list pay; x_qclosed : bool; x_cancel : bool; x_ctx : bool; x_conn : bool;
  x_h : hpc; x_closed : bool; x_trailer : option MD; x_senders : list sender; x_wire : list (option nat * wmsg);
  x_arrived : list pay; x_taken : list pay; x_begun : list pay; x_calls : list (pay * (bytes + gerr)); x_got : list bytes; x_over : list (nat * over);
  x_sets : list MD }.

(** A payload comes in; recvCh is closed; the session is cancelled; the context ends; the connection is closed; the handler of a
    request returns; the next step of runHandler, the transport fails with e or takes what it is given; the handler starts a loop
    over Recv; Recv sees that the context has ended; the body of the loop comes to its end and goes on or not; the handler
    returns; SetTrailer; Send; the next step of a Send. *)
Inductive event := EArrive (p : pay) | ECloseQ | ECancel | ECtx | EConn | EHandle (r : bytes + gerr) | EStep (e : option gerr)
  | ERange | EEnded | ENext (go : bool) | EReturn (e : option gerr) | ESetTrailer (md : MD) | ESend (d : bytes) | ESender (i : nat) (e : option gerr).

Definition with_h (s : st) (h : hpc) : st :=
  mkX (x_q s) (x_qclosed s) (x_cancel s) (x_ctx s) (x_conn s) h (x_closed s) (x_trailer s) (x_senders s) (x_wire s)
      (x_arrived s) (x_taken s) (x_begun s) (x_calls s) (x_got s) (x_over s) (x_sets s).
Definition with_wire (s : st) (w : list (option nat * wmsg)) : st :=
  mkX (x_q s) (x_qclosed s) (x_cancel s) (x_ctx s) (x_conn s) (x_h s) (x_closed s) (x_trailer s) (x_senders s) w
      (x_arrived s) (x_taken s) (x_begun s) (x_calls s) (x_got s) (x_over s) (x_sets s).
Definition with_senders (s : st) (l : list sender) : st :=
  mkX (x_q s) (x_qclosed s) (x_cancel s) (x_ctx s) (x_conn s) (x_h s) (x_closed s) (x_trailer s) l (x_wire s)
      (x_arrived s) (x_taken s) (x_begun s) (x_calls s) (x_got s) (x_over s) (x_sets s).
Definition with_flags (s : st) (qclosed cancel ctx conn : bool) : st :=
  mkX (x_q s) qclosed cancel ctx conn (x_h s) (x_closed s) (x_trailer s) (x_senders s) (x_wire s)
      (x_arrived s) (x_taken s) (x_begun s) (x_calls s) (x_got s) (x_over s) (x_sets s).
Definition arrive (s : st) (p : pay) : st :=
  mkX (x_q s ++ [p]) (x_qclosed s) (x_cancel s) (x_ctx s) (x_conn s) (x_h s) (x_closed s) (x_trailer s) (x_senders s) (x_wire s)
      (x_arrived s ++ [p]) (x_taken s) (x_begun s) (x_calls s) (x_got s) (x_over s) (x_sets s).
(** The first payload leaves the channel. *)
Definition take (s : st) (p : pay) (q : list pay) (h : hpc) (begun : list pay) (got : list bytes) (ov : list (nat * over)) : st :=
  mkX q (x_qclosed s) (x_cancel s) (x_ctx s) (x_conn s) h (x_closed s) (x_trailer s) (x_senders s) (x_wire s)
      (x_arrived s) (x_taken s ++ [p]) begun (x_calls s) got ov (x_sets s).
Definition ends (s : st) (o : over) : st :=
  mkX (x_q s) (x_qclosed s) (x_cancel s) (x_ctx s) (x_conn s) HUser (x_closed s) (x_trailer s) (x_senders s) (x_wire s)
      (x_arrived s) (x_taken s) (x_begun s) (x_calls s) (x_got s) (x_over s ++ [(length (x_taken s), o)]) (x_sets s).
Definition handled (s : st) (p : pay) (r : bytes + gerr) : st :=
  mkX (x_q s) (x_qclosed s) (x_cancel s) (x_ctx s) (x_conn s) (match r with inl b => HAnswer p b | inr e => HClose (Some e) None end)
      (x_closed s) (x_trailer s) (x_senders s) (x_wire s)
      (x_arrived s) (x_taken s) (x_begun s) (x_calls s ++ [(p, r)]) (x_got s) (x_over s) (x_sets s).
Definition shut (s : st) (h : hpc) : st :=
  mkX (x_q s) (x_qclosed s) (x_cancel s) (x_ctx s) (x_conn s) h true (x_trailer s) (x_senders s) (x_wire s)
      (x_arrived s) (x_taken s) (x_begun s) (x_calls s) (x_got s) (x_over s) (x_sets s).
(** SetTrailer, handlers.go:86-96, 216-226, 295-305; the first call copies the metadata, key by key. *)
Definition setTrailer (s : st) (md : MD) : st :=
  mkX (x_q s) (x_qclosed s) (x_cancel s) (x_ctx s) (x_conn s) (x_h s) (x_closed s)
      (Some (fold_left (fun t p => md_put (fst p) (snd p) t) md (match x_trailer s with None => [] | Some t => t end)))
      (x_senders s) (x_wire s)
      (x_arrived s) (x_taken s) (x_begun s) (x_calls s) (x_got s) (x_over s) (x_sets s ++ [md]).

Section Session.
Context (k : hkind) (maxSend : Z).

(** sendMsg, conn.go:603-642, given the transport's answer: Unavailable where the connection is closed. *)
Definition sendMsg (s : st) (who : option nat) (m : wmsg) (e : option gerr) : st * option gerr :=
  if x_conn s then (s, Some (cat 14))
  else match e with Some e => (s, Some e) | None => (with_wire s (x_wire s ++ [(who, m)]), None) end.
(** sendPayload, conn.go:677-703. *)
Definition sendPayload (s : st) (who : option nat) (req : Z) (data : bytes) (fin : bool) (e : option gerr) : st * option gerr :=
  if (0 <? maxSend)%Z && (maxSend <? Z.of_nat (length data))%Z then (s, Some (cat 8))
  else sendMsg s who (WData req data fin) e.

(** What Recv does with a payload, handlers.go:131-144 and 150-161. *)
Definition received (s : st) (p : pay) (q : list pay) (drain : bool) : st :=
  if p.(p_end) && match p.(p_data) with [] => true | _ => false end then take s p q HUser (x_begun s) (x_got s) (x_over s ++ [(S (length (x_taken s)), OEnd)])
  else take s p q (HYield drain p.(p_end)) (x_begun s) (x_got s ++ [p.(p_data)]) (x_over s).

(** A step of runHandler; e is the transport's answer. *)
Definition stepH (s : st) (e : option gerr) : option st :=
  match x_h s with
  | HTake =>
    match x_q s with
    | p :: q => Some (take s p q (HCall p) (x_begun s ++ [p]) (x_got s) (x_over s))
    | [] => if x_qclosed s then Some (with_h s (HClose None None)) else None
    end
  | HAnswer p resp =>
    let (s, r) := sendPayload s None p.(p_req) resp false e in
    Some (with_h s (match r with None => HTake | Some e => HClose (Some e) None end))
  | HRecv drain =>
    match x_q s with
    | p :: q => Some (received s p q drain)
    | [] => if x_qclosed s then Some (ends s OClosed) else if drain then Some (ends s OCtx) else None
    end
  | HEnd err => Some (with_h s (HShut err (x_trailer s)))
  | HShut err md => Some (if has_send k then shut s (HFin err md) else with_h s (HClose err md))
  | HFin err md => let (s, _) := sendPayload s None 0%Z [] true e in Some (with_h s (HClose err md))
  | HClose err md => let (s, _) := sendMsg s None (WClose (errCode err) md) e in Some (with_h s HDone)
  | _ => None
  end.
Definition put_sender (s : st) (i : nat) (x : sender) : st := with_senders s (firstn i (x_senders s) ++ x :: skipn (S i) (x_senders s)).
(** A step of the Send number i; only SendStream looks at cancelCh. *)
Definition stepS (s : st) (i : nat) (e : option gerr) : option st :=
  match nth_error (x_senders s) i with
  | None => None
  | Some x =>
    let to s p := Some (put_sender s i (mkS x.(s_data) p)) in
    match x.(s_pc) with
    | SCheck => to s (if x_closed s then SDone (Some (cat 14)) else match k with RecvH => SCancel | _ => SSend end)
    | SCancel => to s (if x_cancel s then SDone (Some (cat 14)) else SSend)
    | SSend => let (s, r) := sendPayload s (Some i) 0%Z x.(s_data) false e in to s (SDone r)
    | SDone _ => None
    end
  end.
Definition step (s : st) (e : event) : option st :=
  match e with
  | EArrive p => if x_qclosed s || negb (length (x_q s) <? 16) then None else Some (arrive s p)
  | ECloseQ => if x_qclosed s then None else Some (with_flags s true (x_cancel s) (x_ctx s) (x_conn s))
  | ECancel => Some (with_flags s (x_qclosed s) true (x_ctx s) (x_conn s))
  | ECtx => Some (with_flags s (x_qclosed s) (x_cancel s) true (x_conn s))
  | EConn => Some (with_flags s (x_qclosed s) (x_cancel s) (x_ctx s) true)
  | EHandle r => match x_h s with HCall p => Some (handled s p r) | _ => None end
  | EStep e => stepH s e
  | ERange => match x_h s with HUser => if has_recv k then Some (with_h s (HRecv false)) else None | _ => None end
  | EEnded => match x_h s with HRecv false => if x_ctx s then Some (with_h s (HRecv true)) else None | _ => None end
  | ENext go =>
    match x_h s with
    | HYield drain last => Some (if negb go then ends s OStopped else if last then ends s OEnd else with_h s (HRecv drain))
    | _ => None
    end
  | EReturn e => match x_h s with HUser => Some (with_h s (HEnd e)) | _ => None end
  | ESetTrailer md => match k with Sync => None | _ => Some (setTrailer s md) end
  | ESend d => if has_send k then Some (with_senders s (x_senders s ++ [mkS d SCheck])) else None
  | ESender i e => stepS s i e
  end.
Fixpoint run (s : st) (es : list event) : option st :=
  match es with [] => Some s | e :: q => match step s e with Some s' => run s' q | None => None end end.
(** runHandler begins. *)
Definition init : st :=
  mkX [] false false false false (match k with Sync => HTake | _ => HUser end) false None [] [] [] [] [] [] [] [] [].
End Session.
