(** The client's side of a stream session: what its user's calls send, rpc/client/bidir.go, send.go and recv.go (Send, CloseSend, Cancel,
    Close) over sendPayload, sendCancel, closeSession and sendMsg (rpc/client/client.go:767-805, 895-941).  A call may be made at any
    time by any goroutine; one step is one section of the mutex, one select, or one message given to the transport.  Compression is
    transparent (Model/Compress.v); a message that the transport does not take whole is not on the wire. *)
From Coq Require Import ZArith List Bool.
Import ListNotations.
From Verif.Model Require Import Base.
Local Open Scope nat_scope.

(** BiDirClient, SendClient, RecvClient. *)
Inductive ckind := BiC | SendC | RecvC.
Inductive op := OSend (d : bytes) | OCloseSend | OCancel | OClose.
(** The methods there are. *)
Definition has (k : ckind) (o : op) : bool :=
  match o, k with
  | OSend _, RecvC => false
  | OCloseSend, BiC => true
  | OCloseSend, _ => false
  | _, _ => true
  end.
(** A payload of the session, its Cancel, its Close. *)
Inductive umsg := UData (d : bytes) (fin : bool) | UCancel | UClose.
(** Where a call is: before its section of the mutex; at the select of Send; before a message is sent; in SendClient.Close before the
    EndStream; before session.close; returned, with an error or not. *)
Inductive cpc := PCheck | PSelect | PWrite (m : umsg) | PEnd | PShut | PDone (ok : bool).
Record call := mkC { c_op : op; c_pc : cpc }.
(** l_cancel: the session's cancelCh is closed; l_conn: the connection is; l_wire: what was sent, with the call that did. *)
Record st := mkL { l_closed : bool; l_sendDone : bool; l_cancel : bool; l_conn : bool; l_calls : list call; l_wire : list (nat * umsg) }.
Definition init : st := mkL false false false false [] [].

(** A call begins; the call number i takes its next step, ctx: its context has ended, ok: the transport takes the message; the session is
    cancelled; the connection is closed. *)
Inductive event := ECall (o : op) | EGo (i : nat) (ctx ok : bool) | ECancelled | EConn.

Definition put (s : st) (i : nat) (c : call) : st :=
  mkL (l_closed s) (l_sendDone s) (l_cancel s) (l_conn s) (firstn i (l_calls s) ++ c :: skipn (S i) (l_calls s)) (l_wire s).
Definition flags (s : st) (closed sendDone cancel conn : bool) : st := mkL closed sendDone cancel conn (l_calls s) (l_wire s).

Section Stream.
Context (k : ckind) (maxSend : Z).

(** sendMsg after the size check of sendPayload, 906-910: a transport that fails closes the connection (setFatalError, 538-546). *)
Definition too_long (m : umsg) : bool :=
  match m with UData d _ => (0 <? maxSend)%Z && (maxSend <? Z.of_nat (length d))%Z | _ => false end.
Definition sendMsg (s : st) (i : nat) (m : umsg) (ok : bool) : st * bool :=
  if too_long m then (s, false)
  else if l_conn s then (s, false)
  else if ok then (mkL (l_closed s) (l_sendDone s) (l_cancel s) (l_conn s) (l_calls s) (l_wire s ++ [(i, m)]), true)
  else (flags s (l_closed s) (l_sendDone s) true true, false).

Definition go (s : st) (i : nat) (c : call) (ctx ok : bool) : option st :=
  let to s p := Some (put s i (mkC c.(c_op) p)) in
  match c.(c_pc) with
  | PCheck =>
    match c.(c_op) with
    (* bidir.go:25-31, send.go:22-28 *)
    | OSend _ => if l_closed s || (match k with BiC => l_sendDone s | _ => false end) then to s (PDone false) else to s PSelect
    (* bidir.go:62-72 *)
    | OCloseSend => if l_closed s || l_sendDone s then to s (PDone true)
                    else to (flags s (l_closed s) true (l_cancel s) (l_conn s)) (PWrite (UData [] true))
    (* bidir.go:79-87, send.go:47-55, recv.go:41-49 *)
    | OCancel => if l_closed s then to s (PDone true) else to s (PWrite UCancel)
    (* bidir.go:91-98, send.go:59-66, recv.go:53-60 *)
    | OClose => if l_closed s then to s (PDone true)
                else to (flags s true (l_sendDone s) (l_cancel s) (l_conn s)) (match k with SendC => PEnd | _ => PShut end)
    end
  (* bidir.go:33-41, send.go:30-38 *)
  | PSelect => match c.(c_op) with
               | OSend d => if ctx || l_conn s || l_cancel s then to s (PDone false) else to s (PWrite (UData d false))
               | _ => None
               end
  | PWrite m => let (s, r) := sendMsg s i m ok in to s (PDone r)
  (* send.go:68-69: the error is dropped *)
  | PEnd => let (s, _) := sendMsg s i (UData [] true) ok in to s PShut
  | PShut => to (flags s (l_closed s) (l_sendDone s) true (l_conn s)) (PWrite UClose)
  | PDone _ => None
  end.
Definition step (s : st) (e : event) : option st :=
  match e with
  | ECall o => if has k o then Some (mkL (l_closed s) (l_sendDone s) (l_cancel s) (l_conn s) (l_calls s ++ [mkC o PCheck]) (l_wire s)) else None
  | EGo i ctx ok => match nth_error (l_calls s) i with Some c => go s i c ctx ok | None => None end
  | ECancelled => Some (flags s (l_closed s) (l_sendDone s) true (l_conn s))
  | EConn => Some (flags s (l_closed s) (l_sendDone s) true true)
  end.
Fixpoint run (s : st) (es : list event) : option st :=
  match es with [] => Some s | e :: q => match step s e with Some s' => run s' q | None => None end end.
End Stream.
