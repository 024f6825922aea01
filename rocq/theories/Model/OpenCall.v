(** The opening of a call: what the client puts in its Open message, what the server makes of
    it for the handler, and what the client makes of the server's answer.
    rpc/client/client.go:808-891 (openSession), 648-688 (handleOpenAck), 946-978
    (applyCredentials); rpc/server/conn.go:302-380 (handleOpen), 428-526 (the handlers' runs),
    645-657 (sendOpenAck).
    The messages themselves arrive as they were sent (marshalling and framing are modelled
    elsewhere).  Waiting, the pending table, the timeout and the pool are not part of this
    model: it follows one Open that is answered. *)
From Verif.Model Require Import Base Registry Metadata.

(** Instants are nanoseconds.  time.Duration is an int64 of nanoseconds. *)
Definition maxI64 : Z := 2 ^ 63 - 1.
Definition minI64 : Z := - 2 ^ 63.
Definition msec : Z := 1000000.
(** The two's complement product of time.Duration(x) * time.Millisecond. *)
Definition wrapI64 (x : Z) : Z := (x + 2 ^ 63) mod 2 ^ 64 - 2 ^ 63.
(** time.Until of the Go standard library: saturating. *)
Definition Until (now d : Z) : Z := Z.max minI64 (Z.min maxI64 (d - now)).
(** Duration.Milliseconds: truncated. *)
Definition Milliseconds (d : Z) : Z := Z.quot d msec.

(** msgs.ErrCode, rpc/internal/msgs/msgs.claw:146-191; the codes this code does not name are ErrOther. *)
Inductive errCode := ErrNone | ErrInvalidArgument | ErrUnimplemented | ErrUnavailable | ErrOther (c : Z).

(** msgs.RPCType, rpc/internal/msgs/msgs.claw. *)
Inductive rpcType := RTSync | RTBiDir | RTSend | RTRecv.
Definition rpcType_eqb (a b : rpcType) : bool :=
  match a, b with
  | RTSync, RTSync | RTBiDir, RTBiDir | RTSend, RTSend | RTRecv, RTRecv => true
  | _, _ => false
  end.

(** msgs.Open without the protocol version and the size of payloads.  [om_deadline] is 0 when
    the field was not set. *)
Record openMsg := mkOpen {
  om_id : Z; om_pkg : bytes; om_svc : bytes; om_call : bytes; om_type : rpcType;
  om_packing : bool; om_deadline : Z; om_md : list (bytes * bytes) }.

(** msgs.OpenAck without the protocol version. *)
Record ackMsg := mkAck {
  ak_id : Z; ak_session : Z; ak_code : errCode; ak_error : bytes; ak_packing : bool;
  ak_md : list (bytes * bytes) }.

Section Client.
(** strings.ToLower; and the order in which Go goes through the map of the metadata. *)
Variable ToLower : bytes -> bytes.
Variable order : MD -> MD.

(** applyCredentials, client.go:946-978.  [opts] is the metadata of WithMetadata, [ctx] that
    of the context, [creds] what the credentials return, in the order the map is gone through.
    The checks before line 965 have been passed.  That line 973 writes to a map of the caller
    is the subject of another property. *)
Definition call_md (opts ctx : option MD) (creds : MD) : option MD :=
  let md := match opts with Some m => Some m | None => ctx end in
  match creds with
  | [] => md
  | _ => Some (fold_left (fun m e => Set_ ToLower m (fst e) (snd e)) creds
                 (match md with Some m => m | None => [] end))
  end.

(** openSession, client.go:831-855, at [now]. *)
Definition open_msg (id : Z) (pkg svc call : bytes) (ty : rpcType) (packing : bool)
    (deadline : option Z) (md : option MD) (now : Z) : openMsg :=
  mkOpen id pkg svc call ty packing
    (match deadline with
     | Some d => let ms := Milliseconds (Until now d) in if ms >? 0 then ms else 0
     | None => 0
     end)
    (match md with Some m => ToMsgs (order m) | None => [] end).

(** How the call's opening ends for the application, client.go:877-890 and 648-688: a session
    with its number and the metadata of the answer (None is nil), or the category and text of
    the error. *)
Inductive opened :=
| Session (id : Z) (respMD : option MD)
| OpenErr (c : errCode) (text : bytes).

(** "session open rejected by server". *)
Definition rejected_text : bytes :=
  [115;101;115;115;105;111;110;32;111;112;101;110;32;114;101;106;101;99;116;101;100;32;98;121;32;115;101;114;118;101;114].

Definition client_opened (a : ackMsg) : opened :=
  let id := match ak_code a with ErrNone => ak_session a | _ => 0 end in
  let md := match ak_code a, ak_md a with
            | ErrNone, _ :: _ => Some (FromMsgs ToLower (ak_md a))
            | _, _ => None
            end in
  if negb (id =? 0) then Session id md else OpenErr ErrUnavailable rejected_text.
End Client.

Section Server.
Variable H : Type.          (* the functions of the application *)

(** The session a handler runs for, conn.go:32-59, and the deadline of its context. *)
Record srvSession := mkSess {
  ss_id : Z; ss_type : rpcType; ss_handler : H; ss_md : list (bytes * bytes);
  ss_pkg : bytes; ss_svc : bytes; ss_call : bytes; ss_deadline : option Z }.

(** The parts of ServerConn that handleOpen reads and writes, conn.go:67-94. *)
Record srvState := mkSrv {
  sv_registry : registry (rpcType * H);
  sv_next : Z;              (* nextSessionID, uint32 *)
  sv_allow : bool;          (* allowPacking *)
  sv_packing : bool }.      (* packingEnabled *)

Definition draining_text : bytes := [115;101;114;118;101;114;32;105;115;32;100;114;97;105;110;105;110;103].
Definition unimpl_text : bytes := [110;111;32;104;97;110;100;108;101;114;32;114;101;103;105;115;116;101;114;101;100].
Definition mismatch_text : bytes := [82;80;67;32;116;121;112;101;32;109;105;115;109;97;116;99;104].

(** sendOpenAck, conn.go:645-657. *)
Definition open_ack (openID session : Z) (code : errCode) (text : bytes) (packing : bool) : ackMsg :=
  mkAck openID session code text packing [].

(** context.WithDeadline: the earlier of the parent's deadline and the new one. *)
Definition with_deadline (parent : option Z) (d : Z) : option Z :=
  match parent with Some p => Some (Z.min p d) | None => Some d end.

(** handleOpen, conn.go:302-380.  [dr1] and [dr2] are what the two reads of the draining flag
    find, [parent] the deadline of the connection's context, [now] the time at line 363. *)
Definition handleOpen (s : srvState) (o : openMsg) (dr1 dr2 : bool) (parent : option Z) (now : Z)
  : srvState * ackMsg * option srvSession :=
  let reject code text := (s, open_ack (om_id o) 0 code text false, None) in
  if dr1 then reject ErrUnavailable draining_text
  else match Lookup (sv_registry s) (om_pkg o) (om_svc o) (om_call o) with
  | None => reject ErrUnimplemented unimpl_text
  | Some (ty, h) =>
      if negb (rpcType_eqb ty (om_type o)) then reject ErrInvalidArgument mismatch_text
      else if dr2 then reject ErrUnavailable draining_text
      else
        let sid := sv_next s in
        let packing := if (sid =? 1) && om_packing o && sv_allow s then true else sv_packing s in
        let s' := mkSrv (sv_registry s) ((sid + 1) mod 2 ^ 32) (sv_allow s) packing in
        let deadline := if om_deadline o >? 0
                        then with_deadline parent (now + wrapI64 (om_deadline o * msec))
                        else parent in
        (s', open_ack (om_id o) sid ErrNone [] packing,
         Some (mkSess sid (om_type o) h (om_md o) (om_pkg o) (om_svc o) (om_call o) deadline))
  end.

(** What an interceptor of the server is told of the metadata: UnaryServerInfo (conn.go:497-503)
    and StreamServerInfo (433-440, 455-462, 478-485). *)
Definition interceptor_md (s : srvSession) : list (bytes * bytes) := ss_md s.
(** What the application's handler is given of it, handlers.go:22-53: SyncHandler's function has
    an argument for it (conn.go:506); the functions of the three kinds of streams get the context
    and the stream, and neither carries it. *)
Definition handler_md (s : srvSession) : option (list (bytes * bytes)) :=
  match ss_type s with RTSync => Some (ss_md s) | _ => None end.
End Server.
Arguments mkSess {H}. Arguments ss_id {H}. Arguments ss_type {H}. Arguments ss_handler {H}.
Arguments ss_md {H}. Arguments ss_pkg {H}. Arguments ss_svc {H}. Arguments ss_call {H}.
Arguments ss_deadline {H}.
Arguments mkSrv {H}. Arguments sv_registry {H}. Arguments sv_next {H}. Arguments sv_allow {H}.
Arguments sv_packing {H}.
Arguments handleOpen {H}. Arguments interceptor_md {H}. Arguments handler_md {H}.
