(** How the server runs a streaming handler through its stream interceptor: rpc/server/conn.go
    runBiDirHandler 428-447, runSendHandler 450-470, runRecvHandler 473-493, with the adapters of
    rpc/server/handlers.go:416-453. *)
From Verif.Model Require Import Base Chain.

(** The dynamic type of an interceptor.ServerStream: the three the server makes, or a type of the
    interceptor's own around another stream, such as rpc/validate/validate.go:195-201. *)
Inductive sstream :=
| DBiDir                         (* a pointer to BiDirStream *)
| DRecvAdapter                   (* recvStreamAdapter *)
| DSendAdapter                   (* sendStreamAdapter *)
| DOwn (type : Z) (inner : sstream).

(** The kind of a streaming handler, conn.go:398-413. *)
Inductive skind := KBiDir | KSend | KRecv.
(** The stream the server hands to the interceptor. *)
Definition made (k : skind) : sstream :=
  match k with KBiDir => DBiDir | KSend => DRecvAdapter | KRecv => DSendAdapter end.

Section Run.
Variables I C : Type.
(** The run that panics. *)
Variable panic : C.

(** The assertions that the stream is the BiDirStream, recvStreamAdapter or sendStreamAdapter the
    server made, in the handler closures (442-444, 465-467, 488-490); [h] is HandleFunc on the stream inside. *)
Definition asserted (k : skind) (h : C) (s : sstream) : C :=
  match k, s with
  | KBiDir, DBiDir | KSend, DRecvAdapter | KRecv, DSendAdapter => h
  | _, _ => panic
  end.
(** runBiDirHandler, runSendHandler, runRecvHandler. *)
Definition runStreamHandler (si : option (interceptor sstream I C)) (k : skind) (info : I) (h : C) : C :=
  match si with
  | None => h
  | Some f => f (made k) info (asserted k h)
  end.
End Run.
Arguments asserted {C}.
Arguments runStreamHandler {I C}.
