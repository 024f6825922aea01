(** rpc/validate/validate.go. *)
From Verif.Model Require Import Base Any Registry.

(** Validator, validate.go:40-52: whether the payload is accepted.  The context is not
    modelled; a validator that keeps state is one function per call. *)
Definition validator := bytes -> bool.
(** Registry, 87-126: two maps from patterns; the newest registration of a pattern counts. *)
Record vregistry := mkV { v_req : list (bytes * validator); v_resp : list (bytes * validator) }.
(** RegisterRequest 105-108, RegisterResponse 112-115. *)
Definition RegisterRequest (r : vregistry) (pattern : bytes) (v : validator) := mkV ((pattern, v) :: v_req r) (v_resp r).
Definition RegisterResponse (r : vregistry) (pattern : bytes) (v : validator) := mkV (v_req r) ((pattern, v) :: v_resp r).
(** GetRequestValidator 128-132, GetResponseValidator 135-139: the pattern is built as in makeKey. *)
Definition GetRequestValidator (r : vregistry) (pkg service method : bytes) : option validator :=
  reg_find (makeKey pkg service method) (v_req r).
Definition GetResponseValidator (r : vregistry) (pkg service method : bytes) : option validator :=
  reg_find (makeKey pkg service method) (v_resp r).

Definition accepted (v : option validator) (p : bytes) : bool :=
  match v with Some v => v p | None => true end.

(** UnaryServerInterceptor, 143-168: the requests the handler was called with, and the result. *)
Definition UnaryServerInterceptor (r : vregistry) (req : bytes) (pkg service method : bytes)
    (handler : bytes -> res bytes) : list bytes * res bytes :=
  if negb (accepted (GetRequestValidator r pkg service method) req) then ([], Err)
  else match handler req with
  | Ok resp => if negb (accepted (GetResponseValidator r pkg service method) resp) then ([req], Err) else ([req], Ok resp)
  | e => ([req], e)
  end.

(** parseMethod, 268-290: the loop over the string, then the cases. *)
Fixpoint parse_parts (cur s : bytes) : list bytes :=
  match s with
  | [] => [cur]
  | c :: s => if c =? slash then cur :: parse_parts [] s else parse_parts (cur ++ [c]) s
  end.
Definition parseMethod (method : bytes) : bytes * bytes * bytes :=
  match parse_parts [] method with
  | [a; b; c] => (a, b, c)
  | [a; b] => ([], a, b)
  | [a] => ([], [], a)
  | _ => ([], [], [])
  end.
(** UnaryClientInterceptor, 238-265: the requests that were sent, and the result. *)
Definition UnaryClientInterceptor (r : vregistry) (method : bytes) (req : bytes)
    (invoker : bytes -> res bytes) : list bytes * res bytes :=
  let '(pkg, service, call) := parseMethod method in UnaryServerInterceptor r req pkg service call invoker.

(** A streaming handler as a process: it sends, asks for the next payload of a loop over
    Recv() (None when the loop has ended; asking again starts a new loop), or returns. *)
Inductive sproc :=
| SDone (ok : bool)
| SSend (p : bytes) (k : bool -> sproc)
| SRecv (k : option bytes -> sproc).

Record outcome := mkOut { o_seen : list bytes; o_sent : list bytes; o_result : bool }.
Definition saw (p : bytes) (o : outcome) := mkOut (p :: o_seen o) (o_sent o) (o_result o).
Definition sent (p : bytes) (o : outcome) := mkOut (o_seen o) (p :: o_sent o) (o_result o).

(** The handler on the bare stream: incoming payloads, and whether the n-th Send gets through. *)
Fixpoint bare (inc : list bytes) (sendok : nat -> bool) (n : nat) (h : sproc) : outcome :=
  match h with
  | SDone ok => mkOut [] [] ok
  | SSend p k => if sendok n then sent p (bare inc sendok (S n) (k true)) else bare inc sendok (S n) (k false)
  | SRecv k => match inc with
               | [] => bare inc sendok n (k None)
               | p :: inc => saw p (bare inc sendok n (k (Some p)))
               end
  end.
(** The handler on the validating stream, StreamServerInterceptor 172-193 with Recv 204-219
    (a rejected payload is consumed and the loop returns) and Send 226-234. *)
Fixpoint validated (rq rs : option validator) (inc : list bytes) (sendok : nat -> bool) (n : nat) (h : sproc) : outcome :=
  match h with
  | SDone ok => mkOut [] [] ok
  | SSend p k =>
      if negb (accepted rs p) then validated rq rs inc sendok n (k false)
      else if sendok n then sent p (validated rq rs inc sendok (S n) (k true)) else validated rq rs inc sendok (S n) (k false)
  | SRecv k => match inc with
               | [] => validated rq rs inc sendok n (k None)
               | p :: inc => if negb (accepted rq p) then validated rq rs inc sendok n (k None)
                             else saw p (validated rq rs inc sendok n (k (Some p)))
               end
  end.
Definition StreamServerInterceptor (r : vregistry) (pkg service method : bytes) (inc : list bytes) (sendok : nat -> bool) (h : sproc) : outcome :=
  validated (GetRequestValidator r pkg service method) (GetResponseValidator r pkg service method) inc sendok 0 h.
