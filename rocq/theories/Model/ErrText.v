(** Classification of errors by their text: rpc/retry/retry.go:94-140, rpc/hedge/hedge.go:135-181. *)
From Verif.Model Require Import Base.
From Coq Require Import Ascii String.

(** The bytes of a string literal. *)
Fixpoint text (s : string) : bytes :=
  match s with
  | EmptyString => []
  | String c s => Z.of_nat (nat_of_ascii c) :: text s
  end.

(** strings.HasPrefix (Go standard library). *)
Fixpoint has_prefix (p s : bytes) : bool :=
  match p, s with
  | [], _ => true
  | x :: p, y :: s => (x =? y) && has_prefix p s
  | _ :: _, [] => false
  end.
(** strings.Contains (Go standard library). *)
Fixpoint contains (s p : bytes) : bool :=
  has_prefix p s || match s with [] => false | _ :: s => contains s p end.

(** ErrCode, rpc/internal/msgs/msgs.go: the codes and their String() (93-96, 170-189). *)
Inductive code :=
| ErrNone | ErrCanceled | ErrReserved | ErrInvalidArgument | ErrDeadlineExceeded | ErrNotFound
| ErrAlreadyExists | ErrPermissionDenied | ErrResourceExhausted | ErrFailedPrecondition | ErrAborted
| ErrOutOfRange | ErrUnimplemented | ErrInternal | ErrUnavailable | ErrDataLoss | ErrUnauthenticated.
Definition code_String (c : code) : bytes :=
  text (match c with
  | ErrNone => "ErrNone" | ErrCanceled => "ErrCanceled" | ErrReserved => "ErrReserved"
  | ErrInvalidArgument => "ErrInvalidArgument" | ErrDeadlineExceeded => "ErrDeadlineExceeded"
  | ErrNotFound => "ErrNotFound" | ErrAlreadyExists => "ErrAlreadyExists"
  | ErrPermissionDenied => "ErrPermissionDenied" | ErrResourceExhausted => "ErrResourceExhausted"
  | ErrFailedPrecondition => "ErrFailedPrecondition" | ErrAborted => "ErrAborted"
  | ErrOutOfRange => "ErrOutOfRange" | ErrUnimplemented => "ErrUnimplemented"
  | ErrInternal => "ErrInternal" | ErrUnavailable => "ErrUnavailable" | ErrDataLoss => "ErrDataLoss"
  | ErrUnauthenticated => "ErrUnauthenticated" end)%string.

(** isRetryable, retry.go:95-135, of a non-nil error with the given Error() text. *)
Definition isRetryable (e : bytes) : bool :=
  if contains e (code_String ErrDeadlineExceeded) then false
  else if contains e (code_String ErrCanceled) then false
  else if contains e (code_String ErrInvalidArgument) || contains e (code_String ErrNotFound)
       || contains e (code_String ErrAlreadyExists) || contains e (code_String ErrPermissionDenied)
       || contains e (code_String ErrUnauthenticated) || contains e (code_String ErrUnimplemented) then false
  else if contains e (code_String ErrInternal) || contains e (code_String ErrUnavailable)
       || contains e (code_String ErrResourceExhausted) || contains e (code_String ErrAborted) then true
  else false.

(** hedge.go:151-160. *)
Definition fatalCodes : list code :=
  [ErrInvalidArgument; ErrNotFound; ErrAlreadyExists; ErrPermissionDenied; ErrUnauthenticated;
   ErrUnimplemented; ErrDeadlineExceeded; ErrCanceled].
(** isFatal, hedge.go:137-181, of a non-nil error; the empty list stands for nil as well. *)
Definition isFatal (e : bytes) (nonFatal : list code) : bool :=
  if contains e (text "context canceled") || contains e (text "context deadline exceeded") then true
  else if existsb (fun c => contains e (code_String c)) fatalCodes then true
  else match nonFatal with
  | [] => false
  | _ => negb (existsb (fun c => contains e (code_String c)) nonFatal)
  end.
