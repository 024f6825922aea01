(** The health service (rpc/health/service.go, client.go). *)
From Coq Require Import ZArith List Bool.
Import ListNotations.
From Verif.Model Require Import Base Header Segment Struct Scalar.
Open Scope Z_scope.

(** health.go:63-71. *)
Definition Unknown : Z := 0.
Definition Serving : Z := 1.
Definition NotServing : Z := 2.
Definition ServiceUnknown : Z := 3.

(** The map of service.go:16, from names to statuses; the newest pair of a name counts. *)
Definition services := list (bytes * Z).
Definition lookup (m : services) (k : bytes) : option Z :=
  option_map snd (find (fun p => if list_eq_dec Z.eq_dec (fst p) k then true else false) m).
(** NewServer 21-27. *)
Definition NewServer : services := [([], Serving)].
(** SetServingStatus 31-35, in its lock. *)
Definition SetServingStatus (m : services) (service : bytes) (status : Z) : services := (service, status) :: m.
(** ServingStatus 39-47, in its lock. *)
Definition ServingStatus (m : services) (service : bytes) : Z :=
  match lookup m service with None => ServiceUnknown | Some st => st end.

(** The request, client.go:20-24 (NewHealthCheckRequest, SetService and Marshal, health.go:101-106, 152-155). *)
Definition request (service : bytes) : res bytes :=
  s <- New 1 ;; s <- SetString s 0 service ;; '(_, b) <- Marshal s ;; Ok b.
(** Check up to the lock, service.go:51-57. *)
Definition requested (req : bytes) : res bytes :=
  s <- New 1 ;; s <- Unmarshal s req ;; GetString s 0.
(** Check after the lock, 60-67. *)
Definition response (found : option Z) : res bytes :=
  s <- New 1 ;;
  s <- SetUint8 s 0 (match found with None => ServiceUnknown | Some st => st end) ;;
  '(_, b) <- Marshal s ;; Ok b.
(** The rest of the client's Check, client.go:31-36. *)
Definition responded (resp : bytes) : res Z :=
  s <- New 1 ;; s <- Unmarshal s resp ;; GetUint8 s 0.

(** A call of the client's Check: its request is on the way; the server has looked; the answer is on the way. *)
Inductive phase := Asked (req : bytes) | Looked (found : option Z) | Failed | Answered (resp : bytes).
Record hsys := mkHS { hs_map : services; hs_calls : list (nat * phase) }.
Definition hstart : hsys := mkHS NewServer [].
Inductive hevent :=
| HSet (service : bytes) (status : Z)     (* a call of SetServingStatus *)
| HCall (i : nat) (service : bytes)       (* the call number i of Check begins *)
| HLook (i : nat)                         (* the server reads the map *)
| HAnswer (i : nat)                       (* the handler returns *)
| HReturn (i : nat) (r : res Z)           (* the call ends with this result *)
| HBroken (i : nat)                       (* the call ends with an error of the connection *)
| HGet (service : bytes) (status : Z).    (* a call of ServingStatus on the server *)
Definition hfind (i : nat) (l : list (nat * phase)) : option phase :=
  option_map snd (find (fun p => Nat.eqb (fst p) i) l).
Definition hdrop (i : nat) (l : list (nat * phase)) : list (nat * phase) := filter (fun p => negb (Nat.eqb (fst p) i)) l.
Definition hput (i : nat) (p : phase) (s : hsys) : hsys := mkHS s.(hs_map) ((i, p) :: hdrop i s.(hs_calls)).
Definition hend (i : nat) (s : hsys) : hsys := mkHS s.(hs_map) (hdrop i s.(hs_calls)).

(** Any number of calls of Check and SetServingStatus, in any order; the connection, which carries the bytes
    of a request and of a response unchanged (rpc is modelled elsewhere), may fail at any time. *)
Inductive hstep : hsys -> hevent -> hsys -> Prop :=
| hs_set s k st : hstep s (HSet k st) (mkHS (SetServingStatus s.(hs_map) k st) s.(hs_calls))
| hs_call s i k b : hfind i s.(hs_calls) = None -> request k = Ok b -> hstep s (HCall i k) (hput i (Asked b) s)
| hs_call_err s i k : hfind i s.(hs_calls) = None -> request k = Err -> hstep s (HCall i k) (hput i Failed s)
| hs_get s k : hstep s (HGet k (ServingStatus s.(hs_map) k)) s
| hs_look s i b k : hfind i s.(hs_calls) = Some (Asked b) -> requested b = Ok k -> hstep s (HLook i) (hput i (Looked (lookup s.(hs_map) k)) s)
| hs_bad s i b : hfind i s.(hs_calls) = Some (Asked b) -> requested b = Err -> hstep s (HLook i) (hput i Failed s)
| hs_answer s i f b : hfind i s.(hs_calls) = Some (Looked f) -> response f = Ok b -> hstep s (HAnswer i) (hput i (Answered b) s)
| hs_return s i b : hfind i s.(hs_calls) = Some (Answered b) -> hstep s (HReturn i (responded b)) (hend i s)
| hs_failed s i : hfind i s.(hs_calls) = Some Failed -> hstep s (HReturn i Err) (hend i s)
| hs_broken s i p : hfind i s.(hs_calls) = Some p -> hstep s (HBroken i) (hend i s).
Inductive hrun : hsys -> list hevent -> hsys -> Prop :=
| hr_nil s : hrun s [] s
| hr_cons s e s1 tr s2 : hstep s e s1 -> hrun s1 tr s2 -> hrun s (e :: tr) s2.
