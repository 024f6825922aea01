(** What a call is meant to carry to its handler, in the words of the API. *)
From Verif.Model Require Import Base.
From Coq Require Import List.
Import ListNotations.

(** The value a list of pairs gives to a header in any spelling: that of the last pair. *)
Definition last_value (lower : bytes -> bytes) (pairs : list (bytes * bytes)) (k : bytes) : option bytes :=
  fold_left (fun x p => if list_eq_dec Z.eq_dec (lower k) (lower (fst p)) then Some (snd p) else x) pairs None.

(** The headers of a call: those of the credentials; then those given with the call, or else
    those of the context of the caller. *)
Definition header (lower : bytes -> bytes) (call ctx : option (list (bytes * bytes))) (creds : list (bytes * bytes))
    (k : bytes) : option bytes :=
  match last_value lower creds k with
  | Some v => Some v
  | None => match call, ctx with
            | Some m, _ | None, Some m => last_value lower m k
            | None, None => None
            end
  end.

(** [handler] is the deadline of the handler, [caller] that of the caller, both in nanoseconds;
    the message took [transit] from the one to the other.  The handler gets the caller's
    deadline, later by the transit and at most a millisecond short of that. *)
Definition kept_deadline (caller transit handler : Z) : Prop :=
  (caller + transit - 1000000 < handler <= caller + transit)%Z.
