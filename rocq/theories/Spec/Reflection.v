(** What the reflection service should tell, and whom. *)
From Coq Require Import ZArith List Bool Sorted.
Import ListNotations.
From Verif.Model Require Import Base.
From Verif.Spec Require Import MapSpec.
Open Scope Z_scope.

(** A listing: packages with their services with their methods (name and type). *)
Definition tree : Type := list (bytes * list (bytes * list (bytes * Z))).
(** Every name once, in the bytewise order. *)
Definition ascending {A} (l : list (bytes * A)) : Prop := StronglySorted (fun x y => str_lt (fst x) (fst y)) l.
(** The listing shows the call [c] of the service [s] of the package [p], with the type [t]. *)
Definition shows (l : tree) (p s c : bytes) (t : Z) : Prop :=
  exists ss ms, In (p, ss) l /\ In (s, ms) ss /\ In (c, t) ms.
(** The listing of the handlers [h]: exactly those, ordered by name on every level, without empty packages or services. *)
Definition listing (h : bytes -> bytes -> bytes -> option Z) (l : tree) : Prop :=
  ascending l /\ Forall (fun p => snd p <> [] /\ ascending (snd p) /\ Forall (fun s => snd s <> [] /\ ascending (snd s)) (snd p)) l /\
  forall p s c t, shows l p s c t <-> h p s c = Some t.

(** A registration: package, service, call, and the type of the handler (RTSynchronous and so on). *)
Notation registration := (bytes * bytes * bytes * Z)%type (only parsing).
Definition usable (e : registration) : Prop :=
  let '(p, s, c, t) := e in byte_list p /\ byte_list s /\ byte_list c /\ 1 <= t < 256 /\ ~ In 47 p /\ ~ In 47 s.
(** A bound on what a handler takes in a listing. *)
Fixpoint weight (l : list registration) : Z :=
  match l with [] => 0 | (p, s, c, _) :: l => 100 + len p + len s + len c + weight l end.
(** The handler in force: the first registered under the three names. *)
Fixpoint in_force (l : list registration) (p s c : bytes) : option Z :=
  match l with
  | [] => None
  | (p', s', c', t) :: l =>
    if list_eq_dec Z.eq_dec p' p then if list_eq_dec Z.eq_dec s' s then if list_eq_dec Z.eq_dec c' c then Some t
    else in_force l p s c else in_force l p s c else in_force l p s c
  end.

(** ** Access *)
(** The token sent under a header: the value of the first pair whose name is the header's up to case, the empty text without one. *)
Definition sent (lower : bytes -> bytes) (md : list (bytes * bytes)) (header token : bytes) : Prop :=
  (exists a k b, md = a ++ (k, token) :: b /\ lower k = lower header /\ Forall (fun m => lower (fst m) <> lower header) a) \/
  (token = [] /\ Forall (fun m => lower (fst m) <> lower header) md).
Section Access.
Variable IP : Type.
Variable ParseIP : bytes -> option IP.
Variable ParseCIDR : bytes -> option (IP -> bool).
Variable ToLower : bytes -> bytes.
(** One of the networks has the address; no networks at all means all addresses. *)
Definition allowed (cidrs : list bytes) (ip : IP) : Prop :=
  cidrs = [] \/ exists c net, In c cidrs /\ ParseCIDR c = Some net /\ net ip = true.
(** The validator, if there is one, accepts the token sent under the header, by default "authorization". *)
Definition authorized (header : bytes) (validator : option (bytes -> bool)) (md : list (bytes * bytes)) : Prop :=
  forall v, validator = Some v -> exists token, v token = true /\
    sent ToLower md (match header with [] => [97; 117; 116; 104; 111; 114; 105; 122; 97; 116; 105; 111; 110] | _ => header end) token.
End Access.
