(** What the health service should say. *)
From Coq Require Import ZArith List.
Import ListNotations.
From Verif.Model Require Import Base Health.
Open Scope Z_scope.

(** [in_force tr k st]: after the events [tr], the status of the service [k] is [st]: the one set last; if
    none was set, Serving for the server as a whole (no name), and ServiceUnknown for a service. *)
Definition in_force (tr : list hevent) (k : bytes) (st : Z) : Prop :=
  (exists t1 t2, tr = t1 ++ HSet k st :: t2 /\ forall st', ~ In (HSet k st') t2) \/
  (forall st', ~ In (HSet k st') tr) /\ st = match k with [] => Serving | _ => ServiceUnknown end.
(** Names are byte strings of less than 4 GiB with the message around them, statuses are bytes. *)
Definition sensible (e : hevent) : Prop :=
  match e with
  | HSet _ st => 0 <= st < 256
  | HCall _ k => Forall (fun c => 0 <= c < 256) k /\ len k + 32 < 2 ^ 32
  | _ => True
  end.
(** The event [e] is not about the call [i]. *)
Definition of_call (i : nat) (e : hevent) : Prop :=
  match e with HCall j _ | HLook j | HAnswer j | HReturn j _ | HBroken j => i = j | _ => False end.
Definition begins (i : nat) (e : hevent) : Prop := exists k, e = HCall i k.
