(** What is asked of a transport of Model/Transport.v. *)
From Coq Require Import ZArith List Bool.
Import ListNotations.
From Verif.Model Require Import Base Transport.
Local Open Scope nat_scope.

(** What happened up to a moment: the state after the events. *)
Definition after (client : bool) (es : list event) (s : st) : Prop := run client (init client) es = Some s.
(** The call number t is the call c; it has returned r. *)
Definition called (s : st) (t : nat) (c : call) : Prop := exists p, nth_error s.(s_threads) t = Some (mkT c p).
Definition returned (s : st) (t : nat) (c : call) (r : result) : Prop := nth_error s.(s_threads) t = Some (mkT c (Done r)).
Definition ended (s : st) (t : nat) : Prop := exists c r, returned s t c r.
(** The bytes the call t was given to write; the bytes sent on the connection k. *)
Definition data (s : st) (t : nat) : bytes := match nth_error s.(s_threads) t with Some x => payload x | None => [] end.
Definition wire (s : st) (k : nat) : bytes := (netAt k s).(n_wire).
(** The calls of Write that ended well on the connection k, in the order in which they ended. *)
Definition sent_on (s : st) (k : nat) : list nat := map fst (filter (fun e => snd e =? k) s.(s_sent)).
(** All that was dialed or accepted is closed. *)
Definition all_shut (s : st) : Prop := forall n, In n s.(s_nets) -> n.(n_shut) = true.
(** Connecting. *)
Definition dialing (x : thread) : bool := match x.(t_call), x.(t_pc) with Connect, Done _ => false | Connect, _ => true | _, _ => false end.
(** No two calls connect at the same time. *)
Definition one_dials (s : st) : Prop :=
  forall t u x y, nth_error s.(s_threads) t = Some x -> nth_error s.(s_threads) u = Some y -> dialing x = true -> dialing y = true -> t = u.
Definition always_one_dials (client : bool) (es : list event) : Prop :=
  forall es1 es2 s, es = es1 ++ es2 -> after client es1 s -> one_dials s.
(** Events that need nothing from outside: new calls and steps of calls; not the connection taking bytes, failing or
    delivering, nor dials ending. *)
Definition inner (e : event) : bool := match e with ECall _ | EStep _ => true | _ => false end.
(** Events without a new call. *)
Definition quiet (e : event) : bool := match e with ECall _ => false | _ => true end.

(** The connection fails under a write. *)
Definition fails (e : event) : bool := match e with EFail _ => true | _ => false end.
(** Events without a new call, each of which changes something. *)
Inductive works (client : bool) : st -> list event -> st -> Prop :=
| works_nil s : works client s [] s
| works_cons s e m es s' : quiet e = true -> step client s e = Some m -> m <> s -> works client m es s' -> works client s (e :: es) s'.
Definition all_ended (s : st) : Prop := forall t, t < length s.(s_threads) -> ended s t.
