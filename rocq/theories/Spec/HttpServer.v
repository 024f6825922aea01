(** What is asked of the HTTP server transport of Model/HttpServer.v. *)
From Coq Require Import ZArith List Bool.
Import ListNotations.
From Verif.Model Require Import Base HttpServer.
Local Open Scope nat_scope.

Definition after (es : list event) (s : st) : Prop := run init es = Some s.
Definition called (s : st) (t : nat) (c : call) : Prop := t < s.(s_nt) /\ (s.(s_thread) t).(t_call) = c.
Definition returned (s : st) (t : nat) (c : call) (r : result) : Prop := called s t c /\ (s.(s_thread) t).(t_pc) = Done r.
Definition data (s : st) (t : nat) : bytes := payload (s.(s_thread) t).(t_call).
(** The bytes taken: for each entry so many of the first bytes of the data of that call. *)
Definition parts (s : st) (l : list (nat * nat)) : bytes := concat (map (fun e => firstn (snd e) (data s (fst e))) l).
(** The handler has returned to the HTTP server: the ResponseWriter must not be used any more. *)
Definition handler_returned (s : st) : Prop := exists r, returned s 0 Handle r.
(** The bytes that came out are those of these calls, in this order, each call once; [l] says how many of each. *)
Definition made_of (s : st) (body : bytes) (l : list (nat * nat)) : Prop :=
  body = parts s l /\ NoDup (map fst l) /\
  (forall t n, In (t, n) l -> exists p, called s t (Write p) /\ n <= length p) /\
  (forall t p, returned s t (Write p) ROk -> In (t, length p) l) /\
  (forall t p, returned s t (Write p) RClosed -> ~ In t (map fst l)).
(** The calls of [l] before those made later: [l'] goes on where [l] stops. *)
Definition goes_on (l l' : list (nat * nat)) : Prop := exists tl, map fst l' = map fst l ++ tl.
(** Where a call is before it does anything. *)
Definition not_begun (s : st) (t : nat) : Prop := (s.(s_thread) t).(t_pc) = start (s.(s_thread) t).(t_call).
(** The handler is still in server.Serve. *)
Definition serving (s : st) : Prop := (s.(s_thread) 0).(t_pc) = HServe.
(** Steps of the calls alone: no bytes from the peer, and the ResponseWriter takes none. *)
Definition own_step (e : event) : bool := match e with EStep _ | EFail _ | EClosed _ _ => true | _ => false end.
(** The ResponseWriter takes bytes of the Write [u], or fails it. *)
Definition moves (u : nat) (e : event) : bool := match e with EPut t _ => t =? u | EFail t => t =? u | _ => false end.
