(** What is asked of the HTTP client transport of Model/HttpClient.v. *)
From Coq Require Import ZArith List Bool.
Import ListNotations.
From Verif.Model Require Import Base HttpClient.
Local Open Scope nat_scope.

Definition after (es : list event) (s : st) : Prop := run init es = Some s.
Definition called (s : st) (t : nat) (c : call) : Prop := t < s.(c_nt) /\ (s.(c_thread) t).(t_call) = c.
Definition returned (s : st) (t : nat) (c : call) (r : result) : Prop := called s t c /\ (s.(c_thread) t).(t_pc) = Done r.
Definition in_progress (s : st) (t : nat) (c : call) : Prop := called s t c /\ forall r, (s.(c_thread) t).(t_pc) <> Done r.
Definition idle (s : st) (c : call) : Prop := forall t, ~ in_progress s t c.
(** The calls of connect (by Dial and Reconnect) do not overlap. *)
Definition alone (es : list event) : Prop := forall es1 es2 s, es = es1 ++ ECall Connect :: es2 -> after es1 s -> idle s Connect.
(** Nor do they overlap with calls of Close. *)
Definition apart (es : list event) : Prop :=
  alone es /\ (forall es1 es2 s, es = es1 ++ ECall Connect :: es2 -> after es1 s -> idle s Close) /\
  (forall es1 es2 s, es = es1 ++ ECall Close :: es2 -> after es1 s -> idle s Connect).

Definition data (s : st) (t : nat) : bytes := payload (s.(c_thread) t).(t_call).
(** For each entry so many of the first bytes of the data of that call. *)
Definition parts (s : st) (l : list (nat * nat)) : bytes := concat (map (fun e => firstn (snd e) (data s (fst e))) l).
(** The bytes are those of these Writes, in this order, each once; [l] says how many of each. *)
Definition made_of (s : st) (body : bytes) (l : list (nat * nat)) : Prop :=
  body = parts s l /\ NoDup (map fst l) /\ forall t n, In (t, n) l -> exists p, called s t (Write p) /\ n <= length p.
(** [log q] are the Writes of request [q]: a Write is in one request only, with all its bytes if it returned nil, and in
    none if it was refused. *)
Definition sorted_out (s : st) (log : nat -> list (nat * nat)) : Prop :=
  (forall q, q < s.(c_nq) -> made_of s (s.(c_reqs) q).(r_wire) (log q)) /\
  (forall q q' t, q < s.(c_nq) -> q' < s.(c_nq) -> In t (map fst (log q)) -> In t (map fst (log q')) -> q = q') /\
  (forall t p, returned s t (Write p) ROk -> exists q, q < s.(c_nq) /\ In (t, length p) (log q)) /\
  (forall t p r, returned s t (Write p) r -> r = RClosed \/ r = RNot -> forall q, q < s.(c_nq) -> ~ In t (map fst (log q))).
(** Connected() *)
Definition is_connected (s : st) : Prop := s.(c_connected) = true /\ s.(c_closed) = false.
Definition not_begun (s : st) (t : nat) : Prop := (s.(c_thread) t).(t_pc) = start (s.(c_thread) t).(t_call).
(** Steps of the calls alone: nothing from the peer. *)
Definition own_step (e : event) : bool := match e with EStep _ | ECtx _ => true | _ => false end.
(** Connected, with an answered request: Writes go into its body and Reads read its answer. *)
Definition usable (s : st) : Prop :=
  is_connected s /\
  exists q k, q < s.(c_nq) /\ s.(c_resp) = Some q /\ s.(c_pipe) = Some k /\ (s.(c_reqs) q).(r_pipe) = Some k /\ (s.(c_reqs) q).(r_state) = Answered.
(** What a call gets that begins after Close. *)
Definition refused (c : call) : result := match c with Close => ROk | _ => RClosed end.
Definition all_done (s : st) : Prop := forall t c, ~ in_progress s t c.
