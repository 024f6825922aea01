(** What is asked of the listeners and the server of Model/Listener.v. *)
From Coq Require Import List Bool Arith.
Import ListNotations.
From Verif.Model Require Import Listener.

Definition after (es : list event) (s : st) : Prop := run init es = Some s.
(** The call number t is the call c; it has returned r. *)
Definition called (s : st) (t : nat) (c : call) : Prop := t < s.(s_nt) /\ (s.(s_thread) t).(t_call) = c.
Definition returned (s : st) (t : nat) (c : call) (r : result) : Prop := called s t c /\ (s.(s_thread) t).(t_pc) = Done r.
Definition ended (s : st) (t : nat) : Prop := exists c r, returned s t c r.
(** The connection k came in for the listener l; where it is. *)
Definition came (s : st) (k l : nat) : Prop := k < s.(s_nc) /\ (s.(s_conn) k).(c_lis) = l.
Definition waiting (s : st) (k : nat) : Prop := (s.(s_conn) k).(c_at) = Queue.
Definition refused (s : st) (k : nat) : Prop := (s.(s_conn) k).(c_at) = Gone.
(** A call took it: Accept returned it, or Serve handed it to the RPC server. *)
Definition given (s : st) (k t : nat) : Prop := (s.(s_conn) k).(c_at) = Given t.
(** A call is about to take it. *)
Definition under_way (s : st) (k t : nat) : Prop :=
  exists g, (s.(s_conn) k).(c_at) = Chan g /\ t < s.(s_nt) /\ ((s.(s_thread) t).(t_pc) = ASel g \/ (s.(s_thread) t).(t_pc) = SSel g).
Definition closed (s : st) (l : nat) : Prop := s.(s_shut) l = true.
Definition cancels (e : event) : bool := match e with ECancel _ => true | _ => false end.
(** No second call of Serve. *)
Definition one_serve (s : st) : Prop := forall t u l m, called s t (Serve l) -> called s u (Serve m) -> t = u.
(** It was taken off the listener, and no call has it yet. *)
Definition taken (s : st) (k : nat) : Prop := exists g, (s.(s_conn) k).(c_at) = Chan g.
(** The context of the call was cancelled. *)
Definition cancelled (s : st) (t : nat) : Prop := (s.(s_thread) t).(t_ctx) = true.
(** From here the call can come to its end without any other call being made. *)
Definition own_events (e : event) : bool := match e with EStep _ | ECtx _ | ETake _ _ | EFail _ => true | _ => false end.
Definition can_end (s : st) (t : nat) : Prop := exists es s', run s es = Some s' /\ Forall (fun e => own_events e = true) es /\ ended s' t.
(** Serve is in its loop: it has not yet decided what to return. *)
Definition looping (s : st) (t : nat) : Prop :=
  match (s.(s_thread) t).(t_pc) with SAcc | SSel _ | SErr _ => True | _ => False end.
