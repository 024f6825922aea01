(** C70: stream interceptors that wrap the stream. *)
From Coq Require Import List ZArith.
Import ListNotations.
From Verif.Model Require Import Base Chain StreamRun.
From Verif.Properties Require Import Chain.

Section C70.
Variables I C : Type.
Variable panic : C.
Notation sinterceptor := (sstream -> I -> (sstream -> C) -> C).

(** An interceptor that only ever calls its handler with the stream it was given: what it does depends
    on the handler only through that call. *)
Definition same_stream (f : sinterceptor) : Prop :=
  forall a info k k', k a = k' a -> f a info k = f a info k'.

Lemma nest_same l a info k k' :
  Forall (fun f => match f with Some f => same_stream f | None => True end) l -> k a = k' a ->
  nest sstream I C panic l a info k = nest sstream I C panic l a info k'.
Proof.
  intros F. revert a. induction F as [|f l Hf F IH]; intros a E; cbn [nest]; auto.
  destruct f as [f|]; cbn [invoke]; auto.
Qed.

(** What holds: under any chain of interceptors that pass on the stream they got, the handler of every
    kind runs as if it accepted whatever stream it is called with, so no type assertion fails. *)
Theorem C70_same_stream_partial : forall l k info h, l <> [] ->
  Forall (fun f => match f with Some f => same_stream f | None => True end) l ->
  forall f, Chain panic l = Some f ->
  runStreamHandler panic (Some f) k info h = f (made k) info (fun _ => h).
Proof.
  intros l k info h NE F f E. unfold runStreamHandler.
  pose proof (fun K => C60_chain_is_nesting sstream I C panic l (made k) info K NE) as Q.
  rewrite E in Q. cbn [invoke] in Q. rewrite !Q.
  apply nest_same; auto. destruct k; reflexivity.
Qed.

(** Without an interceptor the handler runs. *)
Theorem C70_no_interceptor : forall k info h, runStreamHandler (I := I) panic None k info h = h.
Proof. reflexivity. Qed.

(** The full statement is false: an interceptor that hands on its own stream type, as the validating
    one does for every method (whether or not a validator is registered), makes the type assertion fail,
    for every kind of handler, wherever in the chain it stands among interceptors that pass the call on. *)
Definition wraps (ty : Z) : sinterceptor := fun s info h => h (DOwn ty s).
Definition transparent : sinterceptor := fun s info h => h s.

Lemma nest_transparent n l a info k :
  nest sstream I C panic (repeat (Some transparent) n ++ l) a info k = nest sstream I C panic l a info k.
Proof. induction n; cbn; auto. Qed.
Theorem C70_wrapping_refuted : forall n m ty k info h f,
  Chain panic (repeat (Some transparent) n ++ Some (wraps ty) :: repeat (Some transparent) m) = Some f ->
  runStreamHandler panic (Some f) k info h = panic.
Proof.
  intros n m ty k info h f E. unfold runStreamHandler.
  match type of E with Chain panic ?l = _ => pose proof (C60_chain_is_nesting sstream I C panic l (made k) info (asserted panic k h)) as Q end.
  rewrite E in Q. cbn [invoke] in Q. rewrite Q by (destruct n; discriminate).
  rewrite nest_transparent. cbn [nest invoke wraps].
  pose proof (nest_transparent m [] (DOwn ty (made k)) info (asserted panic k h)) as T. rewrite app_nil_r in T.
  etransitivity; [exact T|]. cbn. destruct k; reflexivity.
Qed.
End C70.
Print Assumptions C70_same_stream_partial.
Print Assumptions C70_no_interceptor.
Print Assumptions C70_wrapping_refuted.

(** Runs that record what happened: a logging interceptor, then one that refuses method 9. *)
Definition logging : sstream -> Z -> (sstream -> list Z) -> list Z := fun s info h => [100%Z] ++ h s ++ [200%Z].
Definition refusing : sstream -> Z -> (sstream -> list Z) -> list Z := fun s info h => if Z.eqb info 9 then [400%Z] else h s.
Example C70_case :
  same_stream Z (list Z) logging /\ same_stream Z (list Z) refusing /\
  exists f, Chain [-1]%Z [Some logging; Some refusing] = Some f /\
    runStreamHandler [-1]%Z (Some f) KSend 1%Z [7]%Z = [100; 7; 200]%Z /\
    runStreamHandler [-1]%Z (Some f) KSend 9%Z [7]%Z = [100; 400; 200]%Z.
Proof.
  split; [|split].
  - intros a info k k' E. unfold logging. rewrite E. reflexivity.
  - intros a info k k' E. unfold refusing. destruct (Z.eqb info 9); auto.
  - eexists. split; [reflexivity|]. split; reflexivity.
Qed.
(** The hypothesis of the refutation is met: the validating interceptor alone. *)
Example C70_wrapping_case : exists f, Chain [-1]%Z [Some (wraps Z (list Z) 1)] = Some f /\
  runStreamHandler [-1]%Z (Some f) KBiDir 1%Z [7]%Z = [-1]%Z.
Proof. eexists. split; reflexivity. Qed.
