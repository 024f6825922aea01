(** C123: the keepalive of a client's connection (Model/Keepalive.v). *)
From Coq Require Import Arith List Bool Lia.
Import ListNotations.
From Verif.Model Require Import Base Keepalive.
From Verif.Spec Require Import Keepalive.
From Verif.Proofs Require Import Keepalive.
Local Open Scope nat_scope.

(** A connection on which nothing is read any more is closed after two intervals and the timeout, if the transport takes the ping and the
    context does not end. *)
Theorem C123_dead : forall i t cap es s es' s', 0 < i -> run i t cap (init i) es = Some s -> k_ctx s = false -> k_stuck s = false ->
  Forall silent es' -> run i t cap s es' = Some s' -> k_now s + 2 * i + t < k_now s' -> k_closed s' = true.
Proof. exact silent_closed. Qed.
Example C123_dead_case : exists s s', run 3 2 1 (init 3) [ETime; EArrive IData; ERead] = Some s /\ k_ctx s = false /\ k_stuck s = false /\
  run 3 2 1 s [ETime; ETime; ETick; ETime; ETime; ETime; ETick; EWrite true; ETime; ETime; ETimeout; ETime] = Some s' /\ k_now s' = 9 /\
  k_dead s' = Some 8 /\ k_closed s' = true.
Proof. eexists. eexists. split; [vm_compute; reflexivity|]. split; [reflexivity|]. split; [reflexivity|]. split; [vm_compute; reflexivity|]. repeat split; reflexivity. Qed.

(** Without the condition on the transport it is false: where the peer is gone and the transport takes no more data, the ping waits for
    the transport, for which there is no timeout. *)
Theorem C123_dead_refuted : ~ (forall i t cap es s es' s', 0 < i -> run i t cap (init i) es = Some s -> k_ctx s = false ->
  Forall (fun e => e <> ERead /\ e <> ECtx) es' -> run i t cap s es' = Some s' -> k_now s + 2 * i + t < k_now s' -> k_closed s' = true).
Proof.
  intros H. specialize (H 1 1 1 [] (init 1) [EStuck true; ETime; ETick; ETime; ETime; ETime]).
  destruct (run 1 1 1 (init 1) [EStuck true; ETime; ETick; ETime; ETime; ETime]) as [s'|] eqn:R; [|vm_compute in R; discriminate R].
  assert (X : k_closed s' = false /\ k_now s' = 4) by (revert R; vm_compute; intros R; injection R as <-; split; reflexivity). destruct X as (X & N).
  assert (C : k_closed s' = true); [|congruence]. apply H; try reflexivity; [lia| |rewrite N; cbn; lia].
  repeat apply Forall_cons; try apply Forall_nil; split; discriminate.
Qed.

(** A connection that the keepalive closed at d is one on which a ping was sent at d - timeout and no pong was read since, before d. *)
Theorem C123_why : forall i t cap es s d, 0 < i -> run i t cap (init i) es = Some s -> k_dead s = Some d ->
  exists h p l, k_hist s = h ++ HPing p :: l /\ d = p + t /\ Forall (fun e => e = HPong d) l.
Proof. intros i t cap es s d HI R D. destruct (why_run _ _ _ _ _ HI R) as (_ & _ & W). exact (proj2 (W d D)). Qed.

(** The keepalive does not close a connection whose peer answers each ping in less than the timeout, as long as the read loop is not held
    up. *)
Theorem C123_alive_partial : forall i t cap r es s, 0 < i -> r < t -> always i t cap (answered r) es -> run i t cap (init i) es = Some s -> k_dead s = None.
Proof. intros i t cap r es s HI HR A R. exact (proj1 (proj2 (safe_run _ _ _ _ _ _ HI HR A R))). Qed.

Lemma prefixes {A} : forall (es a b : list A), es = a ++ b -> In a (map (fun n => firstn n es) (seq 0 (S (length es)))).
Proof.
  intros es a b ->. apply in_map_iff. exists (length a). split; [rewrite firstn_app, firstn_all, Nat.sub_diag, firstn_O; apply app_nil_r|].
  apply in_seq. rewrite app_length. lia.
Qed.
Definition check (i t cap r : nat) (busy_ok : bool) (es : list event) : bool :=
  forallb (fun a => match run i t cap (init i) a with
                    | Some s => (busy_ok || negb (k_busy s)) && match k_owe s with Some p => k_now s <=? p + r | None => true end
                    | None => true end) (map (fun n => firstn n es) (seq 0 (S (length es)))).
Lemma check_ok : forall i t cap r b es, check i t cap r b es = true -> always i t cap (fun s => (b = false -> k_busy s = false) /\ prompt r s) es.
Proof.
  intros i t cap r b es C a q s E R. unfold check in C. rewrite forallb_forall in C. specialize (C a (prefixes _ _ _ E)). rewrite R in C.
  apply andb_true_iff in C. destruct C as (C1 & C2). split.
  - intros ->. cbn in C1. apply negb_true_iff in C1. exact C1.
  - intros p O. rewrite O in C2. apply Nat.leb_le. exact C2.
Qed.
Definition alive_demo : list event :=
  [ETime; ETime; ETick; EWrite true; ETime; EArrive IPong; ERead; EPong; ETime; ETick; EArrive IData; ERead; EConsume; ETime; ETime; ETick; EWrite true; EArrive IPong; ERead; EPong; ETime; ETime].
Example C123_alive_case : exists s, run 2 2 1 (init 2) alive_demo = Some s /\ always 2 2 1 (answered 1) alive_demo /\ k_hist s = [HPing 2; HPong 3; HPing 6; HPong 6].
Proof.
  eexists. split; [vm_compute; reflexivity|]. split; [|reflexivity]. intros a b s E R.
  destruct (check_ok 2 2 1 1 false alive_demo ltac:(vm_compute; reflexivity) a b s E R) as (X & Y). split; [exact (X eq_refl)|exact Y].
Qed.

(** The full statement "a peer that answers every ping is not taken for dead" is false: while a session whose user does not take its
    payloads holds up the read loop, the Pong is not read, and the keepalive closes the connection with all its sessions. *)
Definition slow_demo : list event :=
  [EArrive IData; ERead; EArrive IData; ERead; ETime; ETime; ETick; EWrite true; EArrive IPong; ETime; ETimeout].
Theorem C123_alive_refuted : ~ (forall i t cap es s, 0 < i -> 0 < t -> always i t cap (prompt 0) es -> run i t cap (init i) es = Some s -> k_dead s = None).
Proof.
  intros H. destruct (run 2 1 1 (init 2) slow_demo) as [s|] eqn:R; [|vm_compute in R; discriminate R].
  assert (X : k_dead s = Some 3) by (revert R; vm_compute; intros R; injection R as <-; reflexivity).
  assert (N : k_dead s = None); [|congruence]. apply (H 2 1 1 slow_demo); try lia; [|exact R].
  intros a b x E Rx. exact (proj2 (check_ok 2 1 1 0 true slow_demo ltac:(vm_compute; reflexivity) a b x E Rx)).
Qed.

(** "Every ping interval gives a connection that works" is false: with 0, which might be meant to switch pings off, the ticker panics. *)
Theorem C123_zero_refuted : ~ (forall i, exists s, New i = Ok s).
Proof. intros H. destruct (H 0) as (s & X). discriminate. Qed.

Print Assumptions C123_dead.
Print Assumptions C123_dead_refuted.
Print Assumptions C123_why.
Print Assumptions C123_alive_partial.
Print Assumptions C123_alive_refuted.
Print Assumptions C123_zero_refuted.
