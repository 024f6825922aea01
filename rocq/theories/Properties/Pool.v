(** C53, C66: the connection pool. *)
From Verif.Model Require Import Base Pool.
From Verif.Proofs Require Import BaseLemmas.
From Coq Require Import Lia.

Lemma put_nth_nth {A} (l : list A) : forall i w x j, nth_error l i = Some x -> nth_error (put_nth l i w) j = if (j =? i)%nat then Some w else nth_error l j.
Proof. induction l as [|y l IH]; intros [|i] t x [|j]; cbn; try discriminate; auto. apply IH. Qed.
Lemma nth_snoc {A} (l : list A) w i x : nth_error (l ++ [w]) i = Some x -> (nth_error l i = Some x) \/ (i = length l /\ x = w).
Proof.
  intros H. destruct (Nat.lt_ge_cases i (length l)).
  - rewrite nth_error_app1 in H by auto. auto.
  - rewrite nth_error_app2 in H by auto. destruct (i - length l)%nat as [|[|?]] eqn:E; cbn in H; [injection H as <-; right; split; [lia|auto]|discriminate..].
Qed.

Definition reachable (s : pool) : Prop := exists h addrs, plsteps (pool_new h addrs) s.
Lemma step_to s s' : reachable s -> plstep s s' -> reachable s'.
Proof. intros (h & a & P) S. exists h, a. eapply PLTrans; eauto. Qed.

(** ** C53 *)
Definition panicked (s : pool) : Prop := exists i, nth_error (pl_closers s) i = Some KPanic.
(** Two goroutines call Close at the same time: both find the channel open, and the second
    close(p.closed) panics. *)
Theorem C53_close_refuted : exists s, reachable s /\ panicked s.
Proof.
  assert (R : reachable (pool_new true [7])) by (exists true, [7]; constructor).
  assert (R1 := step_to _ _ R (PCloseCall _)). cbn in R1.
  assert (R2 := step_to _ _ R1 (PCloseCall _)). cbn in R2.
  assert (R3 := step_to _ _ R2 ltac:(apply (PCloseFirst _ 0); reflexivity)). cbn in R3.
  assert (R4 := step_to _ _ R3 ltac:(apply (PCloseFirst _ 1); reflexivity)). cbn in R4.
  assert (R5 := step_to _ _ R4 ltac:(apply (PCloseChan _ _ _ _ _ _ _ 0); reflexivity)). cbn in R5.
  assert (R6 := step_to _ _ R5 ltac:(apply (PCloseChan _ _ _ _ _ _ _ 1); reflexivity)). cbn in R6.
  eexists. split; [exact R6|]. exists 1%nat. reflexivity.
Qed.
(** Executions in which a Close call starts only when no other is between its test and its
    close of the channel, for instance when calls of Close come one after the other. *)
Inductive apart : pool -> Prop :=
| AInit h addrs : apart (pool_new h addrs)
| AStep s s' : apart s -> plstep s s' ->
    (forall i j, nth_error (pl_closers s') i = Some KPast -> nth_error (pl_closers s') j = Some KPast -> i = j) -> apart s'.
Record KInv (s : pool) : Prop := {
  ki_past : pl_closed s = true -> forall i, nth_error (pl_closers s) i <> Some KPast;
  ki_panic : forall i, nth_error (pl_closers s) i <> Some KPanic }.
Lemma KInv_step s s' : KInv s ->
  (forall i j, nth_error (pl_closers s) i = Some KPast -> nth_error (pl_closers s) j = Some KPast -> i = j) ->
  plstep s s' -> KInv s'.
Proof.
  intros [V1 V2] Q ST. destruct ST; try (constructor; cbn [with_caller updateReadySubConns pl_closed pl_closers] in *; auto; fail).
  - constructor; cbn [pl_closed pl_closers].
    + intros C i X. apply nth_snoc in X. destruct X as [X|[_ X]]; [apply (V1 C i X)|discriminate].
    + intros i X. apply nth_snoc in X. destruct X as [X|[_ X]]; [apply (V2 i X)|discriminate].
  - constructor; cbn [with_closer pl_closed pl_closers].
    + intros C j X. rewrite (put_nth_nth _ _ _ _ _ H) in X. destruct (Nat.eqb_spec j i); [discriminate|apply (V1 C j X)].
    + intros j X. rewrite (put_nth_nth _ _ _ _ _ H) in X. destruct (Nat.eqb_spec j i); [discriminate|apply (V2 j X)].
  - constructor; cbn [with_closer pl_closed pl_closers].
    + congruence.
    + intros j X. rewrite (put_nth_nth _ _ _ _ _ H) in X. destruct (Nat.eqb_spec j i); [discriminate|apply (V2 j X)].
  - cbn [pl_closed pl_closers] in *. destruct c; [exfalso; apply (V1 eq_refl i H)|]. constructor; cbn [pl_closed pl_closers].
    + intros _ j X. rewrite (put_nth_nth _ _ _ _ _ H) in X. destruct (Nat.eqb_spec j i); [discriminate|]. apply n. apply Q; auto.
    + intros j X. rewrite (put_nth_nth _ _ _ _ _ H) in X. destruct (Nat.eqb_spec j i); [discriminate|apply (V2 j X)].
  - constructor; cbn [with_closer pl_closed pl_closers] in *.
    + intros C j X. rewrite (put_nth_nth _ _ _ _ _ H) in X. destruct (Nat.eqb_spec j i); [discriminate|apply (V1 C j X)].
    + intros j X. rewrite (put_nth_nth _ _ _ _ _ H) in X. destruct (Nat.eqb_spec j i); [discriminate|apply (V2 j X)].
Qed.
Lemma KInv_apart s : apart s -> KInv s /\ forall i j, nth_error (pl_closers s) i = Some KPast -> nth_error (pl_closers s) j = Some KPast -> i = j.
Proof.
  induction 1 as [h addrs|s s' A IH ST Q].
  - split; [constructor|]; cbn; try (intros _ [|i]; discriminate); try (intros [|i]; discriminate); try (intros [|i] j; discriminate).
  - destruct IH as [V Q']. split; auto. eapply KInv_step; eauto.
Qed.
(** Then no call of Close or GracefulClose panics, however many there are. *)
Theorem C53_close_partial : forall s, apart s -> ~ panicked s.
Proof. intros s A [i P]. apply KInv_apart in A. destruct A as [V _]. apply (ki_panic _ V i P). Qed.
(** Once the pool is closed it stays closed, and a call of Close that starts then can only return. *)
Theorem C53_closed_is_final : forall s s', plsteps s s' -> pl_closed s = true -> pl_closed s' = true /\
  (forall i s'', nth_error (pl_closers s') i = Some KTop -> plstep s' s'' -> nth_error (pl_closers s'') i = Some KTop \/ nth_error (pl_closers s'') i = Some KDone).
Proof.
  intros s s' P C. assert (C' : pl_closed s' = true).
  { induction P as [|s s' s'' P IH ST]; auto. specialize (IH C). destruct ST; cbn in *; auto. }
  split; [exact C'|]. intros i s'' K ST. destruct ST; cbn [with_caller with_closer updateReadySubConns pl_closed pl_closers] in *; auto.
  - left. rewrite nth_error_app1; auto. apply nth_error_Some. congruence.
  - rewrite (put_nth_nth _ _ _ _ _ H). destruct (Nat.eqb_spec i i0); auto.
  - congruence.
  - rewrite (put_nth_nth _ _ _ _ _ H). destruct (Nat.eqb_spec i i0) as [->|]; [congruence|auto].
  - rewrite (put_nth_nth _ _ _ _ _ H). destruct (Nat.eqb_spec i i0) as [->|]; [congruence|auto].
Qed.

(** Once the pool is closed, no call that starts then, and none that was waiting or had not yet looked,
    is ever given a backend; such a call can return the error of a closed pool at any time. *)
Definition not_served (o : option caller) : Prop :=
  match o with None | Some (CTop _) | Some (CBlocked _) | Some CErrClosed | Some CErrCtx => True | _ => False end.
Theorem C53_closed_refuses_calls : forall s s' i, plsteps s s' -> pl_closed s = true -> not_served (nth_error (pl_callers s) i) ->
  not_served (nth_error (pl_callers s') i) /\
  (forall w, nth_error (pl_callers s') i = Some (CTop w) -> plstep s' (with_caller s' i CErrClosed)) /\
  (forall b, nth_error (pl_callers s') i = Some (CBlocked b) -> plstep s' (with_caller s' i CErrClosed)).
Proof.
  intros s s' i P C N. assert (C' : pl_closed s' = true) by (apply (C53_closed_is_final _ _ P C)).
  split; [|split; [intros w X; eapply PClosed; eauto|intros b X; eapply PWakeClosed; eauto]].
  induction P as [|s s' s'' P IH ST]; auto. pose proof (proj1 (C53_closed_is_final _ _ P C)) as C1. specialize (IH C N C1).
  destruct ST; cbn [with_caller with_closer updateReadySubConns pl_callers pl_closed] in *; auto; try congruence;
    try (rewrite (put_nth_nth _ _ _ _ _ H); destruct (Nat.eqb_spec i i0) as [->|]; [|exact IH]; rewrite H in IH; first [exact I|destruct IH]; fail).
  match goal with |- not_served ?o => destruct o eqn:X end; [|exact I]. apply nth_snoc in X. destruct X as [X|[_ ->]]; [rewrite X in IH; exact IH|exact I].
Qed.
(** When the call of Close that closed the pool has returned, the pool has no connections left, and
    none to hand out, whatever happens afterwards. *)
Theorem C53_close_empties : forall s s' i, plsteps s s' -> nth_error (pl_closers s) i = Some KRest -> nth_error (pl_closers s') i = Some KDone ->
  pl_subs s' = [] /\ pl_ready s' = [].
Proof.
  intros s s' i P K D. assert (X : nth_error (pl_closers s') i = Some KRest \/ (pl_subs s' = [] /\ pl_ready s' = [])).
  { clear D. induction P as [|s s' s'' P IH ST]; auto. specialize (IH K).
    destruct ST; cbn [with_caller with_closer updateReadySubConns pl_closers pl_subs pl_ready] in *; auto;
      try (destruct IH as [IH|(IH1 & IH2)]; [left|right; auto]; rewrite (put_nth_nth _ _ _ _ _ H); destruct (Nat.eqb_spec i i0); [congruence|exact IH]).
    - destruct IH as [IH|(IH & _)]; auto. destruct l1; discriminate.
    - destruct IH as [IH|(IH & _)]; auto. right. rewrite IH. auto.
    - destruct IH as [IH|(IH & _)]; auto. right. rewrite IH. auto.
    - destruct IH as [IH|IH]; auto. left. rewrite nth_error_app1; auto. apply nth_error_Some. congruence. }
  destruct X as [X|X]; [congruence|exact X].
Qed.

(** ** C66 *)
Definition backend_ready (s : pool) (x : Z) : Prop := In (x, true) (pl_subs s).
Definition waiting (s : pool) (i : nat) : Prop := exists b, nth_error (pl_callers s) i = Some (CBlocked b).
Definition got (s : pool) (i : nat) (x : Z) : Prop := nth_error (pl_callers s) i = Some (CGot x).

Record WInv (s : pool) : Prop := {
  wi_old : forall i b, nth_error (pl_callers s) i = Some (CBlocked b) -> (b <= pl_bcast s)%nat;
  wi_cur : forall i, nth_error (pl_callers s) i = Some (CBlocked (pl_bcast s)) -> pl_ready s = [] }.
Lemma WInv_update s : WInv s -> WInv (updateReadySubConns s).
Proof.
  intros [V1 V2]. constructor; unfold updateReadySubConns; cbn [pl_callers pl_bcast pl_ready].
  - intros i b E. specialize (V1 i b E). destruct (map fst (filter snd (pl_subs s))), (pl_ready s); lia.
  - intros i E. destruct (map fst (filter snd (pl_subs s))); auto. destruct (pl_ready s) eqn:ER.
    + apply V1 in E. lia.
    + apply V2 in E. congruence.
Qed.
Lemma WInv_caller s i c x : WInv s -> nth_error (pl_callers s) i = Some x -> (forall b, c = CBlocked b -> b = pl_bcast s /\ pl_ready s = []) -> WInv (with_caller s i c).
Proof.
  intros [V1 V2] H HB. constructor; cbn [with_caller pl_callers pl_bcast pl_ready].
  - intros j b E. rewrite (put_nth_nth _ _ _ _ _ H) in E. destruct (Nat.eqb_spec j i); [|eauto]. injection E as ->. destruct (HB b eq_refl). lia.
  - intros j E. rewrite (put_nth_nth _ _ _ _ _ H) in E. destruct (Nat.eqb_spec j i); [|eauto]. injection E as ->. destruct (HB _ eq_refl). auto.
Qed.
Lemma WInv_step s s' : WInv s -> plstep s s' -> WInv s'.
Proof.
  intros V ST. destruct ST; try (apply WInv_update; auto; fail); try (eapply WInv_caller; eauto; intros b' X; try discriminate; injection X as <-; auto; fail);
    destruct V as [V1 V2]; constructor; cbn [with_closer pl_callers pl_bcast pl_ready] in *; auto.
  - intros i b X. apply nth_snoc in X. destruct X as [X|[_ X]]; [eauto|discriminate].
  - intros i X. apply nth_snoc in X. destruct X as [X|[_ X]]; [eauto|discriminate].
Qed.
Lemma WInv_reach s : reachable s -> WInv s.
Proof.
  intros (h & a & P). remember (pool_new h a) as s0. induction P as [|s s' s'' P IH ST].
  - subst. constructor; cbn; intros [|i]; discriminate.
  - eapply WInv_step; eauto.
Qed.
(** No wake-up is lost: whenever the pool has ready backends, a call that waits for one can go on. *)
Theorem C66_no_lost_wakeup : forall s i, reachable s -> waiting s i -> pl_ready s <> [] ->
  plstep s (with_caller s i (CTop true)).
Proof.
  intros s i R [b E] NE. apply WInv_reach in R. apply (PWake s i b E).
  pose proof (wi_old _ R _ _ E). destruct (Nat.eq_dec b (pl_bcast s)) as [->|N]; [|lia].
  exfalso. apply NE, (wi_cur _ R _ E).
Qed.
(** A call is only ever given a backend that was ready when the list was last brought up to date;
    bringing it up to date makes it exactly the backends that are ready. *)
Theorem C66_ready_list : forall s x, In x (pl_ready (updateReadySubConns s)) <-> backend_ready s x.
Proof.
  intros s x. unfold updateReadySubConns, backend_ready. cbn [pl_ready]. rewrite in_map_iff. split.
  - intros ([y b] & E & H). apply filter_In in H. destruct H as [H1 H2]. cbn in *. congruence.
  - intros H. exists (x, true). split; auto. apply filter_In. auto.
Qed.
(** Whatever the schedule, a call gets a backend only from the ready list. *)
Theorem C66_picks_listed : forall s s' i x, plstep s s' -> got s' i x -> ~ got s i x -> In x (pl_ready s).
Proof.
  intros s s' i x ST G N. unfold got in *. destruct ST; cbn [with_caller with_closer updateReadySubConns pl_ready pl_callers] in *; try contradiction.
  - apply nth_snoc in G. destruct G as [G|[_ G]]; [contradiction|discriminate].
  - rewrite (put_nth_nth _ _ _ _ _ H) in G. destruct (Nat.eqb_spec i i0); [discriminate|contradiction].
  - rewrite (put_nth_nth _ _ _ _ _ H) in G. destruct (Nat.eqb_spec i i0); [discriminate|contradiction].
  - rewrite (put_nth_nth _ _ _ _ _ H) in G. destruct (Nat.eqb_spec i i0); [congruence|contradiction].
  - rewrite (put_nth_nth _ _ _ _ _ H) in G. destruct (Nat.eqb_spec i i0); [discriminate|contradiction].
  - rewrite (put_nth_nth _ _ _ _ _ H) in G. destruct (Nat.eqb_spec i i0); [discriminate|contradiction].
  - rewrite (put_nth_nth _ _ _ _ _ H) in G. destruct (Nat.eqb_spec i i0); [discriminate|contradiction].
  - rewrite (put_nth_nth _ _ _ _ _ H) in G. destruct (Nat.eqb_spec i i0); [discriminate|contradiction].
  - rewrite (put_nth_nth _ _ _ _ _ H) in G. destruct (Nat.eqb_spec i i0); [discriminate|contradiction].
Qed.
(** And a call fails for want of a backend only if it did not ask to wait and the list was empty;
    it is told the pool is closed only if it is. *)
Theorem C66_errors_justified : forall s s' i, plstep s s' ->
  (nth_error (pl_callers s') i = Some CErrNotReady -> nth_error (pl_callers s) i <> Some CErrNotReady ->
     nth_error (pl_callers s) i = Some (CPast false) /\ pl_ready s = []) /\ (nth_error (pl_callers s') i = Some CErrClosed -> nth_error (pl_callers s) i <> Some CErrClosed -> pl_closed s = true).
Proof.
  intros s s' i ST. destruct ST; cbn [with_caller with_closer updateReadySubConns pl_ready pl_callers pl_closed] in *;
    (split; intros G N; try contradiction);
    try (apply nth_snoc in G; destruct G as [G|[_ G]]; [contradiction|discriminate]);
    try (rewrite (put_nth_nth _ _ _ _ _ H) in G; destruct (Nat.eqb_spec i i0) as [->|]; [first [discriminate|auto; fail]|contradiction]).
Qed.
(** With health checks turned off nothing ever brings the list up to date: the backend is
    connected and healthy, and no call, waiting or not, is ever given it. *)
Lemma off_forever s s' : plsteps s s' -> pl_health s = false -> pl_ready s = [] -> (forall i x, ~ got s i x) ->
  pl_health s' = false /\ pl_ready s' = [] /\ forall i x, ~ got s' i x.
Proof.
  induction 1 as [|s s' s'' P IH ST]; intros H1 H2 H3; auto. destruct (IH H1 H2 H3) as (G1 & G2 & G3). clear - ST G1 G2 G3.
  unfold got in *. destruct ST; cbn [with_caller with_closer updateReadySubConns pl_health pl_ready pl_callers] in *; auto; try congruence.
  - exfalso. apply (G3 _ _ H).
  - split; auto. split; auto. intros i x X. apply nth_snoc in X. destruct X as [X|[_ X]]; [apply (G3 _ _ X)|discriminate].
  - split; auto. split; auto. intros j x X. rewrite (put_nth_nth _ _ _ _ _ H) in X. destruct (Nat.eqb_spec j i); [discriminate|apply (G3 _ _ X)].
  - split; auto. split; auto. intros j x X. rewrite (put_nth_nth _ _ _ _ _ H) in X. destruct (Nat.eqb_spec j i); [discriminate|apply (G3 _ _ X)].
  - exfalso. rewrite G2 in H0. destruct H0.
  - split; auto. split; auto. intros j x X. rewrite (put_nth_nth _ _ _ _ _ H) in X. destruct (Nat.eqb_spec j i); [discriminate|apply (G3 _ _ X)].
  - split; auto. split; auto. intros j x X. rewrite (put_nth_nth _ _ _ _ _ H) in X. destruct (Nat.eqb_spec j i); [discriminate|apply (G3 _ _ X)].
  - split; auto. split; auto. intros j x X. rewrite (put_nth_nth _ _ _ _ _ H) in X. destruct (Nat.eqb_spec j i); [discriminate|apply (G3 _ _ X)].
  - split; auto. split; auto. intros j x X. rewrite (put_nth_nth _ _ _ _ _ H) in X. destruct (Nat.eqb_spec j i); [discriminate|apply (G3 _ _ X)].
  - split; auto. split; auto. intros j x X. rewrite (put_nth_nth _ _ _ _ _ H) in X. destruct (Nat.eqb_spec j i); [discriminate|apply (G3 _ _ X)].
Qed.
Theorem C66_serves_refuted : exists s x, plsteps (pool_new false [x]) s /\ backend_ready s x /\ waiting s 0 /\
  forall s' i y, plsteps s s' -> ~ got s' i y.
Proof.
  pose (s0 := pool_new false [7]).
  assert (R1 := PLTrans _ _ _ (PLRefl s0) (PFlip false [] 7 false true [] [] 0 false [] [])). cbn in R1.
  assert (R2 := PLTrans _ _ _ R1 (PCall _ true)). cbn in R2.
  assert (R3 := PLTrans _ _ _ R2 ltac:(apply (POpen _ 0 true); reflexivity)). cbn in R3.
  assert (R4 := PLTrans _ _ _ R3 ltac:(apply (PBlock _ 0); reflexivity)). cbn in R4.
  eexists. exists 7. split; [exact R4|]. split; [left; reflexivity|]. split; [eexists; reflexivity|].
  intros s' i y P. apply (off_forever _ _ P); auto. intros [|[|j]] z X; discriminate.
Qed.
Print Assumptions C53_close_refuted.
Print Assumptions C53_close_partial.
Print Assumptions C53_closed_is_final.
Print Assumptions C53_closed_refuses_calls.
Print Assumptions C53_close_empties.
Print Assumptions C66_no_lost_wakeup.
Print Assumptions C66_ready_list.
Print Assumptions C66_picks_listed.
Print Assumptions C66_errors_justified.
Print Assumptions C66_serves_refuted.

(** Non-vacuity: with health checks a waiting call is woken and served. *)
Example demo_pool : exists s, plsteps (pool_new true [7; 8]) s /\ got s 0 8 /\ pl_closed s = false.
Proof.
  pose (s0 := pool_new true [7; 8]).
  assert (R1 := PLTrans _ _ _ (PLRefl s0) (PCall _ true)). cbn in R1.
  assert (R2 := PLTrans _ _ _ R1 ltac:(apply (POpen _ 0 true); reflexivity)). cbn in R2.
  assert (R3 := PLTrans _ _ _ R2 ltac:(apply (PBlock _ 0); reflexivity)). unfold with_caller in R3; cbn in R3.
  assert (R4 := PLTrans _ _ _ R3 (PFlip true [(7, false)] 8 false true [] [] 0 false [CBlocked 0] [])). cbn in R4.
  assert (R5 := PLTrans _ _ _ R4 ltac:(apply PTick; reflexivity)). cbn in R5.
  assert (R6 := PLTrans _ _ _ R5 ltac:(apply (PWake _ 0 0); [reflexivity|cbn; lia])). cbn in R6.
  assert (R7 := PLTrans _ _ _ R6 ltac:(apply (POpen _ 0 true); reflexivity)). cbn in R7.
  assert (R8 := PLTrans _ _ _ R7 ltac:(apply (PPick _ 0 true 8); [reflexivity|left; reflexivity])). cbn in R8.
  eexists. split; [exact R8|]. split; reflexivity.
Qed.
(** A pool with a call that waits is closed: the call is told, and the pool is empty. *)
Example demo_pool_closed : exists s s', plsteps (pool_new true [7; 8]) s /\ pl_closed s = true /\ nth_error (pl_callers s) 0 = Some (CBlocked 0) /\
  nth_error (pl_closers s) 0 = Some KRest /\ len (pl_subs s) = 2 /\ plsteps s s' /\ nth_error (pl_callers s') 0 = Some CErrClosed /\ nth_error (pl_closers s') 0 = Some KDone.
Proof.
  pose (s0 := pool_new true [7; 8]).
  assert (R1 := PLTrans _ _ _ (PLRefl s0) (PCall _ true)). cbn in R1.
  assert (R2 := PLTrans _ _ _ R1 ltac:(apply (POpen _ 0 true); reflexivity)). cbn in R2.
  assert (R3 := PLTrans _ _ _ R2 ltac:(apply (PBlock _ 0); reflexivity)). unfold with_caller in R3; cbn in R3.
  assert (R4 := PLTrans _ _ _ R3 (PCloseCall _)). cbn in R4.
  assert (R5 := PLTrans _ _ _ R4 ltac:(apply (PCloseFirst _ 0); reflexivity)). cbn in R5.
  assert (R6 := PLTrans _ _ _ R5 ltac:(apply (PCloseChan _ _ _ _ _ _ _ 0); reflexivity)). cbn in R6.
  eexists. match type of R6 with plsteps _ ?s => assert (S1 := PLTrans _ _ _ (PLRefl s) ltac:(apply (PWakeClosed s 0 0); reflexivity)) end. cbn in S1.
  assert (S2 := PLTrans _ _ _ S1 ltac:(apply (PCloseRest _ _ _ _ _ _ _ 0); reflexivity)). cbn in S2.
  eexists. split; [exact R6|]. do 4 (split; [reflexivity|]). split; [exact S2|]. split; reflexivity.
Qed.
