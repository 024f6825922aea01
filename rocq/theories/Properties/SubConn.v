(** C51, C52: a sub-connection under every interleaving. *)
From Verif.Model Require Import Base SubConn.
From Verif.Proofs Require Import BaseLemmas.
From Coq Require Import Lia.

Lemma set_worker_nth l : forall i w x j, nth_error l i = Some x -> nth_error (set_worker l i w) j = if (j =? i)%nat then Some w else nth_error l j.
Proof. induction l as [|y l IH]; intros [|i] t x [|j]; cbn; try discriminate; auto. apply IH. Qed.

(** ** C51 *)
Definition reachable (s : subconn) : Prop := scsteps sc_new s.

Lemma shutdown_conn s e s' : (sc_state s = Shutdown -> sc_conn s = None) -> scstep s e s' ->
  (sc_state s' = Shutdown -> sc_conn s' = None) /\ (sc_state s = Shutdown -> sc_state s' = Shutdown).
Proof. intros H ST. destruct ST; cbn in *; split; auto; try congruence; try (destruct H0; congruence); destruct st; auto; discriminate. Qed.
Lemma shutdown_conn_reach s : reachable s -> sc_state s = Shutdown -> sc_conn s = None.
Proof.
  unfold reachable. remember sc_new as s0. induction 1 as [|s s' e s'' P IH ST]; [subst; discriminate|]. eapply shutdown_conn; eauto.
Qed.
(** Whatever connection attempts, failures, health checks and closes are still under way
    when a sub-connection is shut down, and whatever is called later: it stays shut down,
    holds no connection and is never ready. *)
Theorem C51_shutdown_is_final : forall s s',
  reachable s -> sc_state s = Shutdown -> scsteps s s' ->
  sc_state s' = Shutdown /\ sc_conn s' = None /\ IsReady s' = false.
Proof.
  intros s s' R HS P. assert (sc_state s' = Shutdown /\ sc_conn s' = None) as [H1 H2].
  { induction P as [s|s s1 e s2 P IH ST]; [split; auto; now apply shutdown_conn_reach|].
    destruct (IH R HS) as [H1 H2]. destruct (shutdown_conn s1 e s2 (fun _ => H2) ST) as [H3 H4]. split; auto. }
  split; [exact H1|]. split; [exact H2|]. unfold IsReady. now rewrite H1.
Qed.

(** ** C52 *)
(** Connections established so far are numbered below sc_next.  A connection is looked after
    when it is the current one, closed, about to be closed by a goroutine that has unhooked
    it, or still in the hands of the attempt that made it. *)
Definition established (s : subconn) (c : nat) : Prop := (c < sc_next s)%nat.
Definition looked_after (s : subconn) (c : nat) : Prop :=
  sc_conn s = Some c \/ In c (sc_closed s) \/ In c (sc_pend s) \/ exists i, nth_error (sc_workers s) i = Some (WGot c).

(** Executions in which connection attempts do not overlap: Connect and
    handleConnectionFailure come only when the previous attempt is over. *)
Definition quiet (s : subconn) : Prop := forall w, In w (sc_workers s) -> w = WDone.
Inductive one_at_a_time : subconn -> Prop :=
| OInit : one_at_a_time sc_new
| OStep s e s' : one_at_a_time s -> scstep s e s' -> (e = EConnect \/ e = EFailure -> quiet s) -> one_at_a_time s'.

(** While an attempt is under way there is no current connection and no second attempt. *)
Record SInv (s : subconn) : Prop := {
  si_one : forall i j w w', nth_error (sc_workers s) i = Some w -> nth_error (sc_workers s) j = Some w' -> w <> WDone -> w' <> WDone -> i = j;
  si_none : forall i w, nth_error (sc_workers s) i = Some w -> w <> WDone -> sc_conn s = None;
  si_idle : (sc_state s = Idle \/ sc_state s = TransientFailure) -> sc_conn s = None;
  si_all : forall c, established s c -> looked_after s c }.

Lemma nth_snoc (l : list worker) w i x : nth_error (l ++ [w]) i = Some x -> (nth_error l i = Some x) \/ (i = length l /\ x = w).
Proof.
  intros H. destruct (Nat.lt_ge_cases i (length l)).
  - rewrite nth_error_app1 in H by auto. auto.
  - rewrite nth_error_app2 in H by auto. destruct (i - length l)%nat as [|[|?]] eqn:E; cbn in H; [injection H as <-; right; split; [lia|auto]|discriminate..].
Qed.
Lemma quiet_nth s i w : quiet s -> nth_error (sc_workers s) i = Some w -> w = WDone.
Proof. intros H E. apply H. eapply nth_error_In; eauto. Qed.


Lemma SInv_move s i w w' st c h n p cl :
  SInv s -> nth_error (sc_workers s) i = Some w -> w <> WDone ->
  c = sc_conn s \/ w' = WDone ->
  (st = Idle \/ st = TransientFailure -> c = None) ->
  (forall x, (x < n)%nat -> looked_after (mkSC st c h n p cl (set_worker (sc_workers s) i w')) x) ->
  SInv (mkSC st c h n p cl (set_worker (sc_workers s) i w')).
Proof.
  intros [V1 V2 V3 V4] H NW HC HI HA. constructor; cbn [sc_workers sc_conn sc_state]; auto.
  - intros j k a b E1 E2 N1 N2. rewrite (set_worker_nth _ _ _ _ _ H) in E1. rewrite (set_worker_nth _ _ _ _ _ H) in E2.
    destruct (Nat.eqb_spec j i), (Nat.eqb_spec k i); try congruence.
    + exfalso. match goal with X : k <> i |- _ => apply X end. eapply V1; eauto.
    + exfalso. match goal with X : j <> i |- _ => apply X end. eapply V1; eauto.
    + eapply V1; eauto.
  - intros j a E1 N1. rewrite (set_worker_nth _ _ _ _ _ H) in E1. destruct (Nat.eqb_spec j i).
    + injection E1 as <-. destruct HC as [-> | ->]; [eapply V2; eauto|congruence].
    + exfalso. match goal with X : j <> i |- _ => apply X end. eapply V1; eauto.
Qed.

Lemma SInv_step s e s' : SInv s -> scstep s e s' -> (e = EConnect \/ e = EFailure -> quiet s) -> SInv s'.
Proof.
  intros V ST Q. destruct ST.
  - (* Connect *) specialize (Q (or_introl eq_refl)). destruct V as [V1 V2 V3 V4]. constructor; cbn [sc_workers sc_conn sc_state] in *.
    + intros i j a b E1 E2 N1 N2. apply nth_snoc in E1. apply nth_snoc in E2.
      destruct E1 as [E1|[-> ->]]; [exfalso; apply N1; eapply quiet_nth; eauto|].
      destruct E2 as [E2|[-> ->]]; [exfalso; apply N2; eapply quiet_nth; eauto|]. reflexivity.
    + auto.
    + auto.
    + intros x E. destruct (V4 x E) as [L|[L|[L|[i L]]]]; cbn in *; unfold looked_after; cbn; auto.
      right; right; right. exists i. rewrite nth_error_app1; auto. apply nth_error_Some. congruence.
  - (* dial fails *) apply (SInv_move (mkSC st c h n p cl w) i WDial WFailed); auto; try discriminate.
    + apply (si_idle _ V).
    + intros x E. destruct (si_all _ V x E) as [L|[L|[L|[j L]]]]; cbn in L; unfold looked_after; cbn; auto.
      right; right; right. exists j. rewrite (set_worker_nth _ _ _ _ _ H). destruct (Nat.eqb_spec j i); [congruence|auto].
  - (* dial succeeds *) apply (SInv_move (mkSC st c h n p cl w) i WDial (WGot n)); auto; try discriminate.
    + apply (si_idle _ V).
    + intros x E. destruct (Nat.eq_dec x n) as [->|NE].
      * right; right; right. exists i. cbn. rewrite (set_worker_nth _ _ _ _ _ H). now rewrite Nat.eqb_refl.
      * assert (EE : established (mkSC st c h n p cl w) x) by (unfold established; cbn in *; lia).
        destruct (si_all _ V x EE) as [L|[L|[L|[j L]]]]; cbn in L; unfold looked_after; cbn; auto.
        right; right; right. exists j. rewrite (set_worker_nth _ _ _ _ _ H). destruct (Nat.eqb_spec j i); [congruence|auto].
  - (* install *) assert (CN : c = None) by (apply (si_none _ V i (WGot x)); cbn; auto; discriminate). subst c.
    apply (SInv_move (mkSC st None h n p cl w) i (WGot x) WDone); auto; try discriminate.
    + intros [X|X]; discriminate.
    + intros y E. destruct (si_all _ V y E) as [L|[L|[L|[j L]]]]; cbn in L; unfold looked_after; cbn; auto; [discriminate|].
      destruct (Nat.eq_dec j i) as [->|NE]; [left; congruence|]. exfalso. apply NE. eapply (si_one _ V); cbn; eauto; discriminate.
  - (* refuse *) apply (SInv_move (mkSC Shutdown c h n p cl w) i (WGot x) WFailed); auto; try discriminate.
    + intros [X|X]; discriminate.
    + intros y E. destruct (si_all _ V y E) as [L|[L|[L|[j L]]]]; cbn in L; unfold looked_after; cbn; auto.
      destruct (Nat.eq_dec j i) as [->|NE]; [right; right; left; left; congruence|].
      right; right; right. exists j. rewrite (set_worker_nth _ _ _ _ _ H). destruct (Nat.eqb_spec j i); [congruence|auto].
  - (* stop *) apply (SInv_move (mkSC Shutdown c h n p cl w) i WFailed WDone); auto; try discriminate.
    + intros [X|X]; discriminate.
    + intros x E. destruct (si_all _ V x E) as [L|[L|[L|[j L]]]]; cbn in L; unfold looked_after; cbn; auto.
      right; right; right. exists j. rewrite (set_worker_nth _ _ _ _ _ H). destruct (Nat.eqb_spec j i); [congruence|auto].
  - (* again *) apply (SInv_move (mkSC st c h n p cl w) i WFailed WDial); auto; try discriminate.
    + intros _. apply (si_none _ V i WFailed); auto; discriminate.
    + intros x E. destruct (si_all _ V x E) as [L|[L|[L|[j L]]]]; cbn in L; unfold looked_after; cbn; auto.
      right; right; right. exists j. rewrite (set_worker_nth _ _ _ _ _ H). destruct (Nat.eqb_spec j i); [congruence|auto].
  - (* give up *) apply (SInv_move (mkSC st c h n p cl w) i WFailed WOut); auto; try discriminate.
    + intros _. apply (si_none _ V i WFailed); auto; discriminate.
    + intros x E. destruct (si_all _ V x E) as [L|[L|[L|[j L]]]]; cbn in L; unfold looked_after; cbn; auto.
      right; right; right. exists j. rewrite (set_worker_nth _ _ _ _ _ H). destruct (Nat.eqb_spec j i); [congruence|auto].
  - (* out *) apply (SInv_move (mkSC st c h n p cl w) i WOut WDone); auto; try discriminate.
    + intros _. apply (si_none _ V i WOut); auto; discriminate.
    + intros x E. destruct (si_all _ V x E) as [L|[L|[L|[j L]]]]; cbn in L; unfold looked_after; cbn; auto.
      right; right; right. exists j. rewrite (set_worker_nth _ _ _ _ _ H). destruct (Nat.eqb_spec j i); [congruence|auto].
  - (* health *) destruct V as [V1 V2 V3 V4]. constructor; auto.
  - (* disconnect *) destruct V as [V1 V2 V3 V4]. constructor; cbn in *; auto.
    intros x E. destruct (V4 x E) as [L|[L|[L|L]]]; cbn in L; unfold looked_after; cbn; auto.
    + subst c. right; right; left. now left.
    + right; right; left. apply in_app_iff. auto.
  - (* shutdown *) destruct V as [V1 V2 V3 V4]. constructor; cbn in *; auto.
    intros x E. destruct (V4 x E) as [L|[L|[L|L]]]; cbn in L; unfold looked_after; cbn; auto.
    + subst c. right; right; left. now left.
    + right; right; left. apply in_app_iff. auto.
  - (* failure *) specialize (Q (or_intror eq_refl)). destruct V as [V1 V2 V3 V4]. constructor; cbn in *; auto.
    + intros i j a b E1 E2 N1 N2. apply nth_snoc in E1. apply nth_snoc in E2.
      destruct E1 as [E1|[-> ->]]; [exfalso; apply N1; eapply quiet_nth; eauto|].
      destruct E2 as [E2|[-> ->]]; [exfalso; apply N2; eapply quiet_nth; eauto|]. reflexivity.
    + intros x E. destruct (V4 x E) as [L|[L|[L|[i L]]]]; cbn in *; unfold looked_after; cbn; auto.
      * subst c. right; right; left. now left.
      * right; right; left. apply in_app_iff. auto.
      * right; right; right. exists i. rewrite nth_error_app1; auto. apply nth_error_Some. congruence.
  - (* close *) destruct V as [V1 V2 V3 V4]. constructor; cbn in *; auto.
    intros y E. destruct (V4 y E) as [L|[L|[L|L]]]; cbn in L; unfold looked_after; cbn; auto.
    rewrite in_app_iff in *. destruct L as [L|[L|L]]; auto.
Qed.
Lemma SInv_reach s : one_at_a_time s -> SInv s.
Proof.
  induction 1; [|eapply SInv_step; eauto]. constructor; cbn; auto.
  - intros [|i]; discriminate.
  - intros x E. unfold established in E. cbn in E. lia.
Qed.
(** As long as attempts do not overlap no connection is lost: every connection ever
    established is the current one, or closed, or about to be closed, or still with the
    attempt that made it.  In particular when everything has come to rest, every connection
    but the current one is closed.  Missing: overlapping attempts, for which it is false. *)
Theorem C52_no_leak_partial : forall s, one_at_a_time s ->
  (forall c, established s c -> looked_after s c) /\
  (quiet s -> sc_pend s = [] -> forall c, established s c -> sc_conn s = Some c \/ In c (sc_closed s)).
Proof.
  intros s H. apply SInv_reach in H. split; [apply si_all; auto|].
  intros Q P c E. destruct (si_all _ H c E) as [L|[L|[L|[i L]]]]; auto.
  - rewrite P in L. destruct L.
  - apply (quiet_nth _ _ _ Q) in L. discriminate.
Qed.

(** Two calls fail on the same dead connection: two attempts run, both succeed, and the
    connection of the first is neither current nor closed, now or ever after, not even when
    the sub-connection is shut down. *)
Lemma leak_stays s e s' c : scstep s e s' -> established s c -> ~ looked_after s c -> established s' c /\ ~ looked_after s' c.
Proof.
  intros ST E N. unfold established, looked_after in *.
  assert (W : forall w i x y, nth_error w i = Some x -> (forall j, nth_error w j <> Some (WGot c)) -> y <> WGot c -> forall j, nth_error (set_worker w i y) j <> Some (WGot c)).
  { intros w i x y H H' NY j. rewrite (set_worker_nth _ _ _ _ _ H). destruct (Nat.eqb_spec j i); [congruence|auto]. }
  assert (N1 : sc_conn s <> Some c) by tauto.
  assert (N2 : ~ In c (sc_closed s)) by tauto. assert (N3 : ~ In c (sc_pend s)) by tauto.
  assert (N4 : forall j, nth_error (sc_workers s) j <> Some (WGot c)) by (intros j X; apply N; eauto 6).
  clear N.
  assert (G : forall s', (c < sc_next s')%nat -> sc_conn s' <> Some c -> ~ In c (sc_closed s') -> ~ In c (sc_pend s') ->
    (forall j, nth_error (sc_workers s') j <> Some (WGot c)) -> (c < sc_next s')%nat /\
    ~ (sc_conn s' = Some c \/ In c (sc_closed s') \/ In c (sc_pend s') \/ exists i, nth_error (sc_workers s') i = Some (WGot c))).
  { intros t A1 A2 A3 A4 A5. split; auto. intros [X|[X|[X|[j X]]]]; [auto|auto|auto|]. apply (A5 j X). }
  assert (Sn : forall w, (forall j, nth_error w j <> Some (WGot c)) -> forall j, nth_error (w ++ [WDial]) j <> Some (WGot c)).
  { intros w H j X. apply nth_snoc in X. destruct X as [X|[_ X]]; [apply (H j X)|discriminate]. }
  destruct ST; apply G; cbn [sc_state sc_conn sc_closed sc_pend sc_workers sc_next] in *; cbn [sc_state sc_conn sc_closed sc_pend sc_workers sc_next]; auto;
    try (eapply W; eauto; intros X; injection X; lia); try (eapply W; eauto; discriminate); try discriminate.
  - intros X. injection X as ->. apply (N4 _ H).
  - intros [X|X]; [|auto]. subst. apply (N4 _ H).
  - rewrite in_app_iff. intros [X|X]; [|auto]. destruct c0; [destruct X as [X|[]]; subst; auto|destruct X].
  - rewrite in_app_iff. intros [X|X]; [|auto]. destruct c0; [destruct X as [X|[]]; subst; auto|destruct X].
  - rewrite in_app_iff. intros [X|X]; [|auto]. destruct c0; [destruct X as [X|[]]; subst; auto|destruct X].
  - intros [X|X]; [|auto]. subst. apply N3. apply in_app_iff. right; now left.
  - intros X. apply N3. rewrite in_app_iff in *. destruct X; [auto|right; now right].
Qed.
Lemma step_to s e s' : reachable s -> scstep s e s' -> reachable s'.
Proof. intros R S. eapply SCTrans; eauto. Qed.
Theorem C52_no_leak_refuted : exists s c, reachable s /\ established s c /\ quiet s /\ sc_pend s = [] /\ sc_state s = Ready /\
  sc_conn s <> Some c /\ ~ In c (sc_closed s) /\
  forall s', scsteps s s' -> sc_conn s' <> Some c /\ ~ In c (sc_closed s').
Proof.
  pose proof (SCRefl sc_new) as R0. fold (reachable sc_new) in R0.
  assert (R1 := step_to _ _ _ R0 (SConnect _ _ _ _ _ _ _ (or_introl eq_refl))). cbn in R1.
  assert (R2 := step_to _ _ _ R1 ltac:(apply (SDialOk _ _ _ _ _ _ _ 0); reflexivity)). cbn in R2.
  assert (R3 := step_to _ _ _ R2 ltac:(apply (SInstall _ _ _ _ _ _ _ 0 0); [reflexivity|discriminate])). cbn in R3.
  assert (R4 := step_to _ _ _ R3 ltac:(apply SFailure; discriminate)). cbn in R4.
  assert (R5 := step_to _ _ _ R4 ltac:(apply SFailure; discriminate)). cbn in R5.
  assert (R6 := step_to _ _ _ R5 ltac:(apply (SDialOk _ _ _ _ _ _ _ 1); reflexivity)). cbn in R6.
  assert (R7 := step_to _ _ _ R6 ltac:(apply (SDialOk _ _ _ _ _ _ _ 2); reflexivity)). cbn in R7.
  assert (R8 := step_to _ _ _ R7 ltac:(apply (SInstall _ _ _ _ _ _ _ 1 1); [reflexivity|discriminate])). cbn in R8.
  assert (R9 := step_to _ _ _ R8 ltac:(apply (SInstall _ _ _ _ _ _ _ 2 2); [reflexivity|discriminate])). cbn in R9.
  assert (R10 := step_to _ _ _ R9 (SClose _ _ _ _ [] 0%nat [] _ _)). cbn in R10.
  assert (L : forall s' , scsteps (mkSC Ready (Some 2%nat) true 3 [] [0%nat] [WDone; WDone; WDone]) s' -> established s' 1 /\ ~ looked_after s' 1).
  { intros s' P. remember (mkSC Ready (Some 2%nat) true 3 [] [0%nat] [WDone; WDone; WDone]) as s eqn:E.
    induction P as [s|s s1 e s2 P IH ST].
    - subst s. split; [unfold established; cbn; lia|]. intros [X|[X|[X|[i X]]]]; cbn in X; try discriminate; try contradiction.
      + destruct X as [X|[]]. discriminate.
      + destruct i as [|[|[|[|i]]]]; discriminate.
    - eapply leak_stays; eauto; apply IH; auto. }
  eexists. exists 1%nat. split; [exact R10|]. split; [apply L; constructor|].
  split; [intros w [<-|[<-|[<-|[]]]]; reflexivity|]. split; [reflexivity|]. split; [reflexivity|].
  split; [discriminate|]. split; [intros [X|[]]; discriminate|].
  intros s' P. destruct (L s' P) as [_ N]. unfold looked_after in N. tauto.
Qed.
Print Assumptions C51_shutdown_is_final.
Print Assumptions C52_no_leak_partial.
Print Assumptions C52_no_leak_refuted.

(** Non-vacuity: an attempt that is under way at shutdown; its connection is closed. *)
Example demo_subconn : exists s, one_at_a_time s /\ reachable s /\ sc_state s = Shutdown /\ established s 0 /\ sc_closed s = [0%nat].
Proof.
  assert (ST : forall s e s', one_at_a_time s /\ reachable s -> scstep s e s' -> (e = EConnect \/ e = EFailure -> quiet s) -> one_at_a_time s' /\ reachable s').
  { intros s e s' [A B] C D. split; [eapply OStep; eauto|eapply step_to; eauto]. }
  assert (R0 : one_at_a_time sc_new /\ reachable sc_new) by (split; constructor).
  assert (R1 := ST _ _ _ R0 (SConnect _ _ _ _ _ _ _ (or_introl eq_refl)) (fun _ => fun w (X : In w []) => match X with end)). cbn in R1.
  assert (N : forall s, EInternal = EConnect \/ EInternal = EFailure -> quiet s) by (intros s [X|X]; discriminate).
  assert (N' : forall s, EShutdown = EConnect \/ EShutdown = EFailure -> quiet s) by (intros s [X|X]; discriminate).
  assert (R2 := ST _ _ _ R1 ltac:(apply (SDialOk _ _ _ _ _ _ _ 0); reflexivity) (N _)). cbn in R2.
  assert (R3 := ST _ _ _ R2 ltac:(apply SShutdown; discriminate) (N' _)). cbn in R3.
  assert (R4 := ST _ _ _ R3 ltac:(apply (SRefuse _ _ _ _ _ _ 0 0); reflexivity) (N _)). cbn in R4.
  assert (R5 := ST _ _ _ R4 (SClose _ _ _ _ [] 0%nat [] _ _) (N _)). cbn in R5.
  eexists. split; [apply R5|]. split; [apply R5|]. split; [reflexivity|]. split; [unfold established; cbn; lia|reflexivity].
Qed.
