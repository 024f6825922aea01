(** C65: concurrent pool registration. *)
From Verif.Model Require Import Base PoolReg.
From Verif.Proofs Require Import BaseLemmas.
From Coq Require Import Lia.

(** The pool registered for a mapping. *)
Definition pool_of (s : pstate) (m : Z) : option Z := pm_find m (p_cur s).
(** The i-th call of RegisterPool was for m and has returned. *)
Definition returned (s : pstate) (i : nat) (m : Z) : Prop := nth_error (p_threads s) i = Some (mkThread m Returned).

Lemma set_thread_nth l : forall i t x j, nth_error l i = Some x -> nth_error (set_thread l i t) j = if (j =? i)%nat then Some t else nth_error l j.
Proof. induction l as [|y l IH]; intros [|i] t x [|j]; cbn; try discriminate; auto. apply IH. Qed.

Record PInv (s : pstate) : Prop := {
  pi_fresh : (p_ver s < p_next s)%nat;
  (* what a goroutine has loaded under the current number is the current map *)
  pi_same : forall i m old, nth_error (p_threads s) i = Some (mkThread m (Loaded (p_ver s) old)) -> old = p_cur s;
  pi_old : forall i m v old, nth_error (p_threads s) i = Some (mkThread m (Loaded v old)) -> (v <= p_ver s)%nat;
  (* and whatever it has loaded is part of the current map *)
  pi_sub : forall i m v old k x, nth_error (p_threads s) i = Some (mkThread m (Loaded v old)) -> pm_find k old = Some x -> pm_find k (p_cur s) = Some x;
  pi_done : forall i m, returned s i m -> pool_of s m <> None }.

Lemma pool_below s s' : pstep s s' -> (forall m x, pool_of s m = Some x -> x < p_pool s) ->
  (forall m m' x, pool_of s m = Some x -> pool_of s m' = Some x -> m = m') ->
  PInv s ->
  (forall m x, pool_of s' m = Some x -> x < p_pool s') /\
  (forall m m' x, pool_of s' m = Some x -> pool_of s' m' = Some x -> m = m').
Proof.
  intros H B I V. destruct H; unfold pool_of in *; cbn [p_cur p_pool] in *; auto.
  - pose proof (pi_same _ V _ _ _ H) as E. cbn in E. subst old. split.
    + intros m' x. cbn. destruct (m' =? m); [intros [= <-]; lia|]. intros E. apply B in E. lia.
    + intros m1 m2 x. cbn. destruct (Z.eqb_spec m1 m), (Z.eqb_spec m2 m); try congruence.
      * intros [= <-] E. apply B in E. lia.
      * intros E [= <-]. apply B in E. lia.
      * apply I.
  - split; auto. intros m' x E. apply B in E. lia.
Qed.

Lemma PInv_step s s' : PInv s -> pstep s s' -> PInv s' /\ forall m x, pool_of s m = Some x -> pool_of s' m = Some x.
Proof.
  intros [F SA OL SU DO] H. destruct H; cbn [p_ver p_cur p_next p_threads] in *; unfold pool_of in *; cbn [p_cur] in *.
  - split; [|auto]. constructor; cbn [p_ver p_cur p_next p_threads]; auto.
    + intros i m' old E. destruct (Nat.lt_ge_cases i (length l)).
      * rewrite nth_error_app1 in E by auto. eauto.
      * rewrite nth_error_app2 in E by auto. destruct (i - length l)%nat as [|[|?]]; discriminate.
    + intros i m' v' old E. destruct (Nat.lt_ge_cases i (length l)).
      * rewrite nth_error_app1 in E by auto. eauto.
      * rewrite nth_error_app2 in E by auto. destruct (i - length l)%nat as [|[|?]]; discriminate.
    + intros i m' v' old k' x E. destruct (Nat.lt_ge_cases i (length l)).
      * rewrite nth_error_app1 in E by auto. eauto.
      * rewrite nth_error_app2 in E by auto. destruct (i - length l)%nat as [|[|?]]; discriminate.
    + intros i m' E. unfold returned in *; cbn [p_threads] in *. destruct (Nat.lt_ge_cases i (length l)).
      * rewrite nth_error_app1 in E by auto. eauto.
      * rewrite nth_error_app2 in E by auto. destruct (i - length l)%nat as [|[|?]]; discriminate.
  - split; [|auto]. constructor; cbn [p_ver p_cur p_next p_threads]; auto.
    + intros j m' old E. rewrite (set_thread_nth _ _ _ _ _ H) in E. destruct (Nat.eqb_spec j i); [congruence|eauto].
    + intros j m' v' old E. rewrite (set_thread_nth _ _ _ _ _ H) in E. destruct (Nat.eqb_spec j i); [injection E; lia|eauto].
    + intros j m' v' old k' x E. rewrite (set_thread_nth _ _ _ _ _ H) in E. destruct (Nat.eqb_spec j i); [injection E as <- <- <-; auto|eauto].
    + intros j m' E. unfold returned in *; cbn [p_threads] in *. rewrite (set_thread_nth _ _ _ _ _ H) in E. destruct (Nat.eqb_spec j i); [discriminate|eauto].
  - split; [|auto]. constructor; cbn [p_ver p_cur p_next p_threads]; auto.
    + intros j m' o E. rewrite (set_thread_nth _ _ _ _ _ H) in E. destruct (Nat.eqb_spec j i); [discriminate|eauto].
    + intros j m' v' o E. rewrite (set_thread_nth _ _ _ _ _ H) in E. destruct (Nat.eqb_spec j i); [discriminate|eauto].
    + intros j m' v' o k' x' E. rewrite (set_thread_nth _ _ _ _ _ H) in E. destruct (Nat.eqb_spec j i); [discriminate|eauto].
    + intros j m' E. unfold returned in *; cbn [p_threads] in *. rewrite (set_thread_nth _ _ _ _ _ H) in E. destruct (Nat.eqb_spec j i) as [->|]; [|eauto].
      injection E as ->. pose proof (SU _ _ _ _ _ _ H H0) as X. unfold pool_of; cbn [p_cur]. congruence.
  - pose proof (SA _ _ _ H) as ->.
    assert (MONO : forall m' x, pm_find m' c = Some x -> pm_find m' ((m, k) :: c) = Some x).
    { intros m' x E. cbn. destruct (Z.eqb_spec m' m); [congruence|auto]. }
    split; [|auto]. constructor; cbn [p_ver p_cur p_next p_threads]; auto; try lia.
    + intros j m' o E. rewrite (set_thread_nth _ _ _ _ _ H) in E. destruct (Nat.eqb_spec j i); [discriminate|].
      apply OL in E. lia.
    + intros j m' v' o E. rewrite (set_thread_nth _ _ _ _ _ H) in E. destruct (Nat.eqb_spec j i); [discriminate|].
      apply OL in E. lia.
    + intros j m' v' o k' x' E. rewrite (set_thread_nth _ _ _ _ _ H) in E. destruct (Nat.eqb_spec j i); [discriminate|eauto].
    + intros j m' E. unfold returned in *; cbn [p_threads] in *. rewrite (set_thread_nth _ _ _ _ _ H) in E. destruct (Nat.eqb_spec j i) as [->|].
      * injection E as ->. unfold pool_of. cbn. rewrite Z.eqb_refl. discriminate.
      * specialize (DO _ _ E). unfold pool_of in *. cbn [p_cur] in *. destruct (pm_find m' c) eqn:EF; [|congruence]. rewrite (MONO _ _ EF). discriminate.
  - split; [|auto]. constructor; cbn [p_ver p_cur p_next p_threads]; auto.
    + intros j m' o E. rewrite (set_thread_nth _ _ _ _ _ H) in E. destruct (Nat.eqb_spec j i); [discriminate|eauto].
    + intros j m' v' o E. rewrite (set_thread_nth _ _ _ _ _ H) in E. destruct (Nat.eqb_spec j i); [discriminate|eauto].
    + intros j m' v' o k' x' E. rewrite (set_thread_nth _ _ _ _ _ H) in E. destruct (Nat.eqb_spec j i); [discriminate|eauto].
    + intros j m' E. unfold returned in *; cbn [p_threads] in *. rewrite (set_thread_nth _ _ _ _ _ H) in E. destruct (Nat.eqb_spec j i); [discriminate|eauto].
Qed.
Lemma PInv_reach s : preach s -> PInv s.
Proof.
  induction 1; [|eapply PInv_step; eauto].
  constructor; cbn; try lia; try (intros [|i]; discriminate); try (intros [|i] m E; discriminate).
Qed.
Lemma psteps_reach s s' : preach s -> psteps s s' -> preach s'.
Proof. intros H P. induction P as [|s s1 s2 P IH ST]; auto. eapply PStep; [apply IH; exact H|exact ST]. Qed.

(** Under every interleaving: once a call of RegisterPool(m) has returned, m has a pool;
    and a registered pool stays the mapping's pool forever, the very same one. *)
Theorem C65_never_lost : forall s, preach s ->
  (forall i m, returned s i m -> exists p, pool_of s m = Some p) /\
  (forall s' m p, psteps s s' -> pool_of s m = Some p -> pool_of s' m = Some p).
Proof.
  intros s H. split.
  - intros i m R. pose proof (pi_done _ (PInv_reach _ H) i m R). destruct (pool_of s m); [eauto|congruence].
  - intros s' m p P. induction P as [|s s' s'' P IH ST]; intros E; auto.
    assert (preach s') by (eapply psteps_reach; eauto). eapply PInv_step; eauto. now apply PInv_reach.
Qed.
(** No two mappings share a pool. *)
Theorem C65_pools_distinct : forall s, preach s -> forall m m' p, pool_of s m = Some p -> pool_of s m' = Some p -> m = m'.
Proof.
  intros s H. enough (X : (forall m x, pool_of s m = Some x -> x < p_pool s) /\ (forall m m' x, pool_of s m = Some x -> pool_of s m' = Some x -> m = m')) by apply X.
  induction H as [|s s' H [IH1 IH2] ST]; [split; discriminate|]. eapply pool_below; eauto. now apply PInv_reach.
Qed.
(** A failed attempt means that another registration got through. *)
Theorem C65_retry_means_progress : forall s i m v old, preach s ->
  nth_error (p_threads s) i = Some (mkThread m (Loaded v old)) -> v <> p_ver s -> (v < p_ver s)%nat.
Proof. intros s i m v old H E N. pose proof (pi_old _ (PInv_reach _ H) _ _ _ _ E). lia. Qed.
Print Assumptions C65_never_lost.
Print Assumptions C65_pools_distinct.
Print Assumptions C65_retry_means_progress.

(** Two goroutines load the same map; both registrations survive. *)
Example demo_race : exists s, preach s /\ returned s 0 5 /\ returned s 1 6 /\ pool_of s 5 = Some 0 /\ pool_of s 6 = Some 2.
Proof.
  assert (R : preach (mkP 0 [] 1 0 [mkThread 5 Start])) by exact (PStep _ _ PInit (PCall _ _ _ _ _ 5)).
  pose proof (PStep _ _ R (PCall _ _ _ _ _ 6)) as R1. cbn in R1.
  assert (R2 := PStep _ _ R1 ltac:(apply (PLoad _ _ _ _ _ 0 5); reflexivity)). cbn in R2.
  assert (R3 := PStep _ _ R2 ltac:(apply (PLoad _ _ _ _ _ 1 6); reflexivity)). cbn in R3.
  assert (R4 := PStep _ _ R3 ltac:(eapply (PSwap _ _ _ _ _ 0 5); reflexivity)). cbn in R4.
  assert (R5 := PStep _ _ R4 ltac:(eapply (PRetry _ _ _ _ _ 1 6); [reflexivity|reflexivity|discriminate])). cbn in R5.
  assert (R6 := PStep _ _ R5 ltac:(apply (PLoad _ _ _ _ _ 1 6); reflexivity)). cbn in R6.
  assert (R7 := PStep _ _ R6 ltac:(eapply (PSwap _ _ _ _ _ 1 6); reflexivity)). cbn in R7.
  eexists. split; [exact R7|]. repeat split.
Qed.
