(** C62: the server's connection limit and shutdown. *)
From Verif.Model Require Import Base ServerConns.
From Verif.Proofs Require Import BaseLemmas.
From Coq Require Import Lia.

Lemma put_call_nth l : forall i w x j, nth_error l i = Some x -> nth_error (put_call l i w) j = if (j =? i)%nat then Some w else nth_error l j.
Proof. induction l as [|y l IH]; intros [|i] t x [|j]; cbn; try discriminate; auto. apply IH. Qed.
Lemma nth_snoc {A} (l : list A) w i x : nth_error (l ++ [w]) i = Some x -> (nth_error l i = Some x) \/ (i = length l /\ x = w).
Proof.
  intros H. destruct (Nat.lt_ge_cases i (length l)).
  - rewrite nth_error_app1 in H by auto. auto.
  - rewrite nth_error_app2 in H by auto. destruct (i - length l)%nat as [|[|?]] eqn:E; cbn in H; [injection H as <-; right; split; [lia|auto]|discriminate..].
Qed.

(** The transports being served, counted without the server's own table. *)
Definition is_serving (s : server) (t : nat) : Prop := nth_error (sv_calls s) t = Some VServing.
Definition serving_count (s : server) : Z :=
  Z.of_nat (length (filter (fun v => match v with VServing => true | _ => false end) (sv_calls s))).
Definition reachable (m : Z) (s : server) : Prop := svsteps (sv_new m) s.

Record VInv (m : Z) (s : server) : Prop := {
  vi_max : sv_max s = m;
  vi_in : forall t, In t (sv_conns s) <-> nth_error (sv_calls s) t = Some VServing \/ nth_error (sv_calls s) t = Some VEnded;
  vi_nodup : NoDup (sv_conns s);
  vi_bound : m > 0 -> len (sv_conns s) <= m;
  vi_told : sv_closed s = true -> forall t, In t (sv_conns s) -> In t (sv_told s) }.

Lemma rem_in t l x : In x (rem t l) <-> In x l /\ x <> t.
Proof. unfold rem. rewrite filter_In. destruct (Nat.eqb_spec x t); cbn; intuition congruence. Qed.
Lemma rem_len t l : len (rem t l) <= len l.
Proof. unfold rem, len. induction l as [|x l IH]; cbn; [lia|]. destruct (negb _); cbn [length]; lia. Qed.

Lemma VInv_step m s s' : VInv m s -> svstep s s' -> VInv m s'.
Proof.
  intros [V1 V2 V3 V4 V5] ST. destruct ST; cbn [sv_max sv_conns sv_calls sv_closed sv_told] in *.
  - constructor; cbn [sv_max sv_conns sv_calls sv_closed sv_told]; auto. intros t. rewrite V2. split.
    + intros [X|X]; [left|right]; (rewrite nth_error_app1; [auto|apply nth_error_Some; congruence]).
    + intros [X|X]; apply nth_snoc in X; destruct X as [X|[_ X]]; auto; discriminate.
  - constructor; cbn [sv_max sv_conns sv_calls sv_closed sv_told]; auto. intros t. rewrite V2, (put_call_nth _ _ _ _ _ H).
    destruct (Nat.eqb_spec t i); [subst|reflexivity]. rewrite H. split; intros [X|X]; discriminate.
  - constructor; cbn [sv_max sv_conns sv_calls sv_closed sv_told]; auto. intros t. rewrite V2, (put_call_nth _ _ _ _ _ H).
    destruct (Nat.eqb_spec t i); [subst|reflexivity]. rewrite H. split; intros [X|X]; discriminate.
  - constructor; cbn [sv_max sv_conns sv_calls sv_closed sv_told]; auto; try discriminate.
    + intros t. rewrite (put_call_nth _ _ _ _ _ H). cbn [In]. destruct (Nat.eqb_spec t i) as [->|N].
      * split; auto.
      * rewrite V2. intuition congruence.
    + constructor; auto. rewrite V2, H. intros [X|X]; discriminate.
    + intros M. unfold len in *. cbn [length]. subst m. destruct (Z_lt_ge_dec (Z.of_nat (length l)) m0); [lia|]. exfalso. apply H0. auto.
  - constructor; cbn [sv_max sv_conns sv_calls sv_closed sv_told]; auto. intros t. rewrite V2, (put_call_nth _ _ _ _ _ H).
    destruct (Nat.eqb_spec t i); [subst|reflexivity]. rewrite H. intuition congruence.
  - constructor; cbn [sv_max sv_conns sv_calls sv_closed sv_told]; auto.
    + intros t. rewrite rem_in, V2, (put_call_nth _ _ _ _ _ H). destruct (Nat.eqb_spec t i); [subst|intuition congruence].
      split; [intuition congruence|]. intros [X|X]; discriminate.
    + unfold rem. apply NoDup_filter. exact V3.
    + intros M. specialize (V4 M). pose proof (rem_len i l). lia.
    + intros C t HI. apply rem_in in HI. apply V5; tauto.
  - constructor; cbn [Shutdown sv_max sv_conns sv_calls sv_closed sv_told]; auto. intros _ t HI. apply in_app_iff. auto.
Qed.
Lemma VInv_reach m s : reachable m s -> VInv m s.
Proof.
  unfold reachable. remember (sv_new m) as s0. induction 1 as [|s s' s'' P IH ST].
  - subst. constructor; cbn; auto; try (intros t; split; [intros []|intros [X|X]; destruct t; discriminate]); try constructor; try (unfold len; cbn; lia); try discriminate.
  - eapply VInv_step; eauto.
Qed.

Lemma count_le (l : list serving) (f : serving -> bool) (c : list nat) :
  NoDup c -> (forall t v, nth_error l t = Some v -> f v = true -> In t c) -> (length (filter f l) <= length c)%nat.
Proof.
  intros ND H.
  assert (G : forall l (k : nat) (c : list nat), NoDup c -> (forall t v, nth_error l t = Some v -> f v = true -> In (k + t)%nat c) -> (length (filter f l) <= length (filter (fun x => k <=? x)%nat c))%nat).
  { clear. induction l as [|v l IH]; intros k c ND H; cbn [filter]; [cbn; lia|].
    assert (H' : forall t v, nth_error l t = Some v -> f v = true -> In (S k + t)%nat c).
    { intros t w E F. specialize (H (S t) w E F). now replace (S k + t)%nat with (k + S t)%nat by lia. }
    specialize (IH (S k) c ND H').
    assert (LE : (length (filter (fun x => S k <=? x)%nat c) <= length (filter (fun x => k <=? x)%nat c))%nat).
    { clear. induction c as [|x c IH]; cbn [filter]; [lia|]. destruct (Nat.leb_spec (S k) x), (Nat.leb_spec k x); cbn [length]; lia. }
    destruct (f v) eqn:F; [|lia]. cbn [length].
    specialize (H O v eq_refl F). rewrite Nat.add_0_r in H.
    assert (LT : (length (filter (fun x => S k <=? x)%nat c) < length (filter (fun x => k <=? x)%nat c))%nat); [|lia].
    clear - H. induction c as [|x c IH]; [destruct H|]. cbn [filter].
    assert (LE : (length (filter (fun x => S k <=? x)%nat c) <= length (filter (fun x => k <=? x)%nat c))%nat).
    { clear. induction c as [|x c IH]; cbn [filter]; [lia|]. destruct (Nat.leb_spec (S k) x), (Nat.leb_spec k x); cbn [length]; lia. }
    destruct H as [->|H].
    - destruct (Nat.leb_spec (S k) k); [lia|]. destruct (Nat.leb_spec k k); [|lia]. cbn [length]. lia.
    - specialize (IH H). destruct (Nat.leb_spec (S k) x), (Nat.leb_spec k x); cbn [length]; lia. }
  specialize (G l 0%nat c ND H). etransitivity; [exact G|].
  clear. induction c as [|x c IH]; cbn [filter length]; [lia|]. destruct (0 <=? x)%nat; cbn [length]; lia.
Qed.

(** Under every schedule of accepts, ends and shutdowns, never more connections are being
    served than the limit allows. *)
Theorem C62_limit : forall m s, reachable m s -> m > 0 -> serving_count s <= m.
Proof.
  intros m s R M. apply VInv_reach in R. destruct R as [V1 V2 V3 V4 V5]. unfold serving_count.
  specialize (V4 M). pose proof (count_le (sv_calls s) (fun v => match v with VServing => true | _ => false end) (sv_conns s) V3) as C.
  unfold len in V4. enough (length (filter (fun v => match v with VServing => true | _ => false end) (sv_calls s)) <= length (sv_conns s))%nat by lia.
  apply C. intros t v E F. destruct v; try discriminate. apply V2. auto.
Qed.
(** After Shutdown no further transport is ever served, and every transport still being
    served is one that a Shutdown collected. *)
Theorem C62_shutdown : forall m s s', reachable m s -> sv_closed s = true -> svsteps s s' ->
  sv_closed s' = true /\
  (forall t, is_serving s' t -> is_serving s t) /\
  (forall t, is_serving s' t -> In t (sv_told s')).
Proof.
  intros m s s' R C P.
  assert (G : sv_closed s' = true /\ (forall t, is_serving s' t -> is_serving s t) /\ reachable m s').
  { induction P as [s|s s1 s2 P IH ST]; [auto|]. destruct (IH R C) as (C1 & H1 & R1).
    assert (R2 : reachable m s2) by (eapply SVTrans; eauto).
    unfold is_serving in *. destruct ST; cbn [sv_closed sv_calls] in *; try discriminate; (split; [auto|]); (split; [|exact R2]); intros t X.
    - apply H1. apply nth_snoc in X. destruct X as [X|[_ X]]; [exact X|discriminate].
    - rewrite (put_call_nth _ _ _ _ _ H) in X. destruct (Nat.eqb_spec t i); [discriminate|auto].
    - rewrite (put_call_nth _ _ _ _ _ H) in X. destruct (Nat.eqb_spec t i); [discriminate|auto].
    - rewrite (put_call_nth _ _ _ _ _ H) in X. destruct (Nat.eqb_spec t i); [discriminate|auto].
    - auto. }
  destruct G as (C' & H & R'). split; [exact C'|]. split; [exact H|].
  intros t X. apply VInv_reach in R'. apply (vi_told _ _ R' C'). apply (vi_in _ _ R'). left. exact X.
Qed.
(** So from the moment Shutdown has taken the lock, whatever follows: no transport that was not
    being served is served, and Shutdown has collected every one that was. *)
Theorem C62_after_shutdown : forall m s s', reachable m s -> svsteps (Shutdown s) s' ->
  svstep s (Shutdown s) /\ (forall t, is_serving s' t -> is_serving s t) /\ (forall t, is_serving s t -> In t (sv_told (Shutdown s))).
Proof.
  intros m s s' R P. assert (ST : svstep s (Shutdown s)) by constructor. split; [exact ST|].
  assert (R1 : reachable m (Shutdown s)) by (eapply SVTrans; eauto).
  split; [exact (proj1 (proj2 (C62_shutdown m _ s' R1 eq_refl P)))|].
  intros t X. apply (proj2 (proj2 (C62_shutdown m _ _ R1 eq_refl (SVRefl _)))). exact X.
Qed.
(** A transport that is rejected is never served, and one that is served was not rejected:
    the outcome of a Serve call is decided once. *)
Theorem C62_rejected_is_final : forall s s' t, svsteps s s' -> nth_error (sv_calls s) t = Some VRejected -> nth_error (sv_calls s') t = Some VRejected.
Proof.
  intros s s' t P H. induction P as [s|s s1 s2 P IH ST]; auto. specialize (IH H).
  destruct ST; cbn [sv_calls] in *; auto; try (rewrite (put_call_nth _ _ _ _ _ H0); destruct (Nat.eqb_spec t i); [subst; congruence|auto]).
  rewrite nth_error_app1; auto. apply nth_error_Some. congruence.
Qed.
(** With room the server accepts: no connection is refused below the limit before shutdown. *)
Theorem C62_accepts : forall m s s' t, reachable m s -> svstep s s' ->
  nth_error (sv_calls s) t = Some VCalled -> nth_error (sv_calls s') t = Some VRejected ->
  sv_closed s = true \/ (m > 0 /\ len (sv_conns s) >= m).
Proof.
  intros m s s' t R ST H1 H2. apply VInv_reach in R. pose proof (vi_max _ _ R) as M.
  destruct ST; cbn [sv_calls sv_closed sv_conns sv_max] in *; auto; try congruence; try (rewrite (put_call_nth _ _ _ _ _ H) in H2; destruct (Nat.eqb_spec t i); congruence); try (cbn in H2; congruence).
  - apply nth_snoc in H2. destruct H2 as [H2|[_ H2]]; congruence.
  - subst. auto.
Qed.
Print Assumptions C62_limit.
Print Assumptions C62_shutdown.
Print Assumptions C62_after_shutdown.
Print Assumptions C62_rejected_is_final.
Print Assumptions C62_accepts.

(** Non-vacuity: a limit of one, a second transport is rejected, a third is served after the first has ended. *)
Example demo_server : exists s, reachable 1 s /\ sv_calls s = [VReturned; VRejected; VServing] /\ sv_closed s = true /\ sv_told s = [2%nat].
Proof.
  assert (ST : forall s s', reachable 1 s -> svstep s s' -> reachable 1 s') by (intros; eapply SVTrans; eauto).
  assert (R : reachable 1 (mkServer 1 false [] [] [])) by constructor.
  assert (R1 := ST _ _ R (VCall _ _ _ _ _)). cbn in R1.
  assert (R2 := ST _ _ R1 (VCall _ _ _ _ _)). cbn in R2.
  assert (R3 := ST _ _ R2 (VCall _ _ _ _ _)). cbn in R3.
  assert (R4 := ST _ _ R3 ltac:(apply (VAccept _ _ _ _ 0); [reflexivity|unfold len; cbn; lia])). cbn in R4.
  assert (R5 := ST _ _ R4 ltac:(apply (VRejectFull _ _ _ _ 1); [reflexivity|lia|unfold len; cbn; lia])). cbn in R5.
  assert (R6 := ST _ _ R5 ltac:(apply (VEnd _ _ _ _ _ 0); reflexivity)). cbn in R6.
  assert (R7 := ST _ _ R6 ltac:(apply (VRemove _ _ _ _ _ 0); reflexivity)). cbn in R7.
  assert (R8 := ST _ _ R7 ltac:(apply (VAccept _ _ _ _ 2); [reflexivity|unfold len; cbn; lia])). cbn in R8.
  assert (R9 := ST _ _ R8 (VShutdown _)). cbn in R9.
  eexists. split; [exact R9|]. repeat split.
Qed.
