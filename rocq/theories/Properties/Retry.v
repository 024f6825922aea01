(** C54, C55: retries and their waits. *)
From Verif.Model Require Import Base Retry.
From Verif.Proofs Require Import BaseLemmas.
From Coq Require Import Lia.

Section C54.
Variables Resp Error : Type.
Variable ovf : Z.
Notation policy := (policy Error).
Notation world := (world Resp Error).

(** The i-th invocation failed with an error worth retrying. *)
Definition transient (p : policy) (w : world) (i : nat) : Prop :=
  exists e, w_call _ _ w i = inr e /\ p_retryable _ p e = true.
(** ... or not: it succeeded or failed for good. *)
Definition final (p : policy) (w : world) (i : nat) : Prop :=
  match w_call _ _ w i with inl _ => True | inr e => p_retryable _ p e = false end.

(** How a retried call ends after its k-th invocation. *)
Inductive ending (p : policy) (w : world) (k : nat) : Resp + Error -> Prop :=
| EFinal : final p w k -> ending p w k (w_call _ _ w k)
| EExhausted : transient p w k -> Z.of_nat k = p_max _ p -> ending p w k (w_call _ _ w k)
| ECancelled : transient p w k -> Z.of_nat k < p_max _ p -> w_done _ _ w k = true ->
    ending p w k (inr (w_ctxerr _ _ w)).

Lemma attempts_spec (p : policy) (w : world) : forall remaining attempt backoff,
  Z.of_nat attempt + Z.of_nat remaining = p_max _ p ->
  exists k, r_calls _ _ (attempts _ _ ovf p w remaining attempt backoff) = S k /\
    (k <= remaining)%nat /\
    (forall i, (attempt <= i < attempt + k)%nat -> transient p w i /\ w_done _ _ w i = false) /\
    ending p w (attempt + k) (r_result _ _ (attempts _ _ ovf p w remaining attempt backoff)).
Proof.
  induction remaining as [|n IH]; intros attempt backoff HM; cbn [attempts];
    destruct (w_call _ _ w attempt) as [resp|e] eqn:EC.
  - exists 0%nat. rewrite Nat.add_0_r. cbn. split; [auto|]. split; [lia|]. split; [intros; lia|].
    rewrite <- EC. apply EFinal. unfold final. now rewrite EC.
  - exists 0%nat. rewrite Nat.add_0_r.
    destruct (p_retryable _ p e) eqn:ER; cbn; (split; [auto|]; split; [lia|]; split; [intros; lia|]); rewrite <- EC.
    + apply EExhausted; [exists e; auto|lia].
    + apply EFinal. unfold final. now rewrite EC.
  - exists 0%nat. rewrite Nat.add_0_r. cbn. split; [auto|]. split; [lia|]. split; [intros; lia|].
    rewrite <- EC. apply EFinal. unfold final. now rewrite EC.
  - destruct (p_retryable _ p e) eqn:ER; cbn [negb].
    + destruct (w_done _ _ w attempt) eqn:ED.
      * exists 0%nat. rewrite Nat.add_0_r. cbn. split; [auto|]. split; [lia|]. split; [intros; lia|].
        apply ECancelled; [exists e; auto|lia|auto].
      * destruct (IH (S attempt) (next_backoff _ ovf p backoff)) as (k & E1 & E2 & E3 & E4); [lia|].
        exists (S k). cbn [r_calls r_result]. rewrite E1. split; [auto|]. split; [lia|]. split.
        -- intros i Hi. destruct (Nat.eq_dec i attempt) as [->|]; [split; [exists e; auto|auto]|]. apply E3. lia.
        -- replace (attempt + S k)%nat with (S attempt + k)%nat by lia. exact E4.
    + exists 0%nat. rewrite Nat.add_0_r. cbn. split; [auto|]. split; [lia|]. split; [intros; lia|].
      rewrite <- EC. apply EFinal. unfold final. now rewrite EC.
Qed.

(** For every policy, every sequence of outcomes and every moment of cancellation: the
    call is invoked k+1 times with k <= MaxAttempts; all invocations before the last failed
    transiently; and the caller gets the outcome of the last one (a success, a permanent
    error, or the last transient one when MaxAttempts retries are used up), or the context's
    error when that was done during the wait. *)
Theorem C54_retry_outcome : forall (p : policy) (w : world), 0 < p_max _ p ->
  exists k, r_calls _ _ (UnaryClientInterceptor _ _ ovf p w) = S k /\
    Z.of_nat k <= p_max _ p /\
    (forall i, (i < k)%nat -> transient p w i /\ w_done _ _ w i = false) /\
    ending p w k (r_result _ _ (UnaryClientInterceptor _ _ ovf p w)).
Proof.
  intros p w HM. unfold UnaryClientInterceptor. destruct (Z.leb_spec (p_max _ p) 0); [lia|].
  destruct (attempts_spec p w (Z.to_nat (p_max _ p)) 0 (p_init _ p)) as (k & E1 & E2 & E3 & E4); [lia|].
  exists k. split; [auto|]. split; [lia|]. split; [|exact E4]. intros i Hi. apply E3. lia.
Qed.
(** Without retries the outcome of the single invocation is passed through. *)
Theorem C54_no_retry : forall (p : policy) (w : world), p_max _ p <= 0 ->
  r_result _ _ (UnaryClientInterceptor _ _ ovf p w) = w_call _ _ w 0%nat /\
  r_calls _ _ (UnaryClientInterceptor _ _ ovf p w) = 1%nat /\ r_waits _ _ (UnaryClientInterceptor _ _ ovf p w) = [].
Proof.
  intros p w HM. unfold UnaryClientInterceptor. destruct (Z.leb_spec (p_max _ p) 0); [|lia]. cbn. auto.
Qed.
(** The outcome is determined: which invocation is the last does not depend on anything else. *)
Theorem C54_outcome_unique : forall (p : policy) (w : world) k k' r r',
  (forall i, (i < k)%nat -> transient p w i /\ w_done _ _ w i = false) -> Z.of_nat k <= p_max _ p -> ending p w k r ->
  (forall i, (i < k')%nat -> transient p w i /\ w_done _ _ w i = false) -> Z.of_nat k' <= p_max _ p -> ending p w k' r' ->
  k = k' /\ r = r'.
Proof.
  assert (X : forall p w i, transient p w i -> final p w i -> False).
  { intros p w i (e & E & F) G. unfold final in G. rewrite E in G. congruence. }
  assert (Y : forall (p : policy) (w : world) k k' r, (k < k')%nat -> Z.of_nat k' <= p_max _ p -> ending p w k r ->
    (forall i, (i < k')%nat -> transient p w i /\ w_done _ _ w i = false) -> False).
  { intros p w k k' r HK HM HE HT. destruct (HT k HK) as [T D]. destruct HE; [eauto|lia|congruence]. }
  intros p w k k' r r' A1 A2 A3 B1 B2 B3.
  assert (k = k') as -> by (destruct (Nat.lt_trichotomy k k') as [C|[C|C]]; auto; exfalso; eauto).
  split; auto. inversion A3; inversion B3; subst; auto; try lia; exfalso; eauto.
Qed.

(** *** Waits *)

Lemma attempts_waits (p : policy) (w : world) : forall remaining attempt backoff,
  0 <= p_cap _ p ->
  match r_waits _ _ (attempts _ _ ovf p w remaining attempt backoff) with
  | [] => True
  | x :: l => x = backoff /\ Forall (fun t => t <= p_cap _ p) l
  end.
Proof.
  induction remaining as [|n IH]; intros attempt backoff HC; cbn [attempts];
    destruct (w_call _ _ w attempt) as [resp|e]; cbn; auto; destruct (p_retryable _ p e); cbn; auto.
  destruct (w_done _ _ w attempt); cbn; [auto|]. split; auto.
  specialize (IH (S attempt) (next_backoff _ ovf p backoff) HC).
  destruct (r_waits _ _ _) as [|x l]; [constructor|]. destruct IH as [-> IH]. constructor; auto.
  unfold next_backoff. destruct (Z.gtb_spec (scale _ ovf p backoff) (p_cap _ p)); lia.
Qed.
(** No wait but the first exceeds MaxBackoff, whatever the multiplier and whatever an
    overflowing conversion gives; the first one is InitialBackoff. *)
Theorem C55_waits_bounded_partial : forall (p : policy) (w : world), 0 <= p_cap _ p ->
  match r_waits _ _ (UnaryClientInterceptor _ _ ovf p w) with
  | [] => True
  | x :: l => x = p_init _ p /\ Forall (fun t => t <= p_cap _ p) l
  end.
Proof.
  intros p w HC. unfold UnaryClientInterceptor. destruct (p_max _ p <=? 0); cbn; auto. apply attempts_waits; auto.
Qed.
Theorem C55_waits_bounded : forall (p : policy) (w : world), 0 <= p_cap _ p -> p_init _ p <= p_cap _ p ->
  Forall (fun t => t <= p_cap _ p) (r_waits _ _ (UnaryClientInterceptor _ _ ovf p w)).
Proof.
  intros p w HC HI. pose proof (C55_waits_bounded_partial p w HC) as H.
  destruct (r_waits _ _ _); [constructor|]. destruct H as [-> H]. constructor; auto.
Qed.

Lemma round53_ge x y b k : 0 <= k -> 0 <= b < 2 ^ 53 -> y = b * 2 ^ k -> y <= x -> y <= round53 x.
Proof.
  intros HK HB HY HX. unfold round53. destruct (Z.leb_spec x 0); [lia|]. unfold rne.
  set (K := Z.log2 x - 52). destruct (Z.leb_spec K 0); [lia|].
  pose proof (Z.log2_spec x ltac:(lia)) as [L1 L2].
  assert (PK : 0 < 2 ^ K) by (apply Z.pow_pos_nonneg; lia).
  assert (B : y <= x / 2 ^ K * 2 ^ K).
  { destruct (Z.le_gt_cases K k) as [C|C].
    - replace k with (K + (k - K)) in HY by lia. rewrite Z.pow_add_r in HY by lia.
      assert (D : b * 2 ^ (k - K) <= x / 2 ^ K) by (apply Z.div_le_lower_bound; lia). nia.
    - assert (D : 2 ^ 52 <= x / 2 ^ K).
      { apply Z.div_le_lower_bound; auto. replace (Z.log2 x) with (K + 52) in L1 by (unfold K; lia).
        rewrite Z.pow_add_r in L1 by lia. exact L1. }
      assert (E : 2 ^ K = 2 * 2 ^ (K - 1)).
      { replace K with (1 + (K - 1)) at 1 by lia. rewrite Z.pow_add_r by lia. reflexivity. }
      assert (F : 2 ^ k <= 2 ^ (K - 1)) by (apply Z.pow_le_mono_r; lia).
      assert (G : 0 < 2 ^ k) by (apply Z.pow_pos_nonneg; lia).
      change (2 ^ 53) with (2 * 2 ^ 52) in HB. nia. }
  cbn zeta. destruct (_ || _); nia.
Qed.
Lemma round53_le x : 0 <= x -> 0 <= round53 x <= 2 * x.
Proof.
  intros HX. unfold round53. destruct (Z.leb_spec x 0); [lia|]. unfold rne.
  set (K := Z.log2 x - 52). destruct (Z.leb_spec K 0); [lia|].
  pose proof (Z.log2_spec x ltac:(lia)) as [L1 L2].
  assert (PK : 0 < 2 ^ K) by (apply Z.pow_pos_nonneg; lia).
  assert (2 ^ K <= x) by (etransitivity; [apply (Z.pow_le_mono_r 2 K (Z.log2 x)); unfold K; lia|auto]).
  pose proof (Z.div_mod x (2 ^ K) ltac:(lia)) as E. pose proof (Z.mod_pos_bound x (2 ^ K) PK).
  cbn zeta. destruct (_ || _); nia.
Qed.
Lemma round53_id x : 0 <= x < 2 ^ 53 -> round53 x = x.
Proof.
  intros HX. unfold round53. destruct (Z.leb_spec x 0); auto. unfold rne.
  assert (Z.log2 x < 53) by (apply Z.log2_lt_pow2; lia).
  destruct (Z.leb_spec (Z.log2 x - 52) 0); auto. lia.
Qed.

(** The multiplier as a number is at least 1. *)
Definition at_least_one (p : policy) : Prop :=
  2 ^ (Z.max 0 (- p_exp _ p)) <= p_mant _ p * 2 ^ (Z.max 0 (p_exp _ p)) /\ 0 < p_mant _ p.
(** Twice MaxBackoff times the multiplier is below 2^63. *)
Definition no_overflow (p : policy) : Prop :=
  2 * p_cap _ p * p_mant _ p * 2 ^ (Z.max 0 (p_exp _ p)) < 2 ^ 63 * 2 ^ (Z.max 0 (- p_exp _ p)).

Lemma scale_ge (p : policy) b : at_least_one p -> no_overflow p -> p_cap _ p < 2 ^ 53 -> 0 <= b <= p_cap _ p ->
  b <= scale _ ovf p b.
Proof.
  intros [A1 A0] NO HC HB. unfold scale. rewrite (round53_id b) by lia.
  pose proof (round53_le (b * p_mant _ p) ltac:(nia)) as [R1 R2].
  unfold no_overflow in NO. destruct (Z.leb_spec 0 (p_exp _ p)) as [C|C].
  - replace (Z.max 0 (- p_exp _ p)) with 0 in * by lia. replace (Z.max 0 (p_exp _ p)) with (p_exp _ p) in * by lia.
    change (2 ^ 0) with 1 in *.
    assert (P : 0 < 2 ^ p_exp _ p) by (apply Z.pow_pos_nonneg; lia).
    pose proof (round53_ge (b * p_mant _ p) b b 0 ltac:(lia) ltac:(lia) ltac:(lia) ltac:(nia)) as G.
    set (r := round53 (b * p_mant _ p)) in *. set (E := 2 ^ p_exp _ p) in *.
    assert (r * E < 2 ^ 63).
    { assert (2 * (b * p_mant _ p) * E <= 2 * p_cap _ p * p_mant _ p * E) by nia. nia. }
    destruct (Z.ltb_spec (r * E) (2 ^ 63)); [nia|lia].
  - replace (Z.max 0 (p_exp _ p)) with 0 in * by lia. replace (Z.max 0 (- p_exp _ p)) with (- p_exp _ p) in * by lia.
    change (2 ^ 0) with 1 in *.
    assert (P : 0 < 2 ^ (- p_exp _ p)) by (apply Z.pow_pos_nonneg; lia).
    pose proof (round53_ge (b * p_mant _ p) (b * 2 ^ (- p_exp _ p)) b (- p_exp _ p) ltac:(lia) ltac:(lia) ltac:(lia) ltac:(nia)) as G.
    set (r := round53 (b * p_mant _ p)) in *. set (E := 2 ^ (- p_exp _ p)) in *.
    assert (D : r / E < 2 ^ 63).
    { apply Z.div_lt_upper_bound; auto. assert (2 * (b * p_mant _ p) <= 2 * p_cap _ p * p_mant _ p) by nia. nia. }
    destruct (Z.ltb_spec (r / E) (2 ^ 63)); [|lia]. apply Z.div_le_lower_bound; auto. lia.
Qed.

(** In increasing order. *)
Fixpoint nondecreasing (l : list Z) : Prop :=
  match l with
  | x :: ((y :: _) as l') => x <= y /\ nondecreasing l'
  | _ => True
  end.
Lemma attempts_mono (p : policy) (w : world) : at_least_one p -> no_overflow p -> 0 <= p_cap _ p < 2 ^ 53 ->
  forall remaining attempt backoff, 0 <= backoff <= p_cap _ p ->
  nondecreasing (r_waits _ _ (attempts _ _ ovf p w remaining attempt backoff)) /\
  match r_waits _ _ (attempts _ _ ovf p w remaining attempt backoff) with [] => True | x :: _ => x = backoff end.
Proof.
  intros A NO HC. induction remaining as [|n IH]; intros attempt backoff HB; cbn [attempts];
    destruct (w_call _ _ w attempt) as [resp|e]; cbn; auto; destruct (p_retryable _ p e); cbn; auto.
  destruct (w_done _ _ w attempt); cbn; [auto|]. split; auto.
  pose proof (scale_ge p backoff A NO ltac:(lia) HB) as G.
  assert (backoff <= next_backoff _ ovf p backoff <= p_cap _ p).
  { unfold next_backoff. destruct (Z.gtb_spec (scale _ ovf p backoff) (p_cap _ p)); lia. }
  destruct (IH (S attempt) (next_backoff _ ovf p backoff)) as [I1 I2]; [lia|].
  destruct (r_waits _ _ _) as [|x l]; auto. subst x. split; [lia|auto].
Qed.
(** With InitialBackoff <= MaxBackoff < 2^53 ns (104 days) and a multiplier of at least 1
    the waits never get shorter. *)
Theorem C55_waits_nondecreasing : forall (p : policy) (w : world), at_least_one p -> no_overflow p ->
  0 <= p_init _ p <= p_cap _ p -> p_cap _ p < 2 ^ 53 ->
  nondecreasing (r_waits _ _ (UnaryClientInterceptor _ _ ovf p w)).
Proof.
  intros p w A NO HI HC. unfold UnaryClientInterceptor. destruct (p_max _ p <=? 0); cbn; auto.
  apply attempts_mono; auto. lia.
Qed.

(** *** How the waits grow *)

(** A whole number that a float64 holds exactly: 53 significant bits. *)
Definition float64_int (x : Z) : Prop := exists q k, 0 <= k /\ 0 <= q < 2 ^ 53 /\ x = q * 2 ^ k.
(** r is the float64 closest to x; of two equally close ones, the one with the even last digit. *)
Definition nearest (x r : Z) : Prop :=
  float64_int r /\
  (forall y, float64_int y -> Z.abs (x - r) <= Z.abs (x - y)) /\
  (forall y, float64_int y -> y <> r -> Z.abs (x - y) = Z.abs (x - r) ->
     exists q k, r = 2 * q * 2 ^ k /\ 0 <= k /\ 2 ^ 52 <= 2 * q < 2 ^ 53).

Lemma nearest_self x : float64_int x -> nearest x x.
Proof. intros F. split; auto. rewrite Z.sub_diag. split; intros; [lia|]. exfalso. lia. Qed.
Lemma round53_nearest x : 0 <= x -> nearest x (round53 x).
Proof.
  intros HX. unfold round53. destruct (Z.leb_spec x 0).
  { apply nearest_self. exists 0, 0. repeat split; lia. }
  unfold rne. set (K := Z.log2 x - 52). pose proof (Z.log2_spec x ltac:(lia)) as [L1 L2].
  destruct (Z.leb_spec K 0).
  { apply nearest_self. exists x, 0. split; [lia|]. split; [|lia]. split; [lia|].
    eapply Z.lt_le_trans; [exact L2|]. apply Z.pow_le_mono_r; unfold K in *; lia. }
  set (P := 2 ^ K). assert (PP : 0 < P) by (apply Z.pow_pos_nonneg; lia).
  assert (E2 : P = 2 * 2 ^ (K - 1)). { unfold P. replace K with (1 + (K - 1)) at 1 by lia. rewrite Z.pow_add_r by lia. reflexivity. }
  assert (HP : 0 < 2 ^ (K - 1)) by (apply Z.pow_pos_nonneg; lia). set (H2 := 2 ^ (K - 1)) in *.
  pose proof (Z.div_mod x P ltac:(lia)) as DM. pose proof (Z.mod_pos_bound x P PP) as MB.
  set (q := x / P) in *. set (r := x mod P) in *.
  assert (Q : 2 ^ 52 <= q < 2 ^ 53).
  { split.
    - apply Z.div_le_lower_bound; auto. replace (Z.log2 x) with (K + 52) in L1 by (unfold K; lia). rewrite Z.pow_add_r in L1 by lia. exact L1.
    - apply Z.div_lt_upper_bound; auto. replace (Z.succ (Z.log2 x)) with (K + 53) in L2 by (unfold K; lia). rewrite Z.pow_add_r in L2 by lia. exact L2. }
  (* a float64 is a multiple of P, or less than 2^52 P *)
  assert (FL : forall y, float64_int y -> y < 2 ^ 52 * P \/ exists c, y = c * P).
  { intros y (a & k & Hk & Ha & ->). destruct (Z.le_gt_cases K k) as [C|C].
    - right. exists (a * 2 ^ (k - K)). replace k with (K + (k - K)) at 1 by lia. rewrite Z.pow_add_r by lia. fold P. ring.
    - left. assert (2 ^ k <= H2) by (apply Z.pow_le_mono_r; lia). assert (0 < 2 ^ k) by (apply Z.pow_pos_nonneg; lia).
      change (2 ^ 53) with (2 * 2 ^ 52) in Ha. nia. }
  assert (F0 : float64_int (q * P)) by (exists q, K; repeat split; lia).
  assert (F1 : float64_int ((q + 1) * P)).
  { destruct (Z.eq_dec (q + 1) (2 ^ 53)) as [EQ|NQ].
    - exists (2 ^ 52), (K + 1). split; [lia|]. split; [split; reflexivity || (vm_compute; congruence)|]. rewrite EQ, Z.pow_add_r by lia. fold P.
      change (2 ^ 53) with (2 ^ 52 * 2 ^ 1). ring.
    - exists (q + 1), K. split; [lia|]. split; [lia|reflexivity]. }
  cbn zeta.
  assert (NR : forall y, float64_int y -> y <= q * P \/ (q + 1) * P <= y).
  { intros y Hy. destruct (FL y Hy) as [C|[c ->]]; [left; nia|]. destruct (Z.le_gt_cases c q); [left|right]; nia. }
  assert (QP : (q + 1) * P = q * P + P) by ring. replace (P * q) with (q * P) in DM by ring.
  set (A := q * P) in *. set (B := (q + 1) * P) in *.
  destruct ((H2 <? r) || ((r =? H2) && Z.odd q)) eqn:UP.
  - assert (RB : H2 < r \/ (r = H2 /\ Z.odd q = true)).
    { apply orb_true_iff in UP. destruct UP as [UP|UP]; [left; lia|]. apply andb_true_iff in UP. right. destruct UP. split; [lia|auto]. }
    split; auto. split.
    + intros y Hy. destruct (NR y Hy); lia.
    + intros y Hy NE EQ. destruct RB as [RB|[RB OD]].
      { exfalso. destruct (NR y Hy); lia. }
      apply Z.odd_spec in OD. destruct OD as [c OD]. destruct (Z.eq_dec (q + 1) (2 ^ 53)) as [E5|N5].
      * exists (2 ^ 51), (K + 1). split; [|split; [lia|split; vm_compute; congruence]].
        unfold B. rewrite E5, Z.pow_add_r by lia. fold P. change (2 ^ 53) with (2 * 2 ^ 51 * 2 ^ 1). ring.
      * exists (c + 1), K. fold P. split; [unfold B; rewrite OD; ring|]. split; [lia|]. lia.
  - assert (RB : r < H2 \/ (r = H2 /\ Z.odd q = false)).
    { apply orb_false_iff in UP. destruct UP as [U1 U2]. apply andb_false_iff in U2. destruct U2; [left; lia|].
      destruct (Z.eq_dec r H2); [auto|left; lia]. }
    split; auto. split.
    + intros y Hy. destruct (NR y Hy); lia.
    + intros y Hy NE EQ. destruct RB as [RB|[RB OD]].
      { exfalso. destruct (NR y Hy); lia. }
      rewrite <- Z.negb_even, negb_false_iff in OD. apply Z.even_spec in OD. destruct OD as [c OD].
      exists c, K. fold P. split; [unfold A; rewrite OD; ring|]. split; [lia|]. lia.
Qed.

(** The waits follow each other as documented: the next one is the last one times the
    multiplier, with float64 arithmetic, cut to whole nanoseconds and to MaxBackoff. *)
Definition follows (p : policy) (x y : Z) : Prop :=
  exists a b v, nearest x a /\ nearest (a * p_mant _ p) b /\
    (* v = b * 2^p_exp, cut *)
    v * 2 ^ (Z.max 0 (- p_exp _ p)) <= b * 2 ^ (Z.max 0 (p_exp _ p)) < (v + 1) * 2 ^ (Z.max 0 (- p_exp _ p)) /\
    (v < 2 ^ 63 -> y = Z.min v (p_cap _ p)).
Fixpoint chained (R : Z -> Z -> Prop) (l : list Z) : Prop :=
  match l with x :: ((y :: _) as l') => R x y /\ chained R l' | _ => True end.
Lemma nearest_nonneg x r : 0 <= x -> nearest x r -> 0 <= r.
Proof. intros H ((q & k & A & B & ->) & _). assert (0 < 2 ^ k) by (apply Z.pow_pos_nonneg; lia). nia. Qed.
Lemma next_follows (p : policy) x : 0 <= x -> 0 <= p_mant _ p -> follows p x (next_backoff _ ovf p x).
Proof.
  intros HX HM. pose proof (round53_nearest x HX) as N1. pose proof (nearest_nonneg _ _ HX N1) as P1.
  assert (P2 : 0 <= round53 x * p_mant _ p) by nia.
  pose proof (round53_nearest _ P2) as N2. pose proof (nearest_nonneg _ _ P2 N2) as P3.
  unfold next_backoff, scale. set (b := round53 (round53 x * p_mant _ p)) in *.
  exists (round53 x), b. destruct (Z.leb_spec 0 (p_exp _ p)) as [C|C].
  - exists (b * 2 ^ p_exp _ p). replace (Z.max 0 (- p_exp _ p)) with 0 by lia. replace (Z.max 0 (p_exp _ p)) with (p_exp _ p) by lia.
    split; auto. split; auto. split; [change (2 ^ 0) with 1; lia|]. intros L. destruct (Z.ltb_spec (b * 2 ^ p_exp _ p) (2 ^ 63)); [|lia].
    destruct (Z.gtb_spec (b * 2 ^ p_exp _ p) (p_cap _ p)); lia.
  - exists (b / 2 ^ (- p_exp _ p)). replace (Z.max 0 (- p_exp _ p)) with (- p_exp _ p) by lia. replace (Z.max 0 (p_exp _ p)) with 0 by lia.
    assert (PE : 0 < 2 ^ (- p_exp _ p)) by (apply Z.pow_pos_nonneg; lia).
    split; auto. split; auto. split.
    + change (2 ^ 0) with 1. pose proof (Z.div_mod b (2 ^ (- p_exp _ p)) ltac:(lia)). pose proof (Z.mod_pos_bound b _ PE). nia.
    + intros L. destruct (Z.ltb_spec (b / 2 ^ (- p_exp _ p)) (2 ^ 63)); [|lia].
      destruct (Z.gtb_spec (b / 2 ^ (- p_exp _ p)) (p_cap _ p)); lia.
Qed.
Theorem C55_growth : forall (p : policy) (w : world), 0 <= p_init _ p -> 0 <= p_cap _ p -> 0 <= p_mant _ p -> 0 <= ovf ->
  chained (follows p) (r_waits _ _ (UnaryClientInterceptor _ _ ovf p w)).
Proof.
  intros p w HI HC HM HO. unfold UnaryClientInterceptor. destruct (p_max _ p <=? 0); cbn; auto.
  assert (G : forall remaining attempt backoff, 0 <= backoff ->
    chained (follows p) (r_waits _ _ (attempts _ _ ovf p w remaining attempt backoff)) /\
    match r_waits _ _ (attempts _ _ ovf p w remaining attempt backoff) with [] => True | x :: _ => x = backoff end).
  { induction remaining as [|n IH]; intros attempt backoff HB; cbn [attempts];
      destruct (w_call _ _ w attempt) as [resp|e]; cbn; auto; destruct (p_retryable _ p e); cbn; auto.
    destruct (w_done _ _ w attempt); cbn; [auto|]. split; auto.
    assert (N0 : 0 <= next_backoff _ ovf p backoff).
    { unfold next_backoff, scale. pose proof (nearest_nonneg _ _ HB (round53_nearest _ HB)) as A1.
      assert (A2 : 0 <= round53 backoff * p_mant _ p) by nia. pose proof (nearest_nonneg _ _ A2 (round53_nearest _ A2)) as A3.
      set (b := round53 (round53 backoff * p_mant _ p)) in *.
      assert (V : 0 <= (if 0 <=? p_exp _ p then b * 2 ^ p_exp _ p else b / 2 ^ (- p_exp _ p))).
      { destruct (Z.leb_spec 0 (p_exp _ p)).
        - assert (0 < 2 ^ p_exp _ p) by (apply Z.pow_pos_nonneg; lia). nia.
        - apply Z.div_pos; auto. apply Z.pow_pos_nonneg; lia. }
      destruct (_ <? 2 ^ 63); match goal with |- context [?a >? ?c] => destruct (Z.gtb_spec a c); lia end. }
    destruct (IH (S attempt) (next_backoff _ ovf p backoff) N0) as [I1 I2].
    pose proof (next_follows p backoff HB HM) as NF.
    destruct (r_waits _ _ _) as [|x l]; auto. subst x. split; auto. }
  apply G; auto.
Qed.
End C54.

(** DefaultPolicy (retry.go:36-43), with the nanosecond values. *)
Definition default_policy : policy unit := mkPolicy unit 3 100000000 5000000000 1 1 (fun _ => true).
Definition always_failing : world unit unit := mkWorld unit unit (fun _ => inr tt) (fun _ => false) tt.
(** The documented "3 attempts total" of DefaultPolicy, and "maximum number of attempts
    (including the first call)" of MaxAttempts, are false: four invocations happen. *)
Theorem C54_documented_count_refuted : forall ovf,
  p_max _ default_policy = 3 /\
  r_calls _ _ (UnaryClientInterceptor _ _ ovf default_policy always_failing) = 4%nat.
Proof. intros. split; reflexivity. Qed.
(** An InitialBackoff above MaxBackoff is waited for in full, and later waits are shorter. *)
Theorem C55_first_wait_refuted : forall ovf, exists p : policy unit,
  at_least_one _ p /\ p_cap _ p < p_init _ p /\
  r_waits _ _ (UnaryClientInterceptor _ _ ovf p always_failing) = [10; 5; 5].
Proof.
  intros. exists (mkPolicy unit 3 10 5 1 1 (fun _ => true)).
  split; [split; vm_compute; congruence|]. split; [reflexivity|]. reflexivity.
Qed.
Print Assumptions C54_retry_outcome.
Print Assumptions C54_no_retry.
Print Assumptions C54_outcome_unique.
Print Assumptions C54_documented_count_refuted.
Print Assumptions C55_waits_bounded_partial.
Print Assumptions C55_waits_bounded.
Print Assumptions C55_waits_nondecreasing.
Print Assumptions C55_first_wait_refuted.
Print Assumptions C55_growth.

(** The default policy meets the hypotheses, and so does a multiplier of 1.5. *)
Example demo_default : forall ovf,
  at_least_one _ default_policy /\ no_overflow _ default_policy /\
  0 <= p_init _ default_policy <= p_cap _ default_policy /\ p_cap _ default_policy < 2 ^ 53 /\
  r_waits _ _ (UnaryClientInterceptor _ _ ovf default_policy always_failing) = [100000000; 200000000; 400000000].
Proof.
  intros. unfold at_least_one, no_overflow. repeat split; try (vm_compute; congruence).
Qed.
Example demo_fraction : forall ovf,
  let p := mkPolicy unit 4 101 200 3 (-1) (fun _ => true) in
  at_least_one _ p /\ no_overflow _ p /\
  r_waits _ _ (UnaryClientInterceptor _ _ ovf p always_failing) = [101; 151; 200; 200].
Proof.
  intros. unfold at_least_one, no_overflow. repeat split; try (vm_compute; congruence).
Qed.
Example demo_success : forall ovf,
  let w := mkWorld nat unit (fun i => if (i =? 2)%nat then inl 7%nat else inr tt) (fun _ => false) tt in
  r_result _ _ (UnaryClientInterceptor _ _ ovf default_policy w) = inl 7%nat /\
  r_calls _ _ (UnaryClientInterceptor _ _ ovf default_policy w) = 3%nat.
Proof. intros. split; reflexivity. Qed.
