(** C54, C56: which errors are retried and which end a hedged call. *)
From Verif.Model Require Import Base ErrText.
From Coq Require Import Lia String.

(** p occurs in e. *)
Definition occurs (p e : bytes) : Prop := exists a b, e = a ++ p ++ b.
Definition names (e : bytes) (c : code) : Prop := occurs (code_String c) e.

Lemma has_prefix_spec p : forall s, has_prefix p s = true <-> exists b, s = p ++ b.
Proof.
  induction p as [|x p IH]; intros s; cbn [has_prefix].
  - split; [intros _; exists s; reflexivity|auto].
  - destruct s as [|y s]; [split; [discriminate|intros (b & E); discriminate E]|].
    rewrite andb_true_iff, Z.eqb_eq, IH. split.
    + intros [-> (b & ->)]. exists b. reflexivity.
    + intros (b & E). injection E as -> E. split; eauto.
Qed.
Lemma contains_spec s p : contains s p = true <-> occurs p s.
Proof.
  induction s as [|x s IH]; cbn [contains]; rewrite orb_true_iff, has_prefix_spec.
  - split.
    + intros [(b & E)|E]; [exists [], b; auto|discriminate].
    + intros (a & b & E). left. exists b. destruct a; [exact E|discriminate E].
  - rewrite IH. split.
    + intros [(b & E)|(a & b & ->)]; [exists [], b; auto|exists (x :: a), b; reflexivity].
    + intros ([|y a] & b & E); [left; exists b; exact E|]. right. injection E as -> E. exists a, b. exact E.
Qed.
Lemma contains_dec s p : contains s p = false <-> ~ occurs p s.
Proof. rewrite <- contains_spec. destruct (contains s p); intuition congruence. Qed.

(** An error is retried by default exactly if its text names a transient code and no
    permanent one. *)
Definition transient_code (c : code) : Prop :=
  c = ErrInternal \/ c = ErrUnavailable \/ c = ErrResourceExhausted \/ c = ErrAborted.
Definition permanent_code (c : code) : Prop :=
  c = ErrDeadlineExceeded \/ c = ErrCanceled \/ c = ErrInvalidArgument \/ c = ErrNotFound \/ c = ErrAlreadyExists \/
  c = ErrPermissionDenied \/ c = ErrUnauthenticated \/ c = ErrUnimplemented.
Theorem C54_retried_errors : forall e,
  isRetryable e = true <-> (exists c, transient_code c /\ names e c) /\ (forall c, permanent_code c -> ~ names e c).
Proof.
  intros e. unfold isRetryable, names.
  destruct (contains e (code_String ErrDeadlineExceeded)) eqn:E1.
  { split; [discriminate|]. intros [_ H]. apply contains_spec in E1. exfalso. apply (H ErrDeadlineExceeded); [unfold permanent_code; tauto|exact E1]. }
  destruct (contains e (code_String ErrCanceled)) eqn:E2.
  { split; [discriminate|]. intros [_ H]. apply contains_spec in E2. exfalso. apply (H ErrCanceled); [unfold permanent_code; tauto|exact E2]. }
  destruct (_ || _) eqn:E3.
  { split; [discriminate|]. intros [_ H]. exfalso. rewrite !orb_true_iff, !contains_spec in E3. unfold permanent_code in H.
    destruct E3 as [[[[[E3|E3]|E3]|E3]|E3]|E3]; revert E3; apply H; tauto. }
  rewrite !orb_false_iff, !contains_dec in E3. apply contains_dec in E1, E2.
  destruct (_ || _) eqn:E4.
  - split; auto. intros _. split.
    + rewrite !orb_true_iff, !contains_spec in E4. unfold transient_code. destruct E4 as [[[E4|E4]|E4]|E4]; eauto 8.
    + intros c Hc. unfold permanent_code in Hc. intuition congruence.
  - split; [discriminate|]. intros [(c & Hc & N) _]. exfalso. rewrite !orb_false_iff, !contains_dec in E4. unfold transient_code in Hc.
    destruct Hc as [->|[->|[->| ->]]]; tauto.
Qed.

(** An error ends a hedged call at once exactly if it is the end of the context, names a
    permanent code, or the caller listed non-fatal codes and it names none of them. *)
Theorem C56_fatal_errors : forall e nonFatal,
  isFatal e nonFatal = true <->
  occurs (text "context canceled") e \/ occurs (text "context deadline exceeded") e \/
  (exists c, permanent_code c /\ names e c) \/
  (nonFatal <> [] /\ forall c, In c nonFatal -> ~ names e c).
Proof.
  intros e nf. unfold isFatal, names.
  destruct (contains e (text "context canceled") || contains e (text "context deadline exceeded")) eqn:E1.
  { split; auto. intros _. rewrite orb_true_iff, !contains_spec in E1. tauto. }
  rewrite orb_false_iff, !contains_dec in E1.
  assert (X : existsb (fun c => contains e (code_String c)) fatalCodes = true <-> exists c, permanent_code c /\ occurs (code_String c) e).
  { rewrite existsb_exists. split.
    - intros (c & HI & H). apply contains_spec in H. exists c. split; auto. unfold permanent_code. cbn in HI. intuition.
    - intros (c & HI & H). exists c. apply contains_spec in H. split; auto. unfold permanent_code in HI. cbn. intuition. }
  destruct (existsb _ fatalCodes) eqn:E2.
  { split; auto. intros _. right. right. left. now apply X. }
  assert (NX : ~ exists c, permanent_code c /\ occurs (code_String c) e) by (intros H; apply X in H; congruence).
  destruct nf as [|c0 nf].
  - split; [discriminate|]. intros [H|[H|[H|[H _]]]]; tauto.
  - rewrite negb_true_iff. split.
    + intros H. right. right. right. split; [discriminate|]. intros c Hc N. apply contains_spec in N.
      assert (existsb (fun c => contains e (code_String c)) (c0 :: nf) = true) by (apply existsb_exists; eauto). congruence.
    + intros [H|[H|[H|[_ H]]]]; try tauto. destruct (existsb _ (c0 :: nf)) eqn:E3; auto.
      apply existsb_exists in E3. destruct E3 as (c & Hc & N). apply contains_spec in N. destruct (H c Hc N).
Qed.

(** An error with code Unimplemented whose message says that the cause is internal is not
    retried; a plain text is neither retried nor fatal. *)
Example C54_case :
  isRetryable (text "ErrUnimplemented: ErrInternal") = false /\ isRetryable (text "rpc: ErrInternal: x") = true /\
  isRetryable (text "connection reset") = false /\ isFatal (text "connection reset") [] = false /\
  isFatal (text "connection reset") [ErrUnavailable] = true.
Proof. repeat split; vm_compute; reflexivity. Qed.
Print Assumptions C54_retried_errors.
Print Assumptions C56_fatal_errors.
