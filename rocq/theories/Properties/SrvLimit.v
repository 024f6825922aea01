(** C129: the limit of concurrent handlers. *)
From Coq Require Import List Bool Arith Lia.
Import ListNotations.
From Verif.Model Require Import SrvLimit.
From Verif.Spec Require Import SrvLimit.
From Verif.Proofs Require Import SrvLimit.

(** On one connection no more handlers run at a time than the limit says. *)
Theorem C129_limit : forall max es c, 0 < max -> run max l_new es = Some c -> running (l_sess c) <= max.
Proof. intros max es c M R. destruct (inv_run max es l_new c (inv_new max) R) as ([H|H] & _); [lia|exact H]. Qed.
(** A handler that waits for its place gets it as soon as fewer run. *)
Theorem C129_starts : forall max es c i, run max l_new es = Some c -> l_loop c = LSubmit i -> max = 0 \/ running (l_sess c) < max ->
  exists c' x, step max c EStart = Some c' /\ nth_error (l_sess c') i = Some x /\ l_pc x = LRun /\ l_loop c' = LTop.
Proof.
  intros max es c i R L H. destruct (inv_run max es l_new c (inv_new max) R) as (_ & I). destruct (I i L) as (x & N & W). cbn [step]. rewrite L, N. unfold free.
  replace ((max =? 0) || (running (l_sess c) <? max)) with true.
  - eexists. eexists. split; [reflexivity|]. cbn [l_sess l_loop]. rewrite (put_nth _ i x _ i N), Nat.eqb_refl. repeat split.
  - symmetry. apply orb_true_iff. destruct H as [->|H]; [left; reflexivity|right; apply Nat.ltb_lt; exact H].
Qed.
(** On the server the limit is one per connection. *)
Theorem C129_server : forall max es s, 0 < max -> sv_run max [] es = Some s -> handlers s <= length s * max.
Proof.
  intros max es s M R. pose proof (sv_inv max es [] s (Forall_nil _) R) as F. clear R. induction F as [|c s ([I|I] & _) F IH]; cbn [handlers fold_right length Nat.mul] in *; [lia|lia|]. unfold handlers in IH. lia.
Qed.
Theorem C129_server_refuted : ~ (forall max es s, 0 < max -> sv_run max [] es = Some s -> handlers s <= max).
Proof.
  intros H. pose proof (H 1 [None; None; Some (0, ESend LOpen); Some (0, ERead); Some (0, EStart); Some (1, ESend LOpen); Some (1, ERead); Some (1, EStart)] _ (le_n 1) eq_refl) as X.
  cbn in X. lia.
Qed.
(** While an Open waits for a place, nothing that the client sends reaches any session, until some handler returns by itself or the context ends. *)
Theorem C129_held : forall max es c i es' c', 0 < max -> run max l_new es = Some c -> l_loop c = LSubmit i -> running (l_sess c) = max ->
  run max c es' = Some c' -> ~ In ECtx es' -> (forall k, ~ In (EEnd k) es') -> forall k, delivered c' k = delivered c k.
Proof.
  intros max es c i es' c' M R L H R' NC NE k. apply (held_run max es' c c'); auto. split; [exists i; exact L|]. split; assumption.
Qed.
(** For every limit there is a run of handlers that read their streams to the end that comes to a standstill: as many sessions as the limit are
    open, one more Open was sent, then the end of the first session's stream.  Whatever happens afterwards, the end of the stream is never
    delivered, and no handler returns. *)
Theorem C129_stuck : forall max, 0 < max -> exists es c, run max l_new es = Some c /\ all_patient max l_new es /\ ~ In ECtx es /\ running (l_sess c) = max /\ In (LPay 0 true) (l_in c) /\
  forall es' c', run max c es' = Some c' -> all_patient max c es' -> ~ In ECtx es' -> delivered c' 0 = Some ([], false) /\ running (l_sess c') = max.
Proof.
  intros max M. exists (opens max ++ [ESend LOpen; ERead; ESend (LPay 0 true)]). exists (mkLC [LPay 0 true] (LSubmit max) (repeat idle max ++ [mkLS LWait [] [] false])).
  assert (O : run max l_new (opens max) = Some (mkLC [] LTop (repeat idle max))) by (apply (opens_run max max 0); right; lia).
  rewrite run_app, O. split; [cbn [run step l_in l_loop l_sess app]; rewrite repeat_length; reflexivity|].
  assert (R : running (repeat idle max ++ [mkLS LWait [] [] false]) = max) by (unfold running; rewrite filter_app; cbn; rewrite app_nil_r; apply running_repeat).
  split; [|split; [|split; [exact R|split; [left; reflexivity|]]]].
  - apply patient_app; [apply opens_patient|]. intros c' E. cbn [all_patient]. repeat (split; [exact Logic.I|]; destruct (step max _ _); [|exact Logic.I]). exact Logic.I.
  - intros I. apply in_app_or in I. destruct I as [I|I]; [|cbn in I; intuition discriminate]. unfold opens in I. apply in_concat in I. destruct I as (l & Il & I). apply repeat_spec in Il. subst l. cbn in I. intuition discriminate.
  - intros es' c' R' P NC. assert (S0 : still max (mkLC [LPay 0 true] (LSubmit max) (repeat idle max ++ [mkLS LWait [] [] false]))) by (split; reflexivity).
    destruct (still_run max es' _ c' M S0 P NC R') as (_ & S).
    unfold delivered. rewrite S. split; [|exact R]. destruct max; [lia|]. reflexivity.
Qed.
(** That what was sent to a running session can still be delivered: false. *)
Theorem C129_refuted : ~ (forall max es c fin, run max l_new es = Some c -> all_patient max l_new es -> ~ In ECtx es -> In (LPay 0 fin) (l_in c) ->
  exists es' c' got can, run max c es' = Some c' /\ all_patient max c es' /\ ~ In ECtx es' /\ delivered c' 0 = Some (got, can) /\ got <> []).
Proof.
  intros H. destruct (C129_stuck 1 (le_n 1)) as (es & c & R & P & NC & _ & I & S). destruct (H 1 es c true R P NC I) as (es' & c' & got & can & R' & P' & NC' & D & G).
  destruct (S es' c' R' P' NC') as (D' & _). congruence.
Qed.
(** Without a limit it is delivered: the loop reads on. *)
Theorem C129_unlimited : forall es c, run 0 l_new es = Some c -> l_loop c <> LOut -> forall m r, l_in c = m :: r ->
  exists es' c', run 0 c es' = Some c' /\ l_in c' = r /\ (length es' <= 2).
Proof.
  intros es c R NO m r E. destruct (l_loop c) as [|i|] eqn:L; [| |congruence].
  - exists [ERead]. cbn [run step]. rewrite L, E. destruct m; eexists; (split; [reflexivity|]); cbn; split; auto.
  - destruct (C129_starts 0 es c i R L (or_introl eq_refl)) as (c1 & x & S & _ & _ & L1). exists [EStart; ERead]. cbn [run]. rewrite S.
    assert (E1 : l_in c1 = m :: r). { cbn [step] in S. rewrite L in S. destruct (nth_error (l_sess c) i); [|discriminate]. destruct (free 0 (l_sess c)); [|discriminate]. injection S as <-. exact E. }
    cbn [step]. rewrite L1, E1. destruct m; eexists; (split; [reflexivity|]); cbn; split; auto.
Qed.

Example C129_case : exists c, run 2 l_new [ESend LOpen; ESend LOpen; ESend LOpen; ERead; EStart; ERead; EStart; ERead; ESend (LPay 0 true)] = Some c /\ l_loop c = LSubmit 2 /\ running (l_sess c) = 2 /\
  (exists c1, run 2 c [EEnd 1; EStart; ERead; ETake 0] = Some c1 /\ delivered c1 0 = Some ([true], false)).
Proof. eexists. split; [reflexivity|]. split; [reflexivity|]. split; [reflexivity|]. eexists. split; reflexivity. Qed.
Print Assumptions C129_limit.
Print Assumptions C129_starts.
Print Assumptions C129_server.
Print Assumptions C129_server_refuted.
Print Assumptions C129_held.
Print Assumptions C129_stuck.
Print Assumptions C129_refuted.
Print Assumptions C129_unlimited.
