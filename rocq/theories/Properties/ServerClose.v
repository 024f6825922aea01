(** C148: closing a server connection ends the handlers on it (Model/ServerConn.v; the words are in Spec/ServerClose.v). *)
From Coq Require Import Lia List.
Import ListNotations.
From Verif.Model Require Import Base Compress Client ServerConn.
From Verif.Spec Require Import ServerClose.
From Verif.Proofs Require Import ServerConnProofs ServerClose.
Open Scope list_scope. Open Scope Z_scope.

(** Close closes, in one step, from every state; the connection stays closed; a second Close changes nothing. *)
Theorem C148_close reg mr s : sstep reg mr s VEOther (v_Close s) /\ v_Close (v_Close s) = v_Close s /\
  forall es s', srun reg mr (v_Close s) es s' -> v_closed s' = true.
Proof.
  assert (C : v_closed (v_Close s) = true) by (destruct (v_Close_fields s) as (_ & _ & _ & _ & _ & _ & _ & _ & _ & _ & E & _); exact E).
  split; [constructor|]. split; [unfold v_Close at 1; rewrite C; reflexivity|].
  intros es s' R. induction R as [|s0 es s1 e s2 R IH ST]; auto. eapply closed_mono; eauto.
Qed.
(** From the moment of Close, every handler of a session opened before Close that has not returned is told, whatever happens afterwards. *)
Theorem C148_told reg mr es s es' s' o x : srun reg mr newServerConn es s -> v_closed s = false -> srun reg mr (v_Close s) es' s' -> few s' ->
  (o < length (v_objs s))%nat -> nth_error (v_objs s') o = Some x -> alive x -> told s' o x.
Proof. intros R C R' W N Hx L. apply (all_told reg mr es s es' s' o x); auto. Qed.
(** Once the read loop has ended, for any reason, every handler that has not returned finds its requests at an end, those of sessions made after Close included. *)
Theorem C148_requests_end reg mr es s o x : srun reg mr newServerConn es s -> few s -> v_reader s = VDone ->
  nth_error (v_objs s) o = Some x -> alive x -> ss_recv_closed x = true.
Proof. exact (requests_end reg mr es s o x). Qed.
(** After Close the read loop can end within four steps, without reading another message, wherever it is and however full the
    queues are.  The premise is about a request in the read loop's hands: its session is one from before Close.  The code reads at
    most one more message after Close, so it has no other; the model is coarser. *)
Theorem C148_reader_ends reg mr es s es' s' : srun reg mr newServerConn es s -> v_closed s = false -> srun reg mr (v_Close s) es' s' -> few s' ->
  (forall o p, v_reader s' = VPayload o p -> (o < length (v_objs s))%nat) ->
  exists es2 s2, srun reg mr s' es2 s2 /\ (length es2 <= 4)%nat /\ v_reader s2 = VDone /\ v_log s2 = v_log s'.
Proof. exact (reader_ends reg mr es s es' s'). Qed.

(** Every handler of a closed connection is cancelled: false.  handleOpen does not look at whether the connection is closed. *)
Theorem C148_cancelled_refuted : ~ (forall reg mr es s es' s' o x, srun reg mr newServerConn es s -> v_closed s = false ->
  srun reg mr (v_Close s) es' s' -> v_reader s' = VDone -> nth_error (v_objs s') o = Some x -> alive x -> ss_cancel x = true).
Proof.
  intros A. pose (reg0 := [] : creg).
  set (s1 := v_dispatch reg0 0 (v_with_log newServerConn [COpen 1 true]) (COpen 1 true)).
  set (s2 := v_create (v_Close s1)). set (s3 := v_with_reader s2 VTop). set (s4 := v_upd s3 0 (ss_to HRun)). set (s5 := v_with_reader s4 VExit).
  assert (R : srun reg0 0 newServerConn [VEOther] s1).
  { apply r1. exact (V_Read reg0 0 newServerConn (COpen 1 true) eq_refl). }
  assert (R' : exists es' s', srun reg0 0 (v_Close s1) es' s' /\ v_reader s' = VDone /\ exists x, nth_error (v_objs s') 0 = Some x /\ alive x /\ ss_cancel x = false).
  { eexists _, _. split; [|split; [|eexists; split; [|split; [right|]]]].
    - eapply r_cat; [apply r1; apply (V_Create reg0 0 (v_Close s1)); reflexivity|]. eapply r_cat; [apply r1; eapply (V_Submit reg0 0 s2); reflexivity|].
      eapply r_cat; [apply r1; eapply (V_HStart reg0 0 s3 0); [reflexivity|reflexivity|discriminate]|].
      eapply r_cat; [apply r1; apply (V_Stop reg0 0 s4); reflexivity|]. apply r1, (V_Exit reg0 0 s5). reflexivity.
    - reflexivity.
    - reflexivity.
    - reflexivity.
    - reflexivity. }
  destruct R' as (es' & s' & R' & D & x & Hx & L & C).
  rewrite (A reg0 0 _ s1 es' s' 0%nat x R eq_refl R' D Hx L) in C. discriminate.
Qed.

(** The hypotheses are met: a handler that runs, with a request in its queue, when the connection is closed. *)
Definition c148_p : wpayload := mkWP 1 1 [7] false 0.
Example C148_case : exists es s x, srun [] 0 newServerConn es s /\ v_closed s = false /\ few s /\ nth_error (v_objs s) 0 = Some x /\ ss_h x = HRun /\
  length (ss_recv x) = 1%nat /\ ss_cancel x = false /\
  exists y, nth_error (v_objs (v_Close s)) 0 = Some y /\ alive y /\ ss_cancel y = true.
Proof.
  eexists _, _, _. split; [|split; [|split; [|split; [|split; [|split; [|split; [|eexists; split; [|split; [right|]]]]]]]]].
  - eapply r_cat; [apply r1; exact (V_Read [] 0 newServerConn (COpen 1 true) eq_refl)|].
    eapply r_cat; [apply r1; apply V_Create; reflexivity|]. eapply r_cat; [apply r1; eapply V_Submit; reflexivity|].
    eapply r_cat; [apply r1; eapply (V_HStart _ _ _ 0); [reflexivity|reflexivity|discriminate]|].
    eapply r_cat; [apply r1; eapply (V_Read _ _ _ (CPayload c148_p)); reflexivity|].
    apply r1. eapply V_Deliver; [reflexivity|reflexivity|cbn; lia].
  - reflexivity.
  - reflexivity.
  - reflexivity.
  - reflexivity.
  - reflexivity.
  - reflexivity.
  - reflexivity.
  - reflexivity.
  - reflexivity.
Qed.

Print Assumptions C148_close.
Print Assumptions C148_told.
Print Assumptions C148_requests_end.
Print Assumptions C148_reader_ends.
Print Assumptions C148_cancelled_refuted.
