(** C147: closing a client connection ends everything on it (Model/Client.v; the words are in Spec/ClientClose.v). *)
From Coq Require Import Lia List.
Import ListNotations.
From Verif.Model Require Import Base Compress Client.
From Verif.Spec Require Import Delivery ClientClose.
From Verif.Proofs Require Import ClientClose.
Open Scope list_scope. Open Scope Z_scope.

(** Close is final: whatever happens afterwards, the connection is closed, no session is made, and no call that had not looked
    at the connection when it was closed, or starts later, gets a session or waits for one. *)
Theorem C147_final reg mr s es s' : c_closed s = true -> crun reg mr s es s' ->
  c_closed s' = true /\ length (c_objs s') = length (c_objs s) /\ forall i, without_session s i -> without_session s' i.
Proof. exact (closed_run reg mr s es s'). Qed.
(** Close closes, in one step, from every state, and a second Close changes nothing. *)
Theorem C147_close reg mr s : cstep reg mr s ECloseUser (Close s) /\ c_closed (Close s) = true /\ Close (Close s) = Close s.
Proof.
  split; [constructor|]. assert (C : c_closed (Close s) = true) by (destruct (ClientProofs.Close_fields s) as (_ & _ & _ & _ & _ & _ & _ & _ & _ & _ & _ & E & _); exact E).
  split; [exact C|]. unfold Close at 1. rewrite C. reflexivity.
Qed.
(** The user of every session of a closed connection is told, if the server gives no id twice. *)
Theorem C147_told_partial reg mr es s i o x : crun reg mr New es s -> c_closed s = true -> fair_ids s -> given s i o x -> told s o x.
Proof. exact (told_all reg mr es s i o x). Qed.
(** The calls that are opening a session can return at once, without anything from the server. *)
Theorem C147_opens_return reg mr s i : c_closed s = true -> running s i ->
  exists es' s', crun reg mr s es' s' /\ (length es' <= 2)%nat /\ nth_error (c_openers s') i = Some OErr.
Proof. exact (opens_return reg mr s i). Qed.
(** The read loop can end at once, wherever it is, without reading another message; nobody else needs to do anything. *)
Theorem C147_reader_ends reg mr es s : crun reg mr New es s -> c_closed s = true -> exists es' s', crun reg mr s es' s' /\ (length es' <= 3)%nat /\
  c_reader s' = RDone /\ c_log s' = c_log s /\ c_openers s' = c_openers s /\ c_graceful s' = c_graceful s.
Proof. exact (reader_ends reg mr es s). Qed.
(** And then the channel of every session is closed, so that its receivers end. *)
Theorem C147_receivers_end_partial reg mr es s i o x : crun reg mr New es s -> c_reader s = RDone -> fair_ids s -> given s i o x -> so_recv_closed x = true.
Proof. exact (receivers_end reg mr es s i o x). Qed.
(** When the read loop has ended no call gets a session that had not got that far, even where nobody has closed the connection. *)
Theorem C147_stopped reg mr s es s' i o : c_reader s = RDone -> without_session s i -> crun reg mr s es s' -> nth_error (c_openers s') i <> Some (OGot o).
Proof. exact (stopped reg mr s es s' i o). Qed.

(** ** Cases *)
(** A session is open, another call waits for its answer, a third has not begun; then Close. *)
Example C147_case : exists es s x, crun [] 0 New es s /\ c_closed s = true /\ given s 0 0 x /\ so_cancel x = true /\ so_recv_closed x = false /\
  fair_ids s /\ running s 1 /\ without_session s 2 /\ c_reader s = RTop.
Proof.
  assert (R1 := cr_step _ _ _ _ _ _ _ (cr_refl [] 0 New) (S_Open [] 0 _)). vm_compute in R1.
  assert (R2 := cr_step _ _ _ _ _ _ _ R1 ltac:(apply (S_Register [] 0 _ 0%nat); reflexivity)). vm_compute in R2.
  assert (R3 := cr_step _ _ _ _ _ _ _ R2 ltac:(eapply (S_Sent [] 0 _ 0%nat); reflexivity)). vm_compute in R3.
  assert (R4 := cr_step _ _ _ _ _ _ _ R3 ltac:(apply (S_Read [] 0 _ (MOpenAck 0 1 true)); reflexivity)). vm_compute in R4.
  assert (R5 := cr_step _ _ _ _ _ _ _ R4 ltac:(eapply (S_Ready [] 0 _ 0%nat); reflexivity)). vm_compute in R5.
  assert (R6 := cr_step _ _ _ _ _ _ _ R5 (S_Open [] 0 _)). vm_compute in R6.
  assert (R7 := cr_step _ _ _ _ _ _ _ R6 ltac:(apply (S_Register [] 0 _ 1%nat); reflexivity)). vm_compute in R7.
  assert (R8 := cr_step _ _ _ _ _ _ _ R7 ltac:(eapply (S_Sent [] 0 _ 1%nat); reflexivity)). vm_compute in R8.
  assert (R9 := cr_step _ _ _ _ _ _ _ R8 (S_Open [] 0 _)). vm_compute in R9.
  assert (R10 := cr_step _ _ _ _ _ _ _ R9 (S_Close [] 0 _)). vm_compute in R10.
  eexists _, _, _. split; [exact R10|]. split; [reflexivity|]. split; [split; reflexivity|]. split; [reflexivity|]. split; [reflexivity|].
  split; [split; [repeat constructor; cbn; tauto|cbn; lia]|]. split; [|split; [right; left; reflexivity|reflexivity]].
  eexists. split; [reflexivity|]. split; [discriminate|intros o; discriminate].
Qed.

(** ** What is not true *)
(** Without the premise on the ids: the server gives one id to two sessions; the first is then in no table, and after Close and
    the end of the read loop its user still waits for a channel that nobody closes. *)
Definition all_told : Prop := forall es s i o x, crun [] 0 New es s -> c_closed s = true -> c_reader s = RDone -> given s i o x -> told s o x.
Theorem C147_told_refuted : ~ all_told.
Proof.
  intros A.
  assert (R1 := cr_step _ _ _ _ _ _ _ (cr_refl [] 0 New) (S_Open [] 0 _)). vm_compute in R1.
  assert (R2 := cr_step _ _ _ _ _ _ _ R1 ltac:(apply (S_Register [] 0 _ 0%nat); reflexivity)). vm_compute in R2.
  assert (R3 := cr_step _ _ _ _ _ _ _ R2 ltac:(eapply (S_Sent [] 0 _ 0%nat); reflexivity)). vm_compute in R3.
  assert (R4 := cr_step _ _ _ _ _ _ _ R3 ltac:(apply (S_Read [] 0 _ (MOpenAck 0 1 true)); reflexivity)). vm_compute in R4.
  assert (R5 := cr_step _ _ _ _ _ _ _ R4 ltac:(eapply (S_Ready [] 0 _ 0%nat); reflexivity)). vm_compute in R5.
  assert (R6 := cr_step _ _ _ _ _ _ _ R5 (S_Open [] 0 _)). vm_compute in R6.
  assert (R7 := cr_step _ _ _ _ _ _ _ R6 ltac:(apply (S_Register [] 0 _ 1%nat); reflexivity)). vm_compute in R7.
  assert (R8 := cr_step _ _ _ _ _ _ _ R7 ltac:(apply (S_Read [] 0 _ (MOpenAck 1 1 true)); reflexivity)). vm_compute in R8.
  assert (R9 := cr_step _ _ _ _ _ _ _ R8 (S_Close [] 0 _)). vm_compute in R9.
  assert (R10 := cr_step _ _ _ _ _ _ _ R9 ltac:(apply S_Stop; reflexivity)). vm_compute in R10.
  assert (R11 := cr_step _ _ _ _ _ _ _ R10 ltac:(apply S_Exit; reflexivity)). vm_compute in R11.
  destruct (A _ _ 0%nat 0%nat _ R11 eq_refl eq_refl (conj eq_refl eq_refl)) as [Q|[Q|(c & Q)]]; discriminate.
Qed.
(** When the context of the connection ends the read loop ends, and the connection is not closed: a call is still taken, sent and left waiting. *)
Definition stopped_closed : Prop := forall es s, crun [] 0 New es s -> c_reader s = RDone -> c_closed s = true.
Theorem C147_stopped_refuted : ~ stopped_closed /\
  exists es s, crun [] 0 New es s /\ c_reader s = RDone /\ c_closed s = false /\ c_draining s = false /\ nth_error (c_openers s) 0 = Some (OWait 0 0%nat).
Proof.
  assert (R1 := cr_step _ _ _ _ _ _ _ (cr_refl [] 0 New) ltac:(apply S_Stop; reflexivity)). vm_compute in R1.
  assert (R2 := cr_step _ _ _ _ _ _ _ R1 ltac:(apply S_Exit; reflexivity)). vm_compute in R2.
  split; [intros A; specialize (A _ _ R2 eq_refl); discriminate|].
  assert (R3 := cr_step _ _ _ _ _ _ _ R2 (S_Open [] 0 _)). vm_compute in R3.
  assert (R4 := cr_step _ _ _ _ _ _ _ R3 ltac:(apply (S_Register [] 0 _ 0%nat); reflexivity)). vm_compute in R4.
  assert (R5 := cr_step _ _ _ _ _ _ _ R4 ltac:(eapply (S_Sent [] 0 _ 0%nat); reflexivity)). vm_compute in R5.
  eexists _, _. split; [exact R5|]. repeat split.
Qed.

Print Assumptions C147_final.
Print Assumptions C147_close.
Print Assumptions C147_told_partial.
Print Assumptions C147_opens_return.
Print Assumptions C147_reader_ends.
Print Assumptions C147_receivers_end_partial.
Print Assumptions C147_stopped.
Print Assumptions C147_told_refuted.
Print Assumptions C147_stopped_refuted.
