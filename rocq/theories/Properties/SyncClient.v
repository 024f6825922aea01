(** C44 and C69: concurrent calls of a synchronous client (Model/SyncClient.v). *)
From Coq Require Import Lia List.
Import ListNotations.
From Verif.Model Require Import Base Client SyncClient.
From Verif.Proofs Require Import ClientProofs SyncClientProofs.
Open Scope list_scope. Open Scope Z_scope.

(** ** C44: a call returns only a payload that arrived with its request id. *)
Theorem C44_own_response es s i c d :
  yrun newSync es s -> nth_error (y_calls s) i = Some c -> k_st c = KDone (ROk d) ->
  exists p, In p (y_log s) /\ p_req p = k_req c /\ p_data p = d.
Proof. intros R Hc K. destruct (yi_calls _ (yinv_run _ _ R) _ _ Hc) as [_ B _ _ _]. rewrite K in B. apply B. Qed.
Print Assumptions C44_own_response.

(** Different calls have different request ids (fewer than 2^32 calls). *)
Theorem C44_unique_request_ids es s i c i' c' :
  yrun newSync es s -> Z.of_nat (length (y_calls s)) < 2 ^ 32 ->
  nth_error (y_calls s) i = Some c -> nth_error (y_calls s) i' = Some c' -> k_reg c = true -> k_reg c' = true ->
  k_req c = k_req c' -> i = i'.
Proof. intros R W. apply (yq_inj _ (yq_run _ _ R W)). Qed.
Print Assumptions C44_unique_request_ids.

(** The server's loop answers requests in order, each with the handler's result for its data and
    its request id, up to the first error. *)
Theorem C44_server_loop h reqs :
  exists done rest, reqs = done ++ rest /\
    map (fun p => (p_req p, h (p_data p))) done = map (fun a => (fst a, Some (snd a))) (fst (runSync h reqs)) /\
    (snd (runSync h reqs) = false -> rest = []) /\
    (snd (runSync h reqs) = true -> exists p q, rest = p :: q /\ h (p_data p) = None).
Proof.
  induction reqs as [|p q IH]; cbn.
  - exists [], []. repeat split; auto. discriminate.
  - destruct (h (p_data p)) as [r|] eqn:E.
    + destruct IH as (dn & rest & H1 & H2 & H3 & H4). destruct (runSync h q) as (l, e). cbn in *.
      exists (p :: dn), rest. cbn. rewrite H2, E, H1. auto.
    + exists [], (p :: q). cbn. repeat split; auto; [discriminate|]. eauto.
Qed.
Print Assumptions C44_server_loop.

(** End to end: when the payloads that arrive are answers of the server's loop to requests of this
    client, a call that returns a payload returns the handler's result for its own argument. *)
Theorem C44_end_to_end es s h reqs i c d :
  yrun newSync es s -> Z.of_nat (length (y_calls s)) < 2 ^ 32 ->
  (forall q, In q reqs -> In (p_req q, p_data q) (y_up s)) ->
  (forall p, In p (y_log s) -> In (p_req p, p_data p) (fst (runSync h reqs))) ->
  nth_error (y_calls s) i = Some c -> k_st c = KDone (ROk d) -> h (k_arg c) = Some d.
Proof.
  intros R W U L Hc K. assert (Q := yq_run _ _ R W). assert (I := yinv_run _ _ R).
  destruct (yi_calls _ I _ _ Hc) as [_ B _ _ _]. rewrite K in B. destruct B as (RG & p & LP & P1 & P2).
  specialize (L _ LP).
  assert (A : forall r x, In (r, x) (fst (runSync h reqs)) -> exists q, In q reqs /\ p_req q = r /\ h (p_data q) = Some x).
  { clear. induction reqs as [|a l IH]; cbn; [contradiction|]. intros r x. destruct (h (p_data a)) eqn:E; cbn; [|contradiction].
    destruct (runSync h l) as (m, e). cbn in *. intros [Q|Q].
    - injection Q as <- <-. exists a. auto.
    - destruct (IH _ _ Q) as (q & ? & ?). eauto. }
  destruct (A _ _ L) as (q & IQ & E1 & E2). specialize (U _ IQ). destruct (yq_up _ Q _ _ U) as (j & x & X1 & X2 & X3 & X4).
  assert (j = i) as -> by (apply (yq_inj _ Q _ _ _ _ X1 Hc); auto; congruence).
  rewrite Hc in X1. injection X1 as <-. rewrite X4, E2. congruence.
Qed.
Print Assumptions C44_end_to_end.

(** No response is lost: one that arrived after the call got its id and while it waits is still in
    the channel, in the hands of a call that is about to forward it, or in the call's own channel
    there is a response. *)
Theorem C44_not_lost es s i c p :
  yrun newSync es s -> Z.of_nat (length (y_calls s)) < 2 ^ 32 ->
  nth_error (y_calls s) i = Some c -> k_st c = KWait -> In p (skipn (k_from c) (y_log s)) -> p_req p = k_req c ->
  In p (y_recv s) \/ (exists j c', nth_error (y_calls s) j = Some c' /\ k_st c' = KTook p) \/ k_resp c <> None.
Proof. intros R W Hc K. apply (yq_kept _ (yq_run _ _ R W) i); auto. unfold waiting. rewrite K. auto. Qed.
Print Assumptions C44_not_lost.

(** Two concurrent calls; the first takes the second's response and hands it over. *)
Example C44_example : exists es s c0 c1, yrun newSync es s /\ y_calls s = [c0; c1] /\
  k_st c0 = KDone (ROk [10]) /\ k_st c1 = KDone (ROk [20]) /\ y_up s = [(0, [1]); (1, [2])] /\ y_pending s = [].
Proof.
  assert (R := yr_refl newSync).
  assert (R1 := yr_step _ _ _ _ _ R (Y_Call _ [1])). vm_compute in R1.
  assert (R2 := yr_step _ _ _ _ _ R1 (Y_Call _ [2])). vm_compute in R2.
  assert (R3 := yr_step _ _ _ _ _ R2 ltac:(eapply (Y_Register _ 0%nat); reflexivity)). vm_compute in R3.
  assert (R4 := yr_step _ _ _ _ _ R3 ltac:(eapply (Y_Register _ 1%nat); reflexivity)). vm_compute in R4.
  assert (R5 := yr_step _ _ _ _ _ R4 ltac:(eapply (Y_Send _ 0%nat); reflexivity)). vm_compute in R5.
  assert (R6 := yr_step _ _ _ _ _ R5 ltac:(eapply (Y_Send _ 1%nat); reflexivity)). vm_compute in R6.
  assert (R7 := yr_step _ _ _ _ _ R6 ltac:(apply (Y_Arrive _ (mkP 1 [20] false)); reflexivity)). vm_compute in R7.
  assert (R8 := yr_step _ _ _ _ _ R7 ltac:(eapply (Y_Take _ 0%nat); reflexivity)). vm_compute in R8.
  assert (R9 := yr_step _ _ _ _ _ R8 ltac:(eapply (Y_Forward _ 0%nat); reflexivity)). vm_compute in R9.
  assert (R10 := yr_step _ _ _ _ _ R9 ltac:(apply (Y_Arrive _ (mkP 0 [10] false)); reflexivity)). vm_compute in R10.
  assert (R11 := yr_step _ _ _ _ _ R10 ltac:(eapply (Y_Take _ 0%nat); reflexivity)). vm_compute in R11.
  assert (R12 := yr_step _ _ _ _ _ R11 ltac:(eapply (Y_Resp _ 1%nat); reflexivity)). vm_compute in R12.
  assert (R13 := yr_step _ _ _ _ _ R12 ltac:(eapply (Y_Leave _ 0%nat); reflexivity)). vm_compute in R13.
  assert (R14 := yr_step _ _ _ _ _ R13 ltac:(eapply (Y_Leave _ 1%nat); reflexivity)). vm_compute in R14.
  eexists _, _, _, _. split; [exact R14|]. cbn. repeat split.
Qed.

(** ** C69: after the server ended the session, waiting and later calls return an error.
    Refuted: a call can crash the program. *)
Theorem C69_crash_refuted :
  exists es s c0 c1, yrun newSync es s /\ y_calls s = [c0; c1] /\ ~ In YCtx es /\ y_conn s = false /\
    k_st c0 = KDone RErr /\ k_st c1 = KDone RCrash.
Proof.
  assert (R := yr_refl newSync).
  assert (R1 := yr_step _ _ _ _ _ R (Y_Call _ [1])). vm_compute in R1.
  assert (R2 := yr_step _ _ _ _ _ R1 ltac:(eapply (Y_Register _ 0%nat); reflexivity)). vm_compute in R2.
  assert (R3 := yr_step _ _ _ _ _ R2 ltac:(eapply (Y_Send _ 0%nat); reflexivity)). vm_compute in R3.
  assert (R4 := yr_step _ _ _ _ _ R3 ltac:(apply (Y_SrvClose _ 7); reflexivity)). vm_compute in R4.
  assert (R5 := yr_step _ _ _ _ _ R4 ltac:(eapply (Y_Closed _ 0%nat); reflexivity)). vm_compute in R5.
  assert (R6 := yr_step _ _ _ _ _ R5 ltac:(eapply (Y_Leave _ 0%nat); reflexivity)). vm_compute in R6.
  assert (R7 := yr_step _ _ _ _ _ R6 (Y_Call _ [2])). vm_compute in R7.
  assert (R8 := yr_step _ _ _ _ _ R7 ltac:(eapply (Y_Register _ 1%nat); reflexivity)). vm_compute in R8.
  assert (R9 := yr_step _ _ _ _ _ R8 ltac:(eapply (Y_Send _ 1%nat); reflexivity)). vm_compute in R9.
  assert (R10 := yr_step _ _ _ _ _ R9 ltac:(eapply (Y_TakeClosed _ 1%nat); reflexivity)). vm_compute in R10.
  assert (R11 := yr_step _ _ _ _ _ R10 ltac:(eapply (Y_Leave _ 1%nat); reflexivity)). vm_compute in R11.
  eexists _, _, _, _. split; [exact R11|]. cbn. repeat split. intuition discriminate.
Qed.
Print Assumptions C69_crash_refuted.

(** In that situation the crash is certain, unless the call's context or the connection ends
    first: every step that moves the waiting call makes it crash. *)
Theorem C69_crash_certain s e s' i c c' :
  ystep s e s' -> nth_error (y_calls s) i = Some c -> k_st c = KWait -> k_resp c = None ->
  y_recv s = [] -> y_recv_closed s = true -> y_close s = None -> y_conn s = false -> y_cancel s = false ->
  e <> YCtx -> nth_error (y_calls s') i = Some c' -> k_st c' = KWait \/ k_st c' = KLeave RCrash.
Proof.
  intros ST Hc K KR E1 E2 E3 E4 E5 NC Hc'.
  assert (P : forall j f, nth_error (put_at (y_calls s) j f) i = Some c' -> (j <> i /\ c' = c) \/ (j = i /\ c' = f c)).
  { intros j f. rewrite put_at_nth, Hc. cbn. destruct (Nat.eqb_spec i j); intros Q; injection Q as <-; auto. }
  destruct ST; cbn in Hc'; try congruence;
    try (rewrite Hc' in Hc; injection Hc as ->; auto; fail);
    try (destruct (P _ _ Hc') as [(_ & ->)|(-> & ->)]; auto; rewrite Hc in H; injection H as ->; congruence).
  - rewrite nth_error_app1 in Hc'; [|apply nth_error_Some; congruence]. rewrite Hc' in Hc. injection Hc as ->. auto.
  - unfold y_register in Hc'. destruct (y_closed s); cbn -[Z.pow put] in Hc';
      (destruct (P _ _ Hc') as [(_ & ->)|(-> & ->)]; auto; rewrite Hc in H; injection H as ->; congruence).
  - unfold y_forward in Hc'. destruct (find (p_req p) (y_pending s)) as [j|]; cbn in Hc'.
    + rewrite put_at_nth, put_at_nth, Hc in Hc'. cbn in Hc'. destruct (Nat.eqb i j), (Nat.eqb i i0); cbn in Hc'; injection Hc' as <-; auto.
    + destruct (P _ _ Hc') as [(_ & ->)|(-> & ->)]; auto.
Qed.
Print Assumptions C69_crash_certain.

(** What holds: no call crashes as long as the receive channel is open, that is, until the server
    ends the session or the connection is closed. *)
Theorem C69_open_session_partial es s i c :
  yrun newSync es s -> ~ In YEnd es -> nth_error (y_calls s) i = Some c -> k_st c <> KDone RCrash.
Proof.
  intros R N Hc K. destruct (yi_calls _ (yinv_run _ _ R) _ _ Hc) as [_ _ _ _ B]. rewrite K in B.
  enough (y_recv_closed s = false) by congruence. clear - R N. remember newSync as s0 eqn:E.
  induction R as [|s0 es s1 e s2 R IH ST]; subst; auto. rewrite in_app_iff in N. cbn in N.
  assert (F : y_recv_closed s1 = false) by (apply IH; auto). assert (NE : e <> YEnd) by (intros ->; tauto). clear IH N.
  destruct ST; auto; try congruence.
  - unfold y_register. destruct (y_closed s); auto.
  - unfold y_forward. destruct (find _ _); auto.
Qed.
Print Assumptions C69_open_session_partial.
