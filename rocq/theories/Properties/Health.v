(** C87: health checks. *)
From Coq Require Import ZArith List Lia.
Import ListNotations.
From Verif.Model Require Import Base Health.
From Verif.Spec Require Import Health.
From Verif.Proofs Require Import HealthProofs.
Open Scope Z_scope.

(** ** C87: a health check reports the status in force *)
(** Whatever calls of Check and SetServingStatus run at the same time: a call of Check that the connection
    does not break ends with the status that was in force at a moment between its beginning and its end. *)
Theorem C87_check s t1 i k t2 r t3 :
  hrun hstart (t1 ++ HCall i k :: t2 ++ HReturn i r :: t3) s -> Forall sensible (t1 ++ HCall i k :: t2 ++ HReturn i r :: t3) ->
  Forall (fun e => ~ begins i e) t2 ->
  exists a b st, t2 = a ++ b /\ in_force (t1 ++ HCall i k :: a) k st /\ r = Ok st.
Proof. intros R S N. eapply check_result; eassumption. Qed.
(** If no status of the service is set in the meantime, it is the one in force. *)
Theorem C87_check_quiet s t1 i k t2 r t3 st :
  hrun hstart (t1 ++ HCall i k :: t2 ++ HReturn i r :: t3) s -> Forall sensible (t1 ++ HCall i k :: t2 ++ HReturn i r :: t3) ->
  Forall (fun e => ~ begins i e) t2 -> (forall st', ~ In (HSet k st') t2) -> in_force t1 k st -> r = Ok st.
Proof.
  intros R S N Q F. destruct (check_result s t1 i k t2 r t3 S R N) as (a & b & st' & -> & F' & ->). f_equal.
  assert (NA : forall st', ~ In (HSet k st') (HCall i k :: a)) by (intros x [X|X]; [discriminate X|apply (Q x), in_or_app; left; exact X]).
  assert (G : in_force (t1 ++ HCall i k :: a) k st).
  { destruct F as [(u & v & -> & V)|[V ->]].
    - left. exists u, (v ++ HCall i k :: a). split; [rewrite <- app_assoc; reflexivity|]. intros x X. apply in_app_or in X. destruct X as [X|X]; [exact (V x X)|exact (NA x X)].
    - right. split; [|reflexivity]. intros x X. apply in_app_or in X. destruct X as [X|X]; [exact (V x X)|exact (NA x X)]. }
  exact (in_force_one _ _ _ _ F' G).
Qed.
(** The same for ServingStatus on the server. *)
Theorem C87_serving_status s t1 k st t2 : hrun hstart (t1 ++ HGet k st :: t2) s -> Forall sensible (t1 ++ HGet k st :: t2) -> in_force t1 k st.
Proof. intros R S. eapply get_result; eassumption. Qed.
(** A call that has begun can always take a further step. *)
Theorem C87_goes_on s tr i p : hrun hstart tr s -> Forall sensible tr -> hfind i s.(hs_calls) = Some p ->
  exists e s', of_call i e /\ (forall j, e <> HBroken j) /\ hstep s e s'.
Proof. intros R S H. eapply call_goes_on; eassumption. Qed.

Lemma returns s i b r : hfind i s.(hs_calls) = Some (Answered b) -> responded b = r -> hstep s (HReturn i r) (hend i s).
Proof. intros H <-. apply hs_return. exact H. Qed.
(** A status is set while a check is on its way. *)
Example check_case : exists s,
  let tr := [HSet [97] NotServing; HCall 0 [97]; HCall 1 []; HSet [97] Serving; HLook 0; HLook 1; HSet [97] Unknown; HAnswer 0; HAnswer 1; HReturn 1 (Ok Serving); HReturn 0 (Ok Serving)] in
  hrun hstart tr s /\ Forall sensible tr /\ in_force (firstn 4 tr) [97] Serving.
Proof.
  eexists. split; [|split].
  - repeat (eapply hr_cons; [first [apply hs_set|apply hs_call; [reflexivity|vm_compute; reflexivity]|eapply hs_look; [reflexivity|vm_compute; reflexivity]|eapply hs_answer; [reflexivity|vm_compute; reflexivity]|
      eapply returns; [reflexivity|vm_compute; reflexivity]]|]). apply hr_nil.
  - repeat (apply Forall_cons; [first [exact I|solve [unfold sensible, Unknown, Serving, NotServing; lia]|split; [repeat (apply Forall_cons; [lia|]); apply Forall_nil|cbn; lia]]|]); apply Forall_nil.
  - left. exists [HSet [97] NotServing; HCall 0 [97]; HCall 1 []], []. split; [reflexivity|intros st' []].
Qed.

Print Assumptions C87_check.
Print Assumptions C87_check_quiet.
Print Assumptions C87_serving_status.
Print Assumptions C87_goes_on.
