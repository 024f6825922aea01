(** C39, C40, C41, C43, C45, C47, C68 for a server connection (Model/ServerConn.v). *)
From Coq Require Import Lia List.
Import ListNotations.
From Verif.Model Require Import Base Compress Client ServerConn.
From Verif.Spec Require Import Delivery.
From Verif.Proofs Require Import ClientProofs ClientDelivery ServerConnProofs ServerDelivery.
Open Scope list_scope. Open Scope Z_scope.

(** ** C39: no send on a closed channel, no double close, no negative WaitGroup counter. *)
Theorem C39_server_no_panic reg mr es s : srun reg mr newServerConn es s -> v_panic s = false.
Proof. intros R. apply (v_pan _ (sinv_run _ _ _ _ R)). Qed.
Print Assumptions C39_server_no_panic.

(** A run with a session that gets a payload and is cancelled while its handler finishes, and one
    that is still open when the connection breaks. *)
Example C39_example : exists es s x y, srun [] 0 newServerConn es s /\ v_objs s = [x; y] /\ v_reader s = VDone /\
  ss_recv_closed x = true /\ ss_h x = HDone /\ ss_out x = [mkP 0 [7] false] /\ ss_recv_closed y = true /\ ss_h y = HRun /\ v_active s = 1.
Proof.
  assert (R := sr_refl [] 0 newServerConn).
  assert (R1 := sr_step _ _ _ _ _ _ _ R ltac:(apply (V_Read [] 0 _ (COpen 0 true)); reflexivity)). vm_compute in R1.
  assert (R2 := sr_step _ _ _ _ _ _ _ R1 ltac:(apply (V_Create [] 0); reflexivity)). vm_compute in R2.
  assert (R3 := sr_step _ _ _ _ _ _ _ R2 ltac:(eapply (V_Submit [] 0); reflexivity)). vm_compute in R3.
  assert (R4 := sr_step _ _ _ _ _ _ _ R3 ltac:(apply (V_Read [] 0 _ (COpen 1 true)); reflexivity)). vm_compute in R4.
  assert (R5 := sr_step _ _ _ _ _ _ _ R4 ltac:(apply (V_Create [] 0); reflexivity)). vm_compute in R5.
  assert (R6 := sr_step _ _ _ _ _ _ _ R5 ltac:(eapply (V_Submit [] 0); reflexivity)). vm_compute in R6.
  assert (R7 := sr_step _ _ _ _ _ _ _ R6 ltac:(apply (V_Read [] 0 _ (CPayload (mkWP 1 0 [7] false 0))); reflexivity)). vm_compute in R7.
  assert (R8 := sr_step _ _ _ _ _ _ _ R7 ltac:(eapply (V_Deliver [] 0); cbn; [reflexivity|reflexivity|cbn; lia])). vm_compute in R8.
  assert (R9 := sr_step _ _ _ _ _ _ _ R8 ltac:(eapply (V_HStart [] 0 _ 0%nat); [reflexivity|reflexivity|discriminate])). vm_compute in R9.
  assert (R10 := sr_step _ _ _ _ _ _ _ R9 ltac:(eapply (V_HStart [] 0 _ 1%nat); [reflexivity|reflexivity|discriminate])). vm_compute in R10.
  assert (R11 := sr_step _ _ _ _ _ _ _ R10 ltac:(eapply (V_Consume [] 0 _ 0%nat); reflexivity)). vm_compute in R11.
  assert (R12 := sr_step _ _ _ _ _ _ _ R11 ltac:(apply (V_Read [] 0 _ (CCancel 1 0)); reflexivity)). vm_compute in R12.
  assert (R13 := sr_step _ _ _ _ _ _ _ R12 ltac:(eapply (V_HDelete [] 0 _ 0%nat); reflexivity)). vm_compute in R13.
  assert (R14 := sr_step _ _ _ _ _ _ _ R13 ltac:(eapply (V_CloseCh [] 0); reflexivity)). vm_compute in R14.
  assert (R15 := sr_step _ _ _ _ _ _ _ R14 ltac:(eapply (V_HDone [] 0 _ 0%nat); reflexivity)). vm_compute in R15.
  assert (R16 := sr_step _ _ _ _ _ _ _ R15 ltac:(apply (V_ReadErr [] 0 _ 5); reflexivity)). vm_compute in R16.
  assert (R17 := sr_step _ _ _ _ _ _ _ R16 ltac:(apply (V_FatalClose [] 0); reflexivity)). vm_compute in R17.
  assert (R18 := sr_step _ _ _ _ _ _ _ R17 ltac:(apply (V_Exit [] 0); reflexivity)). vm_compute in R18.
  eexists _, _, _, _. split; [exact R18|]. cbn. repeat split.
Qed.

(** ** C40: once draining, no session is created. *)
Lemma v_frame reg mr s e s' : sstep reg mr s e s' -> v_draining s = true ->
  v_draining s' = true /\ length (v_objs s') = length (v_objs s).
Proof.
  intros ST D. destruct ST; cbn -[put Z.pow Z.modulo]; rewrite ?put_at_len, ?put_all_len; auto;
    try (destruct (v_Close_fields s) as (_ & _ & _ & _ & _ & E & _ & _ & _ & _ & _ & E2); rewrite ?E, ?E2; split; auto; destruct (v_closed s); auto; apply put_all_len).
  - destruct m as [oid served|sid|w|sid req| |]; cbn; auto.
    + unfold v_handleOpen. cbn. rewrite D. auto.
    + unfold v_remove. cbn. destruct (find _ _); auto.
    + unfold v_handlePayload. cbn. destruct (find _ _); auto. destruct (admit _ _ _); auto. cbn. rewrite put_at_len. auto.
    + unfold v_remove. cbn. destruct (find _ _); auto.
  - unfold v_create. rewrite D. auto.
Qed.
Theorem C40_server_no_new_sessions reg mr s es s' :
  srun reg mr s es s' -> v_draining s = true -> v_draining s' = true /\ length (v_objs s') = length (v_objs s).
Proof.
  intros R D. induction R as [|s es s1 e s2 R IH ST]; auto. destruct (IH D) as (D1 & L1).
  destruct (v_frame _ _ _ _ _ ST D1) as (D2 & L2). split; congruence.
Qed.
Print Assumptions C40_server_no_new_sessions.

(** ** C41 (server): GracefulClose returns as soon as all handlers are done, and, unless its
    context expires, only then. *)
Theorem C41_server_completes reg mr es s i :
  srun reg mr newServerConn es s -> nth_error (v_graceful s) i = Some VGWait ->
  (forall o x, nth_error (v_objs s) o = Some x -> ss_h x = HDone) ->
  exists s1 s2, sstep reg mr s VEOther s1 /\ sstep reg mr s1 VEOther s2 /\ nth_error (v_graceful s2) i = Some VGDone.
Proof.
  intros R W AD. assert (I := sinv_run _ _ _ _ R).
  assert (Z : v_active s = 0).
  { rewrite (v_act _ I). unfold n_busy. enough (filter busy (v_objs s) = []) as -> by reflexivity.
    destruct (filter busy (v_objs s)) as [|x l] eqn:E; auto. exfalso.
    assert (IN : In x (filter busy (v_objs s))) by (rewrite E; left; auto). apply filter_In in IN. destruct IN as (IN & B).
    apply In_nth_error in IN. destruct IN as (o & Ho). unfold busy in B. rewrite (AD _ _ Ho) in B. discriminate. }
  eexists. eexists. split; [apply (V_GAll _ _ _ i); eauto|]. split; [apply (V_GClose _ _ _ i)|].
  - cbn. rewrite put_at_nth, Nat.eqb_refl, W. reflexivity.
  - cbn. rewrite !put_at_nth, Nat.eqb_refl, W. reflexivity.
Qed.
Print Assumptions C41_server_completes.

Definition gw (s : sconn) : Prop :=
  (forall i, nth_error (v_graceful s) i = Some VGWait -> v_draining s = true) /\
  (forall i, nth_error (v_graceful s) i = Some VGClose -> v_draining s = true /\ v_active s = 0).
Lemma put_nth_other {A} (l : list A) i (g : A) j c : nth_error (put_at l i (fun _ => g)) j = Some c -> c <> g -> nth_error l j = Some c.
Proof.
  rewrite put_at_nth. destruct (Nat.eqb j i); auto. destruct (nth_error l j) as [x|]; cbn; intros H N; [|discriminate].
  injection H as H. congruence.
Qed.
Lemma gw_step reg mr s e s' : sinv s -> gw s -> sstep reg mr s e s' -> e <> VECtx -> gw s'.
Proof.
  intros I (A & B) ST NE. assert (I' := sinv_step _ _ _ _ _ I ST).
  assert (ACT : v_draining s = true -> v_active s = 0 -> v_active s' = 0).
  { intros D Z. destruct ST; auto; try congruence;
      try (destruct (v_Close_fields s) as (_ & _ & _ & _ & _ & _ & E & _); cbn; rewrite ?E; auto; fail).
    - destruct m as [oid served|sid|w|sid req| |]; cbn; auto.
      + unfold v_handleOpen. cbn. rewrite D. auto.
      + unfold v_remove. cbn. destruct (find _ _); auto.
      + unfold v_handlePayload. cbn. destruct (find _ _); auto. destruct (admit _ _ _); auto.
      + unfold v_remove. cbn. destruct (find _ _); auto.
    - unfold v_create. rewrite D. auto.
    - exfalso. assert (0 < v_active s); [|lia]. rewrite (v_act _ I). eapply n_busy_pos; eauto. unfold busy. rewrite H0. auto. }
  assert (KEEP : v_graceful s' = v_graceful s -> gw s').
  { intros G. split; intros i; rewrite G; intros Hi.
    - eapply v_frame; eauto.
    - destruct (B i Hi) as (D & Z). split; [eapply v_frame; eauto|auto]. }
  destruct ST; try (apply KEEP; reflexivity);
    try (apply KEEP; destruct (v_Close_fields s) as (_ & _ & _ & _ & _ & _ & _ & _ & _ & E & _); cbn; rewrite ?E; reflexivity); try congruence.
  - apply KEEP. destruct m as [oid served|sid|w|sid req| |]; cbn; auto.
    + unfold v_handleOpen. cbn. destruct (v_draining s); auto. destruct served; auto.
    + unfold v_remove. cbn. destruct (find _ _); auto.
    + unfold v_handlePayload. cbn. destruct (find _ _); auto. destruct (admit _ _ _); auto.
    + unfold v_remove. cbn. destruct (find _ _); auto.
  - apply KEEP. unfold v_create. destruct (v_draining s); auto.
  - split; cbn; intros i; rewrite nth_snoc; destruct (Nat.eqb _ _); eauto; discriminate.
  - split; cbn; intros j Hj; apply put_nth_other in Hj; eauto; discriminate.
  - split; cbn; intros j Hj; auto. apply put_nth_other in Hj; [|discriminate]. destruct (B _ Hj). auto.
  - split; cbn; intros j Hj.
    + apply put_nth_other in Hj; eauto; discriminate.
    + rewrite put_at_nth in Hj. destruct (Nat.eqb_spec j i); [subst; split; eauto|]. eauto.
  - destruct (v_Close_fields s) as (_ & _ & _ & _ & _ & E1 & E2 & _).
    split; cbn; intros j Hj; apply put_nth_other in Hj; try discriminate; rewrite ?E1, ?E2; eauto.
Qed.
Theorem C41_server_waits reg mr es s i :
  srun reg mr newServerConn es s -> ~ In VECtx es -> nth_error (v_graceful s) i = Some VGClose ->
  forall o x, nth_error (v_objs s) o = Some x -> ss_h x = HDone.
Proof.
  intros R N G o x Hx.
  assert (W : gw s /\ sinv s).
  { split; [|eapply sinv_run; eauto]. clear G Hx. remember newServerConn as s0 eqn:E0. induction R as [|s0 es s1 e s2 R IH ST]; subst.
    - split; cbn; intros [|j]; discriminate.
    - rewrite in_app_iff in N. cbn in N. eapply gw_step; eauto. eapply sinv_run; eauto. }
  destruct W as ((_ & W) & I). destruct (W _ G) as (_ & Z). destruct (ss_h x) eqn:E; auto; exfalso;
  (assert (0 < v_active s); [rewrite (v_act _ I); eapply n_busy_pos; eauto; unfold busy; rewrite E; auto|lia]).
Qed.
Print Assumptions C41_server_waits.

(** ** C45: two sessions of a connection never have the same id, and none has id 0, which clients
    take for a refusal, as long as fewer than 2^32 sessions were opened. *)
Theorem C45_unique_ids reg mr es s :
  srun reg mr newServerConn es s -> Z.of_nat (length (v_objs s)) < 2 ^ 32 - 1 ->
  (forall o x, nth_error (v_objs s) o = Some x -> 1 <= ss_id x < 2 ^ 32) /\
  (forall o x o' x', nth_error (v_objs s) o = Some x -> nth_error (v_objs s) o' = Some x' -> ss_id x = ss_id x' -> o = o').
Proof.
  intros R W. assert (I := sinv_run _ _ _ _ R). split.
  - intros o x Hx. rewrite (v_ids _ I _ _ Hx). assert (nth_error (v_objs s) o <> None) as Q1 by congruence. apply nth_error_Some in Q1.
    rewrite Z.mod_small; lia.
  - intros o x o' x' Hx Hx' E. eapply ids_inj; eauto. lia.
Qed.
Print Assumptions C45_unique_ids.
(** The table maps each id to the session that has it. *)
Theorem C45_table reg mr es s k o :
  srun reg mr newServerConn es s -> In (k, o) (v_sessions s) -> exists x, nth_error (v_objs s) o = Some x /\ ss_id x = k.
Proof. intros R IN. destruct (v_ses _ (sinv_run _ _ _ _ R) _ _ IN) as (x & H1 & H2 & _). eauto. Qed.
Print Assumptions C45_table.
Example C45_example : exists es s x y, srun [] 0 newServerConn es s /\ v_objs s = [x; y] /\ length (v_sessions s) = 2%nat /\ ss_id x = 1 /\ ss_id y = 2.
Proof.
  assert (R := sr_refl [] 0 newServerConn).
  assert (R1 := sr_step _ _ _ _ _ _ _ R ltac:(apply (V_Read [] 0 _ (COpen 0 true)); reflexivity)). vm_compute in R1.
  assert (R2 := sr_step _ _ _ _ _ _ _ R1 ltac:(apply (V_Create [] 0); reflexivity)). vm_compute in R2.
  assert (R3 := sr_step _ _ _ _ _ _ _ R2 ltac:(eapply (V_Submit [] 0); reflexivity)). vm_compute in R3.
  assert (R4 := sr_step _ _ _ _ _ _ _ R3 ltac:(apply (V_Read [] 0 _ (COpen 1 true)); reflexivity)). vm_compute in R4.
  assert (R5 := sr_step _ _ _ _ _ _ _ R4 ltac:(apply (V_Create [] 0); reflexivity)). vm_compute in R5.
  eexists _, _, _, _. split; [exact R5|]. cbn. repeat split.
Qed.

(** ** C43 (server): while its handler runs and the session is not cancelled, what the handler has
    received, what waits in the channel and what the read loop holds are, in order and complete,
    the payloads the client sent on the session. *)
Theorem C43_server_delivery reg mr es s o x :
  srun reg mr newServerConn es s -> Z.of_nat (length (v_objs s)) < 2 ^ 32 -> nth_error (v_objs s) o = Some x ->
  ss_h x = HNot \/ ss_h x = HRun -> ss_cancel x = false ->
  ss_out x ++ ss_recv x ++ held (v_reader s) o = requests_on reg mr (ss_id x) (skipn (ss_start x) (v_log s)).
Proof.
  intros R W Hx L C. destruct (sd_run _ _ _ _ R) as (_ & D). destruct (D _ _ Hx) as [A B _ F]. rewrite B; auto. apply F; auto.
Qed.
Print Assumptions C43_server_delivery.
Theorem C43_server_order reg mr es s o x :
  srun reg mr newServerConn es s -> Z.of_nat (length (v_objs s)) < 2 ^ 32 -> nth_error (v_objs s) o = Some x ->
  ss_h x = HNot \/ ss_h x = HRun ->
  subseq (ss_out x ++ ss_recv x ++ held (v_reader s) o) (requests_on reg mr (ss_id x) (skipn (ss_start x) (v_log s))).
Proof.
  intros R W Hx L. destruct (sd_run _ _ _ _ R) as (_ & D). destruct (D _ _ Hx) as [A B _ F]. destruct F as (F & _); auto. rewrite <- F. auto.
Qed.
Print Assumptions C43_server_order.
Example C43_server_example : exists es s x, srun [] 0 newServerConn es s /\ v_objs s = [x] /\ ss_h x = HRun /\ ss_cancel x = false /\
  ss_out x = [mkP 0 [7] false] /\ ss_recv x = [mkP 0 [8] true].
Proof.
  assert (R := sr_refl [] 0 newServerConn).
  assert (R1 := sr_step _ _ _ _ _ _ _ R ltac:(apply (V_Read [] 0 _ (COpen 0 true)); reflexivity)). vm_compute in R1.
  assert (R2 := sr_step _ _ _ _ _ _ _ R1 ltac:(apply (V_Create [] 0); reflexivity)). vm_compute in R2.
  assert (R3 := sr_step _ _ _ _ _ _ _ R2 ltac:(eapply (V_Submit [] 0); reflexivity)). vm_compute in R3.
  assert (R7 := sr_step _ _ _ _ _ _ _ R3 ltac:(apply (V_Read [] 0 _ (CPayload (mkWP 1 0 [7] false 0))); reflexivity)). vm_compute in R7.
  assert (R8 := sr_step _ _ _ _ _ _ _ R7 ltac:(eapply (V_Deliver [] 0); cbn; [reflexivity|reflexivity|cbn; lia])). vm_compute in R8.
  assert (R9 := sr_step _ _ _ _ _ _ _ R8 ltac:(eapply (V_HStart [] 0 _ 0%nat); [reflexivity|reflexivity|discriminate])). vm_compute in R9.
  assert (R10 := sr_step _ _ _ _ _ _ _ R9 ltac:(eapply (V_Consume [] 0 _ 0%nat); reflexivity)). vm_compute in R10.
  assert (R11 := sr_step _ _ _ _ _ _ _ R10 ltac:(apply (V_Read [] 0 _ (CPayload (mkWP 1 0 [8] true 0))); reflexivity)). vm_compute in R11.
  assert (R12 := sr_step _ _ _ _ _ _ _ R11 ltac:(eapply (V_Deliver [] 0); cbn; [reflexivity|reflexivity|cbn; lia])). vm_compute in R12.
  eexists _, _, _. split; [exact R12|]. cbn. repeat split.
Qed.

(** ** C47 (server) *)
Lemma s47_step reg mr s e s' : sstep reg mr s e s' ->
  (v_fatal s' = v_fatal s /\ v_errs s' = v_errs s) \/ (exists x, v_fatal s' = v_fatal (v_setFatal s x) /\ v_errs s' = v_errs (v_setFatal s x)).
Proof.
  intros ST. destruct ST; auto; try (right; eexists; split; reflexivity);
    try (left; destruct (v_Close_fields s) as (_ & _ & _ & _ & _ & _ & _ & E1 & E2 & _); split; [exact E1|exact E2]; fail).
  - left. destruct m as [oid served|sid|w|sid req| |]; cbn; auto.
    + unfold v_handleOpen. cbn. destruct (v_draining s); auto. destruct served; auto.
    + unfold v_remove. cbn. destruct (find _ _); auto.
    + unfold v_handlePayload. cbn. destruct (find _ _); auto. destruct (admit _ _ _); auto.
    + unfold v_remove. cbn. destruct (find _ _); auto.
  - left. unfold v_create. destruct (v_draining s); auto.
Qed.
Theorem C47_server_first_error reg mr s es s' :
  srun reg mr s es s' -> v_fatal s = hd_error (v_errs s) ->
  v_fatal s' = hd_error (v_errs s') /\ (exists l, v_errs s' = v_errs s ++ l) /\ (forall x, v_fatal s = Some x -> v_fatal s' = Some x).
Proof.
  intros R E0. induction R as [s|s es s1 e s2 R IH ST].
  - split; auto. split; auto. exists []. rewrite app_nil_r. auto.
  - destruct (IH E0) as (H1 & (l & H2) & H3).
    destruct (s47_step _ _ _ _ _ ST) as [(Q1 & Q2)|(x & Q1 & Q2)]; rewrite Q1, Q2.
    + split; auto. split; eauto.
    + cbn. rewrite H2. split; [|split].
      * rewrite H1, H2. destruct (v_errs s ++ l); reflexivity.
      * exists (l ++ [x]). rewrite app_assoc. reflexivity.
      * intros y Hy. rewrite (H3 _ Hy). reflexivity.
Qed.
Print Assumptions C47_server_first_error.

(** ** C68: cancelling one call of a synchronous client leaves its other calls alone.  Refuted:
    the server ends the whole session, whatever request the Cancel names; of what the client sends
    afterwards on the session nothing reaches the handler. *)
Theorem C68_cancel_refuted reg mr es s o x r l1 l2 :
  srun reg mr newServerConn es s -> Z.of_nat (length (v_objs s)) < 2 ^ 32 -> nth_error (v_objs s) o = Some x ->
  ss_h x = HNot \/ ss_h x = HRun ->
  skipn (ss_start x) (v_log s) = l1 ++ CCancel (ss_id x) r :: l2 ->
  subseq (ss_out x ++ ss_recv x ++ held (v_reader s) o) (requests_on reg mr (ss_id x) l1).
Proof.
  intros R W Hx L E. assert (Q := C43_server_order _ _ _ _ _ _ R W Hx L). rewrite E in Q.
  enough (requests_on reg mr (ss_id x) (l1 ++ CCancel (ss_id x) r :: l2) = requests_on reg mr (ss_id x) l1) as E2 by (rewrite <- E2; exact Q).
  clear. induction l1 as [|a l1 IH]; cbn; [rewrite Z.eqb_refl; auto|].
  destruct a; auto; destruct (_ =? _); auto. rewrite IH. auto.
Qed.
Print Assumptions C68_cancel_refuted.
(** Request 1 is cancelled (say its context ended); request 2 of the same client is lost. *)
Example C68_example : exists es s x, srun [] 0 newServerConn es s /\ v_objs s = [x] /\ ss_h x = HRun /\
  skipn (ss_start x) (v_log s) = [CPayload (mkWP 1 1 [7] false 0)] ++ CCancel 1 1 :: [CPayload (mkWP 1 2 [8] false 0)] /\
  v_reader s = VTop /\ ss_out x ++ ss_recv x = [mkP 1 [7] false].
Proof.
  assert (R := sr_refl [] 0 newServerConn).
  assert (R1 := sr_step _ _ _ _ _ _ _ R ltac:(apply (V_Read [] 0 _ (COpen 0 true)); reflexivity)). vm_compute in R1.
  assert (R2 := sr_step _ _ _ _ _ _ _ R1 ltac:(apply (V_Create [] 0); reflexivity)). vm_compute in R2.
  assert (R3 := sr_step _ _ _ _ _ _ _ R2 ltac:(eapply (V_Submit [] 0); reflexivity)). vm_compute in R3.
  assert (R4 := sr_step _ _ _ _ _ _ _ R3 ltac:(eapply (V_HStart [] 0 _ 0%nat); [reflexivity|reflexivity|discriminate])). vm_compute in R4.
  assert (R7 := sr_step _ _ _ _ _ _ _ R4 ltac:(apply (V_Read [] 0 _ (CPayload (mkWP 1 1 [7] false 0))); reflexivity)). vm_compute in R7.
  assert (R8 := sr_step _ _ _ _ _ _ _ R7 ltac:(eapply (V_Deliver [] 0); cbn; [reflexivity|reflexivity|cbn; lia])). vm_compute in R8.
  assert (R9 := sr_step _ _ _ _ _ _ _ R8 ltac:(apply (V_Read [] 0 _ (CCancel 1 1)); reflexivity)). vm_compute in R9.
  assert (R10 := sr_step _ _ _ _ _ _ _ R9 ltac:(eapply (V_CloseCh [] 0); reflexivity)). vm_compute in R10.
  assert (R11 := sr_step _ _ _ _ _ _ _ R10 ltac:(apply (V_Read [] 0 _ (CPayload (mkWP 1 2 [8] false 0))); reflexivity)). vm_compute in R11.
  eexists _, _, _. split; [exact R11|]. cbn. repeat split.
Qed.
