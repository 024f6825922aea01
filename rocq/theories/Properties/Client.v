(** C38, C40, C41, C42, C43, C47 for a client connection (Model/Client.v). *)
From Coq Require Import Lia List.
Import ListNotations.
From Verif.Model Require Import Base Compress Client.
From Verif.Spec Require Import Delivery.
From Verif.Proofs Require Import ClientProofs ClientDelivery.
Open Scope list_scope. Open Scope Z_scope.

Lemma run_inv reg mr (Q : client -> Prop) :
  (forall s e s', Q s -> cstep reg mr s e s' -> Q s') -> forall s es s', crun reg mr s es s' -> Q s -> Q s'.
Proof. intros ST s es s' R. induction R; auto. intros q. apply (ST s1 e s2); auto. Qed.
Lemma run_one reg mr s e s' : cstep reg mr s e s' -> crun reg mr s [e] s'.
Proof. intros H. apply (cr_step _ _ s [] s e s'); [constructor|auto]. Qed.
Lemma run_app reg mr s es s1 es' s2 : crun reg mr s es s1 -> crun reg mr s1 es' s2 -> crun reg mr s (es ++ es') s2.
Proof.
  intros R1 R2. induction R2; [rewrite app_nil_r; auto|]. rewrite app_assoc. apply (cr_step _ _ _ _ s1 e); auto.
Qed.

(** ** C38: no goroutine ever sends on a closed session channel or closes a channel twice. *)
Theorem C38_client_no_panic reg mr es s : crun reg mr New es s -> c_panic s = false.
Proof. intros R. apply (cinv_run _ _ _ _ R). Qed.
Print Assumptions C38_client_no_panic.

(** A run with a session that receives a payload, is closed by the server, and another that is
    closed by the end of the read loop. *)
Example C38_example :
  exists es s, crun [] 0 New es s /\ c_reader s = RDone /\
    (exists x y, c_objs s = [x; y] /\ so_recv_closed x = true /\ so_recv_closed y = true /\ so_recv x = [mkP 0 [7] false]).
Proof.
  assert (R0 := cr_refl [] 0 New).
  assert (R1 := cr_step _ _ _ _ _ _ _ R0 (S_Open [] 0 _)). vm_compute in R1.
  assert (R2 := cr_step _ _ _ _ _ _ _ R1 ltac:(apply (S_Register [] 0 _ 0%nat); reflexivity)). vm_compute in R2.
  assert (R3 := cr_step _ _ _ _ _ _ _ R2 (S_Open [] 0 _)). vm_compute in R3.
  assert (R4 := cr_step _ _ _ _ _ _ _ R3 ltac:(apply (S_Register [] 0 _ 1%nat); reflexivity)). vm_compute in R4.
  assert (R5 := cr_step _ _ _ _ _ _ _ R4 ltac:(apply (S_Read [] 0 _ (MOpenAck 0 1 true)); reflexivity)). vm_compute in R5.
  assert (R6 := cr_step _ _ _ _ _ _ _ R5 ltac:(apply (S_Read [] 0 _ (MOpenAck 1 2 true)); reflexivity)). vm_compute in R6.
  assert (R7 := cr_step _ _ _ _ _ _ _ R6 ltac:(apply (S_Read [] 0 _ (MPayload (mkWP 1 0 [7] false 0))); reflexivity)). vm_compute in R7.
  assert (R8 := cr_step _ _ _ _ _ _ _ R7 ltac:(eapply (S_Deliver [] 0); cbn; [reflexivity|reflexivity|cbn; lia])). vm_compute in R8.
  assert (R9 := cr_step _ _ _ _ _ _ _ R8 ltac:(apply (S_Read [] 0 _ (MClose 1 0)); reflexivity)). vm_compute in R9.
  assert (R10 := cr_step _ _ _ _ _ _ _ R9 ltac:(eapply (S_CloseObj [] 0); reflexivity)). vm_compute in R10.
  assert (R11 := cr_step _ _ _ _ _ _ _ R10 ltac:(apply (S_ReadErr [] 0 _ 5); reflexivity)). vm_compute in R11.
  assert (R12 := cr_step _ _ _ _ _ _ _ R11 ltac:(eapply (S_FatalClose [] 0); reflexivity)). vm_compute in R12.
  assert (R13 := cr_step _ _ _ _ _ _ _ R12 ltac:(eapply (S_Exit [] 0); reflexivity)). vm_compute in R13.
  eexists _, _. split; [exact R13|]. cbn. repeat split. eexists _, _. repeat split.
Qed.

(** ** C40: from a draining connection no session is ever created; a later open fails. *)
Definition no_new (s s' : client) : Prop :=
  c_draining s' = true /\ length (c_objs s') = length (c_objs s) /\
  (forall i, nth_error (c_openers s) i = Some OTop -> nth_error (c_openers s') i = Some OTop \/ nth_error (c_openers s') i = Some OErr) /\
  (forall i c, nth_error (c_openers s') i = Some c -> (length (c_openers s) <= i)%nat -> c = OTop \/ c = OErr) /\
  (length (c_openers s) <= length (c_openers s'))%nat.

Lemma len_upd_all f os s : length (c_objs (upd_all s os f)) = length (c_objs s).
Proof. rewrite upd_all_eq. cbn. apply upd_list_len. Qed.
Lemma len_Close s : length (c_objs (Close s)) = length (c_objs s).
Proof. unfold Close. destruct (c_closed s); auto. rewrite !len_upd_all. reflexivity. Qed.
Lemma dispatch_frame reg mr s m :
  let s' := dispatch reg mr s m in
  length (c_objs s') = length (c_objs s) /\ c_openers s' = c_openers s /\ c_draining s' = c_draining s /\ c_closed s' = c_closed s /\
  c_graceful s' = c_graceful s.
Proof.
  destruct m as [oid sid ok|sid code|w| |err|]; cbn; auto.
  - unfold handleOpenAck. destruct (find _ _); auto. destruct ok; cbn.
    + rewrite !put_at_len. auto.
    + match goal with |- context [checkDrained ?q] => 
        destruct (checkDrained_fields q) as (E1 & E2 & E3 & E4 & _ & E6 & _ & _ & E5 & E7 & E8 & E9 & _) end.
      rewrite !put_at_len, E5, E6, E7, E8, E9. auto.
  - unfold handleClose. destruct (find _ _); auto. cbn.
    match goal with |- context [checkDrained ?q] => 
        destruct (checkDrained_fields q) as (E1 & E2 & E3 & E4 & _ & E6 & _ & _ & E5 & E7 & E8 & E9 & _) end.
    rewrite E5, E6, E7, E8, E9. auto.
  - unfold handlePayload. destruct (find _ _); auto. destruct (admit _ _ _); auto. cbn. rewrite put_at_len. auto.
Qed.

Lemma no_new_frame s s' s2 :
  no_new s s' -> length (c_objs s2) = length (c_objs s') -> c_openers s2 = c_openers s' -> c_draining s2 = c_draining s' -> no_new s s2.
Proof. intros (A & B & C & D & E) H1 H2 H3. unfold no_new. rewrite H1, H2, H3. auto. Qed.
Lemma no_new_put s s' i g c :
  no_new s s' -> nth_error (c_openers s') i = Some c -> (c = OTop -> g = OErr) ->
  (forall c', c = OTop \/ c = OErr -> c' = g -> c' = OTop \/ c' = OErr) ->
  no_new s (with_openers s' (put_at (c_openers s') i (fun _ => g))).
Proof.
  intros (A & B & C & D & E) Hc K G. unfold no_new. cbn. rewrite put_at_len. repeat split; auto.
  - intros j Hj. rewrite put_at_nth. destruct (Nat.eqb_spec j i) as [-> | N]; [|auto]. rewrite Hc. cbn.
    destruct (C _ Hj) as [Q|Q]; rewrite Hc in Q; injection Q as ->.
    + rewrite K; auto.
    + destruct (G g (or_intror eq_refl) eq_refl) as [-> | ->]; auto.
  - intros j c' Hj L. rewrite put_at_nth in Hj. destruct (Nat.eqb_spec j i) as [-> | N]; [|eapply D; eauto].
    rewrite Hc in Hj. cbn in Hj. injection Hj as <-. apply (G g); auto. eapply D; eauto.
Qed.

Theorem C40_client_no_new_sessions reg mr s es s' :
  crun reg mr s es s' -> c_draining s = true -> no_new s s'.
Proof.
  intros R D. induction R as [s|s es s1 e s2 R IH ST].
  - unfold no_new. repeat split; auto. intros i c H L. apply nth_error_None in L. congruence.
  - specialize (IH D). destruct ST;
      try (apply (no_new_frame s s0); cbn; rewrite ?put_at_len; auto; fail).
    + destruct (dispatch_frame reg mr (with_log s0 (c_log s0 ++ [m])) m) as (E1 & E2 & E3 & _).
      apply (no_new_frame s s0); auto.
    + destruct (Close_fields s0) as (_ & _ & _ & _ & _ & E & _ & _ & _ & E' & _). apply (no_new_frame s s0); [exact IH|apply len_Close|exact E'|exact E].
    + apply (no_new_frame s s0); auto; cbn; rewrite upd_all_eq; auto; cbn. apply upd_list_len.
    + destruct IH as (A & B & C & E & F). unfold no_new. cbn. rewrite app_length. repeat split; auto; try (cbn; lia).
      * intros i Hi. rewrite nth_error_app1; auto. apply nth_error_Some. destruct (C _ Hi); congruence.
      * intros i c Hi L. rewrite nth_snoc in Hi. destruct (Nat.eqb i (length (c_openers s0))); [injection Hi as <-; auto|eauto].
    + unfold register. destruct IH as (A & IH). rewrite A, orb_true_r.
      eapply no_new_put; [split; eauto|exact H|auto|]. intros c' _ ->. auto.
    + eapply no_new_put; eauto; [discriminate|]. intros c' [E|E]; discriminate.
    + unfold abandon. apply (no_new_frame s (with_openers s0 (put_at (c_openers s0) i (fun _ => OErr)))); auto.
      eapply no_new_put; eauto.
    + unfold abandon. apply (no_new_frame s (with_openers s0 (put_at (c_openers s0) i (fun _ => OErr)))); auto.
      eapply no_new_put; eauto.
    + eapply no_new_put; eauto.
    + eapply no_new_put; eauto; [discriminate|]. intros c' [E|E]; discriminate.
    + destruct (Close_fields s0) as (_ & _ & _ & _ & _ & E & _ & _ & _ & E' & _). apply (no_new_frame s s0); [exact IH|apply len_Close|exact E'|exact E].
    + unfold startGraceful. destruct (c_closed s0); [apply (no_new_frame s s0); auto|].
      destruct IH as (A & IH). destruct (c_sessions s0), (c_pending s0); apply (no_new_frame s s0); auto; split; auto.
    + destruct (Close_fields s0) as (_ & _ & _ & _ & _ & E & _ & _ & _ & E' & _). apply (no_new_frame s s0); [exact IH|apply len_Close|exact E'|exact E].
Qed.
Print Assumptions C40_client_no_new_sessions.

(** GracefulClose on an open connection does mark it as draining. *)
Theorem C40_client_drains reg mr s i s' :
  nth_error (c_graceful s) i = Some GTop -> c_closed s = false -> s' = startGraceful s i ->
  cstep reg mr s EOther s' /\ c_draining s' = true.
Proof.
  intros H C ->. split; [apply S_GStart; auto|]. unfold startGraceful. rewrite C.
  destruct (c_sessions s), (c_pending s); reflexivity.
Qed.
Print Assumptions C40_client_drains.

(** ** C47: the error reported is the first one and never changes. *)
Lemma C47_step reg mr s e s' : cstep reg mr s e s' ->
  (c_fatal s' = c_fatal s /\ c_errs s' = c_errs s) \/ (exists x, s' = with_reader (setFatal s x) (c_reader s') \/ s' = setFatal s x) \/
  (exists x, c_fatal s' = c_fatal (setFatal s x) /\ c_errs s' = c_errs (setFatal s x)).
Proof.
  intros ST. destruct ST; auto; try (right; left; eexists; eauto; fail);
    try (left; destruct (Close_fields s) as (_ & _ & _ & _ & _ & _ & _ & E1 & E2 & _); split; [exact E1|exact E2]; fail).
  - destruct m as [oid sid ok|sid code|w| |err|]; cbn; auto.
    + left. unfold handleOpenAck. cbn. destruct (find _ _); auto. destruct ok; cbn; auto.
      match goal with |- context [checkDrained ?q] => 
        destruct (checkDrained_fields q) as (_ & _ & _ & _ & _ & _ & E1 & E2 & _) end. rewrite E1, E2. auto.
    + left. unfold handleClose. cbn. destruct (find _ _); auto. cbn. 
      match goal with |- context [checkDrained ?q] => 
        destruct (checkDrained_fields q) as (_ & _ & _ & _ & _ & _ & E1 & E2 & _) end. rewrite E1, E2. auto.
    + left. unfold handlePayload. cbn. destruct (find _ _); auto. destruct (admit _ _ _); auto.
    + right. right. exists err. auto.
  - left. rewrite upd_all_eq. auto.
  - left. unfold register. destruct (_ || _); auto.
  - left. unfold startGraceful. destruct (c_closed s); auto. destruct (c_sessions s), (c_pending s); auto.
Qed.
(** In every run: Err() is the first error given to setFatalError, and the list of those only grows. *)
Theorem C47_client_first_error reg mr s es s' :
  crun reg mr s es s' -> c_fatal s = hd_error (c_errs s) ->
  c_fatal s' = hd_error (c_errs s') /\ (exists l, c_errs s' = c_errs s ++ l) /\
  (forall x, c_fatal s = Some x -> c_fatal s' = Some x).
Proof.
  intros R E0. induction R as [s|s es s1 e s2 R IH ST].
  - split; auto. split; auto. exists []. rewrite app_nil_r. auto.
  - destruct (IH E0) as (H1 & (l & H2) & H3).
    assert (Q : (c_fatal s2 = c_fatal s1 /\ c_errs s2 = c_errs s1) \/ exists x, c_fatal s2 = c_fatal (setFatal s1 x) /\ c_errs s2 = c_errs (setFatal s1 x)).
    { destruct (C47_step _ _ _ _ _ ST) as [?|[(x & [Q|Q])|?]]; auto; right; exists x; rewrite Q; auto. }
    destruct Q as [(Q1 & Q2)|(x & Q1 & Q2)]; rewrite Q1, Q2.
    + split; auto. split; eauto.
    + cbn. rewrite H2. split; [|split].
      * rewrite H1, H2. destruct (c_errs s ++ l); reflexivity.
      * exists (l ++ [x]). rewrite app_assoc. reflexivity.
      * intros y Hy. rewrite (H3 _ Hy). reflexivity.
Qed.
Print Assumptions C47_client_first_error.
(** Every run starts without an error. *)
Theorem C47_client_initial reg mr es s : crun reg mr New es s -> c_fatal s = hd_error (c_errs s).
Proof. intros R. apply (C47_client_first_error _ _ _ _ _ R). reflexivity. Qed.
Print Assumptions C47_client_initial.
(** Two failures in a row: the first is reported. *)
Example C47_example : exists es s, crun [] 0 New es s /\ c_errs s = [4; 9] /\ c_fatal s = Some 4.
Proof.
  assert (R1 := cr_step _ _ _ _ _ _ _ (cr_refl [] 0 New) (S_Fatal [] 0 _ 4)). vm_compute in R1.
  assert (R2 := cr_step _ _ _ _ _ _ _ R1 (S_Fatal [] 0 _ 9)). vm_compute in R2.
  eexists _, _. split; [exact R2|]. auto.
Qed.

(** ** C41: GracefulClose returns when nothing is left.

    Refuted: a connection whose last open is given up (its context ends, or 30 s pass, or its
    Open could not be sent) while GracefulClose waits.  Nothing is left, and as long as nobody
    else closes the connection and GracefulClose's own context lasts, it waits for ever. *)
Definition waits_forever reg mr (s : client) (i : nat) : Prop :=
  forall es s', crun reg mr s es s' -> ~ In ECtx es -> c_closed s' = false -> nth_error (c_graceful s') i = Some GWait.

Definition stuck (s : client) (i : nat) : Prop :=
  nth_error (c_graceful s) i = Some GWait /\ c_drained s = Some false /\ c_sessions s = [] /\ c_pending s = [] /\ c_draining s = true.
Lemma stuck_frame s s' i :
  stuck s i -> c_graceful s' = c_graceful s -> c_drained s' = c_drained s -> c_sessions s' = c_sessions s ->
  c_pending s' = c_pending s -> c_draining s' = c_draining s -> stuck s' i.
Proof. unfold stuck. intros H -> -> -> -> ->. auto. Qed.
Lemma closed_mono reg mr s e s' : cstep reg mr s e s' -> c_closed s = true -> c_closed s' = true.
Proof.
  intros ST C. destruct ST; auto; try (apply Close_fields; fail).
  - destruct (dispatch_frame reg mr (with_log s (c_log s ++ [m])) m) as (_ & _ & _ & E & _). 
    change (c_closed (dispatch reg mr (with_log s (c_log s ++ [m])) m) = true). rewrite E. auto.
  - cbn. rewrite upd_all_eq. auto.
  - unfold register. destruct (_ || _); auto.
  - unfold startGraceful. rewrite C. auto.
Qed.
Lemma stuck_step reg mr s e s' i : stuck s i -> cstep reg mr s e s' -> e <> ECtx -> c_closed s' = false -> stuck s' i.
Proof.
  intros S ST NE C'. assert (C : c_closed s = false) by (destruct (c_closed s) eqn:C; auto; rewrite (closed_mono _ _ _ _ _ ST C) in C'; discriminate).
  pose proof S as (H1 & H2 & H3 & H4 & H5).
  destruct ST; try (apply (stuck_frame s); auto; fail).
  - apply (stuck_frame s); auto; destruct m as [oid sid ok|sid code|w| |err|]; cbn; auto;
      unfold handleOpenAck, handleClose, handlePayload; cbn; rewrite ?H3, ?H4; auto.
  - destruct (Close_fields s) as (_ & _ & _ & _ & _ & _ & _ & _ & _ & _ & _ & Q & _). 
    change (c_closed (Close s) = false) in C'. congruence.
  - apply (stuck_frame s); auto; cbn; rewrite upd_all_eq; auto.
  - unfold register. rewrite H5, orb_true_r. apply (stuck_frame s); auto.
  - unfold abandon. apply (stuck_frame s); auto. cbn. rewrite H4. auto.
  - unfold abandon. apply (stuck_frame s); auto. cbn. rewrite H4. auto.
  - destruct (Close_fields s) as (_ & _ & _ & _ & _ & _ & _ & _ & _ & _ & _ & Q & _). congruence.
  - unfold stuck. cbn. repeat split; auto. rewrite nth_error_app1; auto. apply nth_error_Some. congruence.
  - assert (i0 <> i) by congruence. unfold startGraceful. rewrite C, H3, H4. unfold stuck. cbn. repeat split; auto.
    rewrite put_at_nth. destruct (Nat.eqb_spec i i0); congruence.
  - congruence.
  - congruence.
  - congruence.
  - destruct (Close_fields s) as (_ & _ & _ & _ & _ & _ & _ & _ & _ & _ & _ & Q & _). 
    change (c_closed (Close s) = false) in C'. congruence.
Qed.
Lemma stuck_waits reg mr s i : stuck s i -> waits_forever reg mr s i.
Proof.
  intros S es s' R. enough (~ In ECtx es -> c_closed s' = false -> stuck s' i) by (intros A B; apply (H A B)).
  induction R as [s|s es s1 e s2 R IH ST]; auto. intros N C. rewrite in_app_iff in N. cbn in N.
  assert (c_closed s1 = false) by (destruct (c_closed s1) eqn:Q; auto; rewrite (closed_mono _ _ _ _ _ ST Q) in C; discriminate).
  apply (stuck_step reg mr s1 e s2 i); auto.
Qed.
Theorem C41_client_refuted reg mr :
  exists es s, crun reg mr New es s /\ c_sessions s = [] /\ c_pending s = [] /\ c_closed s = false /\
    nth_error (c_graceful s) 0 = Some GWait /\ waits_forever reg mr s 0.
Proof.
  assert (R1 := cr_step _ _ _ _ _ _ _ (cr_refl reg mr New) (S_Open reg mr _)). vm_compute in R1.
  assert (R2 := cr_step _ _ _ _ _ _ _ R1 ltac:(apply (S_Register reg mr _ 0%nat); reflexivity)). vm_compute in R2.
  assert (R3 := cr_step _ _ _ _ _ _ _ R2 ltac:(eapply (S_Sent reg mr _ 0%nat); reflexivity)). vm_compute in R3.
  assert (R4 := cr_step _ _ _ _ _ _ _ R3 (S_Graceful reg mr _)). vm_compute in R4.
  assert (R5 := cr_step _ _ _ _ _ _ _ R4 ltac:(apply (S_GStart reg mr _ 0%nat); reflexivity)). vm_compute in R5.
  assert (R6 := cr_step _ _ _ _ _ _ _ R5 ltac:(eapply (S_Abandon reg mr _ 0%nat); reflexivity)). vm_compute in R6.
  eexists _, _. split; [exact R6|]. repeat split. apply stuck_waits. repeat split.
Qed.
Print Assumptions C41_client_refuted.

(** Partial: it holds in every run in which giving up an open never removes the last thing a
    draining connection waits for. *)
Inductive careful reg mr : client -> Prop :=
| cf_new : careful reg mr New
| cf_step s e s' : careful reg mr s -> cstep reg mr s e s' ->
    (e = EAbandon -> c_draining s = true -> c_sessions s' <> [] \/ c_pending s' <> []) -> careful reg mr s'.

Definition dr_ok (s : client) : Prop :=
  (c_drained s = Some false -> c_sessions s <> [] \/ c_pending s <> []) /\
  (forall i, nth_error (c_graceful s) i = Some GWait -> c_drained s <> None) /\
  (c_drained s <> None -> c_draining s = true).
Lemma dr_frame s s' : dr_ok s -> c_sessions s' = c_sessions s -> c_pending s' = c_pending s -> c_drained s' = c_drained s ->
  c_draining s' = c_draining s -> c_graceful s' = c_graceful s -> dr_ok s'.
Proof. unfold dr_ok. intros H -> -> -> -> ->. auto. Qed.
Lemma dr_ext s s' : dr_ok s -> c_sessions s' = c_sessions s -> c_pending s' = c_pending s -> c_drained s' = c_drained s ->
  c_draining s' = c_draining s -> (forall i, nth_error (c_graceful s') i = Some GWait -> nth_error (c_graceful s) i = Some GWait) -> dr_ok s'.
Proof. unfold dr_ok. intros (A & B & C) -> -> -> -> G. repeat split; auto. intros i Hi. apply (B i). auto. Qed.
Lemma dr_check q q' : 
  (c_drained q <> None -> c_draining q = true) -> (forall i, nth_error (c_graceful q) i = Some GWait -> c_drained q <> None) ->
  c_sessions q' = c_sessions q -> c_pending q' = c_pending q -> c_drained q' = c_drained (checkDrained q) ->
  c_draining q' = c_draining q -> c_graceful q' = c_graceful q -> dr_ok q'.
Proof.
  intros A B E1 E2 E3 E4 E5. unfold dr_ok. rewrite E1, E2, E3, E4, E5.
  destruct (checkDrained_fields q) as (_ & _ & _ & _ & _ & _ & _ & _ & _ & _ & _ & _ & _ & ->).
  repeat split.
  - destruct (c_draining q) eqn:Q; [|intros H; exfalso; assert (true = false); [symmetry; apply A; congruence|congruence]].
    destruct (c_sessions q); [|left; discriminate]. destruct (c_pending q); [|right; discriminate].
    destruct (c_drained q); intros; discriminate.
  - intros i Hi. specialize (B _ Hi). destruct (c_draining q); auto. destruct (c_sessions q); auto. destruct (c_pending q); auto.
    destruct (c_drained q); auto; discriminate.
  - intros H. apply A. intros N. rewrite N in H. destruct (c_draining q), (c_sessions q), (c_pending q); auto.
Qed.
Lemma put_GWait l i g j : nth_error (put_at l i (fun _ => g)) j = Some GWait -> g <> GWait -> nth_error l j = Some GWait.
Proof.
  rewrite put_at_nth. destruct (Nat.eqb j i); auto. destruct (nth_error l j) as [x|]; cbn; intros H N; [|discriminate].
  injection H as H. contradiction.
Qed.
Lemma dr_step reg mr s e s' : dr_ok s -> cstep reg mr s e s' -> 
   (e = EAbandon -> c_draining s = true -> c_sessions s' <> [] \/ c_pending s' <> []) -> dr_ok s'.
Proof.
  intros D ST AB. pose proof D as (A & B & C). destruct ST; try (apply (dr_frame s); auto; fail);
    try (destruct (Close_fields s) as (E1 & E2 & _ & _ & _ & E3 & E4 & _ & _ & _ & E5 & _); apply (dr_frame s); assumption).
  - destruct m as [oid sid ok|sid code|w| |err|]; try (apply (dr_frame s); auto; fail).
    + cbn [dispatch]. unfold handleOpenAck. cbn -[del put]. destruct (find oid (c_pending s)); [|apply (dr_frame s); auto].
      destruct ok; cbn -[del put checkDrained].
      * unfold dr_ok. cbn -[del put]. repeat split; auto. intros _. left. discriminate.
      * match goal with |- context [checkDrained ?q] => set (q0 := q);
          destruct (checkDrained_fields q0) as (E1 & E2 & _ & _ & _ & E4 & _ & _ & _ & _ & E5 & _) end.
        apply (dr_check q0); auto.
    + cbn [dispatch]. unfold handleClose. cbn -[del put]. destruct (find sid (c_sessions s)); [|apply (dr_frame s); auto].
      match goal with |- context [checkDrained ?q] => set (q0 := q);
          destruct (checkDrained_fields q0) as (E1 & E2 & _ & _ & _ & E4 & _ & _ & _ & _ & E5 & _) end.
      apply (dr_check q0); auto.
    + cbn [dispatch]. unfold handlePayload. cbn. destruct (find _ _); [|apply (dr_frame s); auto].
      destruct (admit _ _ _); apply (dr_frame s); auto.
  - apply (dr_frame s); auto; cbn; rewrite upd_all_eq; auto.
  - unfold register. destruct (_ || _); [apply (dr_frame s); auto|]. unfold dr_ok. cbn -[del put]. repeat split; auto.
    intros _. right. discriminate.
  - unfold abandon in *. unfold dr_ok. cbn -[del put] in *. repeat split; auto.
    intros E. apply AB; auto. apply C. congruence.
  - unfold abandon in *. unfold dr_ok. cbn -[del put] in *. repeat split; auto.
    intros E. apply AB; auto. apply C. congruence.
  - apply (dr_ext s); auto. cbn. intros i. rewrite nth_snoc. destruct (Nat.eqb _ _); [discriminate|auto].
  - unfold startGraceful. destruct (c_closed s).
    + apply (dr_ext s); auto. cbn. intros j Q. apply put_GWait in Q; [auto|discriminate].
    + destruct (c_sessions s) eqn:E1; destruct (c_pending s) eqn:E2; unfold dr_ok; cbn; rewrite ?E1, ?E2.
      * repeat split; auto. intros j Q. apply put_GWait in Q; [eauto|discriminate].
      * repeat split; auto; [intros; right; discriminate|]. intros. destruct (c_drained s); discriminate.
      * repeat split; auto; [intros; left; discriminate|]. intros. destruct (c_drained s); discriminate.
      * repeat split; auto; [intros; left; discriminate|]. intros. destruct (c_drained s); discriminate.
  - apply (dr_ext s); auto. cbn. intros j Q. apply put_GWait in Q; [auto|discriminate].
  - apply (dr_ext s); auto. cbn. intros j Q. apply put_GWait in Q; [auto|discriminate].
  - apply (dr_ext s); auto. cbn. intros j Q. apply put_GWait in Q; [auto|discriminate].
  - destruct (Close_fields s) as (E1 & E2 & _ & _ & _ & E3 & E4 & _ & _ & _ & E5 & _). apply (dr_ext s); auto.
    cbn. intros j Q. apply put_GWait in Q; [auto|discriminate].
Qed.
Theorem C41_client_partial reg mr s i :
  careful reg mr s -> nth_error (c_graceful s) i = Some GWait -> c_sessions s = [] -> c_pending s = [] ->
  exists s1 s2, cstep reg mr s EOther s1 /\ cstep reg mr s1 EOther s2 /\ nth_error (c_graceful s2) i = Some GDone.
Proof.
  intros CF W E1 E2.
  assert (D : dr_ok s).
  { clear - CF. induction CF; [|eapply dr_step; eauto]. repeat split; cbn; try easy. intros [|i]; discriminate. }
  destruct D as (A & B & _). specialize (B _ W).
  assert (DT : c_drained s = Some true).
  { destruct (c_drained s) as [[]|]; auto; [|congruence]. destruct A; congruence. }
  eexists. eexists. split; [apply S_GDrained; eauto|]. split; [apply (S_GClose _ _ _ i)|].
  - cbn. rewrite put_at_nth, Nat.eqb_refl, W. reflexivity.
  - cbn. rewrite !put_at_nth, Nat.eqb_refl, W. reflexivity.
Qed.
Print Assumptions C41_client_partial.
(** A session in flight when GracefulClose starts, then closed by the server. *)
Example C41_partial_example : exists s, careful [] 0 s /\ nth_error (c_graceful s) 0 = Some GWait /\ c_sessions s = [] /\ c_pending s = [] /\ length (c_objs s) = 1%nat.
Proof.
  assert (R1 := cf_step _ _ _ _ _ (cf_new [] 0) (S_Open [] 0 _) ltac:(discriminate)). vm_compute in R1.
  assert (R2 := cf_step _ _ _ _ _ R1 ltac:(apply (S_Register [] 0 _ 0%nat); reflexivity) ltac:(discriminate)). vm_compute in R2.
  assert (R3 := cf_step _ _ _ _ _ R2 ltac:(eapply (S_Sent [] 0 _ 0%nat); reflexivity) ltac:(discriminate)). vm_compute in R3.
  assert (R4 := cf_step _ _ _ _ _ R3 ltac:(apply (S_Read [] 0 _ (MOpenAck 0 1 true)); reflexivity) ltac:(discriminate)). vm_compute in R4.
  assert (R5 := cf_step _ _ _ _ _ R4 (S_Graceful [] 0 _) ltac:(discriminate)). vm_compute in R5.
  assert (R6 := cf_step _ _ _ _ _ R5 ltac:(apply (S_GStart [] 0 _ 0%nat); reflexivity) ltac:(discriminate)). vm_compute in R6.
  assert (R7 := cf_step _ _ _ _ _ R6 ltac:(apply (S_Read [] 0 _ (MClose 1 0)); reflexivity) ltac:(discriminate)). vm_compute in R7.
  eexists. split; [exact R7|]. repeat split.
Qed.

(** ** C42: a GoAway lets the in-flight sessions finish.  Refuted, in every run: as soon as the
    read loop has handled a GoAway the connection is closed. *)
Definition goes_away (e : cevent) : Prop := match e with ERead (MGoAway _) => True | _ => False end.
Lemma C42_inv reg mr s es s' : crun reg mr s es s' -> (exists e, In e es /\ goes_away e) ->
  c_closed s' = true \/ (exists b, c_reader s' = RFatal b).
Proof.
  intros R. induction R as [s|s es s1 e s2 R IH ST].
  - intros (e & [] & _).
  - intros (e' & IE & GA). rewrite in_app_iff in IE. destruct IE as [IE|[<-|[]]].
    + destruct IH as [Q|(b & Q)]; [exists e'; auto|left; eapply closed_mono; eauto|].
      destruct ST; try congruence; try (right; eexists; eauto; fail).
      * left. apply Close_fields.
      * right. exists b. unfold register. destruct (_ || _); auto.
      * left. apply Close_fields.
      * right. exists b. unfold startGraceful. destruct (c_closed s0); auto. destruct (c_sessions s0), (c_pending s0); auto.
      * left. apply Close_fields.
    + destruct e as [| | |m|]; try easy. destruct m; try easy. inversion ST; subst. right. exists false. reflexivity.
Qed.
Theorem C42_goaway_closes reg mr es s : 
  crun reg mr New es s -> (exists e, In e es /\ goes_away e) -> c_reader s = RTop \/ c_reader s = RDone -> c_closed s = true.
Proof.
  intros R G [T|T]; destruct (C42_inv _ _ _ _ _ R G) as [Q|(b & Q)]; auto; congruence.
Qed.
Print Assumptions C42_goaway_closes.
(** And its sessions are cancelled: take any reachable state with a session in flight. *)
Theorem C42_inflight_refuted reg mr es s k o x err :
  crun reg mr New es s -> c_reader s = RTop -> c_closed s = false -> In (k, o) (c_sessions s) -> nth_error (c_objs s) o = Some x ->
  exists s1 s2 x2, cstep reg mr s (ERead (MGoAway err)) s1 /\ cstep reg mr s1 EOther s2 /\
    c_closed s2 = true /\ In (k, o) (c_sessions s2) /\ nth_error (c_objs s2) o = Some x2 /\ so_cancel x2 = true.
Proof.
  intros R T C IN Hx. eexists. eexists. exists (sclose x). split; [apply S_Read; auto|]. split; [eapply S_FatalClose; reflexivity|].
  match goal with |- context [Close ?q] => set (q0 := q); 
    destruct (Close_fields q0) as (E1 & _ & _ & _ & _ & _ & _ & _ & _ & _ & _ & E2 & _ & E3) end.
  split; [exact E2|]. split; [change (In (k, o) (c_sessions (Close q0))); rewrite E1; exact IN|]. split; [|reflexivity].
  change (nth_error (c_objs (Close q0)) o = Some (sclose x)). rewrite E3. cbn. rewrite C.
  rewrite !(upd_list_nth _ sclose_idem). rewrite Hx.
  assert (X : existsb (Nat.eqb o) (map snd (c_sessions s)) = true).
  { apply existsb_exists. exists o. split; [|apply Nat.eqb_refl]. apply in_map_iff. exists (k, o). auto. }
  rewrite X. cbn. destruct (existsb (Nat.eqb o) (map snd (c_pending s))); reflexivity.
Qed.
Print Assumptions C42_inflight_refuted.
Example C42_example : exists es s k o x, crun [] 0 New es s /\ c_reader s = RTop /\ c_closed s = false /\ In (k, o) (c_sessions s) /\ nth_error (c_objs s) o = Some x /\ so_cancel x = false.
Proof.
  assert (R1 := cr_step _ _ _ _ _ _ _ (cr_refl [] 0 New) (S_Open [] 0 _)). vm_compute in R1.
  assert (R2 := cr_step _ _ _ _ _ _ _ R1 ltac:(apply (S_Register [] 0 _ 0%nat); reflexivity)). vm_compute in R2.
  assert (R3 := cr_step _ _ _ _ _ _ _ R2 ltac:(apply (S_Read [] 0 _ (MOpenAck 0 1 true)); reflexivity)). vm_compute in R3.
  eexists _, _, 1, 0%nat, _. split; [exact R3|]. cbn. repeat split; auto.
Qed.

(** ** C43: what the consumers of a session have received, what waits in its channel and what the
    read loop is about to put there are, in order and complete, what the peer sent on it: as long
    as the session is not cancelled and the server does not hand out one id twice. *)
Theorem C43_client_delivery reg mr es s o x n :
  crun reg mr New es s -> nth_error (c_objs s) o = Some x -> so_start x = Some n -> so_cancel x = false ->
  NoDup (accepted_ids (c_log s)) ->
  so_out x ++ so_recv x ++ flight (c_reader s) o = stream_on reg mr (so_id x) (skipn n (c_log s)).
Proof.
  intros R Hx Hn NC ND. destruct (cd_run _ _ _ _ R) as (_ & D). destruct (D _ _ Hx) as [A B C F].
  rewrite B; auto. destruct (F n Hn) as (_ & _ & Q). apply Q. auto.
Qed.
Print Assumptions C43_client_delivery.
(** Even for a cancelled session nothing is reordered, duplicated or invented. *)
Theorem C43_client_order reg mr es s o x n :
  crun reg mr New es s -> nth_error (c_objs s) o = Some x -> so_start x = Some n ->
  NoDup (accepted_ids (c_log s)) ->
  subseq (so_out x ++ so_recv x ++ flight (c_reader s) o) (stream_on reg mr (so_id x) (skipn n (c_log s))).
Proof.
  intros R Hx Hn ND. destruct (cd_run _ _ _ _ R) as (_ & D). destruct (D _ _ Hx) as [A B C F].
  destruct (F n Hn) as (_ & _ & Q). destruct (Q ND) as (<- & _). auto.
Qed.
Print Assumptions C43_client_order.
(** Two sessions whose payloads interleave; one consumer is one payload behind. *)
Example C43_example : exists es s x y, crun [] 100 New es s /\ c_objs s = [x; y] /\ so_start x = Some 2%nat /\ so_cancel x = false /\
  NoDup (accepted_ids (c_log s)) /\ so_out x = [mkP 0 [1] false] /\ so_recv x = [mkP 0 [3] true] /\ so_recv y = [mkP 0 [2] false].
Proof.
  assert (R1 := cr_step _ _ _ _ _ _ _ (cr_refl [] 100 New) (S_Open [] 100 _)). vm_compute in R1.
  assert (R2 := cr_step _ _ _ _ _ _ _ R1 ltac:(apply (S_Register [] 100 _ 0%nat); reflexivity)). vm_compute in R2.
  assert (R3 := cr_step _ _ _ _ _ _ _ R2 (S_Open [] 100 _)). vm_compute in R3.
  assert (R4 := cr_step _ _ _ _ _ _ _ R3 ltac:(apply (S_Register [] 100 _ 1%nat); reflexivity)). vm_compute in R4.
  assert (R5 := cr_step _ _ _ _ _ _ _ R4 ltac:(apply (S_Read [] 100 _ (MOpenAck 1 2 true)); reflexivity)). vm_compute in R5.
  assert (R6 := cr_step _ _ _ _ _ _ _ R5 ltac:(apply (S_Read [] 100 _ (MOpenAck 0 1 true)); reflexivity)). vm_compute in R6.
  assert (R7 := cr_step _ _ _ _ _ _ _ R6 ltac:(apply (S_Read [] 100 _ (MPayload (mkWP 1 0 [1] false 0))); reflexivity)). vm_compute in R7.
  assert (R8 := cr_step _ _ _ _ _ _ _ R7 ltac:(eapply (S_Deliver [] 100); cbn; [reflexivity|reflexivity|cbn; lia])). vm_compute in R8.
  assert (R9 := cr_step _ _ _ _ _ _ _ R8 ltac:(apply (S_Read [] 100 _ (MPayload (mkWP 2 0 [2] false 0))); reflexivity)). vm_compute in R9.
  assert (R10 := cr_step _ _ _ _ _ _ _ R9 ltac:(eapply (S_Deliver [] 100); cbn; [reflexivity|reflexivity|cbn; lia])). vm_compute in R10.
  assert (R11 := cr_step _ _ _ _ _ _ _ R10 ltac:(eapply (S_Consume [] 100 _ 0%nat); reflexivity)). vm_compute in R11.
  assert (R12 := cr_step _ _ _ _ _ _ _ R11 ltac:(apply (S_Read [] 100 _ (MPayload (mkWP 1 0 [3] true 0))); reflexivity)). vm_compute in R12.
  assert (R13 := cr_step _ _ _ _ _ _ _ R12 ltac:(eapply (S_Deliver [] 100); cbn; [reflexivity|reflexivity|cbn; lia])). vm_compute in R13.
  eexists _, _, _, _. split; [exact R13|]. cbn. repeat split. repeat constructor; cbn; lia.
Qed.

(** ** C67: sessions of one connection do not hold each other up.  Refuted: when the channel of
    a session is full, the read loop reads nothing more, for any session, until that session's
    consumer takes something or the session is cancelled. *)
Lemma obj_mono reg mr s e s' o x : cstep reg mr s e s' -> nth_error (c_objs s) o = Some x ->
  exists x', nth_error (c_objs s') o = Some x' /\ (exists l, so_out x' = so_out x ++ l) /\
    (so_cancel x = true -> so_cancel x' = true) /\
    (so_out x' = so_out x -> exists l, so_recv x' = so_recv x ++ l).
Proof.
  intros ST Hx.
  assert (KEEP : forall y, so_out y = so_out x -> so_recv y = so_recv x -> (so_cancel x = true -> so_cancel y = true) ->
     (exists l, so_out y = so_out x ++ l) /\ (so_cancel x = true -> so_cancel y = true) /\ (so_out y = so_out x -> exists l, so_recv y = so_recv x ++ l)).
  { intros y -> -> Q. repeat split; auto; exists []; rewrite app_nil_r; auto. }
  assert (SAME : forall l, nth_error l o = Some x -> exists x', nth_error l o = Some x' /\ (exists l, so_out x' = so_out x ++ l) /\
    (so_cancel x = true -> so_cancel x' = true) /\ (so_out x' = so_out x -> exists l, so_recv x' = so_recv x ++ l)).
  { intros l Hl. exists x. split; auto. }
  assert (PUT : forall l o' f, nth_error l o = Some x -> so_out (f x) = so_out x -> so_recv (f x) = so_recv x -> (so_cancel x = true -> so_cancel (f x) = true) ->
     exists x', nth_error (put_at l o' f) o = Some x' /\ (exists l, so_out x' = so_out x ++ l) /\
    (so_cancel x = true -> so_cancel x' = true) /\ (so_out x' = so_out x -> exists l, so_recv x' = so_recv x ++ l)).
  { intros l o' f Hl Q1 Q2 Q3. rewrite put_at_nth. destruct (Nat.eqb o o'); [|auto]. rewrite Hl. cbn. exists (f x). split; auto. }
  assert (CL : exists x', nth_error (c_objs (Close s)) o = Some x' /\ (exists l, so_out x' = so_out x ++ l) /\
    (so_cancel x = true -> so_cancel x' = true) /\ (so_out x' = so_out x -> exists l, so_recv x' = so_recv x ++ l)).
  { destruct (Close_fields s) as (_ & _ & _ & _ & _ & _ & _ & _ & _ & _ & _ & _ & _ & ->). destruct (c_closed s); auto.
    rewrite !(upd_list_nth _ sclose_idem), Hx.
    destruct (existsb (Nat.eqb o) (map snd (c_sessions s))), (existsb (Nat.eqb o) (map snd (c_pending s))); cbn; eexists; split; eauto. }
  destruct ST; auto.
  - destruct m as [oid sid ok|sid code|w| |err|]; cbn [dispatch]; auto.
    + unfold handleOpenAck. cbn -[del put]. destruct (find oid (c_pending s)) as [o'|]; auto. destruct ok; cbn -[del put checkDrained].
      * rewrite !put_at_nth. destruct (Nat.eqb o o'); auto. rewrite Hx. cbn. eexists. split; eauto.
      * match goal with |- context [checkDrained ?q] => destruct (checkDrained_fields q) as (_ & _ & _ & _ & _ & _ & _ & _ & -> & _) end.
        rewrite !put_at_nth. cbn. destruct (Nat.eqb o o'); auto. rewrite Hx. cbn. eexists. split; eauto.
    + unfold handleClose. cbn -[del put]. destruct (find sid (c_sessions s)) as [o'|]; auto. cbn -[checkDrained del].
      match goal with |- context [checkDrained ?q] => destruct (checkDrained_fields q) as (_ & _ & _ & _ & _ & _ & _ & _ & -> & _) end. auto.
    + unfold handlePayload. cbn. destruct (find _ _); auto. destruct (admit _ _ _); auto. cbn. apply PUT; auto.
  - cbn. rewrite put_at_nth. destruct (Nat.eqb_spec o o0) as [-> | N]; auto. rewrite Hx. cbn. eexists. split; eauto. cbn.
    repeat split; eauto. exists []. rewrite app_nil_r. auto.
  - cbn. rewrite !put_at_nth. destruct (Nat.eqb o o0); auto. rewrite Hx. cbn. eexists. split; eauto.
  - cbn. rewrite upd_all_eq. cbn. rewrite (upd_list_nth _ close_recv_idem), Hx.
    destruct (existsb (Nat.eqb o) (map snd (c_sessions s))); cbn; eexists; split; eauto.
  - unfold register. destruct (_ || _); auto. cbn. rewrite nth_error_app1; auto. apply nth_error_Some. congruence.
  - cbn. rewrite put_at_nth. destruct (Nat.eqb_spec o o0) as [-> | N]; auto. rewrite Hx. cbn. eexists. split; eauto. cbn.
    repeat split; eauto. intros E. rewrite <- (app_nil_r (so_out x)) in E at 2. apply app_inv_head in E. discriminate.
  - cbn. apply PUT; auto.
  - unfold startGraceful. destruct (c_closed s); auto. destruct (c_sessions s), (c_pending s); auto.
Qed.
Theorem C67_head_of_line_refuted reg mr s es s' o p x x' :
  crun reg mr s es s' -> c_reader s = RPayload o p -> nth_error (c_objs s) o = Some x -> (16 <= length (so_recv x))%nat ->
  (* nothing was taken from the session's channel, and it was not cancelled *)
  nth_error (c_objs s') o = Some x' -> so_out x' = so_out x -> so_cancel x' = false ->
  c_log s' = c_log s /\ c_reader s' = RPayload o p.
Proof.
  intros R RP Hx LEN. revert x'. 
  enough (Q : exists x', nth_error (c_objs s') o = Some x' /\ (exists l, so_out x' = so_out x ++ l) /\
     (so_out x' = so_out x -> so_cancel x' = false -> (16 <= length (so_recv x'))%nat /\ c_log s' = c_log s /\ c_reader s' = RPayload o p)).
  { destruct Q as (y & Hy & _ & Q). intros x' Hx'. assert (x' = y) by congruence. subst. intros A B. apply Q; auto. }
  induction R as [s|s es s1 e s2 R IH ST].
  - exists x. split; auto. split; auto. exists []. rewrite app_nil_r. auto.
  - destruct (IH RP Hx) as (y & Hy & (l1 & O1) & Q). destruct (obj_mono _ _ _ _ _ _ _ ST Hy) as (z & Hz & (l2 & O2) & C2 & K).
    exists z. split; auto. split; [exists (l1 ++ l2); rewrite O2, O1, app_assoc; auto|].
    intros OZ CZ.
    assert (l1 = [] /\ l2 = []) as [-> ->].
    { apply app_eq_nil. rewrite O2, O1 in OZ. rewrite <- app_assoc in OZ. rewrite <- (app_nil_r (so_out x)) in OZ at 2. apply app_inv_head in OZ. auto. }
    rewrite app_nil_r in O1, O2. destruct Q as (L & LG & RD); auto. { destruct (so_cancel y); auto. rewrite C2 in CZ; auto. }
    destruct (K O2) as (l3 & R3). split; [rewrite R3, app_length; lia|].
    assert (so_cancel y = false) as CY by (destruct (so_cancel y); auto; rewrite C2 in CZ; auto).
    destruct ST; try congruence; try (split; auto; fail).
    + rewrite RD in H. injection H as <- <-. assert (x0 = y) by congruence. subst. lia.
    + unfold register. destruct (_ || _); auto.
    + destruct (Close_fields s0) as (_ & _ & E1 & _ & E2 & _). rewrite E1, E2. auto.
    + unfold startGraceful. destruct (c_closed s0); auto. destruct (c_sessions s0), (c_pending s0); auto.
    + destruct (Close_fields s0) as (_ & _ & E1 & _ & E2 & _). split; [change (c_log (Close s0) = c_log s)|change (c_reader (Close s0) = RPayload o p)]; congruence.
Qed.
Print Assumptions C67_head_of_line_refuted.
(** Such a state exists, with a second session open: the peer sends 17 payloads nobody takes. *)
Example C67_example : exists es s x p, crun [] 100 New es s /\ c_reader s = RPayload 0 p /\ nth_error (c_objs s) 0 = Some x /\
  length (so_recv x) = 16%nat /\ so_cancel x = false /\ length (c_sessions s) = 2%nat.
Proof.
  assert (R1 := cr_step _ _ _ _ _ _ _ (cr_refl [] 100 New) (S_Open [] 100 _)). vm_compute in R1.
  assert (R2 := cr_step _ _ _ _ _ _ _ R1 ltac:(apply (S_Register [] 100 _ 0%nat); reflexivity)). vm_compute in R2.
  assert (R3 := cr_step _ _ _ _ _ _ _ R2 (S_Open [] 100 _)). vm_compute in R3.
  assert (R4 := cr_step _ _ _ _ _ _ _ R3 ltac:(apply (S_Register [] 100 _ 1%nat); reflexivity)). vm_compute in R4.
  assert (R5 := cr_step _ _ _ _ _ _ _ R4 ltac:(apply (S_Read [] 100 _ (MOpenAck 1 2 true)); reflexivity)). vm_compute in R5.
  assert (R := cr_step _ _ _ _ _ _ _ R5 ltac:(apply (S_Read [] 100 _ (MOpenAck 0 1 true)); reflexivity)). vm_compute in R.
  clear R1 R2 R3 R4 R5.
  do 16 (
    assert (R7 := cr_step _ _ _ _ _ _ _ R ltac:(apply (S_Read [] 100 _ (MPayload (mkWP 1 0 [1] false 0))); reflexivity)); vm_compute in R7;
    assert (R8 := cr_step _ _ _ _ _ _ _ R7 ltac:(eapply (S_Deliver [] 100); cbn; [reflexivity|reflexivity|cbn; lia])); vm_compute in R8;
    clear R R7; rename R8 into R).
  assert (R7 := cr_step _ _ _ _ _ _ _ R ltac:(apply (S_Read [] 100 _ (MPayload (mkWP 1 0 [1] false 0))); reflexivity)). vm_compute in R7.
  eexists _, _, _, _. split; [exact R7|]. cbn. repeat split.
Qed.
