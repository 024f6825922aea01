(** C43 and C75 for the receive loop of a client stream (Model/RecvIter.v): from the messages the
    server sent to the values the caller sees and the error it is told. *)
From Coq Require Import Lia List.
Import ListNotations.
From Verif.Model Require Import Base Compress Client RecvIter.
From Verif.Spec Require Import Delivery.
From Verif.Proofs Require Import ClientProofs ClientDelivery ClientEnds RecvIterProofs.
Open Scope list_scope. Open Scope Z_scope.

(** What the server sent on the session that the loop reads: the payloads, and its close code. *)
Definition sent reg mr s x n := stream_on reg mr (so_id x) (skipn n (c_log s)).
Definition closed_with (s : client) x n := close_code (so_id x) (skipn n (c_log s)).

Lemma until_app_prefix l l' : exists r, until_end (l ++ l') = until_end l ++ r.
Proof.
  induction l as [|p l (r & IH)]; cbn; eauto. destruct (p_end p); [exists []; rewrite app_nil_r; auto|]. exists r. rewrite IH. auto.
Qed.

(** ** C43: at every moment, the values yielded are the first of those the server sent, each
    once, in order, unless the session was cancelled by its user or its connection closed. *)
Theorem C43_loop_yields_prefix reg mr o s t x n :
  irun reg mr o s t -> nth_error (c_objs s) o = Some x -> so_start x = Some n -> NoDup (accepted_ids (c_log s)) ->
  so_cancel x = false -> exists r, until_end (sent reg mr s x n) = ri_yield t ++ r.
Proof.
  intros R Hx Hn ND NC. destruct (irun_client _ _ _ _ _ R) as (es & C). destruct (cd_run _ _ _ _ C) as (_ & D).
  destruct (D _ _ Hx) as [A B _ F]. destruct (F n Hn) as (_ & _ & Q). destruct (Q ND) as (Q1 & _).
  destruct (iinv_run _ _ _ _ _ R) as (y & Hy & _ & Y & _). assert (y = x) by congruence. subst y.
  unfold sent. rewrite <- Q1, <- (B NC), Y. apply until_app_prefix.
Qed.
Print Assumptions C43_loop_yields_prefix.

(** Cancelled or not, what is yielded is in the order sent, without repetition or invention. *)
Theorem C43_loop_order reg mr o s t x n :
  irun reg mr o s t -> nth_error (c_objs s) o = Some x -> so_start x = Some n -> NoDup (accepted_ids (c_log s)) ->
  exists l, subseq l (sent reg mr s x n) /\ ri_yield t = until_end l.
Proof.
  intros R Hx Hn ND. destruct (irun_client _ _ _ _ _ R) as (es & C). destruct (cd_run _ _ _ _ C) as (_ & D).
  destruct (D _ _ Hx) as [A B _ F]. destruct (F n Hn) as (_ & _ & Q). destruct (Q ND) as (Q1 & _).
  destruct (iinv_run _ _ _ _ _ R) as (y & Hy & _ & Y & _). assert (y = x) by congruence. subst y.
  exists (so_out x). split; auto. unfold sent. rewrite <- Q1. eapply subseq_trans; [|exact A].
  clear. generalize (so_recv x ++ flight (c_reader s) o) as r. intros r. induction (so_out x) as [|a l IH]; cbn; [|constructor; auto].
  induction r; constructor; auto.
Qed.
Print Assumptions C43_loop_order.

(** ** C43: a loop that has ended by itself (its caller did not break off, neither its context nor
    the session was cancelled) has yielded everything the server sent. *)
Theorem C43_loop_yields_all reg mr o s t x n :
  irun reg mr o s t -> nth_error (c_objs s) o = Some x -> so_start x = Some n -> NoDup (accepted_ids (c_log s)) ->
  so_cancel x = false -> ri_ctx t = false -> ri_pc t = IDone false ->
  ri_yield t = until_end (sent reg mr s x n).
Proof.
  intros R Hx Hn ND NC NX PC. destruct (irun_client _ _ _ _ _ R) as (es & C). destruct (cd_run _ _ _ _ C) as (CI & D).
  destruct (D _ _ Hx) as [A B _ F]. destruct (F n Hn) as (_ & _ & Q). destruct (Q ND) as (Q1 & _).
  destruct (iinv_run _ _ _ _ _ R) as (y & Hy & _ & Y & K). assert (y = x) by congruence. subst y.
  unfold sent. rewrite <- Q1, <- (B NC), Y.
  assert (E : has_end (so_out x) \/ ended x). { unfold iok in K. rewrite PC in K. destruct K as [K|([K|K] & _)]; [tauto|tauto|congruence]. }
  destruct E as [E|(E1 & E2)]; [rewrite until_ended; auto|]. rewrite E2. cbn.
  destruct (flight (c_reader s) o) eqn:FL; [rewrite app_nil_r; auto|]. exfalso.
  unfold flight in FL. destruct (c_reader s) eqn:RD; try discriminate. destruct (Nat.eqb_spec o o0) as [<- | N]; [|discriminate].
  destruct CI as (I & _). rewrite RD in I. pose proof (i_rdr _ _ _ _ I) as RI. cbn in RI. apply in_map_iff in RI.
  destruct RI as ([k o'] & Eo & IN). cbn in Eo. subst o'. destruct (i_ses _ _ _ _ I _ _ IN) as (z & Hz & _ & Z1 & _).
  assert (z = x) by congruence. subst z. rewrite Z1 in E1; [discriminate|discriminate].
Qed.
Print Assumptions C43_loop_yields_all.

(** ** C75: why a loop ends.  If its caller did not break off and its context was not cancelled,
    then a payload marked as the last was received, or the server closed the session, or the
    connection's read loop has ended. *)
Theorem C75_why_ended reg mr o s t x n :
  irun reg mr o s t -> nth_error (c_objs s) o = Some x -> so_start x = Some n -> NoDup (accepted_ids (c_log s)) ->
  ri_pc t = IDone false -> ri_ctx t = false ->
  has_end (sent reg mr s x n) \/ closed_with s x n <> None \/ c_reader s = RDone.
Proof.
  intros R Hx Hn ND PC NX. destruct (irun_client _ _ _ _ _ R) as (es & C). destruct (ce_run _ _ _ _ C) as ((_ & D) & E).
  destruct (D _ _ Hx) as [A _ _ F]. destruct (F n Hn) as (_ & _ & Q). destruct (Q ND) as (Q1 & Q2).
  destruct (iinv_run _ _ _ _ _ R) as (y & Hy & _ & Y & K). assert (y = x) by congruence. subst y.
  unfold iok in K. rewrite PC in K. destruct (E _ _ Hx) as [E1 E2 E3].
  assert (EE : has_end (so_out x) \/ ended x) by (destruct K as [K|([K|K] & _)]; [tauto|tauto|congruence]).
  destruct EE as [(p & IP & EP)|EE].
  - left. exists p. split; auto. unfold sent. rewrite <- Q1. clear -A IP.
    assert (I2 : In p (so_out x ++ so_recv x ++ flight (c_reader s) o)) by (apply in_app_iff; auto).
    revert I2. induction A; cbn; intuition.
  - right. destruct (closed_with s x n) eqn:CW; [left; discriminate|right]. unfold closed_with in CW.
    apply close_code_closes in CW. apply Q2 in CW. destruct (E2 ltac:(congruence) CW) as (_ & _ & E4). destruct EE as (EE & _).
    destruct (c_reader s); auto; exfalso; (rewrite E4 in EE; [discriminate|discriminate]).
Qed.
Print Assumptions C75_why_ended.

(** ** C75: an error is reported only if the server closed the session with it. *)
Theorem C75_error_is_servers reg mr o s t x n c :
  irun reg mr o s t -> nth_error (c_objs s) o = Some x -> so_start x = Some n -> NoDup (accepted_ids (c_log s)) ->
  ri_err t = Some c -> closed_with s x n = Some c /\ c <> 0.
Proof.
  intros R Hx Hn ND ER. destruct (irun_client _ _ _ _ _ R) as (es & C). destruct (ce_run _ _ _ _ C) as ((_ & D) & E).
  destruct (D _ _ Hx) as [A _ _ F]. destruct (F n Hn) as (_ & _ & Q). destruct (Q ND) as (Q1 & Q2).
  destruct (iinv_run _ _ _ _ _ R) as (y & Hy & _ & Y & K). assert (y = x) by congruence. subst y.
  destruct (E _ _ Hx) as [E1 E2 E3].
  assert (RP : report (so_close x) = Some c).
  { unfold iok in K. destruct (ri_pc t) as [| | |[]]; try (destruct K as (K1 & K2); congruence); try (destruct K as (K1 & K2 & K3); congruence).
    - congruence.
    - destruct K as [(_ & K)|(_ & [K|K])]; congruence. }
  destruct (so_close x) as [c'|] eqn:SC; [|discriminate]. cbn in RP. destruct (Z.eqb_spec c' 0); [discriminate|]. injection RP as ->.
  split; auto. destruct (E3 n Hn ND) as (c' & CC & [EE|EE]).
  - intros IN. destruct (E2 ltac:(congruence) IN). discriminate.
  - destruct EE as (_ & _ & EE). discriminate.
  - destruct EE as (_ & _ & EE). unfold closed_with. congruence.
Qed.
Print Assumptions C75_error_is_servers.

(** ** C75: and it is reported when the loop runs to the end of the session: no payload was marked
    as the last, the context was not cancelled and the server closed the session with a code. *)
Theorem C75_error_reported_partial reg mr o s t x n c :
  irun reg mr o s t -> nth_error (c_objs s) o = Some x -> so_start x = Some n -> NoDup (accepted_ids (c_log s)) ->
  ri_pc t = IDone false -> ri_ctx t = false -> ~ has_end (sent reg mr s x n) ->
  closed_with s x n = Some c ->
  ri_err t = if c =? 0 then None else Some c.
Proof.
  intros R Hx Hn ND PC NX NE CW. destruct (irun_client _ _ _ _ _ R) as (es & C). destruct (ce_run _ _ _ _ C) as ((_ & D) & E).
  destruct (D _ _ Hx) as [A _ _ F]. destruct (F n Hn) as (_ & _ & Q). destruct (Q ND) as (Q1 & Q2).
  destruct (iinv_run _ _ _ _ _ R) as (y & Hy & _ & Y & K). assert (y = x) by congruence. subst y.
  unfold iok in K. rewrite PC in K. destruct (E _ _ Hx) as [E1 E2 E3].
  destruct K as [(K1 & K2)|([K|K] & _)]; [|exfalso|congruence].
  - destruct (E3 n Hn ND) as (c' & CC & [EE|EE]).
    + intros IN. apply Q2 in IN. apply close_code_closes in IN. unfold closed_with in CW. congruence.
    + destruct EE as (_ & EE & _). destruct K1 as (K1 & _). congruence.
    + destruct EE as (_ & _ & EE). unfold closed_with in CW. assert (c' = c) by congruence. subst c'. rewrite K2, EE. reflexivity.
  - apply NE. destruct K as (p & IP & EP). exists p. split; auto. unfold sent. rewrite <- Q1. clear -A IP.
    assert (I2 : In p (so_out x ++ so_recv x ++ flight (c_reader s) o)) by (apply in_app_iff; auto).
    revert I2. induction A; cbn; intuition.
Qed.
Print Assumptions C75_error_reported_partial.

(** ** C75: the loop does end.  Once the read loop is idle after the server's Close, or has ended,
    the receive loop needs no other goroutine to finish: it yields what is buffered and returns. *)
Lemma loop_finishes o : forall q s t x,
  nth_error (c_objs s) o = Some x -> so_recv x = q -> so_recv_closed x = true \/ ri_pc t = IDrain -> ri_pc t = ILoop \/ ri_pc t = IDrain ->
  exists s' t', lrun o s t s' t' /\ ri_pc t' = IDone false /\ ri_yield t' = ri_yield t ++ until_end q.
Proof.
  induction q as [|p q IH]; intros s t x Hx Q CL PC.
  - assert (exists t1, lstep o s t s t1 /\ ri_pc t1 = ICheck /\ ri_yield t1 = ri_yield t) as (t1 & L & P1 & Y1).
    { destruct (so_recv_closed x) eqn:RC.
      - exists (at_pc t ICheck). split; auto. eapply I_Closed; eauto.
      - exists (at_pc t ICheck). split; auto. eapply I_Default; eauto. destruct CL; [congruence|auto]. }
    exists s, (checkClose t1 x). split.
    + eapply lr_step; [exact L|]. eapply lr_step; [eapply I_Check; eauto|constructor].
    + cbn. rewrite Y1, app_nil_r. auto.
  - assert (L : lstep o s t (upd_obj s o (dequeue p)) (take t p true)) by (eapply I_Take; eauto).
    set (s1 := upd_obj s o (dequeue p)) in *. set (x1 := dequeue p x).
    assert (Hx1 : nth_error (c_objs s1) o = Some x1) by (unfold s1; cbn; rewrite put_at_nth, Nat.eqb_refl, Hx; reflexivity).
    destruct (p_end p) eqn:PE.
    + assert (T : ri_pc (take t p true) = ICheck /\ ri_yield (take t p true) = ri_yield t ++ match p_data p with [] => [] | d => [d] end).
      { unfold take. rewrite PE. destruct (p_data p); cbn; rewrite ?app_nil_r; auto. }
      destruct T as (T1 & T2). exists s1, (checkClose (take t p true) x1). split.
      * eapply lr_step; [exact L|]. eapply lr_step; [eapply I_Check; eauto|constructor].
      * cbn [checkClose ri_pc ri_yield until_end]. rewrite T2, PE. auto.
    + assert (T : ri_pc (take t p true) = ri_pc t /\ ri_yield (take t p true) = ri_yield t ++ [p_data p]) by (unfold take; rewrite PE; auto).
      destruct T as (T1 & T2).
      destruct (IH s1 (take t p true) x1) as (s' & t' & LR & P' & Y'); auto.
      * unfold x1. cbn. rewrite Q. reflexivity.
      * rewrite T1. destruct CL; auto.
      * rewrite T1. auto.
      * exists s', t'. split; [eapply lr_step; eauto|]. split; auto. rewrite Y', T2, <- app_assoc. cbn. rewrite PE. reflexivity.
Qed.
Theorem C75_loop_ends reg mr o s t x n :
  irun reg mr o s t -> nth_error (c_objs s) o = Some x -> so_start x = Some n -> NoDup (accepted_ids (c_log s)) ->
  c_reader s = RDone \/ (c_reader s = RTop /\ closed_with s x n <> None) ->
  ri_pc t = ILoop ->
  exists s' t', lrun o s t s' t' /\ ri_pc t' = IDone false.
Proof.
  intros R Hx Hn ND RD PC. destruct (irun_client _ _ _ _ _ R) as (es & C). destruct (ce_run _ _ _ _ C) as ((_ & D) & E).
  destruct (D _ _ Hx) as [A _ _ F]. destruct (F n Hn) as (_ & _ & Q). destruct (Q ND) as (Q1 & Q2). destruct (E _ _ Hx) as [E1 E2 E3].
  assert (CL : so_recv_closed x = true).
  { destruct (existsb (closes (so_id x)) (skipn n (c_log s))) eqn:X.
    - assert (NI : ~ In (so_id x, o) (c_sessions s)) by (intros IN; apply Q2 in IN; discriminate).
      destruct (E3 n Hn ND NI) as (c & _ & [EE|EE]); [|tauto]. destruct EE as (EE & _). destruct RD as [RD|(RD & _)]; congruence.
    - pose proof (proj1 Q2 eq_refl) as IN. destruct RD as [RD|(_ & RD)].
      + apply E2; auto. congruence.
      + exfalso. apply RD. apply close_code_closes. auto. }
  destruct (loop_finishes o (so_recv x) s t x) as (s' & t' & LR & P & _); eauto.
Qed.
Print Assumptions C75_loop_ends.

(** Likewise after its context is cancelled, and then everything already buffered is yielded. *)
Theorem C75_cancelled_loop_drains o s t x :
  nth_error (c_objs s) o = Some x -> ri_ctx t = true -> ri_pc t = ILoop ->
  exists s' t', lrun o s t s' t' /\ ri_pc t' = IDone false /\ ri_yield t' = ri_yield t ++ until_end (so_recv x).
Proof.
  intros Hx CX PC. destruct (loop_finishes o (so_recv x) s (at_pc t IDrain) x) as (s' & t' & LR & P & Y); auto.
  exists s', t'. split; auto. eapply lr_step; [apply I_Ctx; auto|exact LR].
Qed.
Print Assumptions C75_cancelled_loop_drains.

(** And there is no other way for it to end: however it chooses between its context and its
    channel, a loop that returns by itself has yielded everything that was buffered. *)
Lemma lrun_done o s t s' t' b : lrun o s t s' t' -> ri_pc t = IDone b -> t' = t.
Proof.
  intros H. induction H; auto. intros P. exfalso. inversion H; subst; try congruence;
    match goal with X : _ \/ _ |- _ => destruct X; congruence end.
Qed.
Lemma lrun_check o s t s' t' : lrun o s t s' t' -> ri_pc t = ICheck -> ri_yield t' = ri_yield t.
Proof.
  intros H P. destruct H; auto. inversion H; subst; try congruence;
    try (match goal with X : _ \/ _ |- _ => destruct X; congruence end).
  rewrite (lrun_done _ _ _ _ _ false H0); reflexivity.
Qed.
Theorem C75_ended_loop_drained o s t s' t' x :
  lrun o s t s' t' -> nth_error (c_objs s) o = Some x -> ri_pc t = ILoop \/ ri_pc t = IDrain -> ri_pc t' = IDone false ->
  ri_yield t' = ri_yield t ++ until_end (so_recv x).
Proof.
  intros H. revert x. induction H as [s t|s t s1 t1 s2 t2 H H0 IH]; intros x Hx PC DN.
  { destruct PC; congruence. }
  assert (P0 : forall y, nth_error (c_objs s) o = Some y -> y = x) by (intros; congruence).
  inversion H; subst.
  - match goal with X : nth_error _ o = Some ?y |- _ => pose proof (P0 _ X); subst y end.
    match goal with X : so_recv x = _ |- _ => rewrite X end. cbn [until_end].
    assert (Hx1 : nth_error (c_objs (upd_obj s o (dequeue p))) o = Some (dequeue p x)) by (cbn; rewrite put_at_nth, Nat.eqb_refl, Hx; reflexivity).
    unfold take in H0, IH. destruct (p_end p) eqn:PE; cbn [andb] in H0, IH.
    + destruct (p_data p) as [|d l] eqn:PD; cbn [length Z.of_nat Z.eqb] in H0, IH.
      * rewrite (lrun_check _ _ _ _ _ H0) by reflexivity. cbn. now rewrite app_nil_r.
      * destruct go; cbn in H0.
        -- rewrite (lrun_check _ _ _ _ _ H0) by reflexivity. reflexivity.
        -- rewrite (lrun_done _ _ _ _ _ true H0) in DN by reflexivity. discriminate DN.
    + destruct go; cbn [negb] in H0, IH.
      * rewrite (IH (dequeue p x) Hx1); auto. cbn. rewrite <- app_assoc. cbn.
        match goal with X : so_recv x = _ |- _ => rewrite X end. reflexivity.
      * rewrite (lrun_done _ _ _ _ _ true H0) in DN by reflexivity. discriminate DN.
  - match goal with X : nth_error _ o = Some ?y |- _ => pose proof (P0 _ X); subst y end.
    match goal with X : so_recv x = _ |- _ => rewrite X end. rewrite (lrun_check _ _ _ _ _ H0) by reflexivity. cbn. now rewrite app_nil_r.
  - apply (IH x); auto.
  - match goal with X : nth_error _ o = Some ?y |- _ => pose proof (P0 _ X); subst y end.
    match goal with X : so_recv x = _ |- _ => rewrite X end. rewrite (lrun_check _ _ _ _ _ H0) by reflexivity. cbn. now rewrite app_nil_r.
  - destruct PC; congruence.
Qed.
Print Assumptions C75_ended_loop_drained.

(** A session that receives two values and is closed with code 5: the caller sees both values
    and the error. *)
Definition opened : list smsg := [MOpenAck 0 7 true].
Ltac next R E := let Q := fresh in assert (Q := E); clear R; rename Q into R; vm_compute in R.
Ltac at_open R :=
  assert (R := cr_step _ _ _ _ _ _ _ (cr_refl [] 0 New) (S_Open [] 0 _)); vm_compute in R;
  next R (cr_step _ _ _ _ _ _ _ R ltac:(apply (S_Register [] 0 _ 0%nat); reflexivity));
  next R (cr_step _ _ _ _ _ _ _ R ltac:(apply (S_Read [] 0 _ (MOpenAck 0 7 true)); reflexivity)).
Ltac env R T := next R (ir_step _ _ _ _ _ _ _ R ltac:(eapply I_Env; [T|reflexivity])).
Ltac own R T := next R (ir_step _ _ _ _ _ _ _ R ltac:(eapply I_Own; T)).
Example C75_case : exists s t x, irun [] 0 0%nat s t /\ nth_error (c_objs s) 0 = Some x /\ so_start x = Some 1%nat /\
  NoDup (accepted_ids (c_log s)) /\ so_cancel x = false /\ ri_pc t = IDone false /\ ri_ctx t = false /\
  ri_yield t = [[1]; [2]] /\ ri_err t = Some 5.
Proof.
  at_open R.
  assert (I := ir_start [] 0 0%nat _ _ _ R eq_refl ltac:(discriminate) eq_refl). vm_compute in I.
  env I ltac:(apply (S_Read [] 0 _ (MPayload (mkWP 7 0 [1] false 0))); reflexivity).
  env I ltac:(eapply (S_Deliver [] 0); cbn; [reflexivity|reflexivity|cbn; lia]).
  own I ltac:(eapply (I_Take _ _ _ _ _ _ true); [left; reflexivity|reflexivity|reflexivity]).
  env I ltac:(apply (S_Read [] 0 _ (MPayload (mkWP 7 0 [2] false 0))); reflexivity).
  env I ltac:(eapply (S_Deliver [] 0); cbn; [reflexivity|reflexivity|cbn; lia]).
  env I ltac:(apply (S_Read [] 0 _ (MClose 7 5)); reflexivity).
  env I ltac:(eapply (S_CloseObj [] 0); reflexivity).
  own I ltac:(eapply (I_Take _ _ _ _ _ _ true); [left; reflexivity|reflexivity|reflexivity]).
  own I ltac:(eapply I_Closed; [left; reflexivity|reflexivity|reflexivity|reflexivity]).
  own I ltac:(eapply I_Check; [reflexivity|reflexivity]).
  eexists _, _, _. split; [exact I|]. cbn. repeat split; auto. repeat constructor. intros [].
Qed.

(** ** C75 in full is false.  When the server ends the stream with a payload marked as the last and
    then closes the session with an error, a loop that gets there first reports no error; *)
Theorem C75_error_after_end_refuted : exists s t x, irun [] 0 0%nat s t /\ nth_error (c_objs s) 0 = Some x /\ so_start x = Some 1%nat /\
  NoDup (accepted_ids (c_log s)) /\ so_cancel x = false /\ ri_pc t = IDone false /\ ri_ctx t = false /\
  closed_with s x 1 = Some 5 /\ ri_err t = None.
Proof.
  at_open R.
  assert (I := ir_start [] 0 0%nat _ _ _ R eq_refl ltac:(discriminate) eq_refl). vm_compute in I.
  env I ltac:(apply (S_Read [] 0 _ (MPayload (mkWP 7 0 [1] true 0))); reflexivity).
  env I ltac:(eapply (S_Deliver [] 0); cbn; [reflexivity|reflexivity|cbn; lia]).
  own I ltac:(eapply (I_Take _ _ _ _ _ _ true); [left; reflexivity|reflexivity|reflexivity]).
  own I ltac:(eapply I_Check; [reflexivity|reflexivity]).
  env I ltac:(apply (S_Read [] 0 _ (MClose 7 5)); reflexivity).
  env I ltac:(eapply (S_CloseObj [] 0); reflexivity).
  eexists _, _, _. split; [exact I|]. cbn. repeat split; auto. repeat constructor. intros [].
Qed.
Print Assumptions C75_error_after_end_refuted.

(** and when the connection is lost in the middle of a stream, the loop ends as if the server had
    finished it: neither the end of the stream nor a Close has arrived, the connection has an
    error, and the caller is told of none. *)
Theorem C75_lost_connection_refuted : exists s t x, irun [] 0 0%nat s t /\ nth_error (c_objs s) 0 = Some x /\ so_start x = Some 1%nat /\
  NoDup (accepted_ids (c_log s)) /\ ri_pc t = IDone false /\ ri_ctx t = false /\
  ~ has_end (sent [] 0 s x 1) /\ closed_with s x 1 = None /\ c_fatal s = Some 9 /\ ri_yield t = [[1]] /\ ri_err t = None.
Proof.
  at_open R.
  assert (I := ir_start [] 0 0%nat _ _ _ R eq_refl ltac:(discriminate) eq_refl). vm_compute in I.
  env I ltac:(apply (S_Read [] 0 _ (MPayload (mkWP 7 0 [1] false 0))); reflexivity).
  env I ltac:(eapply (S_Deliver [] 0); cbn; [reflexivity|reflexivity|cbn; lia]).
  own I ltac:(eapply (I_Take _ _ _ _ _ _ true); [left; reflexivity|reflexivity|reflexivity]).
  env I ltac:(apply (S_ReadErr [] 0 _ 9); reflexivity).
  env I ltac:(eapply (S_FatalClose [] 0); reflexivity).
  env I ltac:(eapply (S_Exit [] 0); reflexivity).
  own I ltac:(eapply I_Closed; [left; reflexivity|reflexivity|reflexivity|reflexivity]).
  own I ltac:(eapply I_Check; [reflexivity|reflexivity]).
  eexists _, _, _. split; [exact I|]. cbn. repeat split; auto; [repeat constructor; intros []|].
  intros (p & [<-|[]] & E). discriminate.
Qed.
Print Assumptions C75_lost_connection_refuted.
