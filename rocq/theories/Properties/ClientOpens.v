(** C74: opening a session on a client connection (Model/Client.v) gives each caller the answer to
    its own open, whatever the server sends and however the goroutines interleave. *)
From Coq Require Import Lia List.
Import ListNotations.
From Verif.Model Require Import Base Compress Client.
From Verif.Proofs Require Import ClientProofs ClientOpens.
Open Scope list_scope. Open Scope Z_scope.

Lemma dispatch_openers reg mr s m : c_openers (dispatch reg mr s m) = c_openers s.
Proof.
  destruct m as [oid sid ok|sid code|w| |err|]; cbn; auto.
  - unfold handleOpenAck. destruct (find _ _); auto. destruct ok; cbn; auto.
    match goal with |- context [checkDrained ?q] => 
      destruct (checkDrained_fields q) as (E1 & E2 & E3 & E4 & _ & E6 & _ & _ & E5 & E7 & E8 & E9 & _) end. rewrite E7. auto.
  - unfold handleClose. destruct (find _ _); auto. cbn.
    match goal with |- context [checkDrained ?q] => 
      destruct (checkDrained_fields q) as (E1 & E2 & E3 & E4 & _ & E6 & _ & _ & E5 & E7 & E8 & E9 & _) end. rewrite E7. auto.
  - unfold handlePayload. destruct (find _ _); auto. destruct (admit _ _ _); auto.
Qed.

(** What can become of a caller that has registered its open. *)
Definition mine (oid : Z) (o : nat) (w : opener) : Prop := w = OSend oid o \/ w = OWait oid o \/ w = OErr \/ w = OGot o.
Lemma put_mine oid o l i (f : opener -> opener) j w :
  (mine oid o w -> w = nth j l w -> mine oid o (f w)) -> nth_error l j = Some w -> mine oid o w ->
  exists w', nth_error (put_at l i f) j = Some w' /\ mine oid o w'.
Proof.
  intros F H M. rewrite put_at_nth. destruct (Nat.eqb j i); rewrite H; cbn; eexists; split; eauto.
  apply F; auto. symmetry. apply nth_error_nth. auto.
Qed.
Lemma mine_step reg mr oid o i s e s' : cstep reg mr s e s' ->
  (exists w, nth_error (c_openers s) i = Some w /\ mine oid o w) -> exists w, nth_error (c_openers s') i = Some w /\ mine oid o w.
Proof.
  intros ST (w & Hw & M).
  assert (K : forall i' g, nth_error (c_openers s) i' = Some g -> forall f : opener -> opener, (mine oid o g -> mine oid o (f g)) ->
    exists w, nth_error (put_at (c_openers s) i' f) i = Some w /\ mine oid o w).
  { intros i' g Hg f F. rewrite put_at_nth. destruct (Nat.eqb_spec i i') as [<- | N]; [|eauto].
    assert (g = w) by congruence. subst g. rewrite Hw. cbn. eauto. }
  destruct ST; cbn; try (exists w; split; auto; fail);
    try (eapply K; eauto; unfold mine; intuition congruence; fail).
  - exists w. rewrite dispatch_openers. auto.
  - exists w. destruct (Close_fields s) as (_ & _ & _ & _ & _ & _ & _ & _ & _ & E' & _). rewrite E'. auto.
  - exists w. rewrite upd_all_eq. auto.
  - exists w. rewrite nth_error_app1; auto. apply nth_error_Some. congruence.
  - unfold register. destruct (_ || _); cbn; (eapply K; [eauto|]); unfold mine; intuition congruence.
  - eapply K; eauto. intros [Q|[Q|[Q|Q]]]; try congruence. injection Q as <- <-. unfold mine. destruct (_ =? _); auto.
  - exists w. destruct (Close_fields s) as (_ & _ & _ & _ & _ & _ & _ & _ & _ & E' & _). rewrite E'. auto.
  - exists w. unfold startGraceful. destruct (c_closed s); auto. destruct (c_sessions s), (c_pending s); auto.
  - exists w. destruct (Close_fields s) as (_ & _ & _ & _ & _ & _ & _ & _ & _ & E' & _). rewrite E'. auto.
Qed.

(** ** The session returned is the one the server opened for this very call: a caller that sent an
    Open with id [oid] and later succeeds has a session whose id the server announced, with a
    success, in an OpenAck for [oid]. *)
Theorem C74_own_answer reg mr es s es' s' i oid o w o' :
  crun reg mr New es s -> crun reg mr s es' s' -> Z.of_nat (length (c_objs s')) <= 2 ^ 32 ->
  nth_error (c_openers s) i = Some w -> w = OSend oid o \/ w = OWait oid o ->
  nth_error (c_openers s') i = Some (OGot o') ->
  o' = o /\ exists x, nth_error (c_objs s') o = Some x /\ so_id x <> 0 /\ In (MOpenAck oid (so_id x) true) (c_log s').
Proof.
  intros R R' L Hw W G.
  assert (RR : exists es2, crun reg mr New es2 s').
  { clear -R R'. revert R. induction R'; intros R0; eauto. destruct (IHR' R0) as (es2 & R2). eexists. eapply cr_step; eauto. }
  destruct RR as (es2 & RR). destruct (oinv_run _ _ _ _ RR) as (_ & _ & O). specialize (O L).
  assert (M : exists w, nth_error (c_openers s') i = Some w /\ mine oid o w).
  { clear -R' Hw W. induction R'; [exists w; split; auto; unfold mine; tauto|]. eapply mine_step; eauto. }
  destruct M as (w' & Hw' & M). assert (w' = OGot o') by congruence. subst w'.
  assert (o' = o) by (destruct M as [M|[M|[M|M]]]; congruence). subst o'. split; auto.
  destruct (o_op _ _ _ _ O _ _ G) as (x & Hx & X1 & X2). exists x. split; auto. split; auto.
  assert (oid = Z.of_nat o).
  { destruct (oinv_run _ _ _ _ R) as (_ & _ & O1). 
    assert (LE : (length (c_objs s) <= length (c_objs s'))%nat).
    { clear -R'. induction R'; auto. etransitivity; [exact IHR'|]. clear -H. destruct H; cbn; rewrite ?put_at_len; auto.
      - destruct m as [oid sid ok|sid code|w| |err|]; cbn; auto.
        + unfold handleOpenAck. destruct (find _ _); auto. destruct ok; cbn.
          * rewrite !put_at_len. auto.
          * match goal with |- context [checkDrained ?q] => 
              destruct (checkDrained_fields q) as (E1 & E2 & E3 & E4 & _ & E6 & _ & _ & E5 & E7 & E8 & E9 & _) end.
            rewrite !put_at_len. cbn in *. rewrite ?E1, ?E2, ?E3, ?E4, ?E5, ?E6, ?E7, ?E8, ?E9. auto.
        + unfold handleClose. destruct (find _ _); auto. cbn.
          match goal with |- context [checkDrained ?q] => 
              destruct (checkDrained_fields q) as (E1 & E2 & E3 & E4 & _ & E6 & _ & _ & E5 & E7 & E8 & E9 & _) end.
          cbn in *. rewrite ?E1, ?E2, ?E3, ?E4, ?E5, ?E6, ?E7, ?E8, ?E9. auto.
        + unfold handlePayload. destruct (find _ _); auto. destruct (admit _ _ _); auto. cbn. rewrite put_at_len. auto.
      - destruct (Close_fields s) as (_ & _ & _ & _ & _ & _ & _ & _ & _ & _ & _ & _ & _ & ->). destruct (c_closed s); rewrite ?upd_list_len; auto.
      - rewrite upd_all_eq. cbn. rewrite upd_list_len. auto.
      - unfold register. destruct (_ || _); cbn; auto. rewrite app_length. cbn. lia.
      - destruct (Close_fields s) as (_ & _ & _ & _ & _ & _ & _ & _ & _ & _ & _ & _ & _ & ->). destruct (c_closed s); rewrite ?upd_list_len; auto.
      - unfold startGraceful. destruct (c_closed s); auto. destruct (c_sessions s), (c_pending s); auto.
      - destruct (Close_fields s) as (_ & _ & _ & _ & _ & _ & _ & _ & _ & _ & _ & _ & _ & ->). destruct (c_closed s); rewrite ?upd_list_len; auto. }
    specialize (O1 ltac:(lia)). pose proof (o_op _ _ _ _ O1 _ _ Hw) as Q. destruct W as [-> | ->]; apply Q. }
  pose proof (o_obj _ _ _ _ O _ _ Hx) as X. unfold xok in X. destruct (so_start x) as [n|]; [|congruence].
  destruct X as (_ & X & _). rewrite <- H in X. eapply nth_error_In; eauto.
Qed.
Print Assumptions C74_own_answer.

(** ** Two callers never share a session. *)
Theorem C74_distinct_sessions reg mr es s i j o :
  crun reg mr New es s -> Z.of_nat (length (c_objs s)) <= 2 ^ 32 ->
  nth_error (c_openers s) i = Some (OGot o) -> nth_error (c_openers s) j = Some (OGot o) -> i = j.
Proof.
  intros R L I J. destruct (oinv_run _ _ _ _ R) as (_ & _ & O). specialize (O L).
  exact (o_dist _ _ _ _ O _ _ _ _ o I J eq_refl eq_refl).
Qed.
Print Assumptions C74_distinct_sessions.

(** Open ids of calls in progress are distinct too. *)
Theorem C74_distinct_ids reg mr es s i j oid o o' :
  crun reg mr New es s -> Z.of_nat (length (c_objs s)) <= 2 ^ 32 ->
  nth_error (c_openers s) i = Some (OWait oid o) -> nth_error (c_openers s) j = Some (OWait oid o') -> i = j.
Proof.
  intros R L I J. destruct (oinv_run _ _ _ _ R) as (_ & _ & O). specialize (O L).
  destruct (o_op _ _ _ _ O _ _ I) as (E & _). destruct (o_op _ _ _ _ O _ _ J) as (E' & _). assert (o = o') by lia. subst o'.
  exact (o_dist _ _ _ _ O _ _ _ _ o I J eq_refl eq_refl).
Qed.
Print Assumptions C74_distinct_ids.

(** ** The server's answer decides: when the OpenAck for a caller's open is read, the caller's next
    step is to return, with the announced session when the server accepted and with an error
    when it refused. *)
Theorem C74_answer_decides reg mr es s i oid o sid ok s' :
  crun reg mr New es s -> Z.of_nat (length (c_objs s)) <= 2 ^ 32 ->
  nth_error (c_openers s) i = Some (OWait oid o) -> find oid (c_pending s) = Some o ->
  c_reader s = RTop -> s' = with_log (dispatch reg mr (with_log s (c_log s ++ [MOpenAck oid sid ok])) (MOpenAck oid sid ok)) (c_log s ++ [MOpenAck oid sid ok]) ->
  cstep reg mr s (ERead (MOpenAck oid sid ok)) s' /\
  (exists x, nth_error (c_objs s') o = Some x /\ so_ready x = true /\ (ok = true -> so_id x = sid) /\ (ok = false -> so_id x = 0)) /\
  (exists s2, cstep reg mr s' EOther s2 /\
     nth_error (c_openers s2) i = Some (if ok && negb (sid =? 0) then OGot o else OErr)) /\
  (forall e s2 w, cstep reg mr s' e s2 -> nth_error (c_openers s2) i = Some w -> w = OGot o -> ok = true /\ sid <> 0).
Proof.
  intros R L Hw F Rd ->. destruct (oinv_run _ _ _ _ R) as (C & _ & O). specialize (O L).
  destruct C as (I & _). destruct (i_pen _ _ _ _ I _ _ (find_In _ _ _ F)) as (x & Hx & X1 & X2 & X3).
  pose proof (o_obj _ _ _ _ O _ _ Hx) as X. unfold xok in X. rewrite X1 in X.
  split; [constructor; auto|].
  set (s' := with_log _ _).
  assert (OP : c_openers s' = c_openers s) by (unfold s'; cbn [with_log c_openers]; rewrite dispatch_openers; reflexivity).
  assert (X' : exists x', nth_error (c_objs s') o = Some x' /\ so_ready x' = true /\ so_id x' = if ok then sid else 0).
  { unfold s'. cbn. unfold handleOpenAck. cbn. rewrite F. destruct ok; cbn.
    - rewrite !put_at_nth, Nat.eqb_refl, Hx. cbn. eexists. split; [reflexivity|]. auto.
    - match goal with |- context [checkDrained ?q] => 
        destruct (checkDrained_fields q) as (E1 & E2 & E3 & E4 & _ & E6 & _ & _ & E5 & E7 & E8 & E9 & _) end.
      cbn in E5. rewrite E5. rewrite !put_at_nth, Nat.eqb_refl, Hx. cbn. eexists. split; [reflexivity|]. auto. }
  destruct X' as (x' & Hx' & Y1 & Y2).
  clearbody s'.
  split; [|split].
  - exists x'. repeat split; auto; intros ->; auto.
  - eexists. split; [eapply (S_Ready reg mr s' i oid o x'); auto; rewrite OP; auto|]. cbn. rewrite put_at_nth, Nat.eqb_refl, OP, Hw. cbn.
    rewrite Y2. destruct ok; cbn; destruct (Z.eqb_spec sid 0); auto.
  - intros e s2 w ST Hw2 ->. rewrite <- OP in Hw.
    assert (K : forall i' g f, nth_error (c_openers s') i' = Some g -> 
      nth_error (put_at (c_openers s') i' f) i = Some (OGot o) -> i' = i /\ f g = OGot o).
    { intros i' g f Hg. rewrite put_at_nth. destruct (Nat.eqb_spec i i') as [<- | N]; [|congruence]. rewrite Hg. cbn. intros Q. injection Q as Q. auto. }
    destruct ST; cbn in Hw2; try congruence; try (destruct (K _ _ _ H Hw2); discriminate).
    + rewrite dispatch_openers in Hw2. cbn in Hw2. congruence.
    + destruct (Close_fields s0) as (_ & _ & _ & _ & _ & _ & _ & _ & _ & E' & _). rewrite E' in Hw2. congruence.
    + rewrite upd_all_eq in Hw2. cbn in Hw2. congruence.
    + rewrite nth_error_app1 in Hw2; [congruence|]. apply nth_error_Some. congruence.
    + unfold register in Hw2. destruct (_ || _); cbn in Hw2; destruct (K _ _ _ H Hw2); discriminate.
    + destruct (K _ _ _ H Hw2) as (-> & Q). assert (oid0 = oid /\ o0 = o) as (-> & ->) by (split; congruence).
      assert (x0 = x') by congruence. subst x0. rewrite Y2 in Q. destruct ok; [|discriminate Q]. split; auto. intros ->. discriminate Q.
    + destruct (Close_fields s0) as (_ & _ & _ & _ & _ & _ & _ & _ & _ & E' & _). rewrite E' in Hw2. congruence.
    + unfold startGraceful in Hw2. destruct (c_closed s0); [|destruct (c_sessions s0), (c_pending s0)]; cbn in Hw2; congruence.
    + destruct (Close_fields s0) as (_ & _ & _ & _ & _ & _ & _ & _ & _ & E' & _). rewrite E' in Hw2. congruence.
Qed.
Print Assumptions C74_answer_decides.

(** ** A waiting caller is never forgotten: either its open is still registered, so that an OpenAck
    for its id will answer it, on a connection that is open; or the caller can return now, with no
    further message from the server. *)
Theorem C74_never_stuck reg mr es s i oid o :
  crun reg mr New es s -> Z.of_nat (length (c_objs s)) <= 2 ^ 32 ->
  nth_error (c_openers s) i = Some (OWait oid o) ->
  (c_closed s = false /\ find oid (c_pending s) = Some o) \/
  (exists s', cstep reg mr s EOther s' /\ (nth_error (c_openers s') i = Some OErr \/ nth_error (c_openers s') i = Some (OGot o))).
Proof.
  intros R L Hw. destruct (oinv_run _ _ _ _ R) as (C & _ & O). specialize (O L). destruct C as (I & _).
  destruct (c_closed s) eqn:Cl.
  - right. eexists. split; [eapply S_OpenClosed; eauto|]. cbn. rewrite put_at_nth, Nat.eqb_refl, Hw. cbn. auto.
  - destruct (o_op _ _ _ _ O _ _ Hw) as (E & x & Hx & [P|P]).
    + left. split; auto. destruct (find oid (c_pending s)) as [o'|] eqn:F.
      * pose proof (o_pen _ _ _ _ O _ _ (find_In _ _ _ F)). f_equal. lia.
      * exfalso. clear -P F. induction (c_pending s) as [|[k v] m IH]; cbn in *; auto.
        destruct (Z.eqb_spec oid k); [discriminate|]. destruct P as [P|P]; [congruence|auto].
    + right. eexists. split; [eapply S_Ready; eauto|]. cbn. rewrite put_at_nth, Nat.eqb_refl, Hw. cbn. destruct (_ =? _); auto.
Qed.
Print Assumptions C74_never_stuck.

(** Two concurrent calls; the server answers them out of order, refusing the first. *)
Example C74_case :
  exists es s, crun [] 0 New es s /\ c_openers s = [OErr; OGot 1] /\ map so_id (c_objs s) = [0; 9] /\
    c_log s = [MOpenAck 1 9 true; MOpenAck 0 4 false].
Proof.
  assert (R0 := cr_refl [] 0 New).
  assert (R1 := cr_step _ _ _ _ _ _ _ R0 (S_Open [] 0 _)). vm_compute in R1.
  assert (R2 := cr_step _ _ _ _ _ _ _ R1 ltac:(apply (S_Register [] 0 _ 0%nat); reflexivity)). vm_compute in R2.
  assert (R3 := cr_step _ _ _ _ _ _ _ R2 (S_Open [] 0 _)). vm_compute in R3.
  assert (R4 := cr_step _ _ _ _ _ _ _ R3 ltac:(apply (S_Register [] 0 _ 1%nat); reflexivity)). vm_compute in R4.
  assert (R5 := cr_step _ _ _ _ _ _ _ R4 ltac:(eapply (S_Sent [] 0 _ 0%nat); reflexivity)). vm_compute in R5.
  assert (R6 := cr_step _ _ _ _ _ _ _ R5 ltac:(eapply (S_Sent [] 0 _ 1%nat); reflexivity)). vm_compute in R6.
  assert (R7 := cr_step _ _ _ _ _ _ _ R6 ltac:(apply (S_Read [] 0 _ (MOpenAck 1 9 true)); reflexivity)). vm_compute in R7.
  assert (R8 := cr_step _ _ _ _ _ _ _ R7 ltac:(apply (S_Read [] 0 _ (MOpenAck 0 4 false)); reflexivity)). vm_compute in R8.
  assert (R9 := cr_step _ _ _ _ _ _ _ R8 ltac:(eapply (S_Ready [] 0 _ 0%nat); reflexivity)). vm_compute in R9.
  assert (R10 := cr_step _ _ _ _ _ _ _ R9 ltac:(eapply (S_Ready [] 0 _ 1%nat); reflexivity)). vm_compute in R10.
  eexists _, _. split; [exact R10|]. cbn. auto.
Qed.
