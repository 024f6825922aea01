(** C121: from end to end, a call of a sync method returns what the handler made of its own argument, and the handler runs once for it at
    the most; no call is left without its answer. *)
From Coq Require Import ZArith Lia List Bool.
Import ListNotations.
From Verif.Model Require Import Base Client SyncClient SyncSystem.
From Verif.Model Require SrvSession.
From Verif.Spec Require Import Delivery.
From Verif.Spec Require SrvSession.
From Verif.Proofs Require Import SyncClientProofs SyncSystem.
From Verif.Proofs Require SrvSession.
Open Scope list_scope. Open Scope Z_scope.

(** Whatever the calls, the handler, the clock and the connection do, with messages lost or not: if a call returned d, then the handler
    was called with the call's argument, under the call's request id, and returned d. *)
Theorem C121_result : forall m s i c d, greach m s -> Z.of_nat (length (y_calls (g_y s))) < 2 ^ 32 ->
  nth_error (y_calls (g_y s)) i = Some c -> k_st c = KDone (ROk d) ->
  exists p, In (p, inl d) (SrvSession.x_calls (g_x s)) /\ SrvSession.p_req p = k_req c /\ SrvSession.p_data p = k_arg c.
Proof.
  intros m s i c d H L N K. pose proof (ginv_reach _ _ H) as GI. destruct (gi_y _ _ GI) as (ey & Y).
  destruct (yi_calls _ (yinv_run _ _ Y) _ _ N) as [_ B _ _ _]. rewrite K in B. destruct B as (RG & p & LP & P1 & P2).
  destruct (log_up _ _ _ GI LP) as (q & Q1 & Q2 & Q3). exists q. rewrite P2 in Q1. split; [exact Q1|]. split; [congruence|].
  pose proof (yq_run _ _ Y L) as Q. destruct (yq_up _ Q _ _ Q3) as (j & x & X1 & X2 & X3 & X4).
  assert (j = i) as -> by (apply (yq_inj _ Q _ _ _ _ X1 N); auto; congruence). rewrite N in X1. injection X1 as <-. symmetry. exact X4.
Qed.

(** The handler is called with requests of calls only, in the order in which they were sent, and at most once for each call. *)
Theorem C121_once : forall m s, greach m s -> Z.of_nat (length (y_calls (g_y s))) < 2 ^ 32 ->
  subseq (map key (SrvSession.x_begun (g_x s))) (y_up (g_y s)) /\
  NoDup (map SrvSession.p_req (SrvSession.x_begun (g_x s))) /\
  (forall p, In p (SrvSession.x_begun (g_x s)) -> exists i c, nth_error (y_calls (g_y s)) i = Some c /\ k_reg c = true /\ k_req c = SrvSession.p_req p /\ k_arg c = SrvSession.p_data p).
Proof.
  intros m s H L. pose proof (ginv_reach _ _ H) as GI. destruct (gi_y _ _ GI) as (ey & Y). destruct (gi_x _ _ GI) as (ex & X).
  destruct (SrvSession.sync_holds _ _ _ X) as (A & B & _). pose proof (up_run _ _ Y L) as U.
  assert (SU : subseq (map key (SrvSession.x_begun (g_x s))) (y_up (g_y s))).
  { eapply sub_app_l. eapply sub_app_l. rewrite B, <- map_app, <- A. exact (gi_up _ _ GI). }
  split; [exact SU|]. split.
  - assert (E : map SrvSession.p_req (SrvSession.x_begun (g_x s)) = map fst (map key (SrvSession.x_begun (g_x s)))) by (rewrite map_map; reflexivity).
    rewrite E. eapply sub_nodup; [apply sub_map; exact SU|exact (ui_nodup _ U)].
  - intros p P. assert (I1 : In (key p) (y_up (g_y s))) by (eapply sub_in; [exact SU|apply in_map; exact P]).
    destruct (ui_up _ U _ _ I1) as (i & c & N & R & E1 & E2 & _). exists i, c. auto.
Qed.

(** If no message was lost, then once all is quiet (nothing on its way, the server waits for requests, nothing in the client's channel or
    in the hands of a call) each call that waits has its answer before it.  No call waits for ever for an answer that another call took. *)
Theorem C121_not_stuck : forall m s i c, greach m s -> Z.of_nat (length (y_calls (g_y s))) < 2 ^ 32 ->
  g_lost s = false -> g_up s = [] -> g_dn s = [] -> SrvSession.x_h (g_x s) = SrvSession.HTake -> SrvSession.x_q (g_x s) = [] ->
  y_recv (g_y s) = [] -> (forall j x p, nth_error (y_calls (g_y s)) j = Some x -> k_st x <> KTook p) ->
  nth_error (y_calls (g_y s)) i = Some c -> k_st c = KWait -> k_resp c <> None.
Proof.
  intros m s i c H L NL EU ED HT EQ ER NT N K. pose proof (ginv_reach _ _ H) as GI. destruct (gi_y _ _ GI) as (ey & Y). destruct (gi_x _ _ GI) as (ex & X).
  pose proof (up_run _ _ Y L) as U. pose proof (yq_run _ _ Y L) as Q.
  destruct (SrvSession.sync_holds _ _ _ X) as (A & B & _ & done & rest & tail & _ & W & _ & At). unfold SrvSession.sync_at in At. rewrite HT in At. destruct At as (-> & -> & Bg).
  assert (I1 : In (k_req c, k_arg c) (map key (SrvSession.x_arrived (g_x s)))).
  { pose proof (gi_up_eq _ _ GI NL) as E. rewrite EU, app_nil_r in E. rewrite E. apply (ui_sent _ U i c N). unfold holds. rewrite K. exact I. }
  apply in_map_iff in I1. destruct I1 as (p & E1 & I1). rewrite A, EQ, app_nil_r, <- B, Bg in I1. apply in_map_iff in I1. destruct I1 as ((p' & b) & E2 & I1). cbn in E2. subst p'.
  assert (I2 : In (k_req c, b) (map ans (y_log (g_y s)))).
  { pose proof (gi_dn_eq _ _ GI NL) as E. rewrite ED, app_nil_r in E. rewrite E, W, app_nil_r. unfold datas. apply in_flat_map. exists (SrvSession.answer (p, b)).
    split; [apply in_map; exact I1|]. left. injection E1 as E1 _. cbn. rewrite E1. reflexivity. }
  apply in_map_iff in I2. destruct I2 as (q & E3 & I2). injection E3 as E3 _.
  destruct (yi_calls _ (yinv_run _ _ Y) _ _ N) as [_ _ _ RG _]. rewrite K in RG.
  destruct (fresh_reach _ _ H L i c N RG) as [F1 F2].
  assert (I3 : In q (skipn (k_from c) (y_log (g_y s)))).
  { rewrite <- (firstn_skipn (k_from c) (y_log (g_y s))) in I2. apply in_app_or in I2. destruct I2 as [I2|I2]; [|exact I2]. destruct (F2 q I2 E3). }
  destruct (yq_kept _ Q i c q N) as [X1|[(j & x & X1 & X2)|X1]]; auto.
  - unfold waiting. rewrite K. exact I.
  - rewrite ER in X1. contradiction.
  - destruct (NT j x q X1 X2).
Qed.

(** Two concurrent calls; each takes the answer to the other's request and passes it on. *)
Ltac cl R t := let R' := fresh in assert (R' := gr_step _ _ _ R (G_Client _ _ _ _ _ _ _ _ t eq_refl)); vm_compute in R'; clear R; rename R' into R.
Ltac sv R e := let R' := fresh in
  match type of R with greach ?m (mkG ?y ?up ?x ?dn ?l) =>
    let x' := eval vm_compute in (SrvSession.step SrvSession.Sync m x e) in
    match x' with Some ?x1 =>
      assert (R' := gr_step _ _ _ R (G_Server m y up x dn l e x1 (fun p (H : e = SrvSession.EArrive p) => ltac:(discriminate H)) eq_refl)); vm_compute in R'; clear R; rename R' into R
    end end.
Ltac ups R := let R' := fresh in
  match type of R with greach ?m (mkG ?y ((?r, ?d) :: ?up) ?x ?dn ?l) =>
    let x' := eval vm_compute in (SrvSession.step SrvSession.Sync m x (SrvSession.EArrive (SrvSession.mkP r d false))) in
    match x' with Some ?x1 => assert (R' := gr_step _ _ _ R (G_Up m y r d up x dn l x1 eq_refl)); vm_compute in R'; clear R; rename R' into R end end.
Ltac dn R := let R' := fresh in
  match type of R with greach ?m (mkG ?y ?up ?x (SrvSession.WData ?r ?d ?f :: ?q) ?l) =>
    assert (R' := gr_step _ _ _ R (G_Down m y up x r d f q l eq_refl)); vm_compute in R'; clear R; rename R' into R end.

Example C121_quiet_example : exists s c0 c1, greach 0 s /\ y_calls (g_y s) = [c0; c1] /\ k_st c0 = KWait /\ k_st c1 = KWait /\ k_resp c0 = Some [50] /\ k_resp c1 = Some [60] /\
  g_lost s = false /\ g_up s = [] /\ g_dn s = [] /\ SrvSession.x_h (g_x s) = SrvSession.HTake /\ SrvSession.x_q (g_x s) = [] /\ y_recv (g_y s) = [].
Proof.
  assert (R := gr_new 0). vm_compute in R.
  cl R (Y_Call newSync [5]).
  match type of R with greach _ (mkG ?y _ _ _ _) => cl R (Y_Call y [6]) end.
  match type of R with greach _ (mkG ?y _ _ _ _) => cl R (Y_Register y 0%nat _ eq_refl eq_refl) end.
  match type of R with greach _ (mkG ?y _ _ _ _) => cl R (Y_Register y 1%nat _ eq_refl eq_refl) end.
  match type of R with greach _ (mkG ?y _ _ _ _) => cl R (Y_Send y 0%nat _ eq_refl eq_refl) end.
  match type of R with greach _ (mkG ?y _ _ _ _) => cl R (Y_Send y 1%nat _ eq_refl eq_refl) end.
  ups R. ups R. sv R (SrvSession.EStep None). sv R (SrvSession.EHandle (inl [50])). sv R (SrvSession.EStep None).
  sv R (SrvSession.EStep None). sv R (SrvSession.EHandle (inl [60])). sv R (SrvSession.EStep None). dn R. dn R.
  match type of R with greach _ (mkG ?y _ _ _ _) => cl R (Y_Take y 1%nat _ _ _ eq_refl eq_refl eq_refl) end.
  match type of R with greach _ (mkG ?y _ _ _ _) => cl R (Y_Take y 0%nat _ _ _ eq_refl eq_refl eq_refl) end.
  match type of R with greach _ (mkG ?y _ _ _ _) => cl R (Y_Forward y 1%nat _ _ eq_refl eq_refl) end.
  match type of R with greach _ (mkG ?y _ _ _ _) => cl R (Y_Forward y 0%nat _ _ eq_refl eq_refl) end.
  eexists. eexists. eexists. split; [exact R|]. repeat (split; [reflexivity|]). reflexivity.
Qed.
Example C121_example : exists s c, greach 0 s /\ y_calls (g_y s) = [c] /\ k_st c = KDone (ROk [50]) /\ SrvSession.x_calls (g_x s) = [(SrvSession.mkP 0 [5] false, inl [50])].
Proof.
  assert (R := gr_new 0). vm_compute in R.
  cl R (Y_Call newSync [5]).
  match type of R with greach _ (mkG ?y _ _ _ _) => cl R (Y_Register y 0%nat _ eq_refl eq_refl) end.
  match type of R with greach _ (mkG ?y _ _ _ _) => cl R (Y_Send y 0%nat _ eq_refl eq_refl) end.
  ups R. sv R (SrvSession.EStep None). sv R (SrvSession.EHandle (inl [50])). sv R (SrvSession.EStep None). dn R.
  match type of R with greach _ (mkG ?y _ _ _ _) => cl R (Y_Take y 0%nat _ _ _ eq_refl eq_refl eq_refl) end.
  match type of R with greach _ (mkG ?y _ _ _ _) => cl R (Y_Leave y 0%nat _ _ eq_refl eq_refl) end.
  eexists. eexists. split; [exact R|]. repeat (split; [reflexivity|]). reflexivity.
Qed.
Print Assumptions C121_result.
Print Assumptions C121_once.
Print Assumptions C121_not_stuck.
