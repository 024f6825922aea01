(** C122: a stream from end to end.  The handler of Model/SrvSession.v sends, the client of Model/Client.v reads what its connection
    brings, the loop of Model/RecvIter.v yields it.  Between them is a connection that brings the messages of the session in order,
    as far as it has come. *)
From Coq Require Import ZArith Lia List Bool.
Import ListNotations.
From Verif.Model Require Import Base Compress Client RecvIter.
From Verif.Model Require SrvSession.
From Verif.Spec Require Import Delivery StreamSystem.
From Verif.Spec Require SrvSession.
From Verif.Proofs Require SrvSession SrvStream SrvClose.
From Verif.Proofs Require Import StreamSystem.
From Verif.Properties Require Import RecvIter.
From Verif.Properties Require SrvSession.
Open Scope list_scope. Open Scope Z_scope.

(** The loop o of a client, on the session it knows as x since it had read n messages; y is the server's side of that session after the
    events es, in a handler of kind k. *)
Definition session reg mr o s t x n k m es y : Prop :=
  irun reg mr o s t /\ nth_error (c_objs s) o = Some x /\ so_start x = Some n /\ NoDup (accepted_ids (c_log s)) /\
  k <> SrvSession.Sync /\ SrvSession.run k m (SrvSession.init k) es = Some y /\
  brought reg mr (so_id x) (skipn n (c_log s)) (map snd (SrvSession.x_wire y)).

Lemma all_sent : forall reg mr o s t x n k m es y, session reg mr o s t x n k m es y ->
  exists a b, SrvSession.x_wire y = a ++ b /\ sent reg mr s x n = conv (map snd a) /\ Forall plain (a ++ b) /\ Forall2 (carries reg (so_id x)) (filter (for_sess (so_id x)) (skipn n (c_log s))) (map snd a).
Proof.
  intros reg mr o s t x n k m es y (R & Hx & Hn & ND & KS & W & (a & b & E & F & L)). apply map_eq_app in E. destruct E as (a' & b' & E & <- & <-).
  exists a', b'. split; [exact E|]. split; [exact (brought_stream _ _ _ _ _ F L)|]. split; [rewrite <- E; exact (wire_plain _ _ _ _ KS W)|exact F].
Qed.

(** At every moment the loop has yielded the first of the values that the handler has sent, each once and in the order in which they went
    out, unless the session was cancelled on the client's side. *)
Theorem C122_prefix : forall reg mr o s t x n k m es y, session reg mr o s t x n k m es y -> so_cancel x = false ->
  exists r, handler_sends y = ri_yield t ++ r.
Proof.
  intros reg mr o s t x n k m es y V NC. destruct (all_sent _ _ _ _ _ _ _ _ _ _ _ V) as (a & b & E & S & F & _).
  destruct V as (R & Hx & Hn & ND & _). destruct (C43_loop_yields_prefix _ _ _ _ _ _ _ R Hx Hn ND NC) as (r & P).
  rewrite S in P. rewrite until_pre in P by (apply Forall_app in F; tauto).
  destruct (pre_sends (a ++ b) F) as (r1 & P1). rewrite map_app in P1. destruct (pre_app (map snd a) (map snd b)) as (r2 & P2).
  exists (r ++ r2 ++ r1). unfold handler_sends. rewrite E. change (sends (a ++ b) = ri_yield t ++ r ++ r2 ++ r1). rewrite P1, P2, P, !app_assoc. reflexivity.
Qed.

(** A loop that has ended by itself (its caller did not stop it, neither its context nor the session was cancelled, the connection is
    there) has yielded all that the handler sent before it returned; and nothing but what it sent. *)
Theorem C122_all : forall reg mr o s t x n k m es y, session reg mr o s t x n k m es y -> so_cancel x = false ->
  ri_pc t = IDone false -> ri_ctx t = false -> c_reader s <> RDone ->
  exists es1 e es2 y1 late r, es = es1 ++ SrvSession.EReturn e :: es2 /\ SrvSession.run k m (SrvSession.init k) es1 = Some y1 /\
    ri_yield t = handler_sends y1 ++ late /\ handler_sends y = ri_yield t ++ r.
Proof.
  intros reg mr o s t x n k m es y V NC PC NX RD. destruct (C122_prefix _ _ _ _ _ _ _ _ _ _ _ V NC) as (r & PR).
  destruct (all_sent _ _ _ _ _ _ _ _ _ _ _ V) as (a & b & E & S & F & C). destruct V as (R & Hx & Hn & ND & KS & W & _).
  pose proof (C43_loop_yields_all _ _ _ _ _ _ _ R Hx Hn ND NC NX PC) as Y. rewrite S in Y. rewrite until_pre in Y by (apply Forall_app in F; tauto).
  assert (ST : exists w, In w (map snd a) /\ stops w).
  { destruct (C75_why_ended _ _ _ _ _ _ _ R Hx Hn ND PC NX) as [H|[H|H]]; [| |contradiction].
    - rewrite S in H. exact (has_end_stop _ H).
    - destruct (closed_with s x n) as [c|] eqn:CW; [|congruence]. destruct (brought_close _ _ _ _ _ C CW) as (md & I). exists (SrvSession.WClose c md). split; [exact I|exact Logic.I]. }
  destruct ST as (w & Iw & Sw). pose proof (ret_holds _ _ _ _ KS W) as V.
  assert (X : ~ Forall mine (SrvSession.x_wire y)).
  { intros M. rewrite E in M. apply in_map_iff in Iw. destruct Iw as ([who w'] & Q & Iw). cbn in Q. subst w'. rewrite Forall_forall in M.
    specialize (M (who, w) (in_or_app _ _ _ (or_introl Iw))). destruct who; [|exact M]. destruct w as [? ? [|]|]; try exact M. discriminate Sw. }
  assert (V' : exists es1 e es2 y1, es = es1 ++ SrvSession.EReturn e :: es2 /\ SrvSession.run k m (SrvSession.init k) es1 = Some y1 /\ Forall mine (SrvSession.x_wire y1)).
  { unfold ret_inv in V. destruct (SrvSession.x_h y); first [contradiction|exact V]. }
  destruct V' as (es1 & e & es2 & y1 & Ee & R1 & M). clear V.
  assert (G : exists l, SrvSession.x_wire y = SrvSession.x_wire y1 ++ l).
  { rewrite Ee in W. rewrite SrvSession.run_app, R1 in W. destruct (SrvClose.run_grows _ _ _ _ _ W) as (G & _). exact G. }
  destruct G as (l & G). exists es1, e, es2, y1, (pre (map snd l)), r. split; [exact Ee|]. split; [exact R1|]. split; [|exact PR].
  rewrite Y, <- (pre_stop _ (map snd b) w Iw Sw), <- map_app, <- E, G. exact (pre_only _ l M).
Qed.

(** An error that the loop reports is the code of the error that the handler returned. *)
Theorem C122_error : forall reg mr o s t x n k m es y c, session reg mr o s t x n k m es y -> ri_err t = Some c ->
  exists es1 e es2, es = es1 ++ SrvSession.EReturn e :: es2 /\ c = SrvSession.errCode e /\ e <> None.
Proof.
  intros reg mr o s t x n k m es y c V ER. destruct (all_sent _ _ _ _ _ _ _ _ _ _ _ V) as (a & b & E & S & F & C). destruct V as (R & Hx & Hn & ND & KS & W & _).
  destruct (C75_error_is_servers _ _ _ _ _ _ _ _ R Hx Hn ND ER) as (CW & NZ). destruct (brought_close _ _ _ _ _ C CW) as (md & I).
  apply in_map_iff in I. destruct I as ([who w] & Q & I). cbn in Q. subst w.
  destruct (SrvSession.C120_close k m es y who c md KS W) as (_ & es1 & e & es2 & s1 & n1 & Ee & _ & Ec & _).
  { rewrite E. apply in_or_app. left. exact I. }
  exists es1, e, es2. split; [exact Ee|]. split; [exact Ec|]. intros ->. apply NZ. exact Ec.
Qed.

(** A handler that sends two values and returns an error of category 5: two payloads, EndStream and the Close go out.  The client reads
    them all, and the loop yields both values. *)
Definition handler_demo : list SrvSession.event :=
  [SrvSession.ESend [1]; SrvSession.ESender 0 None; SrvSession.ESender 0 None; SrvSession.ESender 0 None; SrvSession.ESend [2]; SrvSession.ESender 1 None; SrvSession.ESender 1 None; SrvSession.ESender 1 None;
    SrvSession.EReturn (Some (SrvSession.cat 5)); SrvSession.EStep None; SrvSession.EStep None; SrvSession.EStep None; SrvSession.EStep None].
Ltac demo_server :=
  destruct (SrvSession.run SrvSession.RecvH 0 (SrvSession.init SrvSession.RecvH) handler_demo) as [y|] eqn:W; [|exfalso; vm_compute in W; discriminate W].
Example C122_case : exists s t x y, session [] 0 0%nat s t x 1%nat SrvSession.RecvH 0 handler_demo y /\ so_cancel x = false /\
  ri_pc t = IDone false /\ ri_ctx t = false /\ c_reader s <> RDone /\ ri_yield t = [[1]; [2]] /\ handler_sends y = [[1]; [2]] /\
  closed_with s x 1 = Some 5 /\ ri_err t = None.
Proof.
  demo_server.
  assert (Y : map snd (SrvSession.x_wire y) = [SrvSession.WData 0 [1] false; SrvSession.WData 0 [2] false; SrvSession.WData 0 [] true; SrvSession.WClose 5 None] /\ handler_sends y = [[1]; [2]])
    by (revert W; vm_compute; intros W; injection W as <-; split; reflexivity).
  destruct Y as (Y1 & Y2).
  at_open R.
  assert (I := ir_start [] 0 0%nat _ _ _ R eq_refl ltac:(discriminate) eq_refl). vm_compute in I.
  env I ltac:(apply (S_Read [] 0 _ (MPayload (mkWP 7 0 [1] false 0))); reflexivity).
  env I ltac:(eapply (S_Deliver [] 0); cbn; [reflexivity|reflexivity|cbn; lia]).
  own I ltac:(eapply (I_Take _ _ _ _ _ _ true); [left; reflexivity|reflexivity|reflexivity]).
  env I ltac:(apply (S_Read [] 0 _ (MPayload (mkWP 7 0 [2] false 0))); reflexivity).
  env I ltac:(eapply (S_Deliver [] 0); cbn; [reflexivity|reflexivity|cbn; lia]).
  own I ltac:(eapply (I_Take _ _ _ _ _ _ true); [left; reflexivity|reflexivity|reflexivity]).
  env I ltac:(apply (S_Read [] 0 _ (MPayload (mkWP 7 0 [] true 0))); reflexivity).
  env I ltac:(eapply (S_Deliver [] 0); cbn; [reflexivity|reflexivity|cbn; lia]).
  own I ltac:(eapply (I_Take _ _ _ _ _ _ true); [left; reflexivity|reflexivity|reflexivity]).
  own I ltac:(eapply I_Check; reflexivity).
  env I ltac:(apply (S_Read [] 0 _ (MClose 7 5)); reflexivity).
  env I ltac:(eapply (S_CloseObj [] 0); reflexivity).
  do 3 eexists. exists y. split.
  { split; [exact I|]. split; [reflexivity|]. split; [reflexivity|]. split; [cbn; repeat constructor; intros []|]. split; [discriminate|]. split; [exact W|].
    rewrite Y1. eexists _, []. split; [symmetry; apply app_nil_r|]. split.
    - cbn. repeat apply Forall2_cons; try apply Forall2_nil; constructor; reflexivity.
    - repeat apply Forall_cons; try apply Forall_nil; try (left; lia). exact Logic.I. }
  repeat split; try reflexivity; try discriminate. exact Y2.
Qed.

(** The full statement "a loop that ended by itself reports the error with which the handler ended" is false, even where the client has
    read the Close that carries it: the loop ends with the EndStream that comes before the Close and then does not wait for the Close. *)
Theorem C122_error_refuted : ~ (forall reg mr o s t x n k m es y c, session reg mr o s t x n k m es y -> so_cancel x = false ->
  ri_pc t = IDone false -> ri_ctx t = false -> c_reader s <> RDone -> closed_with s x n = Some c -> c <> 0 -> ri_err t = Some c).
Proof.
  intros H. destruct C122_case as (s & t & x & y & V & NC & PC & NX & RD & _ & _ & CW & ER).
  specialize (H _ _ _ _ _ _ _ _ _ _ _ 5 V NC PC NX RD CW ltac:(lia)). congruence.
Qed.
Print Assumptions C122_prefix.
Print Assumptions C122_all.
Print Assumptions C122_error.
Print Assumptions C122_error_refuted.
