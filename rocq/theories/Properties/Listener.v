(** C109, C110: the listeners and the server that accepts connections. *)
From Coq Require Import List Bool Arith Lia.
Import ListNotations.
From Verif.Model Require Import Listener.
From Verif.Spec Require Import Listener.
From Verif.Proofs Require Import Listener ListenerMore ListenerServer.

(** C109: the connection Accept returns came in for this listener, it is in this call's hands, and no other
    call of Accept ever returns it, nor does a Serve have it. *)
Theorem C109_accepted es s t l c : after es s -> returned s t (Accept l) (RConn c) ->
  came s c l /\ given s c t /\ (forall u m, returned s u (Accept m) (RConn c) -> u = t) /\ (forall u, given s c u -> u = t).
Proof.
  intros A [[L C] P]. pose proof (after_inv _ _ A) as I. pose proof (i_ret s I t c P) as G. destruct (i_given s I c t G) as (LC & _ & [[C2 _]|C2]).
  - split; [split; [exact LC|congruence]|]. split; [exact G|]. split.
    + intros u m [_ P2]. pose proof (i_ret s I u c P2) as G2. congruence.
    + intros u G2. unfold given in G2. congruence.
  - congruence.
Qed.
(** C109: what Accept gave stays given to the same call. *)
Theorem C109_stays es s es' s' c t : after es s -> run s es' = Some s' -> given s c t -> given s' c t.
Proof.
  intros A. assert (I : Inv s) by exact (after_inv _ _ A). clear A. revert s I. induction es' as [|e q IH]; intros s I H G; cbn [run] in H; [now injection H as <-|].
  destruct (step s e) as [m|] eqn:E; [|discriminate]. apply (IH m (step_inv _ _ _ I E) H). destruct (i_given s I c t G) as (LC & _).
  destruct (d_conn _ _ (step_delta _ _ _ I E) c LC) as [_ M]. unfold moved in M. unfold given in *. rewrite G in M. destruct (c_at (s_conn m c)); try contradiction. now subst.
Qed.
(** C109: while no context is cancelled, a connection is at one of four places: it waits at its open listener,
    it is on its way to a call that takes it next, a call has it, or its listener was closed and it was refused. *)
Theorem C109_kept_partial es s c l : after es s -> Forall (fun e => cancels e = false) es -> came s c l ->
  (waiting s c /\ ~ closed s l) \/ (exists t, under_way s c t) \/ (exists t, given s c t) \/ (refused s c /\ closed s l).
Proof.
  intros A F [L E]. pose proof (after_inv _ _ A) as I. pose proof (run_kept _ _ _ inv_init kept_init F A) as K.
  unfold waiting, under_way, given, refused, closed. destruct (c_at (s_conn s c)) as [|g|t|] eqn:P.
  - left. split; [reflexivity|]. pose proof (i_queue s I c P) as Q. rewrite E in Q. congruence.
  - right. left. destruct (k_chan s K c g P) as (t & L' & S). exists t, g. split; [reflexivity|]. split; [exact L'|].
    pose proof (i_pc s I t) as O. destruct (t_pc (s_thread s t)); try discriminate S; injection S as <-; auto.
  - right. right. left. eauto.
  - right. right. right. split; [reflexivity|]. rewrite <- E. exact (k_gone s K c L P).
Qed.
(** C109: with a cancelled Accept it is not so. The call that was cancelled leaves an accept behind; it takes
    the next connection, and nobody gets it, refuses it or closes it, even though the listener is closed. *)
Definition lost : list event :=
  [EListen; ECall (Accept 0); EStep 0; ECancel 0; ECtx 0; EArrive 0; ETake 0 0; ECall (CloseLis 0); EStep 1].
Definition get (o : option st) : st := match o with Some s => s | None => init end.
Lemma get_run s es : (if run s es then true else false) = true -> run s es = Some (get (run s es)).
Proof. destruct (run s es); [reflexivity|discriminate]. Qed.
Ltac here := vm_compute; repeat split; try lia.
Theorem C109_kept_refuted : exists s, after lost s /\ came s 0 0 /\ closed s 0 /\
  forall es s', run s es = Some s' -> ~ waiting s' 0 /\ ~ refused s' 0 /\ (forall t, ~ given s' 0 t) /\ (forall t, ~ under_way s' 0 t).
Proof.
  assert (A : after lost (get (run init lost))) by (apply get_run; vm_compute; reflexivity).
  exists (get (run init lost)). split; [exact A|]. split; [here|]. split; [here|]. intros es s' H.
  assert (X : Lost 0 0 (get (run init lost))).
  { constructor; [here|here|here|]. intros t. destruct t as [|[|t]]; vm_compute; discriminate. }
  exact (lost_gone 0 0 s' (run_lost 0 0 _ _ _ (after_inv _ _ A) X H)).
Qed.
(** C109: once Close has returned nothing comes in, nothing waits, later Accepts return the closed error, and
    the only connections still given out are those taken off the listener before. *)
Theorem C109_closed es s0 es' s k l r : after es s0 -> returned s0 k (CloseLis l) r -> run s0 es' = Some s ->
  closed s l /\ (forall c, came s c l -> came s0 c l /\ ~ waiting s c) /\
  (forall c t, came s c l -> given s c t -> given s0 c t \/ taken s0 c) /\
  (forall t x, (forall c, ~ called s0 t c) -> returned s t (Accept l) x -> x = RClosed).
Proof.
  intros A [[LK CK] PK] H. pose proof (after_inv _ _ A) as I0. pose proof (run_srv _ _ _ inv_init srv_init A) as R.
  pose proof (i_call s0 I0 k l ltac:(now rewrite CK)) as LL. pose proof (r_done s0 R k l r LK CK PK) as S.
  pose proof (run_past l s0 s0 es' s I0 (past_refl l s0 LL S) H) as P. pose proof (run_inv _ _ _ I0 H) as I.
  split; [exact (p_shut _ _ _ P)|]. split; [|split].
  - intros c [L E]. destruct (p_conn _ _ _ P c L E) as (L0 & E0 & _). split; [split; auto|]. intros Q. pose proof (i_queue s I c Q) as B. rewrite E, (p_shut _ _ _ P) in B. discriminate.
  - intros c t [L E] G. destruct (p_conn _ _ _ P c L E) as (_ & _ & [Q|(g & u & Q & _)]); [left; unfold given in *; congruence|right; exists g; exact Q].
  - intros t x N [[LT C] D]. assert (L0 : s_nt s0 <= t).
    { destruct (Nat.lt_ge_cases t (s_nt s0)) as [Y|Y]; [|exact Y]. exfalso. apply (N (t_call (s_thread s0 t))). split; auto. }
    destruct (p_new _ _ _ P t L0 LT C); congruence.
Qed.
(** C109: no call of Accept is stuck: it can end once its listener is closed, its context is cancelled or a
    connection waits for it. *)
Theorem C109_ends es s t l : after es s -> called s t (Accept l) ->
  closed s l \/ cancelled s t \/ (exists c, came s c l /\ waiting s c) -> can_end s t.
Proof.
  intros A [L C] [S|[X|(c & [LC E] & Q)]]; pose proof (after_inv _ _ A) as I.
  - exact (call_finishes s t l I L (or_introl C) S).
  - exact (ctx_finishes s t l I L (or_introl C) X).
  - exact (conn_finishes s t l c I L C LC E Q).
Qed.

(** C110: when Serve has returned its listener is closed, whatever Serve returned. *)
Theorem C110_serve_closes es s t l r : after es s -> returned s t (Serve l) r -> closed s l.
Proof. intros A [[L C] P]. exact (r_end s (run_srv _ _ _ inv_init srv_init A) t l r L C P). Qed.
(** C110: with one Serve: once the server's Close has returned, Serve takes no connection beyond the one it was
    already taking; a Serve called later only returns the closed error; and every Serve can end. *)
Theorem C110_after_close_partial es s0 es' s k r : after es s0 -> returned s0 k CloseSrv r -> run s0 es' = Some s -> one_serve s ->
  (forall t l c, called s t (Serve l) -> given s c t -> given s0 c t \/ under_way s0 c t) /\
  (forall t l x, (forall c, ~ called s0 t c) -> returned s t (Serve l) x -> x = RClosed) /\
  (forall t l, called s t (Serve l) -> can_end s t).
Proof.
  intros A K H O. assert (O' : one s) by (intros t u l m L1 L2 C1 C2; exact (O t u l m (conj L1 C1) (conj L2 C2))).
  destruct (after_close _ _ _ _ _ _ A H O' K) as [OV TK]. pose proof (after_inv _ _ A) as I0. pose proof (run_inv _ _ _ I0 H) as I.
  split; [|split].
  - intros t l c [_ C] G. exact (TK c t l G C).
  - intros t l x N [[LT C] D]. assert (L0 : s_nt s0 <= t).
    { destruct (Nat.lt_ge_cases t (s_nt s0)) as [Y|Y]; [|exact Y]. exfalso. apply (N (t_call (s_thread s0 t))). split; auto. }
    destruct (o_new _ _ OV t l LT L0 C); congruence.
  - intros t l [L C]. destruct K as [[LK CK] PK]. pose proof (run_srv _ _ _ inv_init srv_init A) as R0. pose proof (run_srv _ _ _ I0 R0 H) as R.
    destruct (active (t_pc (s_thread s t))) eqn:AC.
    + apply (call_finishes s t l I L (or_intror C)).
      destruct (o_act _ _ OV t l L C AC) as [L0 A0]. pose proof C as C0. rewrite (o_call _ _ OV t L0) in C0.
      pose proof (r_shut s0 R0 (run_one _ _ _ I0 H O') k t l r LK L0 CK PK C0 A0) as S.
      exact (p_shut _ _ _ (run_past l s0 s0 es' s I0 (past_refl l s0 (i_call s0 I0 t l ltac:(now rewrite C0)) S) H)).
    + pose proof (i_pc s I t) as OK. rewrite C in OK. destruct (t_pc (s_thread s t)) eqn:P; try discriminate OK; try discriminate AC.
      * pose proof L as LB. apply Nat.ltb_lt in LB. eapply (step_finishes s (EStep t) _ t eq_refl); [unfold step, stepT; rewrite LB, P, C, (o_closed _ _ OV); reflexivity|].
        apply (done_finishes _ t RClosed); [exact L|apply (own _ t)].
      * eapply last_finishes; eauto.
      * eapply done_finishes; eauto.
Qed.
(** C110: a Serve that is in its loop when Close has returned returns nil if it returns, not an error; also
    where there are several Serves. *)
Theorem C110_returns_nil es s0 es' s k r t l x : after es s0 -> returned s0 k CloseSrv r -> called s0 t (Serve l) -> looping s0 t ->
  run s0 es' = Some s -> returned s t (Serve l) x -> x = RNil.
Proof.
  intros A [[LK CK] PK] [L C] LP H [_ D]. pose proof (after_inv _ _ A) as I0. pose proof (r_closed s0 (run_srv _ _ _ inv_init srv_init A) k r LK CK PK) as CL.
  assert (Q : quiet (t_pc (s_thread s0 t)) = true) by (unfold looping in LP; destruct (t_pc (s_thread s0 t)); try contradiction; reflexivity).
  pose proof (run_quiet s0 es' s t l I0 CL L C Q H) as Q'. rewrite D in Q'. destruct x; (discriminate || reflexivity).
Qed.
(** C110: with two Serves Close closes the listener of the later one only. The other goes on: a connection that
    comes in after Close has returned is still handed to the RPC server. *)
Definition two : list event := [EListen; EListen; ECall (Serve 0); EStep 0; ECall (Serve 1); EStep 1; ECall CloseSrv; EStep 2; EStep 2].
Theorem C110_after_close_refuted : exists s0 s, after two s0 /\ returned s0 2 CloseSrv RNil /\
  run s0 [EArrive 0; EStep 0; ETake 0 0; EStep 0] = Some s /\ ~ came s0 0 0 /\ called s 0 (Serve 0) /\ given s 0 0 /\ ~ closed s 0.
Proof.
  exists (get (run init two)), (get (run (get (run init two)) [EArrive 0; EStep 0; ETake 0 0; EStep 0])).
  split; [apply get_run; vm_compute; reflexivity|]. split; [here|]. split; [apply get_run; vm_compute; reflexivity|].
  split; [intros [L _]; vm_compute in L; lia|]. split; [here|]. split; [here|]. vm_compute. discriminate.
Qed.
Print Assumptions C109_accepted. Print Assumptions C109_stays. Print Assumptions C109_kept_partial. Print Assumptions C109_kept_refuted.
Print Assumptions C109_closed. Print Assumptions C109_ends.
Print Assumptions C110_serve_closes. Print Assumptions C110_after_close_partial. Print Assumptions C110_returns_nil. Print Assumptions C110_after_close_refuted.

(** The cases are met: two Accepts, two connections; the second Accept gets the first connection; the listener
    is closed while the first Accept is about to get the other one, and a third connection is refused. *)
Definition busyday : list event :=
  [EListen; ECall (Accept 0); ECall (Accept 0); EStep 0; EStep 1; EArrive 0; EArrive 0; ETake 1 0; ETake 0 1; EStep 1; EArrive 0; ECall (CloseLis 0); EStep 2].
Example busyday_run : exists s, after busyday s /\ returned s 1 (Accept 0) (RConn 0) /\ returned s 2 (CloseLis 0) RNil /\ under_way s 1 0 /\ refused s 2 /\
  exists s', run s [EStep 0; ECall (Accept 0); EStep 3] = Some s' /\ returned s' 0 (Accept 0) (RConn 1) /\ returned s' 3 (Accept 0) RClosed.
Proof.
  exists (get (run init busyday)). split; [apply get_run; vm_compute; reflexivity|]. split; [here|]. split; [here|].
  split; [exists 0; split; [here|split; [here|left; here]]|]. split; [here|].
  exists (get (run (get (run init busyday)) [EStep 0; ECall (Accept 0); EStep 3])). split; [apply get_run; vm_compute; reflexivity|]. split; here.
Qed.
(** One Serve that has a connection, and is taking another when the server is closed; it then gives that one
    to the RPC server and returns nil. *)
Definition served : list event :=
  [EListen; ECall (Serve 0); EStep 0; EStep 0; EArrive 0; ETake 0 0; EStep 0; EStep 0; EArrive 0; ETake 1 1; ECall CloseSrv; EStep 1; EStep 1].
Example served_run : exists s, after served s /\ one_serve s /\ looping s 0 /\ returned s 1 CloseSrv RNil /\ given s 0 0 /\ under_way s 1 0 /\
  exists s', run s [EStep 0; EStep 0; EStep 0; EStep 0; EStep 0] = Some s' /\ given s' 1 0 /\ returned s' 0 (Serve 0) RNil.
Proof.
  exists (get (run init served)). split; [apply get_run; vm_compute; reflexivity|]. split.
  { intros t u l m [L1 C1] [L2 C2]. change (t < 2) in L1. change (u < 2) in L2.
    destruct t as [|[|t]], u as [|[|u]]; try lia; try reflexivity; vm_compute in C1, C2; discriminate. }
  split; [here|]. split; [here|]. split; [here|]. split; [exists 1; split; [here|split; [here|right; here]]|].
  exists (get (run (get (run init served)) [EStep 0; EStep 0; EStep 0; EStep 0; EStep 0])). split; [apply get_run; vm_compute; reflexivity|]. split; here.
Qed.
