(** What holds after the server of Model/Listener.v is closed. *)
From Coq Require Import List Bool Arith Lia.
Import ListNotations.
From Verif.Model Require Import Listener.
From Verif.Spec Require Import Listener.
From Verif.Proofs Require Import Listener ListenerMore.

(** ** After the server is closed *)
Record Over (s0 s : st) : Prop := {
  o_closed : s_closed s = true; o_nt : s_nt s0 <= s_nt s; o_ng : s_ng s0 <= s_ng s;
  o_call : forall t, t < s_nt s0 -> t_call (s_thread s t) = t_call (s_thread s0 t);
  o_act : forall t l, t < s_nt s -> t_call (s_thread s t) = Serve l -> active (t_pc (s_thread s t)) = true -> t < s_nt s0 /\ active (t_pc (s_thread s0 t)) = true;
  o_new : forall t l, t < s_nt s -> s_nt s0 <= t -> t_call (s_thread s t) = Serve l -> t_pc (s_thread s t) = SStart \/ t_pc (s_thread s t) = Done RClosed;
  o_sel : forall t g, t < s_nt s -> sel (t_pc (s_thread s t)) = Some g -> g < s_ng s0 -> t < s_nt s0 /\ t_pc (s_thread s0 t) = t_pc (s_thread s t) }.
Lemma over_refl s : s_closed s = true -> Over s s.
Proof. intros C. constructor; auto. intros; lia. Qed.
Ltac ofin t :=
  unfold fupd in *;
  try match goal with Q : context [t =? ?u] |- _ => destruct (Nat.eqb_spec t u) as [?|D']; [subst|]; proj; auto end.
Ltac nok s I C := match goal with P : t_pc (s_thread s ?u) = _ |- _ => let OK := fresh "OK" in pose proof (i_pc s I u) as OK; rewrite C, P in OK; discriminate end.
Lemma over_act s0 s e s' : Inv s -> Over s0 s -> step s e = Some s' ->
  forall t l, t < s_nt s' -> t_call (s_thread s' t) = Serve l -> active (t_pc (s_thread s' t)) = true -> t < s_nt s0 /\ active (t_pc (s_thread s0 t)) = true.
Proof.
  intros I O H. pose proof (o_closed _ _ O) as OC. pose proof (o_nt _ _ O) as ON. pose proof (o_act _ _ O) as OB.
  intros t l L1 C B. unfold step, stepT in H; rewrite ?OC in H. destruct e; cases H; injection H as <-; bools; proj; eauto; ofin t; eauto; try discriminate B.
  all: try (eapply OB; [eassumption|eassumption|pcof; reflexivity]).
  all: try (nok s I C).
  - rewrite C in B. discriminate B.
  - eapply OB; [lia|eassumption..].
Qed.
Lemma over_new s0 s e s' : Inv s -> Over s0 s -> step s e = Some s' ->
  forall t l, t < s_nt s' -> s_nt s0 <= t -> t_call (s_thread s' t) = Serve l -> t_pc (s_thread s' t) = SStart \/ t_pc (s_thread s' t) = Done RClosed.
Proof.
  intros I O H. pose proof (o_closed _ _ O) as OC. pose proof (o_nt _ _ O) as ON. pose proof (o_new _ _ O) as NW.
  intros t l L1 L2 C. unfold step, stepT in H; rewrite ?OC in H. destruct e; cases H; injection H as <-; bools; proj; eauto; ofin t; eauto.
  all: try (nok s I C).
  all: try (match goal with |- context [t_pc (s_thread _ ?u)] => apply (NW u l); [lia|assumption..] end).
  all: try (match goal with L : ?u < s_nt _, L2 : s_nt _ <= ?u |- _ => destruct (NW u l L L2 C); congruence end).
  left. now rewrite C.
Qed.
Lemma over_sel s0 s e s' : Inv s -> Over s0 s -> step s e = Some s' ->
  forall t g, t < s_nt s' -> sel (t_pc (s_thread s' t)) = Some g -> g < s_ng s0 -> t < s_nt s0 /\ t_pc (s_thread s0 t) = t_pc (s_thread s' t).
Proof.
  intros I O H. pose proof (o_nt _ _ O) as ON. pose proof (o_ng _ _ O) as OG. pose proof (o_sel _ _ O) as SE.
  intros t g L1 C L2. unfold step, stepT in H. destruct e; cases H; injection H as <-; bools; proj; eauto; ofin t; eauto; try discriminate C; try (injection C as C; lia).
  - destruct c; discriminate C.
  - eapply SE; [lia|eassumption..].
Qed.
Lemma step_over s0 s e s' : Inv s -> Over s0 s -> step s e = Some s' -> Over s0 s'.
Proof.
  intros I O H. pose proof (step_delta _ _ _ I H) as D. constructor.
  - exact (d_closed _ _ D (o_closed _ _ O)).
  - pose proof (o_nt _ _ O). pose proof (d_nt _ _ D). lia.
  - pose proof (o_ng _ _ O). pose proof (d_ng _ _ D). lia.
  - intros t L. pose proof (o_nt _ _ O). rewrite (d_call _ _ D t) by lia. exact (o_call _ _ O t L).
  - exact (over_act _ _ _ _ I O H).
  - exact (over_new _ _ _ _ I O H).
  - exact (over_sel _ _ _ _ I O H).
Qed.
Lemma run_one s es s' : Inv s -> run s es = Some s' -> one s' -> one s.
Proof.
  revert s. induction es as [|e es IH]; intros s I H O; cbn [run] in H; [now injection H as <-|].
  destruct (step s e) as [m|] eqn:E; [|discriminate]. eapply one_back; [exact (step_delta _ _ _ I E)|]. eapply IH; [eapply step_inv; eassumption|exact H|exact O].
Qed.

Definition Taken (s0 s : st) : Prop := forall c t l, c_at (s_conn s c) = Given t -> t_call (s_thread s t) = Serve l -> given s0 c t \/ under_way s0 c t.
Definition Shuts (s0 s : st) : Prop := forall l, l < s_nl s0 -> s_shut s0 l = true -> Past l s0 s.
Definition Stops (s0 : st) : Prop := forall t l, t < s_nt s0 -> t_call (s_thread s0 t) = Serve l -> active (t_pc (s_thread s0 t)) = true -> s_shut s0 l = true.
Lemma step_taken s0 s e s' : Inv s0 -> Inv s -> Stops s0 -> Shuts s0 s -> Over s0 s -> Taken s0 s -> step s e = Some s' -> Taken s0 s'.
Proof.
  intros I0 I ST SH O T H c t l A C. pose proof (step_delta _ _ _ I H) as D. pose proof (step_inv _ _ _ I H) as I'.
  destruct (Nat.lt_ge_cases c (s_nc s)) as [L|L].
  - destruct (d_conn _ _ D c L) as [E M]. unfold moved in M. rewrite A in M. destruct (c_at (s_conn s c)) as [|g|u|] eqn:B; try contradiction.
    + destruct M as [LT SL]. rewrite (d_call _ _ D t LT) in C.
      assert (P : t_pc (s_thread s t) = SSel g).
      { pose proof (i_pc s I t) as OK. rewrite C in OK. destruct (t_pc (s_thread s t)); try discriminate SL; try discriminate OK. cbn in SL. congruence. }
      assert (AC : active (t_pc (s_thread s t)) = true) by (now rewrite P).
      destruct (o_act _ _ O t l LT C AC) as [L0 A0]. pose proof C as C0. rewrite (o_call _ _ O t L0) in C0.
      pose proof (SH l (i_call s0 I0 t l ltac:(now rewrite C0)) (ST t l L0 C0 A0)) as PA.
      assert (CL : c_lis (s_conn s c) = l).
      { pose proof (i_sel s I t g SL) as [_ Q]. rewrite C in Q. injection Q as Q. destruct (i_got s I g c (i_chan s I c g B)) as (_ & Q2 & _). congruence. }
      destruct (p_conn _ _ _ PA c L CL) as (LC & CL0 & [Q|(g0 & t0 & Q1 & Q2)]); [|congruence].
      rewrite B in Q. symmetry in Q. right.
      assert (LG : g < s_ng s0). { destruct (Nat.lt_ge_cases g (s_ng s0)) as [Y|Y]; [exact Y|]. pose proof (i_gor0 s0 I0 g Y) as W. rewrite (i_chan s0 I0 c g Q) in W. discriminate. }
      destruct (o_sel _ _ O t g LT SL LG) as [_ P0]. exists g. split; [exact Q|]. split; [exact L0|]. right. congruence.
    + subst u. destruct (i_given s I c t B) as (_ & LT & _). rewrite (d_call _ _ D t LT) in C. exact (T c t l B C).
  - destruct (i_given s' I' c t A) as (LC & _). destruct (d_new _ _ D c L LC) as (Q & _). congruence.
Qed.
Lemma run_taken s0 s es s' : Inv s0 -> Stops s0 -> Inv s -> Shuts s0 s -> Over s0 s -> Taken s0 s -> run s es = Some s' -> Over s0 s' /\ Taken s0 s'.
Proof.
  intros I0 ST. revert s. induction es as [|e es IH]; intros s I SH O T H; cbn [run] in H; [injection H as <-; auto|].
  destruct (step s e) as [m|] eqn:E; [|discriminate]. apply (IH m); [eapply step_inv|intros l L S; eapply step_past; [| |eassumption]; auto|eapply step_over|eapply step_taken|]; eassumption.
Qed.
Lemma after_close es es' s0 s k r : after es s0 -> run s0 es' = Some s -> one s -> returned s0 k CloseSrv r -> Over s0 s /\ Taken s0 s.
Proof.
  intros A H O [[LK CK] PK]. pose proof (after_inv _ _ A) as I0. pose proof (run_srv _ _ _ inv_init srv_init A) as R.
  pose proof (run_one _ _ _ I0 H O) as O0.
  apply (run_taken s0 s0 es' s I0); auto.
  - intros t l L C AC. exact (r_shut s0 R O0 k t l r LK L CK PK C AC).
  - intros l L S. apply past_refl; auto.
  - apply over_refl. exact (r_closed s0 R k r LK CK PK).
  - intros c t l G C. left. exact G.
Qed.

(** ** What Serve returns after Close *)
Definition quiet (p : pc) : bool := match p with SAcc | SSel _ | SErr _ | SEnd RNil | SLast RNil | Done RNil => true | _ => false end.
Lemma step_quiet s e s' t l : Inv s -> s_closed s = true -> t < s_nt s -> t_call (s_thread s t) = Serve l -> quiet (t_pc (s_thread s t)) = true -> step s e = Some s' ->
  quiet (t_pc (s_thread s' t)) = true.
Proof.
  intros I CL L C Q H. unfold step, stepT in H; rewrite ?CL in H. destruct e; cases H; injection H as <-; bools; proj; auto; unfold fupd;
    match goal with |- context [?a =? ?b] => destruct (Nat.eqb_spec a b) as [?|?]; [subst|]; proj; auto; try lia end.
  all: try (nok s I C).
  all: repeat match goal with P : t_pc _ = _ |- _ => rewrite P in Q end; try discriminate Q; try exact Q.
Qed.
Lemma run_quiet s es s' t l : Inv s -> s_closed s = true -> t < s_nt s -> t_call (s_thread s t) = Serve l -> quiet (t_pc (s_thread s t)) = true -> run s es = Some s' ->
  quiet (t_pc (s_thread s' t)) = true.
Proof.
  revert s. induction es as [|e es IH]; intros s I CL L C Q H; cbn [run] in H; [now injection H as <-|].
  destruct (step s e) as [m|] eqn:E; [|discriminate]. pose proof (step_delta _ _ _ I E) as D.
  apply (IH m); [exact (step_inv _ _ _ I E)|exact (d_closed _ _ D CL)|pose proof (d_nt _ _ D); lia|rewrite (d_call _ _ D t L); exact C|exact (step_quiet _ _ _ _ _ I CL L C Q E)|exact H].
Qed.
