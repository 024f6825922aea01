(** The invariant of the listeners. *)
From Coq Require Import List Bool Arith Lia.
Import ListNotations.
From Verif.Model Require Import Listener.
From Verif.Spec Require Import Listener.

Definition sel (p : pc) : option nat := match p with ASel g | SSel g => Some g | _ => None end.
Definition lisOf (c : call) : option nat := match c with Accept l | CloseLis l | Serve l => Some l | CloseSrv => None end.
Definition okPc (c : call) (p : pc) : bool :=
  match c, p with
  | Accept _, (AStart | ASel _ | Done (RConn _ | RClosed | RErr | RCtx)) => true
  | CloseLis _, (LStart | Done RNil) => true
  | Serve _, (SStart | SAcc | SSel _ | SErr (RClosed | RErr | RCtx) | SEnd (RNil | RClosed | RErr | RCtx)
             | SLast (RNil | RClosed | RErr | RCtx) | Done (RNil | RClosed | RErr | RCtx)) => true
  | CloseSrv, (XStart | XLis _ | Done RNil) => true
  | _, _ => false
  end.
Record Inv (s : st) : Prop := {
  i_queue : forall c, c_at (s_conn s c) = Queue -> s_shut s (c_lis (s_conn s c)) = false;
  i_none : forall l, s_nl s <= l -> s_shut s l = true;
  i_conn0 : forall c, s_nc s <= c -> s_conn s c = mkC 0 Gone;
  i_gor0 : forall g, s_ng s <= g -> g_got (s_gor s g) = Waits;
  i_th0 : forall t, s_nt s <= t -> s_thread s t = mkT CloseSrv (Done RNil) false;
  i_clis : forall c, c < s_nc s -> c_lis (s_conn s c) < s_nl s;
  i_chan : forall c g, c_at (s_conn s c) = Chan g -> g_got (s_gor s g) = GotConn c;
  i_got : forall g c, g_got (s_gor s g) = GotConn c -> c < s_nc s /\ c_lis (s_conn s c) = g_lis (s_gor s g) /\ c_at (s_conn s c) <> Queue;
  i_sel : forall t g, sel (t_pc (s_thread s t)) = Some g -> g < s_ng s /\ lisOf (t_call (s_thread s t)) = Some (g_lis (s_gor s g));
  i_sel2 : forall t g c, sel (t_pc (s_thread s t)) = Some g -> g_got (s_gor s g) = GotConn c -> c_at (s_conn s c) = Chan g;
  i_uniq : forall t u g, sel (t_pc (s_thread s t)) = Some g -> sel (t_pc (s_thread s u)) = Some g -> t = u;
  i_pc : forall t, okPc (t_call (s_thread s t)) (t_pc (s_thread s t)) = true;
  i_given : forall c t, c_at (s_conn s c) = Given t -> c < s_nc s /\ t < s_nt s /\
    (t_call (s_thread s t) = Accept (c_lis (s_conn s c)) /\ t_pc (s_thread s t) = Done (RConn c) \/ t_call (s_thread s t) = Serve (c_lis (s_conn s c)));
  i_ret : forall t c, t_pc (s_thread s t) = Done (RConn c) -> c_at (s_conn s c) = Given t;
  i_call : forall t l, lisOf (t_call (s_thread s t)) = Some l -> l < s_nl s }.
Lemma inv_init : Inv init.
Proof. constructor; cbn; intros; lia || reflexivity || discriminate. Qed.

Ltac cases H :=
  repeat match type of H with
         | context [match ?x with _ => _ end] => destruct x eqn:?; try discriminate H
         end.
Ltac proj := cbn [s_nl s_shut s_nc s_conn s_ng s_gor s_nt s_thread s_closed s_listener to withConn withServer closeLis spawn give
                  c_lis c_at g_lis g_got t_call t_pc t_ctx sel lisOf fst snd] in *.
Ltac split_eq :=
  repeat (unfold fupd in *; proj;
    match goal with
    | H : context [?a =? ?b] |- _ => destruct (Nat.eqb_spec a b); [subst|]; try lia
    | |- context [?a =? ?b] => destruct (Nat.eqb_spec a b); [subst|]; try lia
    | H : (_ <? _) = true |- _ => apply Nat.ltb_lt in H
    | H : _ && _ = true |- _ => apply andb_true_iff in H; destruct H
    | H : negb _ = true |- _ => apply negb_true_iff in H
    end); proj.
Ltac done s I :=
  try solve [eauto using i_queue, i_none, i_conn0, i_gor0, i_th0, i_clis, i_chan, i_got, i_sel, i_sel2, i_uniq, i_pc, i_given, i_ret, i_call | discriminate | congruence].

Lemma inv_server s b o : Inv s -> Inv (withServer b o s).
Proof. intros []. now constructor. Qed.
Lemma inv_close s l : Inv s -> Inv (closeLis l s).
Proof.
  intros I. assert (A : forall c, c_lis (s_conn (closeLis l s) c) = c_lis (s_conn s c)).
  { intros c. cbn. destruct (c_at (s_conn s c)); try reflexivity. destruct (Nat.eqb_spec (c_lis (s_conn s c)) l); [cbn; congruence|reflexivity]. }
  assert (B : forall c, c_at (s_conn (closeLis l s) c) = c_at (s_conn s c) \/
     c_at (s_conn s c) = Queue /\ c_lis (s_conn s c) = l /\ c_at (s_conn (closeLis l s) c) = Gone).
  { intros c. cbn. destruct (c_at (s_conn s c)) eqn:E; try (left; rewrite E; reflexivity). destruct (Nat.eqb_spec (c_lis (s_conn s c)) l); [right; cbn; auto|left; rewrite E; reflexivity]. }
  constructor.
  - intros c. rewrite A. destruct (B c) as [E|(E1 & E2 & E3)]; [|congruence]. rewrite E. intros Q. pose proof (i_queue s I c Q) as S. cbn. unfold fupd.
    destruct (Nat.eqb_spec (c_lis (s_conn s c)) l) as [E'|N]; [|exact S].
    exfalso. revert E. cbn. rewrite Q, E', Nat.eqb_refl. cbn. discriminate.
  - intros m L. cbn. unfold fupd. destruct (m =? l); [reflexivity|now apply (i_none s I)].
  - intros c L. cbn in L. cbn. rewrite (i_conn0 s I c L). reflexivity.
  - exact (i_gor0 s I).
  - exact (i_th0 s I).
  - intros c L. rewrite A. now apply (i_clis s I).
  - intros c g. destruct (B c) as [E|(E1 & E2 & E3)]; [|congruence]. rewrite E. apply (i_chan s I).
  - intros g c G. rewrite A. destruct (i_got s I g c G) as (G1 & G2 & G3). repeat split; [exact G1|exact G2|]. destruct (B c) as [E|(E1 & E2 & E3)]; congruence.
  - exact (i_sel s I).
  - intros t g c P G. pose proof (i_sel2 s I t g c P G) as K. destruct (B c) as [E|(E1 & E2 & E3)]; congruence.
  - exact (i_uniq s I).
  - exact (i_pc s I).
  - intros c t. rewrite A. destruct (B c) as [E|(E1 & E2 & E3)]; [|congruence]. rewrite E. apply (i_given s I).
  - intros t c P. pose proof (i_ret s I t c P). destruct (B c) as [E|(E1 & E2 & E3)]; congruence.
  - exact (i_call s I).
Qed.
(** A call goes on; it leaves a select if it was in one. *)
Lemma inv_to s t p : Inv s -> t < s_nt s -> okPc (t_call (s_thread s t)) p = true -> sel p = None -> (forall c, p <> Done (RConn c)) ->
  (forall c, t_pc (s_thread s t) <> Done (RConn c)) -> Inv (to t p s).
Proof.
  intros I L O N R R'. constructor; proj; intros; split_eq; done s I.
  - match goal with H : c_at _ = Given _ |- _ => destruct (i_given s I _ _ H) as (G0 & G1 & [[G2 G3]|G2]) end; [now apply R' in G3|auto].
Qed.
(** A call starts a goroutine and goes to the select. *)
Lemma inv_spawn s t l p : Inv s -> t < s_nt s -> okPc (t_call (s_thread s t)) p = true -> sel p = Some (s_ng s) -> lisOf (t_call (s_thread s t)) = Some l ->
  (forall c, t_pc (s_thread s t) <> Done (RConn c)) -> Inv (to t p (spawn l s)).
Proof.
  intros I L O N R R'.
  assert (F : forall u, sel (t_pc (s_thread s u)) <> Some (s_ng s)).
  { intros u P. destruct (i_sel s I _ _ P) as [P1 _]. lia. }
  assert (F2 : forall g, g < s_ng s \/ s_ng s <= g) by (intros; lia).
  constructor; proj; intros; split_eq; done s I.
  - apply (i_gor0 s I). lia.
  - match goal with H : c_at _ = Chan _ |- _ => pose proof (i_chan s I _ _ H) as K end. rewrite (i_gor0 s I) in K by lia. discriminate.
  - destruct (i_sel s I _ _ H). split; [lia|assumption].
  - match goal with H : c_at _ = Given _ |- _ => destruct (i_given s I _ _ H) as (G0 & G1 & [[G2 G3]|G2]) end; [now apply R' in G3|auto].
  - exfalso. destruct p; discriminate.
Qed.
Lemma inv_give s t g c p l : Inv s -> t < s_nt s -> sel (t_pc (s_thread s t)) = Some g -> g_got (s_gor s g) = GotConn c ->
  t_call (s_thread s t) = Accept l /\ p = Done (RConn c) \/ t_call (s_thread s t) = Serve l /\ p = SAcc -> Inv (to t p (give c t s)).
Proof.
  intros I L S G D. pose proof (i_sel2 s I t g c S G) as K. destruct (i_sel s I t g S) as [S1 S2]. destruct (i_got s I g c G) as (G1 & G2 & G3).
  assert (R' : forall c, t_pc (s_thread s t) <> Done (RConn c)) by (intros k E; rewrite E in S; discriminate).
  assert (U : forall u, u <> t -> sel (t_pc (s_thread s u)) <> Some g) by (intros u N P; apply N; exact (i_uniq s I _ _ _ P S)).
  assert (N : sel p = None) by (destruct D as [[_ ->]|[_ ->]]; reflexivity).
  assert (O : okPc (t_call (s_thread s t)) p = true) by (destruct D as [[-> ->]|[-> ->]]; reflexivity).
  constructor; proj; intros; split_eq; done s I.
  - match goal with H : g_got _ = GotConn _ |- _ => destruct (i_got s I _ _ H) as (Q1 & Q2 & Q3) end. repeat split; [exact Q1|exact Q2|discriminate].
  - exfalso. assert (g0 = g) as -> by (pose proof (i_sel2 s I _ _ _ H H0); congruence). now apply (U t0).
  - split; [exact G1|]. split; [exact L|]. destruct D as [[D1 D2]|[D1 D2]]; rewrite D1 in S2; cbn in S2; injection S2 as S2; [left; split; congruence|right; congruence].
  - match goal with H : c_at _ = Given _ |- _ => destruct (i_given s I _ _ H) as (Q0 & Q1 & [[Q2 Q3]|Q2]) end; [now apply R' in Q3|auto].
  - exfalso. destruct D as [[_ D]|[_ D]]; rewrite D in *; congruence.
  - exfalso. pose proof (i_ret s I _ _ H). congruence.
Qed.
Lemma inv_listen s : Inv s -> Inv (mkSt (S (s_nl s)) (fupd (s_shut s) (s_nl s) false) (s_nc s) (s_conn s) (s_ng s) (s_gor s) (s_nt s) (s_thread s) (s_closed s) (s_listener s)).
Proof.
  intros I. constructor; proj; intros; split_eq; done s I.
  - apply (i_none s I). lia.
  - pose proof (i_clis s I c H). lia.
  - pose proof (i_call s I _ _ H). lia.
Qed.
Lemma inv_arrive s l : Inv s -> l < s_nl s -> s_shut s l = false ->
  Inv (mkSt (s_nl s) (s_shut s) (S (s_nc s)) (fupd (s_conn s) (s_nc s) (mkC l Queue)) (s_ng s) (s_gor s) (s_nt s) (s_thread s) (s_closed s) (s_listener s)).
Proof.
  intros I L S.
  assert (F : s_conn s (s_nc s) = mkC 0 Gone) by (apply (i_conn0 s I); lia).
  assert (F2 : forall g, g_got (s_gor s g) <> GotConn (s_nc s)) by (intros g E; destruct (i_got s I _ _ E); lia).
  constructor; proj; intros; split_eq; done s I.
  - apply (i_conn0 s I). lia.
  - apply (i_clis s I). lia.
  - destruct (i_got s I _ _ H) as (Q1 & Q2 & Q3). auto.
  - destruct (i_given s I _ _ H) as (Q0 & Q1 & Q2). auto.
  - exfalso. pose proof (i_ret s I _ _ H) as E. rewrite F in E. discriminate.
Qed.
Lemma inv_call s c : Inv s -> fits c s = true ->
  Inv (mkSt (s_nl s) (s_shut s) (s_nc s) (s_conn s) (s_ng s) (s_gor s) (S (s_nt s)) (fupd (s_thread s) (s_nt s) (mkT c (start c) false)) (s_closed s) (s_listener s)).
Proof.
  intros I F.
  assert (N : sel (start c) = None) by (destruct c; reflexivity).
  constructor; proj; intros; split_eq; done s I.
  - apply (i_th0 s I). lia.
  - destruct c; reflexivity.
  - exfalso. destruct (i_given s I _ _ H) as (Q0 & Q1 & Q2). lia.
  - destruct (i_given s I _ _ H) as (Q0 & Q1 & Q2). auto.
  - destruct c; discriminate.
  - destruct c; cbn in *; try discriminate; injection H as <-; now apply Nat.ltb_lt.
Qed.
Lemma inv_cancel s t : Inv s -> t < s_nt s ->
  Inv (mkSt (s_nl s) (s_shut s) (s_nc s) (s_conn s) (s_ng s) (s_gor s) (s_nt s) (fupd (s_thread s) t (mkT (t_call (s_thread s t)) (t_pc (s_thread s t)) true)) (s_closed s) (s_listener s)).
Proof. intros I L. constructor; proj; intros; split_eq; done s I. Qed.
Lemma inv_take s g c : Inv s -> g < s_ng s -> c < s_nc s -> g_got (s_gor s g) = Waits -> c_at (s_conn s c) = Queue -> c_lis (s_conn s c) = g_lis (s_gor s g) ->
  Inv (mkSt (s_nl s) (s_shut s) (s_nc s) (fupd (s_conn s) c (mkC (c_lis (s_conn s c)) (Chan g))) (s_ng s) (fupd (s_gor s) g (mkG (g_lis (s_gor s g)) (GotConn c))) (s_nt s) (s_thread s) (s_closed s) (s_listener s)).
Proof.
  intros I L1 L2 W Q E. constructor; proj; intros; split_eq; done s I.
  - exfalso. pose proof (i_chan s I _ _ H). congruence.
  - repeat split; [exact L2|exact E|discriminate].
  - exfalso. destruct (i_got s I _ _ H) as (_ & _ & Q3). congruence.
  - exfalso. destruct (i_got s I _ _ H0) as (_ & _ & Q3). congruence.
  - exfalso. pose proof (i_ret s I _ _ H). congruence.
Qed.
Lemma inv_fail s g : Inv s -> g < s_ng s -> g_got (s_gor s g) = Waits ->
  Inv (mkSt (s_nl s) (s_shut s) (s_nc s) (s_conn s) (s_ng s) (fupd (s_gor s) g (mkG (g_lis (s_gor s g)) GotErr)) (s_nt s) (s_thread s) (s_closed s) (s_listener s)).
Proof.
  intros I L1 W. constructor; proj; intros; split_eq; done s I.
  - exfalso. pose proof (i_chan s I _ _ H). congruence.
Qed.

Ltac bools :=
  repeat match goal with
         | H : (_ <? _) = true |- _ => apply Nat.ltb_lt in H
         | H : _ && _ = true |- _ => apply andb_true_iff in H; destruct H
         | H : negb _ = true |- _ => apply negb_true_iff in H
         | H : (_ =? _) = true |- _ => apply Nat.eqb_eq in H
         end.
Ltac pcof := repeat match goal with P : t_call _ = _ |- _ => rewrite P end; repeat match goal with P : t_pc _ = _ |- _ => rewrite P end.
Ltac okpc s I :=
  match goal with P : t_pc (s_thread s ?t) = _ |- _ => let O := fresh "O" in pose proof (i_pc s I t) as O; rewrite P in O;
    try match goal with P : t_call _ = _ |- _ => rewrite P in O end end.
Ltac one s I :=
  try okpc s I;
  match goal with
  | |- Inv (to ?t _ (give _ _ _)) => eapply inv_give; [exact I|assumption|pcof; reflexivity|eassumption|]; eauto
  | |- Inv (to ?t _ (spawn _ _)) => apply inv_spawn; [exact I|assumption|..]; pcof; try reflexivity; intros; discriminate
  | |- Inv (to ?t _ _) => apply inv_to; [try apply inv_server; try apply inv_close; exact I|assumption|..]; proj; pcof; try reflexivity; try (intros; discriminate)
  | _ => auto using inv_listen, inv_arrive, inv_call, inv_cancel, inv_take, inv_fail
  end.
Lemma step_inv s e s' : Inv s -> step s e = Some s' -> Inv s'.
Proof.
  intros I H. unfold step, stepT in H. destruct e; cases H; injection H as <-; bools; one s I.
  all: try (destruct r; try discriminate; try reflexivity; intros; discriminate).
  all: try (destruct (t_call (s_thread s t)); try discriminate; reflexivity).
Qed.
Lemma run_inv s es s' : Inv s -> run s es = Some s' -> Inv s'.
Proof.
  revert s. induction es as [|e es IH]; intros s I H; cbn [run] in H; [now injection H as <-|].
  destruct (step s e) as [m|] eqn:E; [|discriminate]. exact (IH m (step_inv _ _ _ I E) H).
Qed.
Lemma run_app s es es' : run s (es ++ es') = match run s es with Some m => run m es' | None => None end.
Proof. revert s. induction es as [|e es IH]; intros s; cbn [run app]; [reflexivity|]. destruct (step s e); [apply IH|reflexivity]. Qed.
