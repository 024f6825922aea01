(** Proofs about a session of a sync method from end to end. *)
From Coq Require Import ZArith Lia List Bool.
Import ListNotations.
From Verif.Model Require Import Base Client SyncClient SyncSystem.
From Verif.Model Require SrvSession.
From Verif.Spec Require SrvSession.
From Verif.Spec Require Import Delivery.
From Verif.Proofs Require Import ClientProofs SyncClientProofs ClientDelivery.
From Verif.Proofs Require SrvSession SrvStream SrvClose.
Open Scope list_scope. Open Scope Z_scope.

(** * Subsequences *)
Lemma sub_app : forall {A} (a b l : list A), subseq a b -> subseq (a ++ l) (b ++ l).
Proof. intros A a b l H. induction H; cbn [app]; [apply subseq_refl|constructor; assumption|constructor; assumption]. Qed.
Lemma sub_nil : forall {A} (l : list A), subseq [] l.
Proof. induction l; constructor; assumption. Qed.
Lemma sub_del : forall {A} (a b : list A) x c, subseq (a ++ x :: b) c -> subseq (a ++ b) c.
Proof.
  intros A a b x c H. eapply subseq_trans; [|exact H]. clear H. induction a as [|y a IH]; cbn [app]; [constructor; apply subseq_refl|constructor; exact IH].
Qed.
Lemma sub_in : forall {A} (a b : list A) x, subseq a b -> In x a -> In x b.
Proof. intros A a b x H. induction H; cbn; [auto|intros [X|X]; [left; exact X|right; auto]|intros X; right; auto]. Qed.
Lemma sub_nodup : forall {A} (a b : list A), subseq a b -> NoDup b -> NoDup a.
Proof.
  intros A a b H. induction H as [|x a b H IH|x a b H IH]; intros N; [constructor| |]; inversion N; subst; [|auto].
  constructor; [|auto]. intros X. eapply sub_in in X; [|exact H]. contradiction.
Qed.
Lemma sub_map : forall {A B} (f : A -> B) (a b : list A), subseq a b -> subseq (map f a) (map f b).
Proof. intros A B f a b H. induction H; cbn [map]; constructor; assumption. Qed.
Lemma sub_app_l : forall {A} (a b c : list A), subseq (a ++ b) c -> subseq a c.
Proof.
  intros A a b c H. eapply subseq_trans; [|exact H]. clear H. induction a; cbn [app]; [apply sub_nil|constructor; assumption].
Qed.

(** * The client: what it has sent *)
Definition passed (c : ycall) : Prop := k_st c <> KTop /\ k_st c <> KSend.
Definition holds (c : ycall) : Prop := match k_st c with KWait | KTook _ => True | _ => False end.
Definition same (c c' : ycall) : Prop := k_reg c' = k_reg c /\ k_req c' = k_req c /\ k_arg c' = k_arg c.
Record up_inv (s : syncc) : Prop := {
  ui_up : forall r a, In (r, a) (y_up s) -> exists i c, nth_error (y_calls s) i = Some c /\ k_reg c = true /\ k_req c = r /\ k_arg c = a /\ passed c;
  ui_nodup : NoDup (map fst (y_up s));
  ui_sent : forall i c, nth_error (y_calls s) i = Some c -> holds c -> In (k_req c, k_arg c) (y_up s) }.

Lemma up_calls : forall s s', up_inv s -> y_up s' = y_up s ->
  (forall i c, nth_error (y_calls s) i = Some c -> passed c -> exists c', nth_error (y_calls s') i = Some c' /\ same c c' /\ passed c') ->
  (forall i c', nth_error (y_calls s') i = Some c' -> holds c' -> exists c, nth_error (y_calls s) i = Some c /\ same c c' /\ holds c) -> up_inv s'.
Proof.
  intros s s' [A B C] U H1 H2. split; rewrite U.
  - intros r a X. destruct (A r a X) as (i & c & N & R & Q & G & P). destruct (H1 i c N P) as (c' & N' & (S1 & S2 & S3) & P').
    exists i, c'. split; [exact N'|]. split; [congruence|]. split; [congruence|]. split; [congruence|exact P'].
  - exact B.
  - intros i c' N' Hc. destruct (H2 i c' N' Hc) as (c & N & (S1 & S2 & S3) & Hh). rewrite S2, S3. exact (C i c N Hh).
Qed.

Lemma up_upc : forall s i f, up_inv s -> (forall c, nth_error (y_calls s) i = Some c -> (passed c -> same c (f c) /\ passed (f c)) /\ (holds (f c) -> same c (f c) /\ holds c)) -> up_inv (upc s i f).
Proof.
  intros s i f U H. eapply up_calls; [exact U|reflexivity| |]; unfold upc; cbn [y_calls set_calls].
  - intros j c N P. rewrite put_at_nth. destruct (Nat.eqb_spec j i) as [->|Ne].
    + rewrite N. cbn. exists (f c). split; [reflexivity|]. exact (proj1 (H c N) P).
    + exists c. split; [exact N|]. split; [unfold same; auto|exact P].
  - intros j c' N P. rewrite put_at_nth in N. destruct (Nat.eqb_spec j i) as [->|Ne].
    + destruct (nth_error (y_calls s) i) as [c|] eqn:E; [|discriminate]. cbn in N. injection N as <-. exists c. split; [reflexivity|]. exact (proj2 (H c eq_refl) P).
    + exists c'. split; [exact N|]. split; [unfold same; auto|exact P].
Qed.

Lemma same_st : forall k c, same c (st k c).
Proof. intros k c. unfold same, st. cbn. auto. Qed.

(** Only the calls and what was sent matter. *)
Lemma up_only : forall s s', up_inv s -> y_up s' = y_up s -> y_calls s' = y_calls s -> up_inv s'.
Proof. intros s s' [A B C] U V. split; rewrite ?U, ?V; assumption. Qed.

Lemma step_up : forall s e s', yinv s -> yq s -> up_inv s -> ystep s e s' -> up_inv s'.
Proof.
  intros s e s' YI Q U H.
  assert (ST : forall i c k, nth_error (y_calls s) i = Some c -> holds c -> k <> KTop -> k <> KSend -> up_inv (upc s i (st k))).
  { intros i c k N P K1 K2. apply up_upc; [exact U|]. intros c' N'. rewrite N in N'. injection N' as <-. split.
    - intros _. split; [apply same_st|split; assumption].
    - intros _. split; [apply same_st|exact P]. }
  assert (NW : forall i c k, nth_error (y_calls s) i = Some c -> k <> KTop -> k <> KSend -> match k with KWait | KTook _ => False | _ => True end -> up_inv (upc s i (st k))).
  { intros i c k N K1 K2 K3. apply up_upc; [exact U|]. intros c' N'. rewrite N in N'. injection N' as <-. split.
    - intros _. split; [apply same_st|split; assumption].
    - unfold holds, st. cbn. destruct k; intros []; contradiction. }
  inversion H; subst; clear H.
  - eapply up_calls; [exact U|reflexivity| |]; cbn [set_calls y_calls].
    + intros i c N P. exists c. rewrite nth_error_app1; [|apply nth_error_Some; congruence]. split; [exact N|]. split; [unfold same; auto|exact P].
    + intros i c N P. destruct (Nat.lt_ge_cases i (length (y_calls s))) as [L|L].
      * rewrite nth_error_app1 in N by exact L. exists c. split; [exact N|]. split; [unfold same; auto|exact P].
      * rewrite nth_error_app2 in N by exact L. destruct (i - length (y_calls s))%nat as [|j]; [cbn in N; injection N as <-; contradiction|destruct j; discriminate].
  - unfold y_register. destruct (y_closed s).
    + eapply NW; [exact H0| | |exact I]; discriminate.
    + eapply (up_upc (set_pend (set_next s ((y_next s + 1) mod 2 ^ 32)) (put (y_next s) i (y_pending s)))); [eapply up_only; [exact U|reflexivity|reflexivity]|].
      cbn [set_pend set_next y_calls]. intros c' N'. rewrite H0 in N'. injection N' as <-. split.
      * intros [P _]. congruence.
      * intros [].
  - (* Send *)
    assert (RG : k_reg c = true) by (destruct (yi_calls _ YI _ _ H0) as [_ _ _ T _]; rewrite H1 in T; exact T).
    split; cbn [set_up y_up upc set_calls y_calls].
    + intros r a X. apply in_app_or in X. destruct X as [X|[X|[]]].
      * destruct (ui_up _ U r a X) as (j & x & N & R & E1 & E2 & P). exists j. destruct (Nat.eqb_spec j i) as [->|Ne].
        -- rewrite H0 in N. injection N as <-. exfalso. apply (proj2 P). exact H1.
        -- exists x. unfold upc. cbn. rewrite put_at_nth. destruct (Nat.eqb_spec j i); [contradiction|]. auto 6.
      * injection X as <- <-. exists i, (st KWait c). unfold upc. cbn. rewrite put_at_nth, Nat.eqb_refl, H0. cbn. split; [reflexivity|].
        split; [|split; [reflexivity|split; [reflexivity|split; cbn; discriminate]]]. exact RG.
    + rewrite map_app. cbn [map fst]. apply SrvStream.NoDup_snoc; [exact (ui_nodup _ U)|]. intros X. apply in_map_iff in X. destruct X as ((r, a) & E & X). cbn in E. subst r.
      destruct (ui_up _ U _ a X) as (j & x & N & R & E1 & E2 & P). assert (j = i) as -> by (eapply (yq_inj _ Q); eauto).
      rewrite H0 in N. injection N as <-. apply (proj2 P). exact H1.
    + intros j x N P. unfold upc in N. cbn in N. rewrite put_at_nth in N. apply in_or_app. destruct (Nat.eqb_spec j i) as [->|Ne].
      * rewrite H0 in N. cbn in N. injection N as <-. right. left. reflexivity.
      * left. exact (ui_sent _ U j x N P).
  - eapply NW; [exact H0| | |exact I]; discriminate.
  - eapply NW; [exact H0| | |exact I]; discriminate.
  - eapply NW; [exact H0| | |exact I]; discriminate.
  - eapply NW; [exact H0| | |exact I]; discriminate.
  - eapply up_only; [eapply (NW i c (KLeave RErr)); [exact H0| | |exact I]; discriminate|reflexivity|reflexivity].
  - eapply up_only; [eapply (ST i c (y_take (k_req c) p)); [exact H0| | |]|reflexivity|reflexivity].
    + unfold holds. rewrite H1. exact I.
    + unfold y_take. destruct (p_req p =? k_req c); discriminate.
    + unfold y_take. destruct (p_req p =? k_req c); discriminate.
  - eapply NW; [exact H0| | |exact I]; discriminate.
  - unfold y_forward. assert (V : up_inv (match find (p_req p) (y_pending s) with Some j => upc s j (offer_resp (p_data p)) | None => s end)).
    { destruct (find (p_req p) (y_pending s)) as [j|]; [|exact U]. apply up_upc; [exact U|]. intros c' _. unfold same, passed, holds, offer_resp. cbn. tauto. }
    apply up_upc; [exact V|]. intros c' N'. split.
    + intros _. split; [apply same_st|split; cbn; discriminate].
    + intros _. split; [apply same_st|]. destruct (find (p_req p) (y_pending s)) as [j|].
      * unfold upc in N'. cbn in N'. rewrite put_at_nth in N'. destruct (Nat.eqb i j); rewrite H0 in N'; cbn in N'; injection N' as <-; unfold holds, offer_resp; cbn; rewrite H1; exact I.
      * rewrite H0 in N'. injection N' as <-. unfold holds. rewrite H1. exact I.
  - apply up_upc; [exact U|]. intros c' N'. rewrite H0 in N'. injection N' as <-. split.
    + intros _. split; [unfold same; auto|split; cbn; discriminate].
    + intros [].
  - unfold y_leave. eapply up_only; [eapply (NW i c (KDone r)); [exact H0| | |exact I]; discriminate|reflexivity|reflexivity].
  - eapply up_only; [exact U|reflexivity|reflexivity].
  - eapply up_only; [exact U|reflexivity|reflexivity].
  - eapply up_only; [exact U|reflexivity|reflexivity].
  - eapply up_only; [exact U|reflexivity|reflexivity].
  - eapply up_only; [exact U|reflexivity|reflexivity].
Qed.

Lemma step_calls_le : forall s e s', ystep s e s' -> (length (y_calls s) <= length (y_calls s'))%nat.
Proof.
  intros s e s' H. inversion H; subst; unfold y_register, y_forward, y_leave, upc; cbn; rewrite ?put_at_len, ?app_length; try lia.
  - destruct (y_closed s); cbn; rewrite put_at_len; lia.
  - destruct (find (p_req p) (y_pending s)); cbn; rewrite ?put_at_len; lia.
Qed.

Lemma up_run : forall es s, yrun newSync es s -> Z.of_nat (length (y_calls s)) < 2 ^ 32 -> up_inv s.
Proof.
  intros es s R. remember newSync as s0 eqn:E. induction R as [|s0 es s1 e s2 R IH ST]; subst; intros L.
  - split; cbn; [contradiction|constructor|intros [|i]; discriminate].
  - assert (L1 : Z.of_nat (length (y_calls s1)) < 2 ^ 32) by (pose proof (step_calls_le _ _ _ ST); lia).
    eapply step_up; [eapply yinv_run; exact R|eapply yq_run; [exact R|exact L1]|auto|exact ST].
Qed.

Lemma step_up_grows : forall s e s', ystep s e s' -> exists l, y_up s' = y_up s ++ l.
Proof.
  intros s e s' H. inversion H; subst; try (exists []; rewrite app_nil_r; reflexivity).
  - exists []. rewrite app_nil_r. unfold y_register. destruct (y_closed s); reflexivity.
  - eexists. reflexivity.
  - exists []. rewrite app_nil_r. unfold y_forward. destruct (find (p_req p) (y_pending s)); reflexivity.
Qed.

(** * The system *)
Definition key (p : SrvSession.pay) : Z * bytes := (SrvSession.p_req p, SrvSession.p_data p).
Definition ans (p : payload) : Z * bytes := (p_req p, p_data p).
Definition datas (l : list SrvSession.wmsg) : list (Z * bytes) :=
  flat_map (fun w => match w with SrvSession.WData r d _ => [(r, d)] | SrvSession.WClose _ _ => [] end) l.

Record ginv (m : Z) (s : sys) : Prop := {
  gi_y : exists es, yrun newSync es (g_y s);
  gi_x : exists es, SrvSession.run SrvSession.Sync m (SrvSession.init SrvSession.Sync) es = Some (g_x s);
  gi_up : subseq (map key (SrvSession.x_arrived (g_x s)) ++ g_up s) (y_up (g_y s));
  gi_up_eq : g_lost s = false -> map key (SrvSession.x_arrived (g_x s)) ++ g_up s = y_up (g_y s);
  gi_dn : subseq (map ans (y_log (g_y s)) ++ datas (g_dn s)) (datas (SrvSession.sent (g_x s)));
  gi_dn_eq : g_lost s = false -> map ans (y_log (g_y s)) ++ datas (g_dn s) = datas (SrvSession.sent (g_x s)) }.

Lemma datas_app : forall a b, datas (a ++ b) = datas a ++ datas b.
Proof. intros a b. unfold datas. apply flat_map_app. Qed.

Lemma arrived_same : forall m x e x', (forall p, e <> SrvSession.EArrive p) -> SrvSession.step SrvSession.Sync m x e = Some x' ->
  SrvSession.x_arrived x' = SrvSession.x_arrived x.
Proof.
  intros m x e x' N H. destruct e; [destruct (N p eq_refl)|..]; SrvStream.explode H; subst x'; reflexivity.
Qed.

Lemma yend_same : forall y y', ystep y YEnd y' -> y_log y' = y_log y /\ y_up y' = y_up y.
Proof. intros y y' H. inversion H; subst; split; reflexivity. Qed.

Lemma step_ginv : forall m s s', ginv m s -> gstep m s s' -> ginv m s'.
Proof.
  intros m s s' [(ey & Y) (ex & X) U UE D DE] H. inversion H; subst; clear H; cbn [g_y g_up g_x g_dn g_lost] in *.
  - (* client *)
    destruct (step_up_grows _ _ _ H0) as (a & G). assert (K : skipn (length (y_up y)) (y_up y') = a).
    { rewrite G, skipn_app, skipn_all, Nat.sub_diag. reflexivity. }
    split; cbn [g_y g_up g_x g_dn g_lost].
    + exists (ey ++ [e]). econstructor; eassumption.
    + exists ex. exact X.
    + rewrite K, G, app_assoc. apply sub_app. exact U.
    + intros L. rewrite K, G, app_assoc, UE by exact L. reflexivity.
    + rewrite H1. exact D.
    + rewrite H1. exact DE.
  - (* up *)
    assert (AR : SrvSession.x_arrived x' = SrvSession.x_arrived x ++ [SrvSession.mkP r d false] /\ SrvSession.sent x' = SrvSession.sent x).
    { pose proof H0 as St. SrvStream.explode St; subst x'; split; reflexivity. }
    destruct AR as [AR SR].
    split; cbn [g_y g_up g_x g_dn g_lost].
    + exists ey. exact Y.
    + exists (ex ++ [SrvSession.EArrive (SrvSession.mkP r d false)]). rewrite SrvSession.run_app, X. cbn [SrvSession.run]. rewrite H0. reflexivity.
    + rewrite AR, map_app, <- app_assoc. exact U.
    + intros L. rewrite AR, map_app, <- app_assoc. exact (UE L).
    + rewrite SR. exact D.
    + rewrite SR. exact DE.
  - (* up lost *)
    split; cbn [g_y g_up g_x g_dn g_lost].
    + exists ey. exact Y.
    + exists ex. exact X.
    + eapply sub_del. exact U.
    + discriminate.
    + exact D.
    + discriminate.
  - (* server *)
    pose proof (arrived_same _ _ _ _ H0 H1) as AR. destruct (SrvClose.step_grows _ _ _ _ _ H1) as ((a & G) & _).
    assert (K : skipn (length (SrvSession.x_wire x)) (SrvSession.x_wire x') = a).
    { rewrite G, skipn_app, skipn_all, Nat.sub_diag. reflexivity. }
    split; cbn [g_y g_up g_x g_dn g_lost].
    + exists ey. exact Y.
    + exists (ex ++ [e]). rewrite SrvSession.run_app, X. cbn [SrvSession.run]. rewrite H1. reflexivity.
    + rewrite AR. exact U.
    + rewrite AR. exact UE.
    + rewrite K. unfold SrvSession.sent in *. rewrite G, map_app, !datas_app, app_assoc. apply sub_app. exact D.
    + intros L. rewrite K. unfold SrvSession.sent in *. rewrite G, map_app, !datas_app, app_assoc, (DE L). reflexivity.
  - (* down *)
    split; cbn [g_y g_up g_x g_dn g_lost set_ylog set_recv y_up y_log].
    + exists (ey ++ [YOther]). econstructor; [exact Y|]. apply Y_Arrive. exact H0.
    + exists ex. exact X.
    + exact U.
    + exact UE.
    + rewrite map_app, <- app_assoc. exact D.
    + intros L. rewrite map_app, <- app_assoc. exact (DE L).
  - destruct (yend_same _ _ H0) as [E1 E2]. split; cbn [g_y g_up g_x g_dn g_lost]; rewrite ?E1, ?E2.
    + exists (ey ++ [YEnd]). econstructor; eassumption.
    + exists ex. exact X.
    + exact U.
    + exact UE.
    + exact D.
    + exact DE.
  - split; cbn [g_y g_up g_x g_dn g_lost].
    + exists ey. exact Y.
    + exists ex. exact X.
    + exact U.
    + discriminate.
    + destruct w as [r d f|]; [|exact D]. eapply sub_del. exact D.
    + discriminate.
Qed.

Lemma ginv_reach : forall m s, greach m s -> ginv m s.
Proof.
  intros m s H. induction H as [|s s' H IH St]; [|eapply step_ginv; eassumption].
  split; cbn; try (intros; reflexivity); try constructor.
  - exists []. constructor.
  - exists []. reflexivity.
Qed.

(** What the server has sent comes from a call of the handler with a request of the client. *)
Lemma sent_call : forall m es x r d, SrvSession.run SrvSession.Sync m (SrvSession.init SrvSession.Sync) es = Some x -> In (r, d) (datas (SrvSession.sent x)) ->
  exists p, In (p, inl d) (SrvSession.x_calls x) /\ In p (SrvSession.x_arrived x) /\ SrvSession.p_req p = r.
Proof.
  intros m es x r d R H. destruct (SrvSession.sync_holds _ _ _ R) as (A & B & C & done & rest & tail & Cl & W & L & At).
  assert (BG : forall q, In q (map fst done) -> In q (SrvSession.x_arrived x)).
  { intros q Hq. rewrite A, <- B. apply in_or_app. left. unfold SrvSession.sync_at in At. destruct (SrvSession.x_h x); try contradiction.
    - destruct At as (_ & _ & ->). exact Hq.
    - destruct At as (_ & _ & ->). apply in_or_app. left. exact Hq.
    - destruct At as (_ & _ & ->). apply in_or_app. left. exact Hq.
    - destruct md; [contradiction|]. destruct At as (_ & _ & ->). apply in_or_app. left. exact Hq.
    - destruct At as (-> & _). apply in_or_app. left. exact Hq. }
  rewrite W, datas_app in H. apply in_app_or in H. destruct H as [H|H].
  - unfold datas in H. apply in_flat_map in H. destruct H as (w & Hw & H). apply in_map_iff in Hw. destruct Hw as ((p & b) & <- & Hp). cbn in H. destruct H as [H|[]]. injection H as <- <-.
    exists p. split; [rewrite Cl; apply in_or_app; left; apply in_map_iff; exists (p, b); split; [reflexivity|exact Hp]|]. split; [|reflexivity].
    apply BG. apply in_map_iff. exists (p, b). split; [reflexivity|exact Hp].
  - exfalso. assert (TD : datas tail = []); [|rewrite TD in H; contradiction].
    unfold SrvSession.sync_at in At. destruct (SrvSession.x_h x); try contradiction.
    + destruct At as (_ & -> & _). reflexivity.
    + destruct At as (_ & -> & _). reflexivity.
    + destruct At as (_ & -> & _). reflexivity.
    + destruct md; [contradiction|]. destruct At as (-> & _). reflexivity.
    + destruct At as (_ & [->|(c & -> & _)]); reflexivity.
Qed.

(** The answers in the client's log are to requests of its calls. *)
Lemma log_up : forall m s p, ginv m s -> In p (y_log (g_y s)) -> exists q, In (q, inl (p_data p)) (SrvSession.x_calls (g_x s)) /\ SrvSession.p_req q = p_req p /\ In (key q) (y_up (g_y s)).
Proof.
  intros m s p [(ey & Y) (ex & X) U _ D _] H.
  assert (I1 : In (ans p) (datas (SrvSession.sent (g_x s)))) by (eapply sub_in; [exact D|apply in_or_app; left; apply in_map; exact H]).
  destruct (sent_call _ _ _ _ _ X I1) as (q & C & A & E). exists q. split; [exact C|]. split; [exact E|].
  eapply sub_in; [exact U|]. apply in_or_app. left. apply in_map. exact A.
Qed.

(** * Request ids are fresh *)
Definition keeps (c c' : ycall) : Prop := k_reg c = true /\ k_from c' = k_from c /\ k_req c' = k_req c.
Lemma put_keeps : forall (l : list ycall) i f j c', (forall c, k_reg (f c) = true -> keeps c (f c)) ->
  nth_error (put_at l i f) j = Some c' -> k_reg c' = true -> exists c, nth_error l j = Some c /\ keeps c c'.
Proof.
  intros l i f j c' F N R. rewrite put_at_nth in N. destruct (Nat.eqb_spec j i) as [->|Ne].
  - destruct (nth_error l i) as [c|]; [|discriminate]. cbn in N. injection N as <-. exists c. split; [reflexivity|exact (F c R)].
  - exists c'. split; [exact N|]. unfold keeps. auto.
Qed.

Lemma step_regs : forall s e s' i c', ystep s e s' -> nth_error (y_calls s') i = Some c' -> k_reg c' = true ->
  (exists c, nth_error (y_calls s) i = Some c /\ keeps c c') \/ (k_from c' = length (y_log s) /\ k_req c' = y_next s).
Proof.
  intros s e s' j c' H N R.
  assert (KS : forall k c, k_reg (st k c) = true -> keeps c (st k c)) by (intros k c X; unfold keeps, st in *; cbn in *; auto).
  assert (NO : nth_error (y_calls s) j = Some c' -> exists c, nth_error (y_calls s) j = Some c /\ keeps c c') by (intros X; exists c'; unfold keeps; auto).
  inversion H; subst; clear H; cbn in N; unfold upc in N; cbn in N; try (left; apply NO; exact N; fail); try (left; eapply put_keeps in N; [exact N|apply KS|exact R]; fail).
  - left. apply NO. destruct (Nat.lt_ge_cases j (length (y_calls s))) as [L|L]; [rewrite nth_error_app1 in N by exact L; exact N|].
    rewrite nth_error_app2 in N by exact L. destruct (j - length (y_calls s))%nat as [|x]; [cbn in N; injection N as <-; discriminate|destruct x; discriminate].
  - unfold y_register in N. destruct (y_closed s); cbn in N; unfold upc in N; cbn in N.
    + left. eapply put_keeps in N; [exact N|apply KS|exact R].
    + rewrite put_at_nth in N. destruct (Nat.eqb_spec j i) as [->|Ne]; [|left; apply NO; exact N].
      destruct (nth_error (y_calls s) i) as [c0|]; [|discriminate]. cbn in N. injection N as <-. right. split; reflexivity.
  - unfold y_forward in N. cbn in N. unfold upc in N. cbn in N. destruct (find (p_req p) (y_pending s)) as [x|]; cbn in N.
    + eapply put_keeps in N; [|apply KS|exact R]. destruct N as (c1 & N & K1 & K2 & K3).
      eapply put_keeps in N; [|intros c2 X; unfold keeps, offer_resp in *; cbn in *; auto|exact K1]. destruct N as (c2 & N & L1 & L2 & L3).
      left. exists c2. split; [exact N|]. unfold keeps. split; [exact L1|]. split; congruence.
    + left. eapply put_keeps in N; [exact N|apply KS|exact R].
  - left. eapply put_keeps in N; [exact N| |exact R]. intros c2 X. unfold keeps. cbn in *. auto.
Qed.

Definition fresh (s : syncc) : Prop := forall i c, nth_error (y_calls s) i = Some c -> k_reg c = true ->
  (k_from c <= length (y_log s))%nat /\ forall p, In p (firstn (k_from c) (y_log s)) -> p_req p <> k_req c.

Lemma fresh_step : forall s e s', yq s -> (forall p, In p (y_log s) -> exists a, In (p_req p, a) (y_up s)) -> fresh s -> ystep s e s' -> (exists l, y_log s' = y_log s ++ l) -> fresh s'.
Proof.
  intros s e s' Q LU F St (l & L) i c' N R. destruct (step_regs _ _ _ _ _ St N R) as [(c & Nc & K1 & K2 & K3)|(K1 & K2)].
  - destruct (F i c Nc K1) as [F1 F2]. rewrite K2, K3, L, app_length. split; [lia|]. intros p. rewrite firstn_app.
    replace (k_from c - length (y_log s))%nat with 0%nat by lia. rewrite firstn_O, app_nil_r. apply F2.
  - rewrite K1, K2, L, app_length. split; [lia|]. intros p. rewrite firstn_app, firstn_all, Nat.sub_diag, firstn_O, app_nil_r. intros X E.
    destruct (LU p X) as (a & Y). destruct (yq_up _ Q _ _ Y) as (j & x & X1 & X2 & X3 & X4). pose proof (yq_lt _ Q j x X1 X2). lia.
Qed.

Lemma sys_step_y : forall m s s', gstep m s s' -> g_y s' = g_y s \/ (exists e, ystep (g_y s) e (g_y s') /\ exists l, y_log (g_y s') = y_log (g_y s) ++ l).
Proof.
  intros m s s' H. inversion H; subst; cbn [g_y]; try (left; reflexivity).
  - right. exists e. split; [assumption|]. exists []. rewrite app_nil_r. assumption.
  - right. exists YOther. split; [apply Y_Arrive; assumption|]. eexists. reflexivity.
  - right. exists YEnd. split; [assumption|]. exists []. rewrite app_nil_r. exact (proj1 (yend_same _ _ H0)).
Qed.

Lemma fresh_reach : forall m s, greach m s -> Z.of_nat (length (y_calls (g_y s))) < 2 ^ 32 -> fresh (g_y s).
Proof.
  intros m s H. induction H as [|s s' H IH St]; intros L.
  - intros [|i] c N; discriminate.
  - pose proof (ginv_reach _ _ H) as GI. destruct (gi_y _ _ GI) as (ey & Y).
    destruct (sys_step_y _ _ _ St) as [E|(e & Sy & G)]; [rewrite E in *; exact (IH L)|].
    assert (L1 : Z.of_nat (length (y_calls (g_y s))) < 2 ^ 32) by (pose proof (step_calls_le _ _ _ Sy); lia).
    eapply fresh_step; [eapply yq_run; [exact Y|exact L1]| |exact (IH L1)|exact Sy|exact G].
    intros p X. destruct (log_up _ _ _ GI X) as (q & _ & E & U). exists (SrvSession.p_data q). rewrite <- E. exact U.
Qed.
