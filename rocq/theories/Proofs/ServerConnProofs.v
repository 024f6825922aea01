(** Invariants of Model/ServerConn.v. *)
From Coq Require Import Lia List.
Import ListNotations.
From Verif.Model Require Import Base Compress Client ServerConn.
From Verif.Spec Require Import Delivery.
From Verif.Proofs Require Import ClientProofs ClientDelivery.
Open Scope list_scope. Open Scope Z_scope.

Lemma put_all_nth {A} (f : A -> A) (Hf : forall x, f (f x) = f x) : forall os l j,
  nth_error (put_all l os f) j = if existsb (Nat.eqb j) os then option_map f (nth_error l j) else nth_error l j.
Proof.
  induction os as [|o os IH]; intros l j; cbn; auto.
  rewrite IH, put_at_nth. destruct (Nat.eqb j o); cbn; [|reflexivity].
  destruct (existsb (Nat.eqb j) os); auto. destruct (nth_error l j); cbn; [rewrite Hf|]; reflexivity.
Qed.
Lemma put_all_len {A} (f : A -> A) : forall os l, length (put_all l os f) = length l.
Proof. induction os; intros; cbn; auto. rewrite IHos. apply put_at_len. Qed.

(** How many handlers have not finished. *)
Definition busy (x : ssess) : bool := match ss_h x with HDone => false | _ => true end.
Definition n_busy (l : list ssess) : Z := Z.of_nat (length (filter busy l)).

Record sinv (s : sconn) : Prop := mkSinv {
  v_ses : forall k o, In (k, o) (v_sessions s) -> exists x, nth_error (v_objs s) o = Some x /\ ss_id x = k /\
            (v_reader s <> VDone -> ss_recv_closed x = false);
  v_nds : NoDup (map snd (v_sessions s));
  v_ndk : NoDup (map fst (v_sessions s));
  v_ids : forall o x, nth_error (v_objs s) o = Some x -> ss_id x = Z.of_nat (S o) mod 2 ^ 32;
  v_nxt : v_next s = Z.of_nat (S (length (v_objs s))) mod 2 ^ 32;
  v_rdr : match v_reader s with
          | VPayload o _ => exists x, nth_error (v_objs s) o = Some x /\ ss_recv_closed x = false
          | VClosing o _ => ~ In o (map snd (v_sessions s)) /\ exists x, nth_error (v_objs s) o = Some x /\ ss_recv_closed x = false
          | _ => True
          end;
  v_act : v_active s = n_busy (v_objs s);
  v_pan : v_panic s = false }.

Definition ss_same (f : ssess -> ssess) := forall x,
  ss_id (f x) = ss_id x /\ ss_recv_closed (f x) = ss_recv_closed x /\ busy (f x) = busy x.
Lemma n_busy_put l o f : (forall x, busy (f x) = busy x) -> n_busy (put_at l o f) = n_busy l.
Proof.
  intros K. unfold n_busy. f_equal. revert o. induction l as [|x l IH]; intros [|o]; cbn; auto.
  - rewrite K. destruct (busy x); auto.
  - destruct (busy x); cbn; auto.
Qed.
Lemma n_busy_all l os f : (forall x, busy (f x) = busy x) -> n_busy (put_all l os f) = n_busy l.
Proof. intros K. revert l. induction os as [|o os IH]; cbn; intros; auto. rewrite IH, n_busy_put; auto. Qed.
Lemma n_busy_done l o x f : nth_error l o = Some x -> busy x = true -> busy (f x) = false -> n_busy (put_at l o f) = n_busy l - 1.
Proof.
  unfold n_busy. intros Hx B1 B2. revert o Hx. induction l as [|y l IH]; intros [|o]; cbn -[Z.of_nat]; try discriminate.
  - intros E. injection E as ->. rewrite B1, B2. cbn [length]. lia.
  - intros E. specialize (IH _ E). destruct (busy y); cbn [length]; lia.
Qed.
Lemma n_busy_pos l o x : nth_error l o = Some x -> busy x = true -> 0 < n_busy l.
Proof.
  unfold n_busy. intros Hx B. revert o Hx. induction l as [|y l IH]; intros [|o]; cbn -[Z.of_nat]; try discriminate.
  - intros E. injection E as ->. rewrite B. cbn [length]. lia.
  - intros E. specialize (IH _ E). destruct (busy y); cbn [length]; lia.
Qed.

(** Changing sessions in place, and possibly the reader. *)
Lemma sinv_upd s s' :
  sinv s ->
  (forall o x, nth_error (v_objs s) o = Some x -> exists x', nth_error (v_objs s') o = Some x' /\ ss_id x' = ss_id x /\ ss_recv_closed x' = ss_recv_closed x) ->
  length (v_objs s') = length (v_objs s) ->
  n_busy (v_objs s') = v_active s' ->
  (forall kv, In kv (v_sessions s') -> In kv (v_sessions s)) ->
  NoDup (map snd (v_sessions s')) -> NoDup (map fst (v_sessions s')) ->
  v_next s' = v_next s ->
  (v_reader s' = v_reader s \/ v_reader s <> VDone /\ (match v_reader s' with VPayload _ _ | VClosing _ _ => False | _ => True end)) ->
  v_panic s' = false -> sinv s'.
Proof.
  intros [A B C D E F G H] K L NB SS ND NK NX RD P.
  constructor; auto; try congruence.
  - intros k o I. destruct (A k o (SS _ I)) as (x & Hx & X1 & X2). destruct (K _ _ Hx) as (x' & Hx' & Y1 & Y2).
    exists x'. rewrite Y1, Y2. repeat split; auto. intros N. apply X2. destruct RD as [RD|[RD _]]; [congruence|auto].
  - intros o x' Hx'. destruct (nth_error (v_objs s) o) as [x|] eqn:Hx.
    + destruct (K _ _ Hx) as (y & Hy & Y1 & Y2). assert (x' = y) by congruence. subst y. rewrite Y1. auto.
    + apply nth_error_None in Hx. assert (nth_error (v_objs s') o <> None) as Q by congruence. apply nth_error_Some in Q. lia.
  - destruct RD as [RD|[_ RD]]; [rewrite RD|destruct (v_reader s'); auto; easy].
    destruct (v_reader s); auto.
    + destruct F as (x & Hx & X). destruct (K _ _ Hx) as (y & Hy & Y1 & Y2). exists y. rewrite Y2. auto.
    + destruct F as (N & x & Hx & X). destruct (K _ _ Hx) as (y & Hy & Y1 & Y2). split.
      * intros IN. apply N. apply in_map_iff in IN. destruct IN as (kv & E1 & E2). apply in_map_iff. exists kv. auto.
      * exists y. rewrite Y2. auto.
Qed.
Lemma put_same l o f : ss_same f -> forall o' x, nth_error l o' = Some x ->
  exists x', nth_error (put_at l o f) o' = Some x' /\ ss_id x' = ss_id x /\ ss_recv_closed x' = ss_recv_closed x.
Proof.
  intros K o' x Hx. rewrite put_at_nth. destruct (Nat.eqb o' o).
  - rewrite Hx. cbn. exists (f x). split; [reflexivity|]. split; apply K.
  - exists x. auto.
Qed.
Lemma all_same os f : ss_same f -> forall l o' x, nth_error l o' = Some x ->
  exists x', nth_error (put_all l os f) o' = Some x' /\ ss_id x' = ss_id x /\ ss_recv_closed x' = ss_recv_closed x.
Proof.
  intros K. induction os as [|o os IH]; cbn; intros l o' x Hx; [exists x; auto|].
  destruct (put_same l o f K _ _ Hx) as (y & Hy & Y1 & Y2). destruct (IH _ _ _ Hy) as (z & Hz & Z1 & Z2).
  exists z. split; auto. split; congruence.
Qed.
Lemma same_ss_close : ss_same ss_close. Proof. intros x; repeat split. Qed.
Lemma same_ss_arrived p : ss_same (ss_arrived p). Proof. intros x; repeat split. Qed.
Lemma same_ss_enq p : ss_same (ss_enqueue p). Proof. intros x; repeat split. Qed.
Lemma same_ss_deq p : ss_same (ss_dequeue p). Proof. intros x; repeat split. Qed.
#[global] Hint Resolve same_ss_close same_ss_arrived same_ss_enq same_ss_deq : client.

Lemma v_Close_fields s :
  v_sessions (v_Close s) = v_sessions s /\ v_next (v_Close s) = v_next s /\ v_reader (v_Close s) = v_reader s /\
  v_panic (v_Close s) = v_panic s /\ v_log (v_Close s) = v_log s /\ v_draining (v_Close s) = v_draining s /\
  v_active (v_Close s) = v_active s /\ v_fatal (v_Close s) = v_fatal s /\ v_errs (v_Close s) = v_errs s /\
  v_graceful (v_Close s) = v_graceful s /\ v_closed (v_Close s) = true /\
  v_objs (v_Close s) = if v_closed s then v_objs s else put_all (v_objs s) (map snd (v_sessions s)) ss_close.
Proof. unfold v_Close. destruct (v_closed s) eqn:E; cbn; repeat split; auto. Qed.
Lemma sinv_Close s : sinv s -> sinv (v_Close s).
Proof.
  intros I. pose proof I as [A B C D E F G H].
  destruct (v_Close_fields s) as (E1 & E2 & E3 & E4 & E5 & E6 & E7 & E8 & E9 & E10 & E11 & E12).
  apply (sinv_upd s); rewrite ?E1, ?E2, ?E3, ?E4, ?E7, ?E12; auto.
  - intros o x Hx. destruct (v_closed s); [exists x; auto|]. apply all_same; auto with client.
  - destruct (v_closed s); auto. apply put_all_len.
  - destruct (v_closed s); auto. rewrite n_busy_all; auto.
Qed.
Lemma sinv_frame s s' : sinv s -> v_objs s' = v_objs s -> v_sessions s' = v_sessions s -> v_next s' = v_next s ->
  v_active s' = v_active s -> v_panic s' = v_panic s -> 
  (v_reader s' = v_reader s \/ v_reader s <> VDone /\ (match v_reader s' with VPayload _ _ | VClosing _ _ => False | _ => True end)) -> sinv s'.
Proof.
  intros I E1 E2 E3 E4 E5 E6. pose proof I as [A B C D E F G H]. apply (sinv_upd s); rewrite ?E1, ?E2, ?E4; auto; [|congruence].
  intros o x Hx. exists x. auto.
Qed.

Lemma sinv_step reg mr s e s' : sinv s -> sstep reg mr s e s' -> sinv s'.
Proof.
  intros I ST. pose proof I as [A B C D E F G H]. destruct ST;
    try (apply (sinv_frame s); auto; first [left; reflexivity | right; split; [congruence|exact Logic.I]]; fail).
  - (* fatal close *)
    assert (I2 := sinv_Close _ I). destruct (v_Close_fields s) as (_ & _ & E3 & _).
    apply (sinv_frame (v_Close s)); auto. right. split; [congruence|exact Logic.I].
  - (* read *)
    destruct m as [oid served|sid|w|sid req| |]; cbn [v_dispatch];
      try (apply (sinv_frame s); auto; fail).
    + unfold v_handleOpen. cbn. destruct (v_draining s); [|destruct served]; 
      apply (sinv_frame s); auto. right. split; [congruence|exact Logic.I].
    + unfold v_remove. cbn -[del]. destruct (find sid (v_sessions s)) as [o|] eqn:Fo; [|apply (sinv_frame s); auto].
      apply find_In in Fo. destruct (A _ _ Fo) as (x & Hx & X1 & X2). rewrite H0 in X2. constructor; cbn -[del Z.pow Z.of_nat Z.modulo]; auto.
      * intros k o' IN. apply del_In in IN. destruct (A _ _ (proj1 IN)) as (y & Hy & Y1 & Y2). exists y. repeat split; auto. intros _. apply Y2. congruence.
      * apply del_NoDup_snd; auto.
      * apply del_NoDup_fst; auto.
      * split; [|exists x; split; auto; apply X2; discriminate]. intros IN. apply in_map_iff in IN. destruct IN as ([k o'] & Eo & IN). cbn in Eo. subst o'.
        apply del_In in IN. apply (proj2 IN). cbn. exact (NoDup_snd_fun _ _ _ _ B (proj1 IN) Fo).
    + unfold v_handlePayload. cbn -[del]. destruct (find (wp_sess w) (v_sessions s)) as [o|] eqn:Fo; [|apply (sinv_frame s); auto].
      destruct (admit reg mr w) as [p|]; [|apply (sinv_frame s); auto].
      apply find_In in Fo. destruct (A _ _ Fo) as (x & Hx & X1 & X2). rewrite H0 in X2.
      assert (I2 : sinv (v_upd s o (ss_arrived p))).
      { apply (sinv_upd s); auto; cbn; rewrite ?put_at_len, ?n_busy_put; auto. apply put_same; auto with client. }
      destruct I2 as [A2 B2 C2 D2 E2 F2 G2 H2]. constructor; cbn -[Z.pow Z.of_nat Z.modulo] in *; auto.
      * intros k o' IN. destruct (A2 _ _ IN) as (y & Hy & Y1 & Y2). exists y. repeat split; auto. intros _. apply Y2. congruence.
      * exists (ss_arrived p x). rewrite put_at_nth, Nat.eqb_refl, Hx. split; auto. apply X2. discriminate.
    + unfold v_remove. cbn -[del]. destruct (find sid (v_sessions s)) as [o|] eqn:Fo; [|apply (sinv_frame s); auto].
      apply find_In in Fo. destruct (A _ _ Fo) as (x & Hx & X1 & X2). rewrite H0 in X2. constructor; cbn -[del Z.pow Z.of_nat Z.modulo]; auto.
      * intros k o' IN. apply del_In in IN. destruct (A _ _ (proj1 IN)) as (y & Hy & Y1 & Y2). exists y. repeat split; auto. intros _. apply Y2. congruence.
      * apply del_NoDup_snd; auto.
      * apply del_NoDup_fst; auto.
      * split; [|exists x; split; auto; apply X2; discriminate]. intros IN. apply in_map_iff in IN. destruct IN as ([k o'] & Eo & IN). cbn in Eo. subst o'.
        apply del_In in IN. apply (proj2 IN). cbn. exact (NoDup_snd_fun _ _ _ _ B (proj1 IN) Fo).
  - (* create *)
    unfold v_create. destruct (v_draining s); [apply (sinv_frame s); auto; right; split; [congruence|exact Logic.I]|].
    cbn -[put Z.pow Z.modulo].
    assert (OLD : forall k o, In (k, o) (v_sessions s) -> (o < length (v_objs s))%nat).
    { intros k o IN. destruct (A _ _ IN) as (y & Hy & _). apply nth_error_Some. congruence. }
    constructor; cbn -[put Z.pow Z.modulo Z.of_nat]; auto.
    + intros k o IN. apply put_In in IN. destruct IN as [IN|[IN N]].
      * injection IN as -> ->. rewrite nth_snoc, Nat.eqb_refl. eexists. split; eauto.
      * destruct (A _ _ IN) as (y & Hy & Y1 & Y2). exists y. split; [rewrite nth_error_app1; eauto|]. repeat split; auto. intros _. apply Y2. congruence.
    + unfold put. cbn. constructor; [|apply del_NoDup_snd; auto]. intros IN. apply in_map_iff in IN. destruct IN as ([k o] & Eo & IN). cbn in Eo.
      apply del_In in IN. apply proj1 in IN. apply OLD in IN. lia.
    + unfold put. cbn. constructor; [|apply del_NoDup_fst; auto]. intros IN. apply in_map_iff in IN. destruct IN as ([k o] & Eo & IN). cbn in Eo.
      apply del_In in IN. apply (proj2 IN). auto.
    + intros o x. rewrite nth_snoc. destruct (Nat.eqb_spec o (length (v_objs s))) as [-> | N]; [|auto]. intros Q. injection Q as <-. cbn -[Z.pow Z.of_nat Z.modulo]. auto.
    + rewrite E, app_length. cbn [length]. rewrite Zplus_mod_idemp_l. f_equal. lia.
    + unfold n_busy. rewrite filter_app, app_length. cbn. unfold n_busy in G. lia.
  - (* deliver *)
    rewrite H0 in F. destruct F as (y & Hy & F). assert (y = x) by congruence. subst y.
    assert (P : v_recv_closed s o = false) by (unfold v_recv_closed; rewrite H1; auto).
    apply (sinv_upd s); auto; cbn; rewrite ?put_at_len, ?n_busy_put; auto.
    + apply put_same; auto with client.
    + right. split; [congruence|exact Logic.I].
    + rewrite H, P. reflexivity.
  - (* close channel *)
    rewrite H0 in F. destruct F as (N & x & Hx & F). 
    set (f := if c then ss_close else fun x : ssess => x).
    assert (SF : ss_same f) by (unfold f; destruct c; intros y; repeat split).
    constructor; cbn -[Z.pow Z.of_nat Z.modulo]; auto.
    + intros k o' IN. rewrite !put_at_nth. destruct (Nat.eqb_spec o' o) as [-> | No].
      * exfalso. apply N. apply in_map_iff. exists (k, o). auto.
      * destruct (A _ _ IN) as (y & Hy & Y1 & Y2). exists y. repeat split; auto. intros _. apply Y2. congruence.
    + intros o' y. rewrite !put_at_nth. destruct (Nat.eqb o' o); [|auto]. destruct (nth_error (v_objs s) o') eqn:Q; cbn [option_map]; [|discriminate].
      intros W. injection W as <-. cbn -[Z.pow Z.of_nat Z.modulo]. rewrite (proj1 (SF _)). auto.
    + rewrite !put_at_len. auto.
    + rewrite !n_busy_put; auto. intros y. apply SF.
    + rewrite H. unfold v_recv_closed. rewrite Hx, F. reflexivity.
  - (* exit *)
    constructor; cbn -[Z.pow Z.of_nat Z.modulo]; auto.
    + intros k o IN. rewrite (put_all_nth ss_close_recv) by reflexivity. destruct (A _ _ IN) as (y & Hy & Y1 & Y2). rewrite Hy.
      destruct (existsb (Nat.eqb o) (map snd (v_sessions s))); cbn; eexists; split; eauto; split; auto; intros Q; congruence.
    + intros o y. rewrite (put_all_nth ss_close_recv) by reflexivity. destruct (existsb (Nat.eqb o) (map snd (v_sessions s))); [|auto].
      destruct (nth_error (v_objs s) o) eqn:Q; cbn [option_map]; [|discriminate]. intros W. injection W as <-. cbn -[Z.pow Z.of_nat Z.modulo]. auto.
    + rewrite put_all_len. auto.
    + rewrite n_busy_all; auto.
    + rewrite H. cbn. destruct (existsb (v_recv_closed s) (map snd (v_sessions s))) eqn:X; auto. exfalso.
      apply existsb_exists in X. destruct X as (o & IO & Q). apply in_map_iff in IO. destruct IO as ([k o'] & Eo & IO). cbn in Eo. subst o'.
      destruct (A _ _ IO) as (y & Hy & _ & Y). unfold v_recv_closed in Q. rewrite Hy, Y in Q; congruence.
  - (* handler starts *)
    apply (sinv_upd s); auto; cbn; rewrite ?put_at_len; auto.
    + intros o' y Hy. rewrite put_at_nth. destruct (Nat.eqb o' o); [|exists y; auto]. rewrite Hy. cbn. eexists; split; eauto.
    + rewrite G. unfold n_busy. f_equal. clear - H0 H1. revert o H0. induction (v_objs s) as [|y l IH]; intros [|o]; cbn; try discriminate.
      * intros Q. injection Q as ->. unfold busy. cbn. rewrite H1. reflexivity.
      * intros Q. destruct (busy y); cbn; auto. 
  - (* consume *)
    apply (sinv_upd s); auto; cbn; rewrite ?put_at_len, ?n_busy_put; auto. apply put_same; auto with client.
  - (* handler deletes its session *)
    apply (sinv_upd s); auto; cbn -[del]; rewrite ?put_at_len; auto.
    + intros o' y Hy. rewrite put_at_nth. destruct (Nat.eqb o' o); [|exists y; auto]. rewrite Hy. cbn. eexists; split; eauto.
    + rewrite G. unfold n_busy. f_equal. clear - H0 H1. revert o H0. induction (v_objs s) as [|y l IH]; intros [|o]; cbn; try discriminate.
      * intros Q. injection Q as ->. unfold busy. cbn. rewrite H1. reflexivity.
      * intros Q. destruct (busy y); cbn; auto.
    + intros kv IN. apply del_In in IN. tauto.
    + apply del_NoDup_snd; auto.
    + apply del_NoDup_fst; auto.
  - (* handler done *)
    assert (BX : busy x = true) by (unfold busy; rewrite H1; auto).
    apply (sinv_upd s); auto; cbn -[del]; rewrite ?put_at_len; auto.
    + intros o' y Hy. rewrite !put_at_nth. destruct (Nat.eqb o' o); [|exists y; auto]. rewrite Hy. cbn. eexists; split; eauto.
    + rewrite (n_busy_done _ _ (ss_close x)); [rewrite n_busy_put; auto; lia| |auto|reflexivity].
      rewrite put_at_nth, Nat.eqb_refl, H0. reflexivity.
    + rewrite H. cbn. apply Z.leb_gt. rewrite G. eapply n_busy_pos; eauto.
  - apply sinv_Close; auto.
  - (* GClose *) apply (sinv_frame (v_Close s)); auto. apply sinv_Close; auto.
Qed.
Lemma sinv_new : sinv newServerConn.
Proof. constructor; cbn; auto; try easy; try constructor. intros [|o] x; discriminate. Qed.
Lemma sinv_run reg mr es s : srun reg mr newServerConn es s -> sinv s.
Proof.
  intros R. remember newServerConn as s0 eqn:E. induction R; subst.
  - apply sinv_new.
  - eapply sinv_step; eauto.
Qed.
