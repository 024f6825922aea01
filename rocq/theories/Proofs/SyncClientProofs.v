From Coq Require Import Lia List.
Import ListNotations.
From Verif.Model Require Import Base Client SyncClient.
From Verif.Proofs Require Import ClientProofs.
Open Scope list_scope. Open Scope Z_scope.

Definition answered (s : syncc) (r : Z) (d : bytes) : Prop := exists p, In p (y_log s) /\ p_req p = r /\ p_data p = d.

Record kok (s : syncc) (c : ycall) : Prop := {
  ko_resp : forall d, k_resp c = Some d -> answered s (k_req c) d;
  ko_st : match k_st c with
          | KTook p => In p (y_log s)
          | KLeave (ROk d) | KDone (ROk d) => k_reg c = true /\ answered s (k_req c) d
          | _ => True
          end;
  ko_top : k_st c = KTop -> k_reg c = false /\ k_resp c = None;
  ko_reg : match k_st c with KSend | KWait | KTook _ | KLeave _ => k_reg c = true | _ => True end;
  ko_crash : match k_st c with KLeave RCrash | KDone RCrash => y_recv_closed s = true | _ => True end
}.
Record yinv (s : syncc) : Prop := {
  yi_calls : forall i c, nth_error (y_calls s) i = Some c -> kok s c;
  yi_pend : forall r j, In (r, j) (y_pending s) -> exists c, nth_error (y_calls s) j = Some c /\ k_req c = r /\ k_reg c = true;
  yi_recv : forall p, In p (y_recv s) -> In p (y_log s)
}.

Lemma kok_log s s' c : kok s c -> (forall p, In p (y_log s) -> In p (y_log s')) -> (y_recv_closed s = true -> y_recv_closed s' = true) -> kok s' c.
Proof.
  intros [A B C D E] L Q.
  assert (AN : forall r d, answered s r d -> answered s' r d) by (intros r d (p & H & H'); exists p; auto).
  split; auto.
  - destruct (k_st c) as [| | |p|[d| |]|[d| |]]; auto; destruct B; auto.
  - destruct (k_st c) as [| | |p|[d| |]|[d| |]]; auto.
Qed.

Lemma put_at_inv {A} (P : A -> Prop) l i f :
  (forall j x, nth_error l j = Some x -> j <> i -> P x) -> (forall x, nth_error l i = Some x -> P (f x)) ->
  forall j x, nth_error (put_at l i f) j = Some x -> P x.
Proof.
  intros H1 H2 j x. rewrite put_at_nth. destruct (Nat.eqb_spec j i) as [->|NE]; [|eauto].
  destruct (nth_error l i) as [y|] eqn:E; [|discriminate]. cbn. intros H. injection H as <-. auto.
Qed.

Ltac pend I := intros r j IN; destruct (yi_pend _ I r j IN) as (c' & P1 & P2 & P3); cbn in *;
  rewrite put_at_nth, P1; destruct (Nat.eqb _ _); cbn; eexists; repeat split; eauto.

(** A step that changes one call, keeping id, argument and registration, and the channels. *)
Lemma yinv_upc s i c f : yinv s -> nth_error (y_calls s) i = Some c ->
  (k_req (f c) = k_req c /\ k_reg (f c) = k_reg c) -> (kok s c -> kok s (f c)) -> yinv (upc s i f).
Proof.
  intros I Hc (F1 & F2) K. split.
  - cbn. intros j x Hx. assert (kok s x); [|eapply kok_log; eauto].
    revert j x Hx. apply put_at_inv; [intros; eapply yi_calls; eauto|]. intros x Hx. rewrite Hc in Hx. injection Hx as <-. apply K. eapply yi_calls; eauto.
  - intros r j IN. destruct (yi_pend _ I r j IN) as (c' & P1 & P2 & P3). cbn. rewrite put_at_nth, P1.
    destruct (Nat.eqb_spec j i) as [->|]; cbn; eexists; repeat split; eauto; rewrite Hc in P1; injection P1 as <-; congruence.
  - apply (yi_recv _ I).
Qed.
Lemma yinv_env s rc cl ca cn : yinv s -> (y_recv_closed s = true -> rc = true) -> yinv (set_env s rc cl ca cn).
Proof.
  intros I Q. split; cbn; try apply I. intros i c Hc. apply (kok_log s); auto. eapply yi_calls; eauto.
Qed.

Lemma yinv_step s e s' : yinv s -> ystep s e s' -> yinv s'.
Proof.
  intros I ST. destruct ST.
  - split; cbn; try apply I.
    + intros i c. rewrite nth_snoc. destruct (Nat.eqb _ _).
      * intros Q. injection Q as <-. split; cbn; auto; discriminate.
      * intros Hc. apply (kok_log s); auto. eapply yi_calls; eauto.
    + intros r j IN. destruct (yi_pend _ I r j IN) as (c' & P1 & P2 & P3). exists c'. rewrite nth_snoc.
      destruct (Nat.eqb_spec j (length (y_calls s))); auto. subst. assert (nth_error (y_calls s) (length (y_calls s)) <> None) as Q by congruence. apply nth_error_Some in Q. lia.
  - unfold y_register. destruct (y_closed s).
    + eapply yinv_upc; [eassumption|eassumption|cbn; auto|]. intros [A B C D E]. split; cbn; auto; discriminate.
    + split.
      * cbn -[Z.pow]. intros j x Hx. assert (kok s x); [|eapply kok_log; eauto].
        revert j x Hx. apply put_at_inv; [intros; eapply yi_calls; eauto|]. intros x Hx. rewrite H in Hx. injection Hx as <-.
        destruct (yi_calls _ I _ _ H) as [A B C D E].
        split; cbn; auto; try discriminate. intros d Q. destruct (C H0). congruence.
      * cbn -[put Z.pow]. intros r j IN. apply put_In in IN. rewrite put_at_nth. destruct IN as [IN|(IN & NE)].
        -- injection IN as <- <-. rewrite Nat.eqb_refl, H. cbn. eauto.
        -- destruct (yi_pend _ I r j IN) as (c' & P1 & P2 & P3). rewrite P1. destruct (Nat.eqb_spec j i); cbn; [|eauto].
           subst. rewrite H in P1. injection P1 as <-. destruct (yi_calls _ I _ _ H) as [_ _ C _ _]. destruct (C H0). congruence.
      * cbn. apply I.
  - assert (Q : yinv (upc s i (st KWait))).
    { eapply yinv_upc; [eassumption|eassumption|cbn; auto|]. intros [A B C D E]. rewrite H0 in *. split; cbn; auto; discriminate. }
    destruct Q as [Q1 Q2 Q3]. split; cbn; auto. intros j x Hx. eapply kok_log; eauto.
  - eapply yinv_upc; [eassumption|eassumption|cbn; auto|]. intros [A B C D E]. rewrite H0 in *. split; cbn; auto; discriminate.
  - eapply yinv_upc; [eassumption|eassumption|cbn; auto|]. intros [A B C D E]. rewrite H0 in *. split; cbn; auto; discriminate.
  - eapply yinv_upc; [eassumption|eassumption|cbn; auto|]. intros [A B C D E]. rewrite H0 in *. split; cbn; auto; discriminate.
  - eapply yinv_upc; [eassumption|eassumption|cbn; auto|]. intros [A B C D E]. rewrite H0 in *. split; cbn; auto; discriminate.
  - apply (yinv_env (upc s i (st (KLeave RErr)))); auto.
    eapply yinv_upc; [eassumption|eassumption|cbn; auto|]. intros [A B C D E]. rewrite H0 in *. split; cbn; auto; discriminate.
  - assert (I2 : yinv (set_recv s q)).
    { split; cbn; try apply I.
      - intros j x Hx. apply (kok_log s); auto. eapply yi_calls; eauto.
      - intros x IN. apply (yi_recv _ I). rewrite H1. right. auto. }
    assert (LP : In p (y_log s)) by (apply (yi_recv _ I); rewrite H1; left; auto).
    eapply yinv_upc; [eassumption|eassumption|cbn; auto|]. intros [A B C D E]. rewrite H0 in *. unfold y_take.
    split; cbn; destruct (Z.eqb_spec (p_req p) (k_req c)); auto; try discriminate.
    split; auto. exists p. auto.
  - eapply yinv_upc; [eassumption|eassumption|cbn; auto|]. intros [A B C D E]. rewrite H0 in *. split; cbn; auto; discriminate.
  - unfold y_forward. assert (KP : In p (y_log s)) by (destruct (yi_calls _ I _ _ H) as [_ B _ _ _]; rewrite H0 in B; auto).
    assert (I2 : yinv (match find (p_req p) (y_pending s) with Some j => upc s j (offer_resp (p_data p)) | None => s end) /\
                 exists c', nth_error (y_calls (match find (p_req p) (y_pending s) with Some j => upc s j (offer_resp (p_data p)) | None => s end)) i = Some c' /\ k_st c' = KTook p).
    { destruct (find (p_req p) (y_pending s)) as [j|] eqn:F; [|split; eauto].
      destruct (yi_pend _ I _ _ (find_In _ _ _ F)) as (cj & P1 & P2 & P3). split.
      - eapply yinv_upc; [eassumption|eassumption|cbn; auto|]. intros [A B C D E]. split; cbn; auto.
        + intros d Q. destruct (k_resp cj) eqn:R; [auto|]. injection Q as <-. exists p. auto.
        + intros Q. destruct (C Q). congruence.
      - cbn. rewrite put_at_nth, H. destruct (Nat.eqb _ _); cbn; eexists; split; eauto. }
    destruct I2 as (I2 & c' & Hc' & Kc'). eapply yinv_upc; [eassumption|eassumption|cbn; auto|]. intros [A B C D E]. rewrite Kc' in *. split; cbn; auto; discriminate.
  - eapply yinv_upc; [eassumption|eassumption|cbn; auto|]. intros [A B C D E]. rewrite H0 in *. split; cbn; auto; discriminate.
  - unfold y_leave. assert (I2 : yinv (set_pend s (del (k_req c) (y_pending s)))).
    { split; cbn -[del]; try apply I.
      - intros j x Hx. apply (kok_log s); auto. eapply yi_calls; eauto.
      - intros k j IN. apply del_In in IN. destruct IN. apply (yi_pend _ I); auto. }
    eapply yinv_upc; [eassumption|eassumption|cbn; auto|]. intros [A B C D E]. rewrite H0 in *. split; cbn; auto; discriminate.
  - assert (Q := yinv_env s (y_recv_closed s) (y_close s) true (y_conn s) I (fun x => x)). destruct Q as [Q1 Q2 Q3]. split; cbn; auto.
    intros j x Hx. eapply kok_log; eauto.
  - split; cbn; try apply I.
    + intros j x Hx. apply (kok_log s); cbn; auto; [eapply yi_calls; eauto|]. intros. apply in_or_app. auto.
    + intros x IN. apply in_app_or in IN. apply in_or_app. destruct IN; auto. left. apply (yi_recv _ I). auto.
  - apply yinv_env; auto.
  - apply yinv_env; auto.
  - apply yinv_env; auto.
Qed.
Lemma yinv_new : yinv newSync.
Proof. split; cbn; [intros [|i]; discriminate|contradiction|contradiction]. Qed.
Lemma yinv_run es s : yrun newSync es s -> yinv s.
Proof. intros R. remember newSync as s0 eqn:E. induction R; subst; [apply yinv_new|eapply yinv_step; eauto]. Qed.

(** *** Unique request ids, and no response is lost, while fewer than 2^32 calls are made. *)
Definition n_reg (l : list ycall) : Z := Z.of_nat (length (filter k_reg l)).
Lemma n_reg_le l : n_reg l <= Z.of_nat (length l).
Proof. unfold n_reg. induction l as [|a l IH]; cbn -[Z.of_nat]; [lia|]. destruct (k_reg a); cbn -[Z.of_nat]; lia. Qed.
Lemma n_reg_put l i c f : nth_error l i = Some c ->
  n_reg (put_at l i f) = n_reg l + (if k_reg (f c) then 1 else 0) - (if k_reg c then 1 else 0).
Proof.
  unfold n_reg. revert i. induction l as [|a l IH]; intros [|i] H; cbn in H; try discriminate; cbn -[Z.of_nat].
  - injection H as ->. destruct (k_reg (f c)), (k_reg c); cbn -[Z.of_nat]; lia.
  - specialize (IH _ H). destruct (k_reg a); cbn -[Z.of_nat]; lia.
Qed.

(** Call [i] has been sent or is about to be, and has not chosen its result. *)
Definition waiting (c : ycall) : Prop := match k_st c with KSend | KWait | KTook _ => True | _ => False end.
Record yq (s : syncc) : Prop := {
  yq_next : y_next s = n_reg (y_calls s);
  yq_lt : forall i c, nth_error (y_calls s) i = Some c -> k_reg c = true -> 0 <= k_req c < y_next s;
  yq_inj : forall i c i' c', nth_error (y_calls s) i = Some c -> nth_error (y_calls s) i' = Some c' ->
    k_reg c = true -> k_reg c' = true -> k_req c = k_req c' -> i = i';
  yq_find : forall i c, nth_error (y_calls s) i = Some c -> waiting c -> find (k_req c) (y_pending s) = Some i;
  yq_kept : forall i c p, nth_error (y_calls s) i = Some c -> waiting c -> In p (skipn (k_from c) (y_log s)) -> p_req p = k_req c ->
    In p (y_recv s) \/ (exists j c', nth_error (y_calls s) j = Some c' /\ k_st c' = KTook p) \/ k_resp c <> None;
  yq_up : forall r a, In (r, a) (y_up s) -> exists i c, nth_error (y_calls s) i = Some c /\ k_reg c = true /\ k_req c = r /\ k_arg c = a
}.

Lemma yq_env s rc cl ca cn : yq s -> yq (set_env s rc cl ca cn).
Proof. intros [A B C D E F]. split; auto. Qed.

(** A call that stays registered with its id and argument, and does not leave the KTook state unless
    its payload is settled. *)
Lemma yq_upc s i c f : yq s -> nth_error (y_calls s) i = Some c ->
  k_reg (f c) = k_reg c -> k_req (f c) = k_req c -> k_arg (f c) = k_arg c -> k_from (f c) = k_from c ->
  (waiting (f c) -> waiting c /\ (k_resp c <> None -> k_resp (f c) <> None)) ->
  (forall p, k_st c = KTook p -> k_st (f c) = KTook p) -> yq (upc s i f).
Proof.
  intros [A B C D E F] Hc R1 R2 R3 R4 W T.
  assert (N : forall j x, nth_error (put_at (y_calls s) i f) j = Some x -> (j = i /\ x = f c) \/ (j <> i /\ nth_error (y_calls s) j = Some x)).
  { intros j x. rewrite put_at_nth. destruct (Nat.eqb_spec j i) as [->|]; auto. rewrite Hc. cbn. intros Q. injection Q as <-. auto. }
  split; cbn.
  - rewrite (n_reg_put _ _ _ _ Hc), R1. lia.
  - intros j x Hx. destruct (N _ _ Hx) as [(-> & ->)|(_ & Q)]; [rewrite R1, R2|]; eauto.
  - intros j x j' x' Hx Hx'. destruct (N _ _ Hx) as [(-> & ->)|(_ & Q)], (N _ _ Hx') as [(-> & ->)|(_ & Q')]; rewrite ?R1, ?R2; eauto.
  - intros j x Hx Wx. destruct (N _ _ Hx) as [(-> & ->)|(_ & Q)]; eauto. rewrite R2. apply D; auto. apply W; auto.
  - intros j x p Hx Wx IN EQ.
    assert (TK : forall j c', nth_error (y_calls s) j = Some c' -> k_st c' = KTook p -> exists j c', nth_error (put_at (y_calls s) i f) j = Some c' /\ k_st c' = KTook p).
    { intros j0 c' H0 K0. exists j0. rewrite put_at_nth, H0. destruct (Nat.eqb_spec j0 i) as [->|]; cbn; eexists; split; eauto.
      rewrite Hc in H0. injection H0 as <-. auto. }
    destruct (N _ _ Hx) as [(-> & ->)|(_ & Q)].
    + destruct (W Wx) as (W1 & W2). rewrite R2 in EQ. rewrite R4 in IN. destruct (E _ _ _ Hc W1 IN EQ) as [?|[(j & c' & Q1 & Q2)|?]]; eauto.
    + destruct (E _ _ _ Q Wx IN EQ) as [?|[(j' & c' & Q1 & Q2)|?]]; eauto.
  - intros r a IN. destruct (F _ _ IN) as (j & x & Q1 & Q2 & Q3 & Q4). exists j. rewrite put_at_nth, Q1.
    destruct (Nat.eqb_spec j i) as [->|]; cbn; eexists; split; eauto. rewrite Hc in Q1. injection Q1 as <-. rewrite R1, R2, R3. auto.
Qed.

Lemma find_put_eq k v m : find k (put k v m) = Some v.
Proof. unfold put. cbn. rewrite Z.eqb_refl. reflexivity. Qed.
Lemma find_del_ne k k' m : k <> k' -> find k (del k' m) = find k m.
Proof.
  intros NE. induction m as [|[a v] m IH]; cbn -[del]; auto. unfold del in *. cbn. destruct (Z.eqb_spec k' a); cbn; rewrite ?IH.
  - destruct (Z.eqb_spec k a); auto. congruence.
  - reflexivity.
Qed.
Lemma find_put_ne k k' v m : k <> k' -> find k (put k' v m) = find k m.
Proof. intros NE. unfold put. cbn. destruct (Z.eqb_spec k k'); [congruence|]. apply find_del_ne. auto. Qed.

Lemma yq_step s e s' : yinv s -> ystep s e s' -> Z.of_nat (length (y_calls s')) < 2 ^ 32 -> (Z.of_nat (length (y_calls s)) < 2 ^ 32 -> yq s) -> yq s'.
Proof.
  intros I ST W QS.
  assert (Q : yq s).
  { apply QS. destruct ST; try (cbn -[Z.of_nat Z.pow] in W; rewrite ?put_at_len, ?app_length in W; cbn -[Z.of_nat Z.pow] in W; lia).
    - unfold y_register in W. destruct (y_closed s); cbn -[Z.of_nat Z.pow] in W; rewrite put_at_len in W; auto.
    - unfold y_forward in W. cbn -[Z.of_nat Z.pow] in W; rewrite put_at_len in W. destruct (find _ _); auto. cbn -[Z.of_nat Z.pow] in W; rewrite put_at_len in W. auto. }
  clear QS. destruct ST.
  - destruct Q as [A B C D E F].
    assert (N : forall j x, nth_error (y_calls s ++ [mkK false 0 0 arg None KTop]) j = Some x -> (k_reg x = false /\ ~ waiting x) \/ nth_error (y_calls s) j = Some x).
    { intros j x. rewrite nth_snoc. destruct (Nat.eqb _ _); auto. intros Q. injection Q as <-. left. cbn. auto. }
    assert (N2 : forall j x, nth_error (y_calls s) j = Some x -> nth_error (y_calls s ++ [mkK false 0 0 arg None KTop]) j = Some x).
    { intros j x Hx. rewrite nth_error_app1; auto. apply nth_error_Some. congruence. }
    split; cbn.
    + unfold n_reg in *. rewrite filter_app. cbn. rewrite app_nil_r. auto.
    + intros i c Hc R. destruct (N _ _ Hc) as [(Q & _)|Q]; [congruence|eauto].
    + intros i c i' c' Hc Hc' R R'. destruct (N _ _ Hc) as [(Q & _)|Q]; [congruence|]. destruct (N _ _ Hc') as [(Q' & _)|Q']; [congruence|eauto].
    + intros i c Hc Wc. destruct (N _ _ Hc) as [(_ & Q)|Q]; [contradiction|eauto].
    + intros i c p Hc Wc IN EQ. destruct (N _ _ Hc) as [(_ & Q)|Q]; [contradiction|].
      destruct (E _ _ _ Q Wc IN EQ) as [?|[(j & c' & Q1 & Q2)|?]]; [left; auto|right; left; exists j, c'; auto|auto].
    + intros r a IN. destruct (F _ _ IN) as (j & x & Q1 & Q2). exists j, x. auto.
  - assert (CT : k_reg c = false) by (destruct (yi_calls _ I _ _ H) as [_ _ T _ _]; apply T; auto).
    unfold y_register in *. destruct (y_closed s).
    + eapply yq_upc; eauto; cbn; [unfold waiting; cbn; tauto|intros p; rewrite H0; discriminate].
    + cbn -[Z.of_nat Z.pow put] in W. rewrite put_at_len in W.
      destruct Q as [A B C D E F]. set (f := with_req (length (y_log s)) (y_next s)) in *.
      assert (NR := n_reg_put _ _ _ f H). cbn in NR. rewrite CT in NR.
      assert (L2 := n_reg_le (put_at (y_calls s) i f)). rewrite put_at_len in L2.
      assert (P0 : 0 <= n_reg (y_calls s)) by (unfold n_reg; lia).
      assert (NX : (y_next s + 1) mod 2 ^ 32 = y_next s + 1) by (apply Z.mod_small; lia).
      assert (N : forall j x, nth_error (put_at (y_calls s) i f) j = Some x ->
        (j = i /\ x = f c) \/ (j <> i /\ nth_error (y_calls s) j = Some x)).
      { intros j x. rewrite put_at_nth. destruct (Nat.eqb_spec j i) as [->|]; auto. rewrite H. cbn. intros Q. injection Q as <-. auto. }
      assert (N2 : forall j x, nth_error (y_calls s) j = Some x -> k_st x <> KTop -> nth_error (put_at (y_calls s) i f) j = Some x).
      { intros j x Hx NT. rewrite put_at_nth. destruct (Nat.eqb_spec j i) as [->|]; auto. congruence. }
      split; cbn -[Z.pow put]; rewrite ?NX.
      * lia.
      * intros j x Hx R. destruct (N _ _ Hx) as [(-> & ->)|(_ & Q)]; cbn; [lia|]. specialize (B _ _ Q R). lia.
      * intros j x j' x' Hx Hx' R R'. destruct (N _ _ Hx) as [(-> & ->)|(_ & Q)], (N _ _ Hx') as [(-> & ->)|(_ & Q')]; cbn; eauto; intros EQ.
        -- specialize (B _ _ Q' R'). lia.
        -- specialize (B _ _ Q R). lia.
      * intros j x Hx Wx. destruct (N _ _ Hx) as [(-> & ->)|(NE & Q)]; cbn -[put]; [apply find_put_eq|].
        rewrite find_put_ne; [eauto|]. assert (RX : k_reg x = true). { destruct (yi_calls _ I _ _ Q) as [_ _ _ T _]. unfold waiting in Wx. destruct (k_st x); auto; contradiction. }
        specialize (B _ _ Q RX). lia.
      * intros j x p Hx Wx IN EQ. destruct (N _ _ Hx) as [(-> & ->)|(NE & Q)].
        -- cbn in IN. rewrite skipn_all in IN. contradiction.
        -- destruct (E _ _ _ Q Wx IN EQ) as [?|[(j' & c' & Q1 & Q2)|?]]; auto. right. left. exists j', c'. split; auto. apply N2; auto. congruence.
      * intros r a IN. destruct (F _ _ IN) as (j & x & Q1 & Q2 & Q3). exists j, x. split; auto. apply N2; auto.
        intros T. destruct (yi_calls _ I _ _ Q1) as [_ _ T2 _ _]. destruct (T2 T). congruence.
  - assert (Q2 : yq (upc s i (st KWait))).
    { eapply yq_upc; eauto; cbn; [unfold waiting; rewrite H0; cbn; tauto|intros p; rewrite H0; discriminate]. }
    destruct Q2 as [A B C D E F]. split; auto. cbn. intros r a IN. apply in_app_or in IN. destruct IN as [IN|[IN|[]]]; [apply F; auto|].
    injection IN as <- <-. exists i. rewrite put_at_nth, Nat.eqb_refl, H. cbn. eexists. split; eauto. cbn. repeat split.
    destruct (yi_calls _ I _ _ H) as [_ _ _ T _]. rewrite H0 in T. auto.
  - eapply yq_upc; eauto; cbn; [unfold waiting; cbn; tauto|intros p; rewrite H0; discriminate].
  - eapply yq_upc; eauto; cbn; [unfold waiting; cbn; tauto|intros p; rewrite H0; discriminate].
  - eapply yq_upc; eauto; cbn; [unfold waiting; cbn; tauto|intros p; rewrite H0; discriminate].
  - eapply yq_upc; eauto; cbn; [unfold waiting; cbn; tauto|intros p; rewrite H0; discriminate].
  - apply yq_env. eapply yq_upc; eauto; cbn; [unfold waiting; cbn; tauto|intros p; rewrite H0; discriminate].
  - (* Y_Take *) destruct Q as [A B C D E F].
    assert (N : forall j x, nth_error (put_at (y_calls s) i (st (y_take (k_req c) p))) j = Some x ->
        (j = i /\ x = st (y_take (k_req c) p) c) \/ (j <> i /\ nth_error (y_calls s) j = Some x)).
    { intros j x. rewrite put_at_nth. destruct (Nat.eqb_spec j i) as [->|]; auto. rewrite H. cbn. intros Q. injection Q as <-. auto. }
    assert (N2 : forall j x, nth_error (y_calls s) j = Some x -> k_st x <> KWait -> nth_error (put_at (y_calls s) i (st (y_take (k_req c) p))) j = Some x).
    { intros j x Hx NT. rewrite put_at_nth. destruct (Nat.eqb_spec j i) as [->|]; auto. congruence. }
    assert (N3 : nth_error (put_at (y_calls s) i (st (y_take (k_req c) p))) i = Some (st (y_take (k_req c) p) c)).
    { rewrite put_at_nth, Nat.eqb_refl, H. reflexivity. }
    assert (WC : waiting c) by (unfold waiting; rewrite H0; auto).
    split; cbn.
    + rewrite (n_reg_put _ _ _ _ H). cbn. lia.
    + intros j x Hx. destruct (N _ _ Hx) as [(-> & ->)|(_ & Q)]; cbn; eauto.
    + intros j x j' x' Hx Hx'. destruct (N _ _ Hx) as [(-> & ->)|(_ & Q)], (N _ _ Hx') as [(-> & ->)|(_ & Q')]; cbn; eauto.
    + intros j x Hx Wx. destruct (N _ _ Hx) as [(-> & ->)|(_ & Q)]; cbn; eauto.
    + intros j x p' Hx Wx IN EQ.
      assert (OLD : exists x0, nth_error (y_calls s) j = Some x0 /\ waiting x0 /\ k_from x0 = k_from x /\ k_req x0 = k_req x /\ k_resp x0 = k_resp x /\ (j = i -> p_req p <> k_req c)).
      { destruct (N _ _ Hx) as [(-> & ->)|(NE & Q)].
        - exists c. cbn. repeat split; auto. intros _ EQ2. unfold waiting, st, y_take in Wx. cbn in Wx. rewrite EQ2, Z.eqb_refl in Wx. contradiction.
        - exists x. repeat split; auto; congruence. }
      destruct OLD as (x0 & O1 & O2 & O3 & O4 & O5 & O6). rewrite <- O3 in IN. rewrite <- O4 in EQ. rewrite <- O5.
      destruct (E _ _ _ O1 O2 IN EQ) as [INR|[(j' & c' & Q1 & Q2)|?]]; auto.
      * rewrite H1 in INR. destruct INR as [->|INR]; auto. right. left. exists i, (st (y_take (k_req c) p') c). split; auto. cbn.
        unfold y_take. destruct (Z.eqb_spec (p_req p') (k_req c)); auto. exfalso. apply O6; auto.
        apply (C _ _ _ _ O1 H); try congruence.
        -- destruct (yi_calls _ I _ _ O1) as [_ _ _ T _]. unfold waiting in O2. destruct (k_st x0); auto; contradiction.
        -- destruct (yi_calls _ I _ _ H) as [_ _ _ T _]. rewrite H0 in T. auto.
      * right. left. exists j', c'. split; auto. apply N2; auto. congruence.
    + intros r a IN. destruct (F _ _ IN) as (j & x & Q1 & Q2 & Q3). destruct (Nat.eq_dec j i) as [->|NE].
      * rewrite H in Q1. injection Q1 as <-. exists i, (st (y_take (k_req c) p) c). auto.
      * exists j, x. split; auto. rewrite put_at_nth. destruct (Nat.eqb_spec j i); auto. congruence.
  - eapply yq_upc; eauto; cbn; [unfold waiting; cbn; tauto|intros p; rewrite H0; discriminate].
  - (* Y_Forward *) unfold y_forward.
    assert (PEND : forall j cj, nth_error (y_calls s) j = Some cj -> waiting cj -> k_req cj = p_req p -> find (p_req p) (y_pending s) = Some j).
    { intros j cj Hj Wj EQ. rewrite <- EQ. eapply yq_find; eauto. }
    set (s1 := match find (p_req p) (y_pending s) with Some j => upc s j (offer_resp (p_data p)) | None => s end).
    assert (Q1 : yq s1).
    { subst s1. destruct (find (p_req p) (y_pending s)) as [j|] eqn:FJ; auto.
      destruct (yi_pend _ I _ _ (find_In _ _ _ FJ)) as (cj & P1 & P2 & P3).
      eapply yq_upc; eauto; cbn. intros Wx. split; auto. destruct (k_resp cj); auto; discriminate. }
    assert (S1 : y_log s1 = y_log s /\ y_recv s1 = y_recv s /\ y_pending s1 = y_pending s /\
      (exists c1, nth_error (y_calls s1) i = Some c1 /\ k_st c1 = KTook p) /\
      (forall j cj, nth_error (y_calls s1) j = Some cj -> waiting cj -> k_req cj = p_req p -> k_resp cj <> None)).
    { subst s1. destruct (find (p_req p) (y_pending s)) as [j|] eqn:FJ; cbn.
      - repeat split; auto.
        + rewrite put_at_nth, H. destruct (Nat.eqb _ _); cbn; eexists; split; eauto.
        + intros j' cj. rewrite put_at_nth. destruct (Nat.eqb_spec j' j) as [->|NE].
          * destruct (nth_error (y_calls s) j) as [x|]; cbn; [|discriminate]. intros Z0. injection Z0 as <-. cbn. destruct (k_resp x); discriminate.
          * intros Hj Wj EQ. specialize (PEND _ _ Hj Wj EQ). congruence.
      - repeat split; eauto. intros j cj Hj Wj EQ. specialize (PEND _ _ Hj Wj EQ). congruence. }
    destruct S1 as (L1 & L2 & L3 & (c1 & Hc1 & Kc1) & HR). clearbody s1. destruct Q1 as [A B C D E F].
    assert (N : forall j x, nth_error (put_at (y_calls s1) i (st KWait)) j = Some x -> (j = i /\ x = st KWait c1) \/ (j <> i /\ nth_error (y_calls s1) j = Some x)).
    { intros j x. rewrite put_at_nth. destruct (Nat.eqb_spec j i) as [->|]; auto. rewrite Hc1. cbn. intros Q0. injection Q0 as <-. auto. }
    assert (WC : waiting c1) by (unfold waiting; rewrite Kc1; auto).
    split; cbn.
    + rewrite (n_reg_put _ _ _ _ Hc1). cbn. lia.
    + intros j x Hx. destruct (N _ _ Hx) as [(-> & ->)|(_ & Q0)]; cbn; eauto.
    + intros j x j' x' Hx Hx'. destruct (N _ _ Hx) as [(-> & ->)|(_ & Q0)], (N _ _ Hx') as [(-> & ->)|(_ & Q')]; cbn; eauto.
    + intros j x Hx Wx. destruct (N _ _ Hx) as [(-> & ->)|(_ & Q0)]; cbn; eauto.
    + intros j x p' Hx Wx IN EQ.
      assert (OLD : exists x0, nth_error (y_calls s1) j = Some x0 /\ waiting x0 /\ k_from x0 = k_from x /\ k_req x0 = k_req x /\ k_resp x0 = k_resp x).
      { destruct (N _ _ Hx) as [(-> & ->)|(NE & Q0)]; [exists c1|exists x]; cbn; auto. }
      destruct OLD as (x0 & O1 & O2 & O3 & O4 & O5). rewrite <- O3 in IN. rewrite <- O4 in EQ. rewrite <- O5.
      destruct (E _ _ _ O1 O2 IN EQ) as [INR|[(j' & c' & Q1 & Q2)|?]]; auto.
      destruct (Nat.eq_dec j' i) as [->|NE].
      * rewrite Hc1 in Q1. injection Q1 as <-. rewrite Kc1 in Q2. injection Q2 as <-. right. right. eapply HR; eauto.
      * right. left. exists j', c'. split; auto. rewrite put_at_nth. destruct (Nat.eqb_spec j' i); auto. congruence.
    + intros r a IN. destruct (F _ _ IN) as (j & x & Q1 & Q2 & Q3). destruct (Nat.eq_dec j i) as [->|NE].
      * rewrite Hc1 in Q1. injection Q1 as <-. exists i, (st KWait c1). rewrite put_at_nth, Nat.eqb_refl, Hc1. auto.
      * exists j, x. split; auto. rewrite put_at_nth. destruct (Nat.eqb_spec j i); auto. congruence.
  - eapply yq_upc; eauto; cbn; [unfold waiting; cbn; tauto|intros p; rewrite H0; discriminate].
  - (* Y_Leave *) unfold y_leave. assert (RC : k_reg c = true) by (destruct (yi_calls _ I _ _ H) as [_ _ _ T _]; rewrite H0 in T; auto).
    assert (Q2 : yq (upc s i (st (KDone r)))).
    { eapply yq_upc; eauto; cbn; [unfold waiting; cbn; tauto|intros p; rewrite H0; discriminate]. }
    destruct Q2 as [A B C D E F]. split; auto. cbn -[del]. intros j x Hx Wx. rewrite find_del_ne; [apply D; auto|].
    intros EQ. assert (j = i) as ->.
    { refine (C _ _ _ (st (KDone r) c) Hx _ _ _ _); cbn; auto.
      - rewrite put_at_nth, Nat.eqb_refl, H. reflexivity.
      - assert (I2 := yinv_step _ _ _ I (Y_Leave s i c r H H0)). destruct (yi_calls _ I2 _ _ Hx) as [_ _ _ T _]. unfold waiting in Wx. destruct (k_st x); auto; contradiction. }
    rewrite put_at_nth, Nat.eqb_refl, H in Hx. cbn in Hx. injection Hx as <-. exact Wx.
  - destruct Q as [A B C D E F]. split; auto.
  - (* Y_Arrive *) destruct Q as [A B C D E F]. split; cbn; auto.
    intros i c p' Hc Wc IN EQ. rewrite skipn_app in IN. apply in_app_or in IN. destruct IN as [IN|IN].
    + destruct (E _ _ _ Hc Wc IN EQ) as [?|[(j & c' & Q1 & Q2)|?]]; [left; apply in_or_app; auto|right; left; exists j, c'; auto|auto].
    + left. apply in_or_app. right. destruct (k_from c - length (y_log s))%nat as [|[|n]]; cbn in IN; auto; contradiction.
  - apply yq_env; auto.
  - apply yq_env; auto.
  - apply yq_env; auto.
Qed.
Lemma yq_run es s : yrun newSync es s -> Z.of_nat (length (y_calls s)) < 2 ^ 32 -> yq s.
Proof.
  intros R. remember newSync as s0 eqn:E. induction R as [|s0 es s1 e s2 R IH ST]; subst; intros W.
  - split; cbn; try (intros [|i]; discriminate); try (intros; contradiction). reflexivity.
  - eapply yq_step; eauto. eapply yinv_run; eauto.
Qed.
