(** Invariants of Model/Client.v. *)
From Coq Require Import Lia List.
Import ListNotations.
From Verif.Model Require Import Base Compress Client.
Open Scope list_scope. Open Scope Z_scope.

(** ** Lists and maps *)
Lemma put_at_nth {A} (f : A -> A) : forall l i j,
  nth_error (put_at l i f) j = if Nat.eqb j i then option_map f (nth_error l j) else nth_error l j.
Proof. induction l as [|x l IH]; intros [|i] [|j]; cbn; auto. destruct (Nat.eqb j i); auto. Qed.
Lemma put_at_len {A} (f : A -> A) : forall l i, length (put_at l i f) = length l.
Proof. induction l as [|x l IH]; intros [|i]; cbn; auto. Qed.
Lemma nth_snoc {A} (l : list A) x j : nth_error (l ++ [x]) j = if Nat.eqb j (length l) then Some x else nth_error l j.
Proof.
  destruct (Nat.eqb_spec j (length l)) as [-> | N].
  - rewrite nth_error_app2 by lia. rewrite Nat.sub_diag. reflexivity.
  - destruct (Nat.lt_ge_cases j (length l)).
    + apply nth_error_app1; auto.
    + rewrite (proj2 (nth_error_None l j)) by lia. apply nth_error_None. rewrite app_length. cbn. lia.
Qed.
Lemma find_In k m v : find k m = Some v -> In (k, v) m.
Proof.
  induction m as [|[k' v'] m IH]; cbn; [easy|]. destruct (Z.eqb_spec k k'); [|auto].
  intros E. injection E as ->. subst. auto.
Qed.
Lemma del_In k m kv : In kv (del k m) <-> In kv m /\ fst kv <> k.
Proof.
  unfold del. rewrite filter_In. destruct (Z.eqb_spec k (fst kv)); cbn; split; intros [? ?]; split; auto; congruence.
Qed.
Lemma put_In k v m kv : In kv (put k v m) <-> kv = (k, v) \/ In kv m /\ fst kv <> k.
Proof. unfold put. cbn. rewrite del_In. intuition congruence. Qed.
Lemma del_NoDup_snd k m : NoDup (map snd m) -> NoDup (map snd (del k m)).
Proof.
  induction m as [|[k' v] m IH]; cbn; auto. intros N. inversion N as [|? ? NI N']; subst.
  destruct (k =? k'); cbn; auto. constructor; auto. intros I. apply NI.
  apply in_map_iff in I. destruct I as ([k2 v2] & E & I). cbn in E. subst. apply del_In in I.
  apply in_map_iff. exists (k2, v). tauto.
Qed.
Lemma del_NoDup_fst k m : NoDup (map fst m) -> NoDup (map fst (del k m)).
Proof.
  induction m as [|[k' v] m IH]; cbn; auto. intros N. inversion N as [|? ? NI N']; subst.
  destruct (k =? k'); cbn; auto. constructor; auto. intros I. apply NI.
  apply in_map_iff in I. destruct I as ([k2 v2] & E & I). cbn in E. subst. apply del_In in I.
  apply in_map_iff. exists (k', v2). tauto.
Qed.
Lemma find_NoDup k m v : NoDup (map fst m) -> In (k, v) m -> find k m = Some v.
Proof.
  induction m as [|[k' v'] m IH]; cbn; [easy|]. intros N [E|I].
  - injection E as -> ->. rewrite Z.eqb_refl. reflexivity.
  - inversion N as [|? ? NI N']; subst. destruct (Z.eqb_spec k k') as [-> | ?]; auto.
    exfalso. apply NI. apply in_map_iff. exists (k', v). auto.
Qed.
Lemma NoDup_snd_fun m k1 k2 (v : nat) : NoDup (map snd m) -> In (k1, v) m -> In (k2, v) m -> k1 = k2 :> Z.
Proof.
  induction m as [|[k' v'] m IH]; cbn; [easy|]. intros N. inversion N as [|? ? NI N']; subst.
  intros [E1|I1] [E2|I2]; auto.
  - congruence.
  - injection E1 as -> ->. exfalso. apply NI. apply in_map_iff. exists (k2, v). auto.
  - injection E2 as -> ->. exfalso. apply NI. apply in_map_iff. exists (k1, v). auto.
Qed.

(** ** Updating several sessions at once *)
Fixpoint upd_list (l : list sess) (os : list nat) (f : sess -> sess) : list sess :=
  match os with [] => l | o :: os => upd_list (put_at l o f) os f end.
Lemma upd_all_eq f : forall os s, upd_all s os f = with_objs s (upd_list (c_objs s) os f).
Proof.
  induction os as [|o os IH]; intros s; cbn.
  - destruct s. reflexivity.
  - rewrite IH. reflexivity.
Qed.
Lemma upd_list_nth f (Hf : forall x, f (f x) = f x) : forall os l j,
  nth_error (upd_list l os f) j = if existsb (Nat.eqb j) os then option_map f (nth_error l j) else nth_error l j.
Proof.
  induction os as [|o os IH]; intros l j; cbn; auto.
  rewrite IH, put_at_nth. destruct (Nat.eqb j o); cbn; [|reflexivity].
  destruct (existsb (Nat.eqb j) os); auto. destruct (nth_error l j); cbn; [rewrite Hf|]; reflexivity.
Qed.
Lemma upd_list_len f : forall os l, length (upd_list l os f) = length l.
Proof. induction os; intros; cbn; auto. rewrite IHos. apply put_at_len. Qed.
Lemma sclose_idem x : sclose (sclose x) = sclose x. Proof. reflexivity. Qed.
Lemma close_recv_idem x : close_recv (close_recv x) = close_recv x. Proof. reflexivity. Qed.

(** ** No panics *)
Record inv (objs : list sess) (ses pen : list (Z * nat)) (r : reader) : Prop := mkInv {
  i_ses : forall k o, In (k, o) ses -> exists x, nth_error objs o = Some x /\ so_start x <> None /\
            (r <> RDone -> so_recv_closed x = false) /\ so_id x = k;
  i_pen : forall k o, In (k, o) pen -> exists x, nth_error objs o = Some x /\ so_start x = None /\ so_ready x = false /\ so_recv_closed x = false;
  i_nds : NoDup (map snd ses);
  i_ndsk : NoDup (map fst ses);
  i_ndp : NoDup (map snd pen);
  i_rdr : match r with
          | RPayload o _ => In o (map snd ses)
          | RClose o _ => ~ In o (map snd ses) /\ exists x, nth_error objs o = Some x /\ so_start x <> None /\ so_recv_closed x = false
          | _ => True
          end }.

Definition cinv (s : client) : Prop := inv (c_objs s) (c_sessions s) (c_pending s) (c_reader s) /\ c_panic s = false.

(** An update that keeps the fields the invariant speaks about. *)
Definition keeps (f : sess -> sess) : Prop :=
  forall x, so_start (f x) = so_start x /\ so_recv_closed (f x) = so_recv_closed x /\ so_id (f x) = so_id x /\ so_ready (f x) = so_ready x.
Lemma nth_upd_keeps objs objs' : 
  (forall o x, nth_error objs o = Some x -> exists x', nth_error objs' o = Some x' /\
     so_start x' = so_start x /\ so_recv_closed x' = so_recv_closed x /\ so_id x' = so_id x /\ so_ready x' = so_ready x) ->
  forall ses pen r, inv objs ses pen r -> inv objs' ses pen r.
Proof.
  intros K ses pen r [A B C D E F]. constructor; auto.
  - intros k o I. destruct (A k o I) as (x & Hx & H1 & H2 & H3). destruct (K _ _ Hx) as (x' & Hx' & Q1 & Q2 & Q3 & Q4).
    exists x'. rewrite Q1, Q2, Q3. auto.
  - intros k o I. destruct (B k o I) as (x & Hx & H1 & H2 & H3). destruct (K _ _ Hx) as (x' & Hx' & Q1 & Q2 & Q3 & Q4).
    exists x'. rewrite Q1, Q2, Q4. auto.
  - destruct r; auto. destruct F as (N & x & Hx & H1 & H2). split; auto.
    destruct (K _ _ Hx) as (x' & Hx' & Q1 & Q2 & Q3 & Q4). exists x'. rewrite Q1, Q2. auto.
Qed.
Lemma inv_put objs o f ses pen r : keeps f -> inv objs ses pen r -> inv (put_at objs o f) ses pen r.
Proof.
  intros K. apply nth_upd_keeps. intros o' x Hx. rewrite put_at_nth. destruct (Nat.eqb o' o).
  - rewrite Hx. cbn. exists (f x). split; [reflexivity|apply K].
  - exists x. auto.
Qed.
Lemma inv_upd objs os f ses pen r : keeps f -> inv objs ses pen r -> inv (upd_list objs os f) ses pen r.
Proof.
  intros K. revert objs. induction os as [|o os IH]; cbn; intros objs I; auto. apply IH. apply inv_put; auto.
Qed.
Lemma inv_reader objs ses pen r r' :
  inv objs ses pen r -> r <> RDone ->
  (match r' with RTop | RFatal _ | RExit => True | _ => False end) -> inv objs ses pen r'.
Proof.
  intros [A B C D E F] N T. constructor; auto.
  - intros k o I. destruct (A k o I) as (x & H1 & H2 & H3 & H4). exists x. auto.
  - destruct r'; auto; easy.
Qed.
Lemma keeps_sclose : keeps sclose. Proof. intros x; cbn; auto. Qed.
Lemma keeps_arrived p : keeps (arrived p). Proof. intros x; cbn; auto. Qed.
Lemma keeps_enqueue p : keeps (enqueue p). Proof. intros x; cbn; auto. Qed.
Lemma keeps_dequeue p : keeps (dequeue p). Proof. intros x; cbn; auto. Qed.
Lemma keeps_offer p : keeps (offer_close p). Proof. intros x; cbn; auto. Qed.
#[global] Hint Resolve keeps_sclose keeps_arrived keeps_enqueue keeps_dequeue keeps_offer : client.

(** Close and checkDrained do not touch what the invariant needs. *)
Lemma Close_fields s :
  c_sessions (Close s) = c_sessions s /\ c_pending (Close s) = c_pending s /\ c_reader (Close s) = c_reader s /\
  c_panic (Close s) = c_panic s /\ c_log (Close s) = c_log s /\ c_draining (Close s) = c_draining s /\
  c_drained (Close s) = c_drained s /\ c_fatal (Close s) = c_fatal s /\ c_errs (Close s) = c_errs s /\
  c_openers (Close s) = c_openers s /\ c_graceful (Close s) = c_graceful s /\ c_closed (Close s) = true /\
  c_next (Close s) = c_next s /\
  c_objs (Close s) = if c_closed s then c_objs s else upd_list (upd_list (c_objs s) (map snd (c_sessions s)) sclose) (map snd (c_pending s)) sclose.
Proof.
  unfold Close. destruct (c_closed s) eqn:E.
  - rewrite E. repeat split; reflexivity.
  - rewrite !upd_all_eq. cbn. repeat split; reflexivity.
Qed.
Lemma checkDrained_fields s :
  c_sessions (checkDrained s) = c_sessions s /\ c_pending (checkDrained s) = c_pending s /\ c_reader (checkDrained s) = c_reader s /\
  c_panic (checkDrained s) = c_panic s /\ c_log (checkDrained s) = c_log s /\ c_draining (checkDrained s) = c_draining s /\
  c_fatal (checkDrained s) = c_fatal s /\ c_errs (checkDrained s) = c_errs s /\ c_objs (checkDrained s) = c_objs s /\
  c_openers (checkDrained s) = c_openers s /\ c_graceful (checkDrained s) = c_graceful s /\ c_closed (checkDrained s) = c_closed s /\
  c_next (checkDrained s) = c_next s /\
  c_drained (checkDrained s) = match c_draining s, c_sessions s, c_pending s, c_drained s with
    | true, [], [], Some _ => Some true | _, _, _, d => d end.
Proof.
  unfold checkDrained. destruct (c_draining s) eqn:D; cbn; [|repeat split; auto].
  destruct (c_sessions s) eqn:S; [|repeat split; auto; fail]. 
  destruct (c_pending s) eqn:P; [|repeat split; auto; fail].
  destruct (c_drained s) eqn:Dr; [|repeat split; auto; fail]. 
  cbn. repeat split; auto.
Qed.
Lemma inv_Close s : cinv s -> cinv (Close s).
Proof.
  intros (I & P). destruct (Close_fields s) as (E1 & E2 & E3 & E4 & _ & _ & _ & _ & _ & _ & _ & _ & _ & E5).
  unfold cinv. rewrite E1, E2, E3, E4, E5. split; auto. destruct (c_closed s); auto.
  do 2 (apply inv_upd; [auto with client|]). auto.
Qed.

Ltac fields := 
  repeat match goal with
  | |- context [Close ?s] => 
      let H := fresh in pose proof (Close_fields s) as H; 
      destruct H as (? & ? & ? & ? & ? & ? & ? & ? & ? & ? & ? & ? & ? & ?)
  end.

Lemma inv_openack objs ses pen oid o (sid : Z) n :
  inv objs ses pen RTop -> find oid pen = Some o ->
  inv (put_at (put_at objs o (accept sid n)) o close_ready) (put sid o ses) (del oid pen) RTop.
Proof.
  intros [A B C D E F] Fo. apply find_In in Fo. destruct (B _ _ Fo) as (x & Hx & X1 & X2 & X3).
  assert (NS : ~ In o (map snd ses)).
  { intros I. apply in_map_iff in I. destruct I as ([k o'] & Eo & I). cbn in Eo. subst o'.
    destruct (A _ _ I) as (x' & Hx' & Y & _). congruence. }
  constructor.
  - intros k o' I. apply put_In in I. rewrite !put_at_nth. destruct I as [I | [I K]].
    + injection I as -> ->. rewrite Nat.eqb_refl, Hx. cbn. eexists. split; eauto. cbn. repeat split; auto. discriminate.
    + destruct (Nat.eqb_spec o' o) as [-> | No].
      * exfalso. apply NS. apply in_map_iff. exists (k, o). auto.
      * apply A. auto.
  - intros k o' I. apply del_In in I. destruct I as [I K]. cbn in K. rewrite !put_at_nth.
    destruct (Nat.eqb_spec o' o) as [-> | No]; [|apply (B k); auto].
    exfalso. apply K. eapply NoDup_snd_fun; eauto.
  - unfold put. cbn. constructor.
    + intros I. apply NS. apply in_map_iff in I. destruct I as ([k o'] & Eo & I). apply del_In in I.
      apply in_map_iff. exists (k, o'). tauto.
    + apply del_NoDup_snd; auto.
  - unfold put. cbn. constructor.
    + intros I. apply in_map_iff in I. destruct I as ([k o'] & Eo & I). apply del_In in I. cbn in *. tauto.
    + apply del_NoDup_fst; auto.
  - apply del_NoDup_snd; auto.
  - exact Logic.I.
Qed.
Lemma inv_pen_shrink objs ses pen pen' r :
  (forall kv, In kv pen' -> In kv pen) -> NoDup (map snd pen') -> inv objs ses pen r -> inv objs ses pen' r.
Proof. intros S N [A B C D E F]. constructor; auto. intros k o I. apply (B k). auto. Qed.
Lemma inv_del_pen objs ses pen r oid : inv objs ses pen r -> inv objs ses (del oid pen) r.
Proof.
  intros I. eapply inv_pen_shrink; [| |exact I].
  - intros kv H. apply del_In in H. tauto.
  - apply del_NoDup_snd. apply (i_ndp _ _ _ _ I).
Qed.
Lemma inv_reject objs ses pen oid o :
  inv objs ses pen RTop -> find oid pen = Some o ->
  inv (put_at (put_at objs o close_ready) o sclose) ses (del oid pen) RTop.
Proof.
  intros [A B C D E F] Fo. apply find_In in Fo. destruct (B _ _ Fo) as (x & Hx & X1 & X2 & X3).
  apply inv_put; [auto with client|].
  constructor; auto.
  - intros k o' I. rewrite put_at_nth. destruct (Nat.eqb_spec o' o) as [-> | No]; [|auto].
    destruct (A _ _ I) as (x' & Hx' & Y & _). congruence.
  - intros k o' I. apply del_In in I. destruct I as [I K]. cbn in K. rewrite put_at_nth.
    destruct (Nat.eqb_spec o' o) as [-> | No]; [|apply (B k); auto].
    exfalso. apply K. eapply NoDup_snd_fun; eauto.
  - apply del_NoDup_snd; auto.
Qed.
Lemma inv_close objs ses pen sid o code :
  inv objs ses pen RTop -> find sid ses = Some o ->
  inv objs (del sid ses) pen (RClose o code).
Proof.
  intros [A B C D E F] Fo. apply find_In in Fo. destruct (A _ _ Fo) as (x & Hx & X1 & X2 & X3).
  constructor; auto.
  - intros k o' I. apply del_In in I. destruct (A k o' (proj1 I)) as (y & ? & ? & Y & ?). exists y. repeat split; auto.
    intros _. apply Y. discriminate.
  - apply del_NoDup_snd; auto.
  - apply del_NoDup_fst; auto.
  - split.
    + intros I. apply in_map_iff in I. destruct I as ([k o'] & Eo & I). cbn in Eo. subst o'.
      apply del_In in I. destruct I as [I K]. apply K. cbn. exact (NoDup_snd_fun _ _ _ _ C I Fo).
    + exists x. repeat split; auto. apply X2. discriminate.
Qed.
Lemma inv_closeobj objs ses pen o code :
  inv objs ses pen (RClose o code) -> inv (put_at (put_at objs o (offer_close code)) o close_recv) ses pen RTop.
Proof.
  intros I. apply (inv_put _ o (offer_close code)) in I; auto with client.
  destruct I as [A B C D E [N (x & Hx & X1 & X2)]]. constructor; auto.
  - intros k o' I. rewrite put_at_nth. destruct (Nat.eqb_spec o' o) as [-> | No].
    + exfalso. apply N. apply in_map_iff. exists (k, o). auto.
    + destruct (A _ _ I) as (y & ? & ? & Y & ?). exists y. repeat split; auto. intros _; apply Y; discriminate.
  - intros k o' I. rewrite put_at_nth. destruct (Nat.eqb_spec o' o) as [-> | No]; [|apply (B k); auto].
    destruct (B _ _ I) as (y & Hy & Y & _). congruence.
Qed.
Lemma inv_exit objs ses pen : 
  inv objs ses pen RExit -> inv (upd_list objs (map snd ses) close_recv) ses pen RDone.
Proof.
  intros [A B C D E F]. constructor; auto.
  - intros k o I. rewrite (upd_list_nth _ close_recv_idem). destruct (A k o I) as (x & Hx & X1 & X2 & X3).
    rewrite Hx. destruct (existsb _ _); cbn; eexists; split; eauto; cbn; repeat split; auto; intros Q; congruence.
  - intros k o I. rewrite (upd_list_nth _ close_recv_idem). destruct (B k o I) as (x & Hx & X1 & X2 & X3).
    destruct (existsb (Nat.eqb o) (map snd ses)) eqn:X; [|exists x; auto].
    exfalso. apply existsb_exists in X. destruct X as (o' & IO & Q). apply Nat.eqb_eq in Q. subst o'.
    apply in_map_iff in IO. destruct IO as ([k' o'] & Eo & IO). cbn in Eo. subst o'.
    destruct (A _ _ IO) as (y & Hy & Y & _). congruence.
Qed.
Lemma inv_register objs ses pen r oid :
  inv objs ses pen r -> inv (objs ++ [newSession]) ses (put oid (length objs) pen) r.
Proof.
  intros [A B C D E F].
  assert (W : forall o x, nth_error objs o = Some x -> nth_error (objs ++ [newSession]) o = Some x).
  { intros o x H. rewrite nth_error_app1; auto. apply nth_error_Some. congruence. }
  constructor; auto.
  - intros k o I. destruct (A k o I) as (x & Hx & X). exists x. split; [apply W|]; auto.
  - intros k o I. apply put_In in I. destruct I as [I | [I K]].
    + injection I as -> ->. rewrite nth_snoc, Nat.eqb_refl. eexists. split; eauto.
    + destruct (B k o I) as (x & Hx & X). exists x. split; [apply W|]; auto.
  - unfold put. cbn. constructor.
    + intros I. apply in_map_iff in I. destruct I as ([k o] & Eo & I). cbn in Eo. subst o. apply del_In in I.
      destruct (B _ _ (proj1 I)) as (x & Hx & _). assert (nth_error objs (length objs) <> None) as Q by congruence. apply nth_error_Some in Q. lia.
    + apply del_NoDup_snd; auto.
  - destruct r; auto. destruct F as (N & x & Hx & X). split; auto. exists x. split; [apply W|]; auto.
Qed.

Lemma cinv_step reg mr s e s' : cinv s -> cstep reg mr s e s' -> cinv s'.
Proof.
  intros (I & P) ST. destruct ST.
  - (* stop *) split; auto. cbn. eapply inv_reader; eauto. rewrite H. discriminate.
  - split; auto. cbn. eapply inv_reader; eauto. rewrite H. discriminate.
  - (* read *)
    rewrite H in I. destruct m as [openID sessID ok|sess0 code|w| |err|]; cbn [dispatch]; try (split; auto; cbn; rewrite ?H; auto; fail).
    + unfold handleOpenAck. cbn. destruct (find openID (c_pending s)) as [o|] eqn:Fo; [|split; cbn; rewrite ?H; auto].
      destruct (i_pen _ _ _ _ I _ _ (find_In _ _ _ Fo)) as (x & Hx & X1 & X2 & X3).
      destruct ok; cbn.
      * split; cbn.
        -- rewrite H. apply inv_openack; auto.
        -- unfold ready_closed. cbn. rewrite put_at_nth, Nat.eqb_refl, Hx. cbn. rewrite X2, P. reflexivity.
      * match goal with |- context [checkDrained ?q] => 
          destruct (checkDrained_fields q) as (E1 & E2 & E3 & E4 & _ & _ & _ & _ & E5 & _) end.
        cbn in E1, E2, E3, E4, E5.
        split; cbn.
        -- rewrite E1, E2, E3, E5, H. apply inv_reject; auto.
        -- rewrite E4. unfold ready_closed. rewrite E5, Hx, X2, P. reflexivity.
    + unfold handleClose. cbn. destruct (find sess0 (c_sessions s)) as [o|] eqn:Fo; [|split; cbn; rewrite ?H; auto].
      match goal with |- context [checkDrained ?q] => 
          destruct (checkDrained_fields q) as (E1 & E2 & E3 & E4 & _ & _ & _ & _ & E5 & _) end.
      cbn in E1, E2, E3, E4, E5. split; cbn.
      * rewrite E1, E2, E5. apply inv_close; auto.
      * rewrite E4. auto.
    + unfold handlePayload. cbn. destruct (find (wp_sess w) (c_sessions s)) as [o|] eqn:Fo; [|split; cbn; rewrite ?H; auto].
      destruct (admit reg mr w) as [p|]; [|split; cbn; rewrite ?H; auto].
      split; cbn; auto. apply inv_put; [auto with client|].
      destruct I as [A B C D E F]. constructor; auto.
      * intros k o' IN. destruct (A k o' IN) as (y & ? & ? & Y & ?). exists y. repeat split; auto. intros _; apply Y; discriminate.
      * apply in_map_iff. exists (wp_sess w, o). split; auto. apply find_In; auto.
    + split; cbn; auto. eapply inv_reader; eauto; discriminate.
  - (* fatal close *)
    destruct (inv_Close s (conj I P)) as (I' & P'). split; auto. cbn. eapply inv_reader; eauto.
    + destruct (Close_fields s) as (_ & _ & -> & _). rewrite H. discriminate.
    + destruct x; exact Logic.I.
  - (* deliver *)
    rewrite H in I. split.
    + cbn. eapply (inv_reader _ _ _ (RPayload o p)); [|discriminate|exact Logic.I]. apply inv_put; auto with client.
    + cbn. rewrite P. unfold recv_closed. rewrite H0. cbn.
      pose proof (i_rdr _ _ _ _ I) as R. cbn in R. apply in_map_iff in R. destruct R as ([k o'] & Eo & R). cbn in Eo. subst o'.
      destruct (i_ses _ _ _ _ I _ _ R) as (y & Hy & _ & Y & _). rewrite H0 in Hy. injection Hy as <-. apply Y. discriminate.
  - (* drop *) rewrite H in I. split; auto. cbn. eapply (inv_reader _ _ _ (RPayload o p)); eauto; discriminate.
  - (* closeobj *)
    rewrite H in I. split; cbn.
    + apply inv_closeobj; auto.
    + rewrite P. unfold recv_closed. destruct (i_rdr _ _ _ _ I) as (_ & x & Hx & _ & Y). rewrite Hx. auto.
  - (* exit *)
    rewrite H in I. rewrite upd_all_eq. split; cbn.
    + apply inv_exit; auto.
    + rewrite P. cbn. destruct (existsb (recv_closed s) (map snd (c_sessions s))) eqn:X; auto. exfalso.
      apply existsb_exists in X. destruct X as (o & IO & Q). apply in_map_iff in IO. destruct IO as ([k o'] & Eo & IO). cbn in Eo. subst o'.
      destruct (i_ses _ _ _ _ I _ _ IO) as (y & Hy & _ & Y & _). unfold recv_closed in Q. rewrite Hy, Y in Q; discriminate.
  - split; auto.
  - (* register *) unfold register. destruct (c_closed s || c_draining s); [split; auto|]. split; auto. cbn. apply inv_register; auto.
  - split; auto.
  - split; auto. cbn. apply inv_del_pen; auto.
  - split; auto. cbn. apply inv_del_pen; auto.
  - split; auto.
  - split; auto.
  - split; auto. cbn. apply inv_put; auto with client.
  - split; auto. cbn. apply inv_put; auto with client.
  - apply inv_Close. split; auto.
  - split; auto.
  - split; auto.
  - unfold startGraceful. destruct (c_closed s); [split; auto|]. destruct (c_sessions s) eqn:ES; destruct (c_pending s) eqn:EP; split; cbn; rewrite ?ES, ?EP; auto.
  - split; auto.
  - split; auto.
  - split; auto.
  - destruct (inv_Close s (conj I P)) as (I' & P'). split; auto.
Qed.
Lemma cinv_new : cinv New.
Proof.
  split; auto. constructor; cbn; try easy; constructor.
Qed.
Theorem cinv_run reg mr es s : crun reg mr New es s -> cinv s.
Proof.
  intros R. remember New as s0 eqn:E. induction R; subst.
  - apply cinv_new.
  - eapply cinv_step; eauto.
Qed.
