(** How a session of Model/Client.v ends: its channel is closed when, and only when, the server closed
    the session or the read loop has ended. *)
From Coq Require Import Lia List.
Import ListNotations.
From Verif.Model Require Import Base Compress Client.
From Verif.Spec Require Import Delivery.
From Verif.Proofs Require Import ClientProofs ClientDelivery.
Open Scope list_scope. Open Scope Z_scope.

Section E.
Variable reg : creg.
Variable mr : Z.

Definition says (sid : Z) (m : smsg) : option Z := match m with MClose sid' c => if sid' =? sid then Some c else None | _ => None end.
Lemma close_code_snoc sid m : forall l, close_code sid (l ++ [m]) = match close_code sid l with Some c => Some c | None => says sid m end.
Proof.
  induction l as [|a l IH]; cbn.
  - destruct m; reflexivity.
  - destruct a; cbn; auto. destruct (_ =? _); auto.
Qed.
Lemma close_code_closes sid : forall l, close_code sid l = None <-> existsb (closes sid) l = false.
Proof.
  induction l as [|a l IH]; cbn; [tauto|]. destruct a; cbn; auto. destruct (_ =? _); cbn; auto. split; discriminate.
Qed.

Record eobj (ses : list (Z * nat)) (r : reader) (log : list smsg) (o : nat) (x : sess) : Prop := mkEobj {
  e_none : so_start x = None -> so_recv_closed x = false /\ so_close x = None;
  e_in : so_start x <> None -> In (so_id x, o) ses -> so_close x = None /\ (r = RDone -> so_recv_closed x = true) /\ (r <> RDone -> so_recv_closed x = false);
  e_out : forall n, so_start x = Some n -> NoDup (accepted_ids log) -> ~ In (so_id x, o) ses ->
     exists c, close_code (so_id x) (skipn n log) = Some c /\
       ((r = RClose o c /\ so_recv_closed x = false /\ so_close x = None) \/
        ((forall c', r <> RClose o c') /\ so_recv_closed x = true /\ so_close x = Some c)) }.
Definition einv (objs : list sess) ses r log := forall o x, nth_error objs o = Some x -> eobj ses r log o x.

Definition esame (f : sess -> sess) := forall x,
  so_id (f x) = so_id x /\ so_start (f x) = so_start x /\ so_close (f x) = so_close x /\ so_recv_closed (f x) = so_recv_closed x.
Lemma eobj_same f ses r log o x : esame f -> eobj ses r log o x -> eobj ses r log o (f x).
Proof. intros S [A B C]. destruct (S x) as (E1 & E2 & E3 & E4). constructor; rewrite ?E1, ?E2, ?E3, ?E4; auto. Qed.
Lemma einv_put objs o f ses r log : esame f -> einv objs ses r log -> einv (put_at objs o f) ses r log.
Proof.
  intros S E o' x'. rewrite put_at_nth. destruct (Nat.eqb o' o); [|apply E].
  destruct (nth_error objs o') as [x|] eqn:Hx; cbn; [|easy]. intros Q. injection Q as <-. apply eobj_same; auto.
Qed.
Lemma einv_upd os f ses r log : esame f -> forall objs, einv objs ses r log -> einv (upd_list objs os f) ses r log.
Proof. intros S. induction os as [|o os IH]; cbn; auto. intros objs E. apply IH, einv_put; auto. Qed.
Lemma es_sclose : esame sclose. Proof. intros x; cbn; auto. Qed.
Lemma es_ready : esame close_ready. Proof. intros x; cbn; auto. Qed.
Lemma es_arrived p : esame (arrived p). Proof. intros x; cbn; auto. Qed.
Lemma es_enqueue p : esame (enqueue p). Proof. intros x; cbn; auto. Qed.
Lemma es_dequeue p : esame (dequeue p). Proof. intros x; cbn; auto. Qed.
Hint Resolve es_sclose es_ready es_arrived es_enqueue es_dequeue : client.

(** Between states in which the reader is neither done nor closing a session. *)
Definition plain (r : reader) : Prop := match r with RDone | RClose _ _ => False | _ => True end.
Lemma eobj_reader ses r r' log o x : plain r -> plain r' -> eobj ses r log o x -> eobj ses r' log o x.
Proof.
  intros P P' [A B C]. constructor; auto.
  - intros S I. destruct (B S I) as (B1 & _ & B3). split; auto. split.
    + intros ->. destruct P'.
    + intros _. apply B3. intros ->. destruct P.
  - intros n S ND NI. destruct (C n S ND NI) as (c & C1 & [C2|C2]).
    + destruct C2 as (-> & _). destruct P.
    + exists c. split; auto. right. split; [|tauto]. intros c' ->. destruct P'.
Qed.
Lemma einv_reader objs ses r r' log : plain r -> plain r' -> einv objs ses r log -> einv objs ses r' log.
Proof. intros P P' E o x Hx. apply (eobj_reader _ r); auto. Qed.

(** Reading a message other than one that opens or closes this session. *)
Lemma eobj_log ses ses' log m o x :
  dobj reg mr ses RTop log o x -> eobj ses RTop log o x ->
  (so_start x <> None -> In (so_id x, o) ses' -> In (so_id x, o) ses) ->
  (so_start x <> None -> NoDup (accepted_ids (log ++ [m])) -> In (so_id x, o) ses -> In (so_id x, o) ses') ->
  eobj ses' RTop (log ++ [m]) o x.
Proof.
  intros D [A B C] S1 S2. constructor; auto.
  intros n S ND NI. rewrite accepted_snoc in ND. pose proof (NoDup_app_l _ _ ND) as ND'.
  destruct (C n S ND') as (c & C1 & C2).
  { intros I. apply NI. apply S2; auto; [congruence|]. rewrite accepted_snoc. auto. }
  exists c. split; auto. destruct (d_some _ _ _ _ _ _ _ D n S) as (L & _).
  rewrite skipn_app. replace (n - length log)%nat with O by lia. cbn [skipn]. rewrite close_code_snoc, C1. reflexivity.
Qed.

Definition ce s := cd reg mr s /\ einv (c_objs s) (c_sessions s) (c_reader s) (c_log s).

Lemma einv_Close s : einv (c_objs s) (c_sessions s) (c_reader s) (c_log s) ->
  einv (c_objs (Close s)) (c_sessions (Close s)) (c_reader (Close s)) (c_log (Close s)).
Proof.
  intros D. destruct (Close_fields s) as (-> & _ & -> & _ & -> & _ & _ & _ & _ & _ & _ & _ & _ & ->).
  destruct (c_closed s); auto. do 2 (apply einv_upd; [auto with client|]). auto.
Qed.

Lemma einv_read s m :
  cinv s -> dinv reg mr (c_objs s) (c_sessions s) RTop (c_log s) -> c_reader s = RTop ->
  einv (c_objs s) (c_sessions s) RTop (c_log s) ->
  let s' := with_log (dispatch reg mr (with_log s (c_log s ++ [m])) m) (c_log s ++ [m]) in
  einv (c_objs s') (c_sessions s') (c_reader s') (c_log s').
Proof.
  intros (I & P) D R E. rewrite R in I. set (log := c_log s) in *. cbn zeta.
  assert (Idle : einv (c_objs s) (c_sessions s) RTop (log ++ [m])).
  { intros o x Hx. apply (eobj_log (c_sessions s)); auto. }
  destruct m as [openID sessID ok|sid code|w| |err|]; cbn [dispatch].
  - unfold handleOpenAck. cbn. destruct (find openID (c_pending s)) as [o|] eqn:Fo.
    2:{ cbn. rewrite R. apply Idle; auto. }
    destruct (i_pen _ _ _ _ I _ _ (find_In _ _ _ Fo)) as (x & Hx & X1 & X2 & X3).
    destruct ok; cbn.
    + rewrite R. apply einv_put; [auto with client|]. intros o' x'. rewrite put_at_nth.
      destruct (Nat.eqb_spec o' o) as [-> | No].
      * rewrite Hx. cbn. intros Q. injection Q as <-. destruct (E _ _ Hx) as [A B C]. destruct (A X1) as (A1 & A2).
        constructor; cbn.
        -- discriminate.
        -- intros _ _. repeat split; auto. discriminate.
        -- intros n _ _ NI. exfalso. apply NI. auto.
      * intros Hx'. apply (eobj_log (c_sessions s)); auto.
        -- intros _ IN. apply put_In in IN. destruct IN as [Q|[IN _]]; auto. injection Q as _ ->. congruence.
        -- intros ST ND IN. apply put_In. right. split; auto. cbn. intros Q. 
           destruct (d_some _ _ _ _ _ _ _ (D _ _ Hx')) with (n := match so_start x' with Some n => n | None => O end) as (_ & IA & _).
           { destruct (so_start x'); congruence. }
           rewrite accepted_snoc in ND. apply (NoDup_remove_2 (accepted_ids log) [] sessID) in ND. apply ND. rewrite app_nil_r, <- Q.
           eapply accepted_firstn; eauto.
    + match goal with |- context [checkDrained ?q] => 
          destruct (checkDrained_fields q) as (E1 & E2 & E3 & E4 & _ & _ & _ & _ & E5 & _) end.
      cbn in E1, E2, E3, E4, E5. rewrite E1, E3, E5, R. do 2 (apply einv_put; [auto with client|]). auto.
  - unfold handleClose. cbn -[del]. destruct (find sid (c_sessions s)) as [o|] eqn:Fo.
    2:{ cbn. rewrite R. auto. }
    match goal with |- context [checkDrained ?q] => 
        destruct (checkDrained_fields q) as (E1 & E2 & E3 & E4 & _ & _ & _ & _ & E5 & _) end.
    cbn -[del] in E1, E2, E3, E4, E5. cbn -[del checkDrained]. rewrite E1, E5.
    intros o' x' Hx'. destruct (E _ _ Hx') as [A B C]. constructor; auto.
    + intros ST IN. apply del_In in IN. destruct (B ST (proj1 IN)) as (B1 & _ & B3). split; auto. split; [discriminate|].
      intros _. apply B3. discriminate.
    + intros n S ND NI. rewrite accepted_snoc, app_nil_r in ND. 
      destruct (d_some _ _ _ _ _ _ _ (D _ _ Hx') n S) as (L & _ & Q). destruct (Q ND) as (_ & Q2).
      rewrite skipn_app. replace (n - length log)%nat with O by lia. cbn [skipn]. rewrite close_code_snoc.
      destruct (existsb (closes (so_id x')) (skipn n log)) eqn:Ex.
      * destruct (C n S ND) as (c & C1 & C2). { intros IN. apply Q2 in IN. congruence. }
        rewrite C1. exists c. split; auto. destruct C2 as [C2|C2]; [destruct C2; discriminate|].
        right. split; [|tauto]. intros c' F. injection F as -> ->. 
        apply find_In in Fo. destruct (i_ses _ _ _ _ I _ _ Fo) as (y & Hy & _ & _ & Y).
        assert (y = x') by congruence. subst y. rewrite <- Y in Fo. apply Q2 in Fo. congruence.
      * rewrite (proj2 (close_code_closes _ _) Ex). assert (IN : In (so_id x', o') (c_sessions s)) by (apply Q2; auto).
        assert (so_id x' = sid). { destruct (Z.eq_dec (so_id x') sid); auto. exfalso. apply NI. apply del_In. auto. }
        assert (o' = o). { rewrite H in IN. rewrite (find_NoDup _ _ _ (i_ndsk _ _ _ _ I) IN) in Fo. congruence. }
        subst. exists code. cbn. rewrite Z.eqb_refl. split; auto. left. split; auto.
        destruct B as (B1 & _ & B3); auto; [congruence|]. split; auto. apply B3. discriminate.
  - unfold handlePayload. cbn. destruct (find (wp_sess w) (c_sessions s)) as [o|] eqn:Fo.
    2:{ cbn. rewrite R. auto. }
    destruct (admit reg mr w) as [p|]; [|cbn; rewrite R; auto].
    cbn. apply (einv_reader _ _ RTop); cbn; auto. apply einv_put; auto with client.
  - cbn. rewrite R. auto.
  - cbn. apply (einv_reader _ _ RTop); cbn; auto.
  - cbn. rewrite R. auto.
Qed.

Lemma ce_step s e s' : ce s -> cstep reg mr s e s' -> ce s'.
Proof.
  intros (C & E) ST. split; [eapply cd_step; eauto|]. destruct C as (I & D). pose proof I as (IV & P).
  destruct ST; try rewrite H in E; try rewrite H in D; try rewrite H in IV; try (exact E); 
    try (apply (einv_reader _ _ RTop); cbn; auto; fail).
  - apply einv_read; auto.
  - rewrite <- H in E. apply einv_Close in E. cbn. apply (einv_reader _ _ (c_reader (Close s))); [| |auto].
    + destruct (Close_fields s) as (_ & _ & -> & _). rewrite H. exact Logic.I.
    + destruct x; exact Logic.I.
  - (* deliver *) cbn. apply (einv_reader _ _ (RPayload o p)); cbn; auto. apply einv_put; auto with client.
  - cbn. apply (einv_reader _ _ (RPayload o p)); cbn; auto.
  - (* closeobj *)
    cbn. intros o' x'. rewrite !put_at_nth. destruct (Nat.eqb_spec o' o) as [-> | No].
    + destruct (i_rdr _ _ _ _ IV) as (NI & x & Hx & X1 & X2). rewrite Hx. cbn. intros Q. injection Q as <-.
      destruct (E _ _ Hx) as [A B CC]. constructor; cbn.
      * intros S; congruence.
      * intros _ IN. exfalso. apply NI. apply in_map_iff. exists (so_id x, o). auto.
      * intros n S ND NIN. destruct (CC n S ND NIN) as (c & C1 & [C2|C2]).
        -- destruct C2 as (Q & C2 & C3). injection Q as ->. exists c. split; auto. right. rewrite C3. split; auto. discriminate.
        -- destruct C2 as (Q & _). congruence.
    + intros Hx'. destruct (E _ _ Hx') as [A B CC]. constructor; auto.
      * intros S IN. destruct (B S IN) as (B1 & _ & B3). split; auto. split; [discriminate|]. intros _. apply B3. discriminate.
      * intros n S ND NIN. destruct (CC n S ND NIN) as (c & C1 & [C2|C2]).
        -- destruct C2 as (Q & _). congruence.
        -- exists c. split; auto. right. split; [discriminate|tauto].
  - (* exit *)
    rewrite upd_all_eq. cbn. intros o x. rewrite (upd_list_nth _ close_recv_idem).
    destruct (existsb (Nat.eqb o) (map snd (c_sessions s))) eqn:X.
    + destruct (nth_error (c_objs s) o) as [y|] eqn:Hy; cbn; [|easy]. intros Q. injection Q as <-.
      destruct (E _ _ Hy) as [A B CC].
      assert (IN : In (so_id y, o) (c_sessions s) /\ so_start y <> None).
      { apply existsb_exists in X. destruct X as (o' & IO & Q). apply Nat.eqb_eq in Q. subst o'.
        apply in_map_iff in IO. destruct IO as ([k o'] & Eo & IO). cbn in Eo. subst o'.
        destruct (i_ses _ _ _ _ IV _ _ IO) as (z & Hz & Z1 & _ & Z2). assert (z = y) by congruence. subst. auto. }
      constructor; cbn.
      * intros S. tauto.
      * intros S _. destruct (B S (proj1 IN)) as (B1 & _). split; auto. split; auto. congruence.
      * intros n S ND NI. tauto.
    + intros Hx. destruct (E _ _ Hx) as [A B CC].
      assert (NI : ~ In (so_id x, o) (c_sessions s)).
      { intros IN. assert (existsb (Nat.eqb o) (map snd (c_sessions s)) = true); [|congruence].
        apply existsb_exists. exists o. split; [|apply Nat.eqb_refl]. apply in_map_iff. exists (so_id x, o). auto. }
      constructor; auto.
      * intros; tauto.
      * intros n S ND _. destruct (CC n S ND NI) as (c & C1 & [C2|C2]); [destruct C2; discriminate|].
        exists c. split; auto. right. split; [discriminate|tauto].
  - (* register *)
    unfold register. destruct (_ || _); [exact E|]. cbn. intros o x. rewrite nth_snoc.
    destruct (Nat.eqb_spec o (length (c_objs s))) as [-> | No]; [|apply E].
    intros Q. injection Q as <-. constructor; cbn; auto; try congruence; try discriminate.
  - cbn. apply einv_put; auto with client.
  - cbn. apply einv_put; auto with client.
  - apply einv_Close. auto.
  - unfold startGraceful. destruct (c_closed s); [exact E|].
    destruct (c_sessions s) eqn:ES; destruct (c_pending s) eqn:EP; cbn; rewrite ?ES; exact E.
  - cbn. apply einv_Close. auto.
Qed.
Lemma ce_run es s : crun reg mr New es s -> ce s.
Proof.
  intros R. remember New as s0 eqn:E. induction R; subst.
  - split; [split; [apply cinv_new|]|]; intros [|o] x; discriminate.
  - eapply ce_step; eauto.
Qed.
End E.
