(** Proofs for C147. *)
From Coq Require Import Lia List.
Import ListNotations.
From Verif.Model Require Import Base Compress Client.
From Verif.Spec Require Import Delivery ClientClose.
From Verif.Proofs Require Import ClientProofs ClientDelivery ClientOpens ClientEnds.
Open Scope list_scope. Open Scope Z_scope.

(** In a closed connection every session of the tables is cancelled. *)
Definition kinv (cl : bool) (objs : list sess) (ses pen : list (Z * nat)) : Prop :=
  cl = true -> forall o x, In o (map snd ses) \/ In o (map snd pen) -> nth_error objs o = Some x -> so_cancel x = true.
Definition kst (s : client) : Prop := kinv (c_closed s) (c_objs s) (c_sessions s) (c_pending s).

Definition cmono (f : sess -> sess) : Prop := forall x, so_cancel x = true -> so_cancel (f x) = true.
Lemma kinv_put cl objs o f ses pen : cmono f -> kinv cl objs ses pen -> kinv cl (put_at objs o f) ses pen.
Proof.
  intros M K C o' x I. rewrite put_at_nth. destruct (Nat.eqb o' o); [|apply (K C _ _ I)].
  destruct (nth_error objs o') as [y|] eqn:Hy; cbn; [|easy]. intros E. injection E as <-. apply M, (K C _ _ I Hy).
Qed.
Lemma kinv_upd cl os f ses pen : cmono f -> forall objs, kinv cl objs ses pen -> kinv cl (upd_list objs os f) ses pen.
Proof. intros M. induction os as [|o os IH]; cbn; auto. intros objs K. apply IH, kinv_put; auto. Qed.
Lemma kinv_shrink cl objs ses pen ses' pen' :
  (forall o, In o (map snd ses') \/ In o (map snd pen') -> In o (map snd ses) \/ In o (map snd pen)) -> kinv cl objs ses pen -> kinv cl objs ses' pen'.
Proof. intros S K C o x I. apply (K C). auto. Qed.
Lemma del_snd k m o : In o (map snd (del k m)) -> In o (map snd m).
Proof. intros I. apply in_map_iff in I. destruct I as ([k' o'] & E & I). cbn in E. subst. apply del_In in I. apply in_map_iff. exists (k', o). tauto. Qed.
Lemma put_snd k v m o : In o (map snd (put k v m)) -> o = v \/ In o (map snd m).
Proof. unfold put. cbn. intros [E|I]; auto. right. eapply del_snd; eauto. Qed.
Lemma find_snd k m v : find k m = Some v -> In v (map snd m).
Proof. intros F. apply find_In in F. apply in_map_iff. exists (k, v). auto. Qed.
Lemma existsb_In o l : In o l -> existsb (Nat.eqb o) l = true.
Proof. intros I. apply existsb_exists. exists o. split; [exact I|apply Nat.eqb_refl]. Qed.

Lemma kst_Close s : kst s -> kst (Close s).
Proof.
  unfold kst. intros K. destruct (Close_fields s) as (-> & -> & _ & _ & _ & _ & _ & _ & _ & _ & _ & -> & _ & ->).
  destruct (c_closed s); [exact K|]. intros _ o x I. rewrite !(upd_list_nth _ sclose_idem).
  destruct (nth_error (c_objs s) o) as [y|]; [|destruct (existsb _ _), (existsb _ _); cbn; discriminate].
  destruct I as [I|I]; rewrite (existsb_In _ _ I).
  - destruct (existsb _ (map snd (c_pending s))); cbn; intros E; injection E as <-; reflexivity.
  - cbn. intros E. destruct (existsb _ (map snd (c_sessions s))); cbn in E; injection E as <-; reflexivity.
Qed.

Ltac cm := intros ?x; cbn; auto.
Section Steps.
Variable reg : creg.
Variable mr : Z.
Lemma kst_step s e s' : kst s -> cstep reg mr s e s' -> kst s'.
Proof.
  intros K ST. unfold kst in *. destruct ST; try exact K.
  - destruct m as [oid sid ok|sid code|w| |err|]; cbn [dispatch]; try exact K.
    + unfold handleOpenAck. cbn -[del put]. destruct (find oid (c_pending s)) as [o|] eqn:F; [|exact K]. destruct ok; cbn -[del put checkDrained].
      * do 2 (apply kinv_put; [cm|]). eapply kinv_shrink; [|exact K]. intros o' [I|I].
        -- apply put_snd in I. destruct I as [-> | I]; [right; eapply find_snd; eauto|auto].
        -- right. eapply del_snd; eauto.
      * match goal with |- context [checkDrained ?q] => destruct (checkDrained_fields q) as (-> & -> & _ & _ & _ & _ & _ & _ & -> & _ & _ & -> & _) end.
        cbn -[del put]. do 2 (apply kinv_put; [cm|]). eapply kinv_shrink; [|exact K]. intros o' [I|I]; auto. right. eapply del_snd; eauto.
    + unfold handleClose. cbn -[del put]. destruct (find sid (c_sessions s)) as [o|]; [|exact K]. cbn -[checkDrained del].
      match goal with |- context [checkDrained ?q] => destruct (checkDrained_fields q) as (-> & -> & _ & _ & _ & _ & _ & _ & -> & _ & _ & -> & _) end.
      cbn -[del]. eapply kinv_shrink; [|exact K]. intros o' [I|I]; auto. left. eapply del_snd; eauto.
    + unfold handlePayload. cbn. destruct (find _ _); [|exact K]. destruct (admit _ _ _); [|exact K]. cbn. apply kinv_put; [cm|exact K].
  - apply (kst_Close _ K).
  - cbn. apply kinv_put; [cm|exact K].
  - cbn. do 2 (apply kinv_put; [cm|]). exact K.
  - rewrite upd_all_eq. cbn. apply kinv_upd; [cm|exact K].
  - unfold register. destruct (c_closed s) eqn:C; cbn [orb]; [cbn; rewrite C; exact K|].
    destruct (c_draining s); cbn -[put]; rewrite C; intros Q; discriminate Q.
  - cbn -[del]. eapply kinv_shrink; [|exact K]. intros o' [I|I]; auto. right. eapply del_snd; eauto.
  - cbn -[del]. eapply kinv_shrink; [|exact K]. intros o' [I|I]; auto. right. eapply del_snd; eauto.
  - cbn. apply kinv_put; [cm|exact K].
  - cbn. apply kinv_put; [cm|exact K].
  - apply (kst_Close _ K).
  - unfold startGraceful. destruct (c_closed s) eqn:C; [cbn; rewrite C; exact K|].
    destruct (c_sessions s), (c_pending s); cbn; rewrite C; intros Q; discriminate Q.
  - apply (kst_Close _ K).
Qed.
Lemma kst_run es s : crun reg mr New es s -> kst s.
Proof.
  intros R. remember New as s0 eqn:E. induction R; subst.
  - intros C. discriminate.
  - eapply kst_step; eauto.
Qed.

(** ** Close is final *)
Ltac same SAME := match goal with |- _ /\ _ /\ (forall i, without_session _ i -> without_session ?q i) => refine (SAME q _ _ _) end.
Lemma closed_step s e s' : c_closed s = true -> cstep reg mr s e s' ->
  c_closed s' = true /\ length (c_objs s') = length (c_objs s) /\
  forall i, without_session s i -> without_session s' i.
Proof.
  intros C ST.
  assert (SAME : forall s1, c_closed s1 = c_closed s -> length (c_objs s1) = length (c_objs s) -> c_openers s1 = c_openers s ->
    c_closed s1 = true /\ length (c_objs s1) = length (c_objs s) /\ forall i, without_session s i -> without_session s1 i).
  { intros s1 -> -> E. split; [exact C|]. split; [reflexivity|]. intros i. unfold without_session. rewrite E. auto. }
  assert (OP : forall i w s1, (forall w0, nth_error (c_openers s) i = Some w0 -> w0 <> OTop /\ w0 <> OErr \/ w = OErr) ->
    c_closed s1 = c_closed s -> length (c_objs s1) = length (c_objs s) -> c_openers s1 = put_at (c_openers s) i (fun _ => w) ->
    c_closed s1 = true /\ length (c_objs s1) = length (c_objs s) /\ forall j, without_session s j -> without_session s1 j).
  { intros i w s1 Hi -> -> E. split; [exact C|]. split; [reflexivity|]. intros j. unfold without_session. rewrite E, put_at_nth.
    destruct (Nat.eqb_spec j i) as [-> | N]; [|auto]. destruct (nth_error (c_openers s) i) as [w0|]; cbn; [|auto].
    destruct (Hi w0 eq_refl) as [(A & B)| ->]; [|auto]. intros [Q|[Q|Q]]; congruence. }
  destruct ST; try (apply SAME; reflexivity).
  - destruct m as [oid sid ok|sid code|w| |err|]; cbn [dispatch]; try (same SAME; reflexivity).
    + unfold handleOpenAck. cbn -[del put]. destruct (find oid (c_pending s)) as [o|]; [|same SAME; reflexivity]. destruct ok; cbn -[del put checkDrained].
      * same SAME; cbn; rewrite ?put_at_len; reflexivity.
      * match goal with |- context [checkDrained ?q] => destruct (checkDrained_fields q) as (_ & _ & _ & _ & _ & _ & _ & _ & E1 & E2 & _ & E3 & _) end.
        cbn -[del put checkDrained] in E1, E2, E3. same SAME; cbn -[del put checkDrained]; rewrite ?put_at_len, ?E1, ?E2, ?E3; reflexivity.
    + unfold handleClose. cbn -[del put]. destruct (find sid (c_sessions s)) as [o|]; [|same SAME; reflexivity]. cbn -[checkDrained del].
      match goal with |- context [checkDrained ?q] => destruct (checkDrained_fields q) as (_ & _ & _ & _ & _ & _ & _ & _ & E1 & E2 & _ & E3 & _) end.
      cbn -[del put checkDrained] in E1, E2, E3. same SAME; cbn -[del put checkDrained]; rewrite ?E1, ?E2, ?E3; reflexivity.
    + unfold handlePayload. cbn. destruct (find _ _); [|same SAME; reflexivity]. destruct (admit _ _ _); [|same SAME; reflexivity].
      same SAME; cbn; rewrite ?put_at_len; reflexivity.
  - unfold Close. rewrite C. same SAME; reflexivity.
  - same SAME; cbn; rewrite ?put_at_len; reflexivity.
  - same SAME; cbn; rewrite ?put_at_len; reflexivity.
  - rewrite upd_all_eq. same SAME; cbn; rewrite ?upd_list_len; reflexivity.
  - (* open *) split; [exact C|]. split; [reflexivity|]. intros i. unfold without_session. cbn. rewrite nth_snoc.
    destruct (Nat.eqb_spec i (length (c_openers s))); auto.
  - unfold register. rewrite C. cbn [orb]. eapply OP; try reflexivity. intros w0 E. right. reflexivity.
  - eapply OP; try reflexivity. intros w0 E. left. split; congruence.
  - eapply OP; try reflexivity. intros w0 E. right. reflexivity.
  - eapply OP; try reflexivity. intros w0 E. right. reflexivity.
  - eapply OP; try reflexivity. intros w0 E. right. reflexivity.
  - eapply OP; try reflexivity. intros w0 E. left. split; congruence.
  - same SAME; cbn; rewrite ?put_at_len; reflexivity.
  - same SAME; cbn; rewrite ?put_at_len; reflexivity.
  - unfold Close. rewrite C. same SAME; reflexivity.
  - unfold startGraceful. rewrite C. same SAME; reflexivity.
  - unfold Close. rewrite C. same SAME; reflexivity.
Qed.
Lemma closed_run s es s' : c_closed s = true -> crun reg mr s es s' ->
  c_closed s' = true /\ length (c_objs s') = length (c_objs s) /\ forall i, without_session s i -> without_session s' i.
Proof.
  intros C R. revert C. induction R as [|s es s1 e s2 R IH ST]; intros C; [auto|].
  destruct (IH C) as (C1 & L1 & W1). destruct (closed_step _ _ _ C1 ST) as (C2 & L2 & W2). split; [exact C2|]. split; [congruence|auto].
Qed.

(** ** Everyone is told *)
Lemma pair_dec (a b : Z * nat) : {a = b} + {a <> b}.
Proof. decide equality; [apply Nat.eq_dec|apply Z.eq_dec]. Qed.
Lemma told_all es s i o x : crun reg mr New es s -> c_closed s = true -> fair_ids s -> given s i o x -> told s o x.
Proof.
  intros R C (ND & L) (G & Hx). destruct (oinv_run _ _ _ _ R) as (_ & _ & O). specialize (O L).
  destruct (o_op _ _ _ _ O _ _ G) as (x' & Hx' & RD & ID). assert (x' = x) as -> by congruence.
  pose proof (o_obj _ _ _ _ O _ _ Hx) as XO. unfold xok in XO. destruct (so_start x) as [n|] eqn:S; [|contradiction].
  destruct (ce_run _ _ _ _ R) as (CI & E). destruct (E _ _ Hx) as [_ _ EO].
  destruct (in_dec pair_dec (so_id x, o) (c_sessions s)) as [I|NI].
  - left. apply (kst_run _ _ R C o x); [|exact Hx]. left. apply in_map_iff. exists (so_id x, o). auto.
  - destruct (EO n S ND NI) as (c & _ & [(A & _)|(_ & B & _)]); [right; right; eauto|right; left; exact B].
Qed.
Lemma receivers_end es s i o x : crun reg mr New es s -> c_reader s = RDone -> fair_ids s -> given s i o x -> so_recv_closed x = true.
Proof.
  intros R C (ND & L) (G & Hx). destruct (oinv_run _ _ _ _ R) as (_ & _ & O). specialize (O L).
  destruct (o_op _ _ _ _ O _ _ G) as (x' & Hx' & RD & ID). assert (x' = x) as -> by congruence.
  pose proof (o_obj _ _ _ _ O _ _ Hx) as XO. unfold xok in XO. destruct (so_start x) as [n|] eqn:S; [|contradiction].
  destruct (ce_run _ _ _ _ R) as (CI & E). destruct (E _ _ Hx) as [_ EI EO].
  destruct (in_dec pair_dec (so_id x, o) (c_sessions s)) as [I|NI].
  - apply EI; [congruence|exact I|exact C].
  - destruct (EO n S ND NI) as (c & _ & [(A & _)|(_ & B & _)]); [congruence|exact B].
Qed.

(** ** The read loop can end on its own *)
Lemma run1 s e s1 : cstep reg mr s e s1 -> crun reg mr s [e] s1.
Proof. intros H. apply (cr_step _ _ s [] s e s1); [constructor|exact H]. Qed.
Lemma run2 s es s1 e s2 : crun reg mr s es s1 -> cstep reg mr s1 e s2 -> crun reg mr s (es ++ [e]) s2.
Proof. intros A B. econstructor; eauto. Qed.
Lemma from_exit s : c_reader s = RExit -> exists s', crun reg mr s [EOther] s' /\ c_reader s' = RDone /\ c_log s' = c_log s /\ c_openers s' = c_openers s /\ c_graceful s' = c_graceful s.
Proof. intros E. eexists. split; [apply run1, S_Exit, E|]. rewrite upd_all_eq. cbn. auto. Qed.
Lemma from_top s : c_reader s = RTop -> exists s', crun reg mr s [EOther; EOther] s' /\ c_reader s' = RDone /\ c_log s' = c_log s /\ c_openers s' = c_openers s /\ c_graceful s' = c_graceful s.
Proof.
  intros E. eexists. split; [eapply (run2 _ [EOther]); [apply run1, S_Stop, E|apply S_Exit; reflexivity]|]. rewrite upd_all_eq. cbn. auto.
Qed.
Lemma run_cat s es s1 es' s2 : crun reg mr s es s1 -> crun reg mr s1 es' s2 -> crun reg mr s (es ++ es') s2.
Proof.
  intros R1 R2. induction R2; [rewrite app_nil_r; auto|]. rewrite app_assoc. econstructor; eauto.
Qed.
Lemma reader_ends es s : crun reg mr New es s -> c_closed s = true -> exists es' s', crun reg mr s es' s' /\ (length es' <= 3)%nat /\
  c_reader s' = RDone /\ c_log s' = c_log s /\ c_openers s' = c_openers s /\ c_graceful s' = c_graceful s.
Proof.
  intros R C. destruct (cinv_run _ _ _ _ R) as (I & _). destruct (c_reader s) as [|o p|o code|x| |] eqn:E.
  - destruct (from_top s E) as (s' & A & B). exists [EOther; EOther], s'. split; [exact A|]. split; [cbn; lia|exact B].
  - pose proof (i_rdr _ _ _ _ I) as P. cbn in P.
    assert (X : exists x, nth_error (c_objs s) o = Some x).
    { apply in_map_iff in P. destruct P as ([k o'] & Eo & P). cbn in Eo. subst. destruct (i_ses _ _ _ _ I _ _ P) as (x & Hx & _). eauto. }
    destruct X as (x & Hx). assert (K : so_cancel x = true) by (apply (kst_run _ _ R C o x); auto).
    destruct (from_top (with_reader s RTop) eq_refl) as (s' & A & B). exists ([EOther] ++ [EOther; EOther]), s'.
    split; [eapply run_cat; [apply run1; eapply S_Drop; eauto|exact A]|]. split; [cbn; lia|exact B].
  - pose proof (S_CloseObj reg mr s o code E) as ST. apply run1 in ST.
    match type of ST with crun _ _ _ _ ?q => destruct (from_top q eq_refl) as (s' & A & B) end.
    exists ([EOther] ++ [EOther; EOther]), s'. split; [eapply run_cat; eauto|]. split; [cbn; lia|exact B].
  - pose proof (S_FatalClose reg mr s x E) as ST. apply run1 in ST. replace (Close s) with s in ST by (unfold Close; rewrite C; reflexivity). destruct x.
    + destruct (from_exit (with_reader s RExit) eq_refl) as (s' & A & B). exists ([EOther] ++ [EOther]), s'. split; [eapply run_cat; eauto|]. split; [cbn; lia|exact B].
    + destruct (from_top (with_reader s RTop) eq_refl) as (s' & A & B). exists ([EOther] ++ [EOther; EOther]), s'. split; [eapply run_cat; eauto|]. split; [cbn; lia|exact B].
  - destruct (from_exit s E) as (s' & A & B). exists [EOther], s'. split; [exact A|]. split; [cbn; lia|exact B].
  - exists [], s. split; [constructor|]. split; [cbn; lia|auto].
Qed.
(** Calls that wait return. *)
Lemma opens_return s i : c_closed s = true -> running s i -> exists es' s', crun reg mr s es' s' /\ (length es' <= 2)%nat /\ nth_error (c_openers s') i = Some OErr.
Proof.
  intros C (w & Hw & NE & NG). destruct w as [|oid o|oid o|o|].
  - exists [EOther]. eexists. split; [apply run1, (S_Register _ _ s i Hw)|]. split; [cbn; lia|]. unfold register. rewrite C. cbn. rewrite put_at_nth, Nat.eqb_refl, Hw. reflexivity.
  - assert (A := run1 _ _ _ (S_Sent reg mr s i oid o Hw)).
    match type of A with crun _ _ _ _ ?q => assert (B := S_OpenClosed reg mr q i oid o) end. cbn in B. rewrite put_at_nth, Nat.eqb_refl, Hw in B. specialize (B eq_refl C).
    exists ([EOther] ++ [EOther]). eexists. split; [eapply run2; [exact A|exact B]|]. split; [cbn; lia|]. cbn. rewrite put_at_nth, Nat.eqb_refl, put_at_nth, Nat.eqb_refl, Hw. reflexivity.
  - exists [EOther]. eexists. split; [apply run1, (S_OpenClosed _ _ s i oid o Hw C)|]. split; [cbn; lia|]. cbn. rewrite put_at_nth, Nat.eqb_refl, Hw. reflexivity.
  - exfalso. apply (NG o). reflexivity.
  - congruence.
Qed.

(** ** A connection whose read loop has ended, closed or not *)
Definition mute (objs : list sess) (w : opener) : Prop :=
  match w with
  | OTop | OErr => True
  | OSend _ o | OWait _ o => exists x, nth_error objs o = Some x /\ so_ready x = false
  | OGot _ => False
  end.
Definition muted (s : client) (i : nat) : Prop := forall w, nth_error (c_openers s) i = Some w -> mute (c_objs s) w.
Lemma mute_objs objs objs' w : (forall o x, nth_error objs o = Some x -> exists x', nth_error objs' o = Some x' /\ so_ready x' = so_ready x) -> mute objs w -> mute objs' w.
Proof. intros H. destruct w; cbn; auto; intros (x & Hx & R); destruct (H _ _ Hx) as (x' & Hx' & R'); exists x'; split; congruence. Qed.
Lemma mute_put objs o f w : (forall x, so_ready (f x) = so_ready x) -> mute objs w -> mute (put_at objs o f) w.
Proof.
  intros F. apply mute_objs. intros o' x Hx. rewrite put_at_nth. destruct (Nat.eqb o' o); [rewrite Hx; cbn; eauto|eauto].
Qed.
Lemma mute_upd os f w : (forall x, so_ready (f x) = so_ready x) -> forall objs, mute objs w -> mute (upd_list objs os f) w.
Proof. intros F. induction os as [|o os IH]; cbn; auto. intros objs M. apply IH, mute_put; auto. Qed.
Lemma muted_Close s i : muted s i -> muted (Close s) i.
Proof.
  intros M w. destruct (Close_fields s) as (_ & _ & _ & _ & _ & _ & _ & _ & _ & -> & _ & _ & _ & ->). intros Hw. specialize (M _ Hw).
  destruct (c_closed s); [exact M|]. do 2 (apply mute_upd; [reflexivity|]). exact M.
Qed.
Lemma mute_step s e s' i : c_reader s = RDone -> cstep reg mr s e s' -> muted s i -> c_reader s' = RDone /\ muted s' i.
Proof.
  intros RD ST M.
  assert (OP : forall j w w', nth_error (c_openers s) j = Some w -> (mute (c_objs s) w -> mute (c_objs s) w') -> muted (with_openers s (put_at (c_openers s) j (fun _ => w'))) i).
  { intros j w w' Hj W v. cbn. rewrite put_at_nth. destruct (Nat.eqb_spec i j) as [-> | N]; [|apply M]. rewrite Hj. cbn. intros E. injection E as <-. apply W, M, Hj. }
  destruct ST; try congruence; try (split; [exact RD|exact M]).
  - split; [exact RD|]. intros w. cbn. rewrite nth_snoc. destruct (Nat.eqb_spec i (length (c_openers s))); [|apply M]. intros E. injection E as <-. exact I.
  - unfold register. destruct (c_closed s || c_draining s); [split; [exact RD|]; apply (OP i0 _ _ H); auto|].
    split; [exact RD|]. intros w. cbn. rewrite put_at_nth. destruct (Nat.eqb_spec i i0) as [-> | N].
    + rewrite H. cbn. intros E. injection E as <-. cbn. exists newSession. split; [|reflexivity]. rewrite nth_snoc, Nat.eqb_refl. reflexivity.
    + intros Hw. apply (mute_objs (c_objs s)); [|apply M, Hw]. intros o x Hx. exists x. split; [|reflexivity]. rewrite nth_error_app1; [exact Hx|]. apply nth_error_Some. congruence.
  - split; [exact RD|]. apply (OP i0 _ _ H). auto.
  - split; [exact RD|]. exact (OP i0 _ OErr H (fun _ => I)).
  - split; [exact RD|]. exact (OP i0 _ OErr H (fun _ => I)).
  - split; [exact RD|]. exact (OP i0 _ OErr H (fun _ => I)).
  - split; [exact RD|]. apply (OP i0 _ _ H). intros (y & Hy & Q). congruence.
  - split; [exact RD|]. intros w Hw. cbn in *. apply mute_put; [reflexivity|apply M, Hw].
  - split; [exact RD|]. intros w Hw. cbn in *. apply mute_put; [reflexivity|apply M, Hw].
  - split; [destruct (Close_fields s) as (_ & _ & -> & _); exact RD|apply muted_Close, M].
  - unfold startGraceful. destruct (c_closed s); [|destruct (c_sessions s), (c_pending s)]; (split; [exact RD|exact M]).
  - split; [cbn; destruct (Close_fields s) as (_ & _ & -> & _); exact RD|]. exact (muted_Close _ _ M).
Qed.
Lemma stopped s es s' i o : c_reader s = RDone -> without_session s i -> crun reg mr s es s' -> nth_error (c_openers s') i <> Some (OGot o).
Proof.
  intros RD W R. assert (M : muted s i). { intros w Hw. destruct W as [W|[W|W]]; rewrite W in Hw; [discriminate| |]; injection Hw as <-; exact I. }
  assert (A : c_reader s' = RDone /\ muted s' i).
  { induction R as [|s es s1 e s2 R IH ST]; [auto|]. destruct (IH RD W M) as (A & B). eapply mute_step; eauto. }
  intros E. destruct A as (_ & A). exact (A _ E).
Qed.
End Steps.
