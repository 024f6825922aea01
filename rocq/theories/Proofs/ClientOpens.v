(** Who gets which session: the opens of Model/Client.v. *)
From Coq Require Import Lia List.
Import ListNotations.
From Verif.Model Require Import Base Compress Client.
From Verif.Proofs Require Import ClientProofs.
Open Scope list_scope. Open Scope Z_scope.

Definition refs (w : opener) : option nat :=
  match w with OSend _ o | OWait _ o | OGot o => Some o | _ => None end.
Definition wok (objs : list sess) (pen : list (Z * nat)) (w : opener) : Prop :=
  match w with
  | OSend oid o | OWait oid o => oid = Z.of_nat o /\ exists x, nth_error objs o = Some x /\ (In (oid, o) pen \/ so_ready x = true)
  | OGot o => exists x, nth_error objs o = Some x /\ so_ready x = true /\ so_id x <> 0
  | _ => True
  end.
Definition xok (log : list smsg) (o : nat) (x : sess) : Prop :=
  match so_start x with
  | None => so_id x = 0
  | Some n => (1 <= n)%nat /\ nth_error log (n - 1) = Some (MOpenAck (Z.of_nat o) (so_id x) true) /\ so_ready x = true
  end.
Record oi (objs : list sess) (pen : list (Z * nat)) (log : list smsg) (ops : list opener) : Prop := mkOi {
  o_obj : forall o x, nth_error objs o = Some x -> xok log o x;
  o_pen : forall k o, In (k, o) pen -> k = Z.of_nat o;
  o_op : forall i w, nth_error ops i = Some w -> wok objs pen w;
  o_dist : forall i j w w' o, nth_error ops i = Some w -> nth_error ops j = Some w' -> refs w = Some o -> refs w' = Some o -> i = j }.
Definition oinv (s : client) : Prop :=
  c_next s = Z.of_nat (length (c_objs s)) mod 2 ^ 32 /\
  (Z.of_nat (length (c_objs s)) <= 2 ^ 32 -> oi (c_objs s) (c_pending s) (c_log s) (c_openers s)).

(** Updates of objects that keep what matters here. *)
Definition mild (f : sess -> sess) : Prop := forall x,
  so_start (f x) = so_start x /\ so_id (f x) = so_id x /\ (so_ready x = true -> so_ready (f x) = true).
Lemma oi_objs objs objs' pen log ops :
  length objs' = length objs ->
  (forall o x', nth_error objs' o = Some x' -> exists x, nth_error objs o = Some x /\
     so_start x' = so_start x /\ so_id x' = so_id x /\ (so_ready x = true -> so_ready x' = true)) ->
  oi objs pen log ops -> oi objs' pen log ops.
Proof.
  intros L K [A B C D].
  assert (K' : forall o x, nth_error objs o = Some x -> exists x', nth_error objs' o = Some x' /\
     so_start x' = so_start x /\ so_id x' = so_id x /\ (so_ready x = true -> so_ready x' = true)).
  { intros o x Hx. destruct (nth_error objs' o) as [x'|] eqn:Hx'.
    - exists x'. split; auto. destruct (K _ _ Hx') as (y & Hy & Q). assert (y = x) by congruence. subst. auto.
    - exfalso. apply nth_error_None in Hx'. assert (nth_error objs o <> None) as Q by congruence. apply nth_error_Some in Q. lia. }
  constructor; auto.
  - intros o x' Hx'. destruct (K _ _ Hx') as (x & Hx & E1 & E2 & E3). specialize (A _ _ Hx). unfold xok in *. rewrite E1, E2.
    destruct (so_start x); auto. destruct A as (A1 & A2 & A3). auto.
  - intros i w Hw. specialize (C _ _ Hw). destruct w; cbn in *; auto.
    + destruct C as (E & x & Hx & Q). split; auto. destruct (K' _ _ Hx) as (x' & Hx' & E1 & E2 & E3). exists x'. intuition.
    + destruct C as (E & x & Hx & Q). split; auto. destruct (K' _ _ Hx) as (x' & Hx' & E1 & E2 & E3). exists x'. intuition.
    + destruct C as (x & Hx & Q1 & Q2). destruct (K' _ _ Hx) as (x' & Hx' & E1 & E2 & E3). exists x'. rewrite E2. auto.
Qed.
Lemma oi_put objs o f pen log ops : mild f -> oi objs pen log ops -> oi (put_at objs o f) pen log ops.
Proof.
  intros M. apply oi_objs; [apply put_at_len|]. intros o' x'. rewrite put_at_nth. destruct (Nat.eqb o' o).
  - destruct (nth_error objs o') as [x|]; cbn; [|easy]. intros E. injection E as <-. exists x. split; [reflexivity|apply M].
  - intros E. exists x'. auto.
Qed.
Lemma oi_upd os f pen log ops : mild f -> forall objs, oi objs pen log ops -> oi (upd_list objs os f) pen log ops.
Proof. intros M. induction os as [|o os IH]; cbn; auto. intros objs D. apply IH, oi_put; auto. Qed.
Lemma mild_sclose : mild sclose. Proof. intros x; cbn; auto. Qed.
Lemma mild_ready : mild close_ready. Proof. intros x; cbn; auto. Qed.
Lemma mild_recv : mild close_recv. Proof. intros x; cbn; auto. Qed.
Lemma mild_offer c : mild (offer_close c). Proof. intros x; cbn; auto. Qed.
Lemma mild_arrived p : mild (arrived p). Proof. intros x; cbn; auto. Qed.
Lemma mild_enqueue p : mild (enqueue p). Proof. intros x; cbn; auto. Qed.
Lemma mild_dequeue p : mild (dequeue p). Proof. intros x; cbn; auto. Qed.
#[global] Hint Resolve mild_sclose mild_ready mild_recv mild_offer mild_arrived mild_enqueue mild_dequeue : client.

Lemma oi_log objs pen log m ops : oi objs pen log ops -> oi objs pen (log ++ [m]) ops.
Proof.
  intros [A B C D]. constructor; auto. intros o x Hx. specialize (A _ _ Hx). unfold xok in *. destruct (so_start x); auto.
  destruct A as (A1 & A2 & A3). split; auto. split; auto. rewrite nth_error_app1; auto. apply nth_error_Some. congruence.
Qed.
(** One opener moves on. *)
Lemma oi_opener objs pen log ops i w w' :
  nth_error ops i = Some w -> wok objs pen w' -> (forall o, refs w' = Some o -> refs w = Some o) ->
  oi objs pen log ops -> oi objs pen log (put_at ops i (fun _ => w')).
Proof.
  intros Hw W R [A B C D]. constructor; auto.
  - intros j v. rewrite put_at_nth. destruct (Nat.eqb_spec j i) as [-> | N]; [|apply C].
    rewrite Hw. cbn. intros E. injection E as <-. auto.
  - intros j k v v' o. rewrite !put_at_nth. destruct (Nat.eqb_spec j i) as [-> | N], (Nat.eqb_spec k i) as [-> | N']; auto.
    + rewrite Hw. cbn. intros E. injection E as <-. intros. eapply D; eauto.
    + rewrite Hw. cbn. intros Hv E. injection E as <-. intros. eapply D; eauto.
    + intros. eapply D; eauto.
Qed.
(** An entry leaves pending after its session became ready. *)
Lemma oi_del objs pen log ops oid :
  (forall o x, In (oid, o) pen -> nth_error objs o = Some x -> so_ready x = true) ->
  oi objs pen log ops -> oi objs (del oid pen) log ops.
Proof.
  intros R [A B C D]. constructor; auto.
  - intros k o I. apply del_In in I. apply B. tauto.
  - intros i w Hw. specialize (C _ _ Hw). destruct w; cbn in *; auto.
    + destruct C as (E & x & Hx & [Q|Q]); split; auto; exists x; split; auto. 
      destruct (Z.eq_dec openID oid) as [-> |]; [right; eauto|left]. apply del_In. split; [auto|cbn; auto].
    + destruct C as (E & x & Hx & [Q|Q]); split; auto; exists x; split; auto. 
      destruct (Z.eq_dec openID oid) as [-> |]; [right; eauto|left]. apply del_In. split; [auto|cbn; auto].
Qed.
(** An opener gives up and takes its entry with it. *)
Lemma oi_abandon objs pen log ops i w oid o :
  nth_error ops i = Some w -> (w = OSend oid o \/ w = OWait oid o) ->
  oi objs pen log ops -> oi objs (del oid pen) log (put_at ops i (fun _ => OErr)).
Proof.
  intros Hw W I. pose proof I as [A B C D]. 
  assert (Eo : oid = Z.of_nat o). { specialize (C _ _ Hw). destruct W; subst w; apply C. }
  assert (Rw : refs w = Some o) by (destruct W; subst w; auto).
  constructor; auto.
  - intros k o' IN. apply del_In in IN. apply B. tauto.
  - intros j v. rewrite put_at_nth. destruct (Nat.eqb_spec j i) as [-> | N].
    + rewrite Hw. cbn. intros E. injection E as <-. exact Logic.I.
    + intros Hv. specialize (C _ _ Hv). destruct v as [|k o'|k o'|o'|]; cbn in *; auto.
      * destruct C as (E & x & Hx & [Q|Q]); split; auto; exists x; split; auto. left. apply del_In. split; auto. cbn.
        intros ->. apply N. assert (o' = o) by lia. subst o'. exact (D _ _ _ _ o Hv Hw eq_refl Rw).
      * destruct C as (E & x & Hx & [Q|Q]); split; auto; exists x; split; auto. left. apply del_In. split; auto. cbn.
        intros ->. apply N. assert (o' = o) by lia. subst o'. exact (D _ _ _ _ o Hv Hw eq_refl Rw).
  - intros j k v v' o'. rewrite !put_at_nth. destruct (Nat.eqb_spec j i) as [-> | N], (Nat.eqb_spec k i) as [-> | N']; auto.
    + rewrite Hw. cbn. intros E. injection E as <-. discriminate.
    + rewrite Hw. cbn. intros _ E. injection E as <-. discriminate.
    + apply D.
Qed.

Lemma oinv_step reg mr s e s' : cinv s -> oinv s -> cstep reg mr s e s' -> oinv s'.
Proof.
  intros (I & P) (N & O) ST. unfold oinv. destruct ST; try (split; [exact N|exact O]).
  - (* read *)
    rewrite H in I. destruct m as [openID sessID ok|sess0 code|w| |err|]; cbn [dispatch];
      try (split; [exact N|intros L; apply oi_log, O, L]; fail).
    + unfold handleOpenAck. cbn. destruct (find openID (c_pending s)) as [o|] eqn:Fo;
        [|split; [exact N|intros L; apply oi_log, O, L]].
      destruct (i_pen _ _ _ _ I _ _ (find_In _ _ _ Fo)) as (x & Hx & X1 & X2 & X3).
      destruct ok; cbn.
      * rewrite !put_at_len. split; auto. intros L. specialize (O L). pose proof O as [A B C D].
        pose proof (find_In _ _ _ Fo) as FI. pose proof (B _ _ FI) as Eo.
        assert (Q : oi (put_at (c_objs s) o close_ready) (del openID (c_pending s)) (c_log s) (c_openers s)).
        { apply oi_del; [|apply oi_put; auto with client]. intros o' x' IN. rewrite put_at_nth.
          apply B in IN. assert (o' = o) by lia. subst o'. rewrite Nat.eqb_refl, Hx. cbn. intros E. injection E as <-. reflexivity. }
        apply (oi_log _ _ _ (MOpenAck openID sessID true)) in Q. destruct Q as [A' B' C' D']. constructor; auto.
        -- intros o' x'. rewrite !put_at_nth. destruct (Nat.eqb_spec o' o) as [-> | No].
           ++ rewrite Hx. cbn. intros E. injection E as <-. unfold xok. cbn. rewrite app_length. cbn.
              split; [lia|]. split; auto. replace (length (c_log s) + 1 - 1)%nat with (length (c_log s)) by lia.
              rewrite nth_snoc, Nat.eqb_refl. subst. reflexivity.
           ++ intros Hx'. apply A'. rewrite put_at_nth. destruct (Nat.eqb_spec o' o); [congruence|auto].
        -- intros i v Hv. specialize (C' _ _ Hv). 
           assert (K : forall o' x', nth_error (put_at (c_objs s) o close_ready) o' = Some x' -> exists x'',
              nth_error (put_at (put_at (c_objs s) o (accept sessID (length (c_log s ++ [MOpenAck openID sessID true])))) o close_ready) o' = Some x'' /\
              so_ready x'' = so_ready x' /\ (o' <> o -> so_id x'' = so_id x')).
           { intros o' x'. rewrite !put_at_nth. destruct (Nat.eqb_spec o' o) as [-> | No].
             - rewrite Hx. cbn. intros E. injection E as <-. eexists. split; eauto. cbn. split; auto. congruence.
             - intros Hx'. exists x'. auto. }
           destruct v as [|k o'|k o'|o'|]; cbn in *; auto.
           ++ destruct C' as (E & y & Hy & Q). split; auto. destruct (K _ _ Hy) as (z & Hz & E1 & E2). exists z. rewrite E1. auto.
           ++ destruct C' as (E & y & Hy & Q). split; auto. destruct (K _ _ Hy) as (z & Hz & E1 & E2). exists z. rewrite E1. auto.
           ++ destruct C' as (y & Hy & Q1 & Q2). destruct (K _ _ Hy) as (z & Hz & E1 & E2). exists z. rewrite E1. split; auto. split; auto.
              destruct (Nat.eq_dec o' o) as [-> | No].
              ** exfalso. rewrite put_at_nth, Nat.eqb_refl, Hx in Hy. cbn in Hy. injection Hy as <-. 
                 specialize (A _ _ Hx). unfold xok in A. rewrite X1 in A. cbn in Q2. auto.
              ** rewrite E2; auto.
      * match goal with |- context [checkDrained ?q] => 
          destruct (checkDrained_fields q) as (E1 & E2 & E3 & E4 & E6 & _ & _ & _ & E5 & E7 & _ & _ & E8 & _) end.
        cbn in E1, E2, E3, E4, E5, E6, E7, E8. rewrite E2, E5, E7, E8, !put_at_len. split; auto. intros L. specialize (O L).
        pose proof O as [A B C D]. apply oi_log. apply oi_put; auto with client.
        apply oi_del; [|apply oi_put; auto with client]. intros o' x' IN. rewrite put_at_nth.
        apply B in IN. pose proof (B _ _ (find_In _ _ _ Fo)) as Q. assert (o' = o) by lia. subst o'. rewrite Nat.eqb_refl, Hx. cbn. intros E. injection E as <-. reflexivity.
    + unfold handleClose. cbn -[del]. destruct (find sess0 (c_sessions s)) as [o|] eqn:Fo; [|split; [exact N|intros L; apply oi_log, O, L]].
      match goal with |- context [checkDrained ?q] => 
          destruct (checkDrained_fields q) as (E1 & E2 & E3 & E4 & E6 & _ & _ & _ & E5 & E7 & _ & _ & E8 & _) end.
      cbn -[del checkDrained] in *. rewrite E2, E5, E7, E8. split; auto. intros L. apply oi_log, O, L.
    + unfold handlePayload. cbn. destruct (find (wp_sess w) (c_sessions s)) as [o|]; [|split; [exact N|intros L; apply oi_log, O, L]].
      destruct (admit reg mr w) as [p|]; [|split; [exact N|intros L; apply oi_log, O, L]].
      cbn. rewrite put_at_len. split; auto. intros L. apply oi_put; auto with client. apply oi_log, O, L.
  - (* fatal close *)
    cbn. destruct (Close_fields s) as (_ & -> & _ & _ & -> & _ & _ & _ & _ & -> & _ & _ & -> & ->).
    destruct (c_closed s); auto. rewrite !upd_list_len. split; auto. intros L. do 2 (apply oi_upd; [auto with client|]). auto.
  - cbn. rewrite put_at_len. split; auto. intros L. apply oi_put; auto with client.
  - cbn. rewrite !put_at_len. split; auto. intros L. do 2 (apply oi_put; [auto with client|]). auto.
  - rewrite upd_all_eq. cbn. rewrite upd_list_len. split; auto. intros L. apply oi_upd; auto with client.
  - (* open *) cbn. split; auto. intros L. destruct (O L) as [A B C D]. constructor; auto.
    + intros i w. rewrite nth_snoc. destruct (Nat.eqb_spec i (length (c_openers s))); [|apply C]. intros E. injection E as <-. exact Logic.I.
    + intros i j w w' o. rewrite !nth_snoc. 
      destruct (Nat.eqb_spec i (length (c_openers s))), (Nat.eqb_spec j (length (c_openers s))); try lia.
      * intros E. injection E as <-. discriminate.
      * intros _ E. injection E as <-. discriminate.
      * apply D.
  - (* register *)
    unfold register. destruct (c_closed s || c_draining s); cbn.
    + split; auto. intros L. eapply (oi_opener _ _ _ _ _ _ OErr); eauto; cbn; auto; intros; discriminate.
    + rewrite app_length. cbn [length]. split.
      * rewrite N. rewrite Zplus_mod_idemp_l. f_equal. lia.
      * intros L. assert (L' : Z.of_nat (length (c_objs s)) < 2 ^ 32) by lia. specialize (O ltac:(lia)).
        assert (EN : c_next s = Z.of_nat (length (c_objs s))) by (rewrite N; apply Z.mod_small; lia). rewrite EN.
        destruct O as [A B C D].
        assert (W : forall o x, nth_error (c_objs s) o = Some x -> nth_error (c_objs s ++ [newSession]) o = Some x).
        { intros o x Hx. rewrite nth_error_app1; auto. apply nth_error_Some. congruence. }
        assert (LT : forall k o, In (k, o) (c_pending s) -> (o < length (c_objs s))%nat).
        { intros k o IN. destruct (i_pen _ _ _ _ I _ _ IN) as (x & Hx & _). apply nth_error_Some. congruence. }
        constructor.
        -- intros o x. rewrite nth_snoc. destruct (Nat.eqb_spec o (length (c_objs s))); [|apply A]. intros E. injection E as <-. reflexivity.
        -- intros k o IN. apply put_In in IN. destruct IN as [E|[IN _]]; [congruence|]. apply B; auto.
        -- intros j w. rewrite put_at_nth. destruct (Nat.eqb_spec j i) as [-> | Nj].
           ++ rewrite H. cbn. intros E. injection E as <-. cbn. split; auto. exists newSession. rewrite nth_snoc, Nat.eqb_refl. split; auto.
           ++ intros Hw. specialize (C _ _ Hw). destruct w as [|k o|k o|o|]; cbn -[put] in *; auto.
              ** destruct C as (E & x & Hx & Q). split; auto. exists x. split; auto. destruct Q; auto. left. apply put_In. right. split; auto. cbn.
                 apply LT in H0. lia.
              ** destruct C as (E & x & Hx & Q). split; auto. exists x. split; auto. destruct Q; auto. left. apply put_In. right. split; auto. cbn.
                 apply LT in H0. lia.
              ** destruct C as (x & Hx & Q). exists x. split; auto.
        -- assert (NR : forall j w, nth_error (c_openers s) j = Some w -> refs w = Some (length (c_objs s)) -> False).
           { intros j w Hw R. specialize (C _ _ Hw). 
             assert (exists x, nth_error (c_objs s) (length (c_objs s)) = Some x) as (x & Hx).
             { destruct w as [|k o|k o|o|]; cbn in R; try discriminate; injection R as ->; cbn in C.
               - destruct C as (_ & x & Hx & _); eauto.
               - destruct C as (_ & x & Hx & _); eauto.
               - destruct C as (x & Hx & _); eauto. }
             assert (nth_error (c_objs s) (length (c_objs s)) <> None) as Q by congruence. apply nth_error_Some in Q. lia. }
           intros j k w w' o. rewrite !put_at_nth. destruct (Nat.eqb_spec j i) as [-> | Nj], (Nat.eqb_spec k i) as [-> | Nk]; auto.
           ++ rewrite H. cbn. intros E. injection E as <-. cbn. intros Hw' E. injection E as <-. intros R. exfalso. eapply NR; eauto.
           ++ rewrite H. cbn. intros Hw E. injection E as <-. cbn. intros R E. injection E as <-. exfalso. eapply NR; eauto.
           ++ apply D.
  - (* sent *) cbn. split; auto. intros L. specialize (O L). eapply oi_opener; eauto. exact (o_op _ _ _ _ O _ _ H).
  - (* send failed *) cbn. split; auto. intros L. specialize (O L). eapply oi_abandon; eauto.
  - cbn. split; auto. intros L. specialize (O L). eapply oi_abandon; eauto.
  - cbn. split; auto. intros L. specialize (O L). eapply (oi_opener _ _ _ _ _ _ OErr); eauto; cbn; auto; intros; discriminate.
  - (* ready *) cbn. split; auto. intros L. specialize (O L). eapply oi_opener; eauto.
    + destruct (Z.eqb_spec (so_id x) 0); cbn; auto. exists x. auto.
    + destruct (Z.eqb_spec (so_id x) 0); cbn; auto. discriminate.
  - (* consume *) cbn. rewrite put_at_len. split; auto. intros L. apply oi_put; auto with client.
  - cbn. rewrite put_at_len. split; auto. intros L. apply oi_put; auto with client.
  - (* close *)
    destruct (Close_fields s) as (_ & -> & _ & _ & -> & _ & _ & _ & _ & -> & _ & _ & -> & ->).
    destruct (c_closed s); auto. rewrite !upd_list_len. split; auto. intros L. do 2 (apply oi_upd; [auto with client|]). auto.
  - (* graceful *) unfold startGraceful. destruct (c_closed s); [split; auto|].
    destruct (c_sessions s) eqn:ES; destruct (c_pending s) eqn:EP; cbn; rewrite ?EP; split; auto.
  - cbn. destruct (Close_fields s) as (_ & -> & _ & _ & -> & _ & _ & _ & _ & -> & _ & _ & -> & ->).
    destruct (c_closed s); auto. rewrite !upd_list_len. split; auto. intros L. do 2 (apply oi_upd; [auto with client|]). auto.
Qed.
Lemma oinv_run reg mr es s : crun reg mr New es s -> cinv s /\ oinv s.
Proof.
  intros R. remember New as s0 eqn:E. induction R; subst.
  - split; [apply cinv_new|]. split; [reflexivity|]. intros _. constructor; intros; try easy.
    + destruct o; discriminate.
    + destruct i; discriminate.
    + destruct i; discriminate.
  - destruct IHR; auto. split; [eapply cinv_step|eapply oinv_step]; eauto.
Qed.
