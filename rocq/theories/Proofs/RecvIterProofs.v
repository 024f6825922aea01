(** Invariants of the receive loop of Model/RecvIter.v. *)
From Coq Require Import Lia List.
Import ListNotations.
From Verif.Model Require Import Base Compress Client RecvIter.
From Verif.Spec Require Import Delivery.
From Verif.Proofs Require Import ClientProofs ClientDelivery ClientEnds.
Open Scope list_scope. Open Scope Z_scope.

(** How a session object evolves. *)
Record le (x y : sess) : Prop := mkLe {
  le_start : so_start x <> None -> so_start y = so_start x /\ so_id y = so_id x;
  le_closed : so_recv_closed x = true -> so_recv_closed y = true /\ so_close y = so_close x;
  le_recv : so_recv_closed x = true -> so_out y = so_out x -> so_recv y = so_recv x;
  le_close : forall c, so_close x = Some c -> so_close y = Some c;
  le_cancel : so_cancel x = true -> so_cancel y = true;
  le_out : (length (so_out x) <= length (so_out y))%nat }.
Lemma le_refl x : le x x.
Proof. constructor; auto. Qed.
Lemma le_trans x y z : le x y -> le y z -> so_recv_closed x = false \/ so_out y = so_out x \/ so_out z = so_out y -> le x z.
Proof.
  intros A B C. constructor.
  - intros S. destruct (le_start _ _ A S) as (E1 & E2). destruct (le_start _ _ B) as (E3 & E4); [congruence|]. split; congruence.
  - intros S. destruct (le_closed _ _ A S) as (E1 & E2). destruct (le_closed _ _ B E1) as (E3 & E4). split; congruence.
  - intros S E. destruct (le_closed _ _ A S) as (E1 & _). destruct C as [C|[C|C]]; [congruence| |].
    + rewrite (le_recv _ _ B); auto. apply (le_recv _ _ A); auto. congruence.
    + rewrite (le_recv _ _ B); auto. apply (le_recv _ _ A); auto. congruence.
  - intros c S. apply (le_close _ _ B), (le_close _ _ A); auto.
  - intros S. apply (le_cancel _ _ B), (le_cancel _ _ A); auto.
  - pose proof (le_out _ _ A). pose proof (le_out _ _ B). lia.
Qed.
Definition grows (l l' : list sess) : Prop := forall o x, nth_error l o = Some x -> exists y, nth_error l' o = Some y /\ le x y.
Lemma grows_refl l : grows l l.
Proof. intros o x H. exists x. split; auto. apply le_refl. Qed.
Lemma grows_put l i f : (forall x, nth_error l i = Some x -> le x (f x)) -> grows l (put_at l i f).
Proof.
  intros F o x H. rewrite put_at_nth. destruct (Nat.eqb_spec o i) as [-> | N].
  - rewrite H. cbn. eauto.
  - exists x. split; auto. apply le_refl.
Qed.
Lemma grows_upd f os : (forall x, le x (f x)) -> (forall x, f (f x) = f x) -> forall l, grows l (upd_list l os f).
Proof.
  intros F Id l o x H. rewrite (upd_list_nth _ Id). destruct (existsb _ _).
  - rewrite H. cbn. eauto.
  - exists x. split; auto. apply le_refl.
Qed.
Lemma le_sclose x : le x (sclose x). Proof. constructor; cbn; auto. Qed.
Lemma le_close_recv x : le x (close_recv x). Proof. constructor; cbn; auto. Qed.
Lemma le_close_ready x : le x (close_ready x). Proof. constructor; cbn; auto. Qed.
Lemma le_arrived p x : le x (arrived p x). Proof. constructor; cbn; auto. Qed.
#[global] Hint Resolve le_sclose le_close_recv le_close_ready le_arrived grows_refl : client.

Lemma grows_Close s : grows (c_objs s) (c_objs (Close s)).
Proof.
  destruct (Close_fields s) as (_ & _ & _ & _ & _ & _ & _ & _ & _ & _ & _ & _ & _ & ->). destruct (c_closed s); [apply grows_refl|].
  intros o x H. rewrite (upd_list_nth _ sclose_idem), (upd_list_nth _ sclose_idem), H.
  destruct (existsb _ _), (existsb _ _); cbn; eexists; split; eauto with client; try apply le_refl. constructor; cbn; auto.
Qed.

Section R.
Variable reg : creg.
Variable mr : Z.

Lemma grows_step s e s' : cinv s -> c_panic s' = false -> cstep reg mr s e s' -> grows (c_objs s) (c_objs s').
Proof.
  intros (I & P) P' ST. destruct ST; try apply grows_refl; try apply grows_Close.
  - destruct m as [oid sid ok|sid code|w| |err|]; cbn; try apply grows_refl.
    + unfold handleOpenAck. cbn. destruct (find oid (c_pending s)) as [o|] eqn:F; [|apply grows_refl].
      destruct (i_pen _ _ _ _ I _ _ (find_In _ _ _ F)) as (x & Hx & X1 & X2 & X3).
      destruct ok; cbn.
      * intros o' y Hy. rewrite !put_at_nth. destruct (Nat.eqb_spec o' o) as [-> | N].
        -- assert (y = x) by congruence. subst y. rewrite Hx. cbn. eexists. split; [reflexivity|].
           constructor; cbn; auto; congruence.
        -- exists y. split; auto. apply le_refl.
      * match goal with |- context [checkDrained ?q] => 
          destruct (checkDrained_fields q) as (E1 & E2 & E3 & E4 & _ & _ & _ & _ & E5 & _) end.
        cbn in E5. rewrite E5. intros o' y Hy. rewrite !put_at_nth. destruct (Nat.eqb_spec o' o) as [-> | N].
        -- rewrite Hy. cbn. eexists. split; [reflexivity|]. constructor; cbn; auto.
        -- exists y. split; auto. apply le_refl.
    + unfold handleClose. cbn. destruct (find sid (c_sessions s)) as [o|]; [|apply grows_refl]. cbn.
      match goal with |- context [checkDrained ?q] => 
          destruct (checkDrained_fields q) as (E1 & E2 & E3 & E4 & _ & _ & _ & _ & E5 & _) end.
      cbn in E5. rewrite E5. apply grows_refl.
    + unfold handlePayload. cbn. destruct (find _ _); [|apply grows_refl]. destruct (admit _ _ _); [|apply grows_refl].
      cbn. apply grows_put. auto with client.
  - (* deliver *)
    cbn in P' |- *. apply orb_false_iff in P'. destruct P' as (_ & P'). unfold recv_closed in P'.
    apply grows_put. intros y Hy. rewrite Hy in P'. constructor; cbn; auto; congruence.
  - (* closeobj *)
    cbn in P' |- *. apply orb_false_iff in P'. destruct P' as (_ & P'). unfold recv_closed in P'.
    intros o' y Hy. rewrite !put_at_nth. destruct (Nat.eqb_spec o' o) as [-> | N].
    + rewrite Hy in *. cbn. eexists. split; [reflexivity|]. constructor; cbn; auto; try congruence. intros c ->. auto.
    + exists y. split; auto. apply le_refl.
  - rewrite upd_all_eq. cbn. apply grows_upd; auto with client.
  - unfold register. destruct (_ || _); cbn; [apply grows_refl|]. intros o x Hx. rewrite nth_error_app1.
    + exists x. split; auto. apply le_refl.
    + apply nth_error_Some. congruence.
  - cbn. apply grows_put. intros y Hy. assert (y = x) by congruence. subst y. constructor; cbn; auto; rewrite ?H0.
    + intros _ Q. exfalso. apply (f_equal (@length _)) in Q. rewrite app_length in Q. cbn in Q. lia.
    + rewrite app_length. cbn. lia.
  - cbn. apply grows_put. auto with client.
  - unfold startGraceful. destruct (c_closed s); [apply grows_refl|]. destruct (c_sessions s), (c_pending s); apply grows_refl.
Qed.

Lemma lstep_client o s t s' t' : lstep o s t s' t' -> s' = s \/ cstep reg mr s EOther s'.
Proof. intros L. destruct L; auto. right. econstructor; eauto. Qed.
Lemma irun_client o s t : irun reg mr o s t -> exists es, crun reg mr New es s.
Proof.
  induction 1 as [|s t s' t' R (es & IH) ST]; eauto. destruct ST; eauto.
  - destruct (lstep_client _ _ _ _ _ H) as [-> | C]; eauto. eexists. eapply cr_step; eauto.
  - eexists. eapply cr_step; eauto.
Qed.

Lemma until_snoc l p : ~ has_end l ->
  until_end (l ++ [p]) = until_end l ++ (if p_end p then match p_data p with [] => [] | d => [d] end else [p_data p]).
Proof.
  induction l as [|a l IH]; intros N; cbn.
  - destruct (p_end p); auto.
  - destruct (p_end a) eqn:A; [exfalso; apply N; exists a; cbn; auto|]. rewrite IH; auto. intros (b & B & E). apply N. exists b. cbn. auto.
Qed.
Lemma until_ended l l' : has_end l -> until_end (l ++ l') = until_end l.
Proof.
  induction l as [|a l IH]; intros (p & I & E); [destruct I|]. cbn. destruct (p_end a) eqn:A; auto. f_equal. apply IH.
  destruct I as [-> | I]; [congruence|]. exists p. auto.
Qed.
Lemma has_end_app l l' : has_end (l ++ l') <-> has_end l \/ has_end l'.
Proof.
  unfold has_end. split.
  - intros (p & I & E). apply in_app_iff in I. destruct I; [left|right]; eauto.
  - intros [(p & I & E)|(p & I & E)]; exists p; split; auto; apply in_app_iff; auto.
Qed.

Definition report (c : option Z) : option Z := match c with Some c => if c =? 0 then None else Some c | None => None end.
Definition ended (x : sess) : Prop := so_recv_closed x = true /\ so_recv x = [].
Definition iok (x : sess) (t : riter) : Prop :=
  match ri_pc t with
  | ILoop => ~ has_end (so_out x) /\ ri_err t = None
  | IDrain => ~ has_end (so_out x) /\ ri_err t = None /\ ri_ctx t = true
  | ICheck => ri_err t = None /\ (has_end (so_out x) \/ ri_ctx t = true \/ ended x)
  | IDone true => ri_err t = None
  | IDone false => (ended x /\ ri_err t = report (so_close x)) \/
      ((has_end (so_out x) \/ ri_ctx t = true) /\ (ri_err t = None \/ ri_err t = report (so_close x)))
  end.
Definition iinv (o : nat) (s : client) (t : riter) : Prop :=
  exists x, nth_error (c_objs s) o = Some x /\ so_start x <> None /\ ri_yield t = until_end (so_out x) /\ iok x t.

Lemma iok_le x y t : le x y -> so_out y = so_out x -> iok x t -> iok y t.
Proof.
  intros L E. unfold iok, ended. rewrite E.
  assert (EN : ended x -> ended y /\ so_close y = so_close x).
  { intros (E1 & E2). destruct (le_closed _ _ L E1) as (C1 & C2). split; auto. split; auto. rewrite (le_recv _ _ L); auto. }
  destruct (ri_pc t) as [| | |[]]; auto.
  - intros (A & [B|[B|B]]); split; auto. right. right. apply EN. auto.
  - intros [(A & B)|(A & B)].
    + left. destruct (EN A) as (C & ->). auto.
    + right. split; auto. destruct B as [B|B]; auto. destruct (so_close x) eqn:C; cbn in B; auto.
      right. rewrite (le_close _ _ L _ C). auto.
Qed.

Ltac s3 := split; [auto|split; [auto|split; [auto|]]].
Lemma iinv_run o s t : irun reg mr o s t -> iinv o s t.
Proof.
  intros R. induction R as [es s x C Hx N O|s t s' t' R IH ST].
  - exists x. rewrite O. cbn. s3; auto. unfold iok. cbn. rewrite O. split; auto. intros (p & [] & _).
  - destruct (irun_client _ _ _ R) as (es & C). destruct (ce_run _ _ _ _ C) as ((CI & _) & _).
    destruct IH as (x & Hx & N & Y & K). destruct ST as [s t s' t' L|s t e s' L T|s t].
    + destruct L as [s t x' p q go PC Hx' Q|s t x' PC Hx' Q CL|s t PC CX|s t x' PC Hx' Q CL|s t x' PC Hx']; try (assert (x' = x) by congruence; subst x').
      * exists (dequeue p x). cbn. rewrite put_at_nth, Nat.eqb_refl, Hx. cbn. s3; auto.
        -- assert (NE : ~ has_end (so_out x)). { unfold iok in K. destruct PC as [PC|PC]; rewrite PC in K; apply K. }
           rewrite until_snoc; auto. unfold take. destruct (p_end p), (p_data p); cbn -[Z.of_nat]; rewrite ?app_nil_r, ?Y; auto;
             destruct go; cbn; rewrite ?Y; auto.
        -- assert (KK : ~ has_end (so_out x) /\ ri_err t = None /\ (ri_pc t = IDrain -> ri_ctx t = true)).
           { unfold iok in K. destruct PC as [PC|PC]; rewrite PC in K; [repeat split; try apply K; congruence|]. destruct K as (K1 & K2 & K3). auto. }
           destruct KK as (K1 & K2 & K3). unfold iok, take.
           assert (E1 : p_end p = true -> has_end (so_out x ++ [p])). { intros E. apply has_end_app. right. exists p. cbn. auto. }
           assert (E2 : p_end p = false -> ~ has_end (so_out x ++ [p])).
           { intros E H. apply has_end_app in H. destruct H as [H|(b & [<-|[]] & B)]; [auto|congruence]. }
           destruct (p_end p); cbn [andb].
           ++ destruct (_ =? _); cbn [at_pc ri_pc ri_err ri_ctx ri_yield]; [split; auto|]. destruct go; cbn; auto.
           ++ destruct go; cbn; auto. destruct PC as [PC|PC]; rewrite PC; auto.
      * exists x. s3; auto. unfold iok in K |- *. cbn. destruct PC as [PC|PC]; rewrite PC in K; split; try apply K;
          right; right; split; auto.
      * exists x. s3; auto. unfold iok in K |- *. cbn. rewrite PC in K. tauto.
      * exists x. s3; auto. unfold iok in K |- *. cbn. rewrite PC in K. tauto.
      * exists x. s3; auto. unfold iok in K |- *. cbn. rewrite PC in K. destruct K as (K1 & K2). rewrite K1.
        assert (E : match so_close x with Some c => if negb (c =? 0) then Some c else None | None => None end = report (so_close x)).
        { destruct (so_close x); cbn; auto. destruct (_ =? _); auto. }
        rewrite E. tauto.
    + assert (CI' : cinv s') by (eapply cinv_step; eauto).
      destruct (grows_step _ _ _ CI (proj2 CI') L _ _ Hx) as (y & Hy & G). exists y.
      assert (so_out y = so_out x). { unfold taken in T. rewrite Hx, Hy in T. cbn in T. congruence. }
      split; auto. split; [rewrite (proj1 (le_start _ _ G N)); auto|]. split; [congruence|]. eapply iok_le; eauto.
    + exists x. s3; auto. unfold iok in K |- *. cbn. destruct (ri_pc t) as [| | |[]]; tauto.
Qed.
End R.
