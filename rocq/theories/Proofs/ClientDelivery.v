(** Delivery: what a session's consumers receive is what the peer sent on it. *)
From Coq Require Import Lia List.
Import ListNotations.
From Verif.Model Require Import Base Compress Client.
From Verif.Spec Require Import Delivery.
From Verif.Proofs Require Import ClientProofs.
Open Scope list_scope. Open Scope Z_scope.


Section D.
Variable reg : creg.
Variable mr : Z.

Definition closes (sid : Z) (m : smsg) : bool := match m with MClose sid' _ => sid' =? sid | _ => false end.
Definition gives (sid : Z) (m : smsg) : list payload :=
  match m with MPayload w => if wp_sess w =? sid then owed reg mr w else [] | _ => [] end.
Lemma stream_snoc sid m : forall l,
  stream_on reg mr sid (l ++ [m]) = stream_on reg mr sid l ++ (if existsb (closes sid) l then [] else gives sid m).
Proof.
  induction l as [|a l IH]; cbn.
  - destruct m; cbn; auto; destruct (_ =? _); rewrite ?app_nil_r; auto.
  - destruct a; cbn; auto.
    + destruct (_ =? _); cbn; auto.
    + destruct (_ =? _); cbn; auto. rewrite IH, app_assoc. reflexivity.
Qed.
Lemma admit_owed w : owed reg mr w = match admit reg mr w with Some p => [p] | None => [] end.
Proof.
  unfold owed, admit. destruct (Decompress _ _ _); auto.
  destruct (Z.leb_spec mr 0), (Z.ltb_spec 0 mr); cbn; try lia; auto.
  destruct (Z.leb_spec (Z.of_nat (length a)) mr), (Z.ltb_spec mr (Z.of_nat (length a))); try lia; auto.
Qed.

Record dobj (ses : list (Z * nat)) (r : reader) (log : list smsg) (o : nat) (x : sess) : Prop := mkDobj {
  d_sub : subseq (so_out x ++ so_recv x ++ flight r o) (so_in x);
  d_eq : so_cancel x = false -> so_out x ++ so_recv x ++ flight r o = so_in x;
  d_none : so_start x = None -> so_in x = [];
  d_some : forall n, so_start x = Some n -> (n <= length log)%nat /\ In (so_id x) (accepted_ids (firstn n log)) /\
     (NoDup (accepted_ids log) ->
        so_in x = stream_on reg mr (so_id x) (skipn n log) /\
        (existsb (closes (so_id x)) (skipn n log) = false <-> In (so_id x, o) ses)) }.
Definition dinv (objs : list sess) ses r log := forall o x, nth_error objs o = Some x -> dobj ses r log o x.

Lemma subseq_refl {A} (l : list A) : subseq l l.
Proof. induction l; constructor; auto. Qed.
Lemma subseq_trans {A} (a b c : list A) : subseq a b -> subseq b c -> subseq a c.
Proof.
  intros H1 H2. revert a H1. induction H2 as [|x b c H IH|x b c H IH]; intros a H1; auto.
  - inversion H1; subst; constructor; auto.
  - constructor. auto.
Qed.
Lemma subseq_app_r {A} (a b : list A) x : subseq a b -> subseq (a ++ [x]) (b ++ [x]).
Proof. induction 1; cbn; constructor; auto. constructor. Qed.
Lemma subseq_drop {A} (a : list A) x : subseq a (a ++ [x]).
Proof. induction a; cbn; repeat constructor; auto. Qed.

Lemma dinv_keep objs objs' ses r r' log :
  (forall o x', nth_error objs' o = Some x' -> exists x, nth_error objs o = Some x /\
     so_id x' = so_id x /\ so_in x' = so_in x /\ so_out x' = so_out x /\ so_recv x' = so_recv x /\ so_start x' = so_start x /\
     (so_cancel x' = false -> so_cancel x = false)) ->
  (forall o, flight r' o = flight r o) ->
  dinv objs ses r log -> dinv objs' ses r' log.
Proof.
  intros K FR D o x' Hx'. destruct (K _ _ Hx') as (x & Hx & E1 & E2 & E3 & E4 & E5 & E6).
  destruct (D o x Hx) as [A B C F]. constructor; rewrite ?E1, ?E2, ?E3, ?E4, ?E5, ?FR; auto.
Qed.
Definition same (f : sess -> sess) := forall x,
  so_id (f x) = so_id x /\ so_in (f x) = so_in x /\ so_out (f x) = so_out x /\ so_recv (f x) = so_recv x /\
  so_start (f x) = so_start x /\ (so_cancel (f x) = false -> so_cancel x = false).
Lemma dinv_put objs o f ses r log : same f -> dinv objs ses r log -> dinv (put_at objs o f) ses r log.
Proof.
  intros S. apply dinv_keep; auto. intros o' x'. rewrite put_at_nth. destruct (Nat.eqb o' o).
  - destruct (nth_error objs o') as [x|]; cbn; [|easy]. intros E. injection E as <-. exists x. split; [reflexivity|apply S].
  - intros E. exists x'. repeat split; auto.
Qed.
Lemma dinv_upd os f ses r log : same f -> forall objs, dinv objs ses r log -> dinv (upd_list objs os f) ses r log.
Proof. intros S. induction os as [|o os IH]; cbn; auto. intros objs D. apply IH, dinv_put; auto. Qed.
Lemma dinv_reader objs ses r r' log : (forall o, flight r' o = flight r o) -> dinv objs ses r log -> dinv objs ses r' log.
Proof. intros E. apply dinv_keep; auto. intros o x Hx. exists x. repeat split; auto. Qed.
Lemma same_sclose : same sclose. Proof. intros x; cbn; repeat split; auto; discriminate. Qed.
Lemma same_ready : same close_ready. Proof. intros x; cbn; repeat split; auto. Qed.
Lemma same_recv : same close_recv. Proof. intros x; cbn; repeat split; auto. Qed.
Lemma same_offer c : same (offer_close c). Proof. intros x; cbn; repeat split; auto. Qed.
Hint Resolve same_sclose same_ready same_recv same_offer : client.

Lemma accepted_snoc l m : accepted_ids (l ++ [m]) = accepted_ids l ++ match m with MOpenAck _ sid true => [sid] | _ => [] end.
Proof. unfold accepted_ids. rewrite flat_map_app. cbn. rewrite app_nil_r. reflexivity. Qed.
Lemma accepted_firstn l n : forall x, In x (accepted_ids (firstn n l)) -> In x (accepted_ids l).
Proof.
  intros x H. rewrite <- (firstn_skipn n l). unfold accepted_ids. rewrite flat_map_app. apply in_or_app. auto.
Qed.
Lemma NoDup_app_l {A} (l m : list A) : NoDup (l ++ m) -> NoDup l.
Proof. induction l; cbn; intros N; [constructor|]. inversion N; subst. constructor; auto. intros I. apply H1, in_or_app; auto. Qed.
Lemma existsb_snoc {A} (f : A -> bool) l m : existsb f (l ++ [m]) = (existsb f l || f m)%bool.
Proof. rewrite existsb_app. cbn. rewrite orb_false_r. reflexivity. Qed.

(** Reading a message that gives nothing to this session and keeps its membership. *)
Lemma dobj_log ses ses' r r' log m o x :
  dobj ses r log o x ->
  flight r' o = flight r o ->
  (so_start x <> None -> NoDup (accepted_ids (log ++ [m])) ->
     (existsb (closes (so_id x)) (skipn (match so_start x with Some n => n | None => O end) log) = false -> gives (so_id x) m = []) /\
     (In (so_id x, o) ses' <-> In (so_id x, o) ses /\ closes (so_id x) m = false)) ->
  dobj ses' r' (log ++ [m]) o x.
Proof.
  intros [A B C D] FR M. constructor; rewrite ?FR; auto.
  intros n Hn. destruct (D n Hn) as (L & IA & E). rewrite Hn in M. split; [rewrite app_length; lia|].
  rewrite firstn_app, skipn_app. replace (n - length log)%nat with O by lia. cbn [firstn skipn]. rewrite app_nil_r.
  split; auto. intros ND. destruct M as (M1 & M2); auto; [discriminate|].
  destruct E as (E1 & E2). { rewrite accepted_snoc in ND. apply NoDup_app_l in ND. auto. }
  rewrite stream_snoc, existsb_snoc, M2, <- E2. split.
  - rewrite E1. destruct (existsb _ _); [rewrite app_nil_r; auto|]. rewrite M1; auto. rewrite app_nil_r. auto.
  - destruct (existsb _ _), (closes _ _); cbn; intuition congruence.
Qed.

Definition cd s := cinv s /\ dinv (c_objs s) (c_sessions s) (c_reader s) (c_log s).

Lemma cd_Close s : dinv (c_objs s) (c_sessions s) (c_reader s) (c_log s) ->
  dinv (c_objs (Close s)) (c_sessions (Close s)) (c_reader (Close s)) (c_log (Close s)).
Proof.
  intros D. destruct (Close_fields s) as (-> & _ & -> & _ & -> & _ & _ & _ & _ & _ & _ & _ & _ & ->).
  destruct (c_closed s); auto. do 2 (apply dinv_upd; [auto with client|]). auto.
Qed.

Lemma dinv_read s m :
  cinv s -> c_reader s = RTop -> dinv (c_objs s) (c_sessions s) RTop (c_log s) ->
  let s' := with_log (dispatch reg mr (with_log s (c_log s ++ [m])) m) (c_log s ++ [m]) in
  dinv (c_objs s') (c_sessions s') (c_reader s') (c_log s').
Proof.
  intros (I & P) R D. rewrite R in I. set (log := c_log s) in *. cbn zeta.
  assert (Idle : gives = gives -> forall (Gm : forall k, gives k m = []) (Cm : forall k, closes k m = false),
            dinv (c_objs s) (c_sessions s) RTop (log ++ [m])).
  { intros _ Gm Cm o x Hx. apply (dobj_log (c_sessions s) (c_sessions s) RTop RTop); auto. intros _ _. split; auto.
    rewrite Cm. tauto. }
  destruct m as [openID sessID ok|sid code|w| |err|]; cbn [dispatch].
  - unfold handleOpenAck. cbn. destruct (find openID (c_pending s)) as [o|] eqn:Fo.
    2:{ cbn. rewrite R. apply Idle; auto. }
    destruct (i_pen _ _ _ _ I _ _ (find_In _ _ _ Fo)) as (x & Hx & X1 & X2 & X3).
    destruct ok; cbn.
    + rewrite R. apply dinv_put; [auto with client|]. intros o' x'. rewrite put_at_nth.
      destruct (Nat.eqb_spec o' o) as [-> | No].
      * rewrite Hx. cbn. intros E. injection E as <-. destruct (D _ _ Hx) as [A B C F].
        constructor; cbn; auto.
        -- intros n E. injection E as <-. fold log. rewrite app_length. cbn.
           replace (length log + 1)%nat with (length (log ++ [MOpenAck openID sessID true])) by (rewrite app_length; reflexivity).
           rewrite firstn_all, skipn_all. split; [lia|]. split.
           ++ rewrite accepted_snoc. apply in_or_app. right. left. auto.
           ++ intros _. cbn. split; [apply C; auto|]. split; auto.
      * intros Hx'. apply (dobj_log (c_sessions s) _ RTop RTop); [apply D; auto|auto|].
        intros ST ND. split; auto. cbn. rewrite del_In. cbn. split.
        -- intros [E|[E1 E2]]; [injection E as E1 E2; congruence|auto].
        -- intros [E1 _]. right. split; auto. intros E. 
           destruct (D _ _ Hx') as [_ _ _ F]. destruct (so_start x') as [n|]; [|congruence].
           destruct (F n eq_refl) as (_ & IA & _). rewrite accepted_snoc in ND.
           apply (NoDup_remove_2 (accepted_ids log) [] sessID) in ND. apply ND. rewrite app_nil_r. rewrite <- E.
           eapply accepted_firstn; eauto.
    + match goal with |- context [checkDrained ?q] => 
          destruct (checkDrained_fields q) as (E1 & E2 & E3 & E4 & _ & _ & _ & _ & E5 & _) end.
      cbn in E1, E2, E3, E4, E5. rewrite E1, E3, E5, R. do 2 (apply dinv_put; [auto with client|]). apply Idle; auto.
  - unfold handleClose. cbn -[del]. destruct (find sid (c_sessions s)) as [o|] eqn:Fo.
    + match goal with |- context [checkDrained ?q] => 
          destruct (checkDrained_fields q) as (E1 & E2 & E3 & E4 & _ & _ & _ & _ & E5 & _) end.
      cbn -[del] in E1, E2, E3, E4, E5. cbn -[del checkDrained]. rewrite E1, E5.
      intros o' x' Hx'. apply (dobj_log (c_sessions s) _ RTop); [apply D; auto|auto|]. intros _ _. split; auto. rewrite del_In. cbn.
      destruct (Z.eqb_spec sid (so_id x')); intuition congruence.
    + cbn. rewrite R. intros o' x' Hx'. apply (dobj_log (c_sessions s) _ RTop RTop); [apply D; auto|auto|]. intros _ _. split; auto.
      cbn. split; [|tauto]. intros IN. split; auto.
      destruct (Z.eqb_spec sid (so_id x')); auto. subst sid. exfalso.
      rewrite (find_NoDup _ _ o' (i_ndsk _ _ _ _ I)) in Fo; [discriminate|auto].
  - unfold handlePayload. cbn. 
    assert (OTH : forall o' x', nth_error (c_objs s) o' = Some x' -> 
        (forall o, find (wp_sess w) (c_sessions s) = Some o -> o' = o -> admit reg mr w = None) ->
        forall r', flight r' o' = [] -> dobj (c_sessions s) r' (log ++ [MPayload w]) o' x').
    { intros o' x' Hx' NO r' Fr. apply (dobj_log (c_sessions s) _ RTop); [apply D; auto|auto|]. intros ST ND. split; [|cbn; tauto].
      intros OP. cbn. destruct (Z.eqb_spec (wp_sess w) (so_id x')); auto. rewrite admit_owed.
      destruct (D _ _ Hx') as [_ _ _ F]. destruct (so_start x') as [n|]; [|congruence].
      destruct (F n eq_refl) as (_ & IA & Q). destruct Q as (_ & Q). { rewrite accepted_snoc, app_nil_r in ND. auto. }
      apply Q in OP. rewrite (NO o'); auto. rewrite e. apply find_NoDup; auto. apply (i_ndsk _ _ _ _ I). }
    destruct (find (wp_sess w) (c_sessions s)) as [o|] eqn:Fo.
    2:{ cbn. rewrite R. intros o' x' Hx'. apply OTH; auto. intros o E; discriminate. }
    destruct (admit reg mr w) as [p|] eqn:Ad.
    2:{ cbn. rewrite R. intros o' x' Hx'. apply OTH; auto. }
    cbn. intros o' x'. rewrite put_at_nth. destruct (Nat.eqb_spec o' o) as [-> | No].
    + destruct (nth_error (c_objs s) o) as [x|] eqn:Hx; cbn; [|discriminate]. intros E. injection E as <-.
      destruct (i_ses _ _ _ _ I _ _ (find_In _ _ _ Fo)) as (y & Hy & Y1 & _ & Y2).
      rewrite Hx in Hy. injection Hy as <-.
      destruct (D _ _ Hx) as [A B C F]. cbn in A, B. rewrite app_nil_r in A, B.
      constructor; cbn; rewrite ?Nat.eqb_refl.
      * rewrite app_assoc. apply subseq_app_r; auto.
      * intros E. rewrite app_assoc. rewrite B; auto.
      * intros E; congruence.
      * intros n En. destruct (F n En) as (L & IA & Q). fold log. rewrite app_length. cbn. split; [lia|].
        rewrite firstn_app, skipn_app. replace (n - length log)%nat with O by lia. cbn [firstn skipn]. rewrite app_nil_r.
        split; auto. intros ND. rewrite accepted_snoc, app_nil_r in ND. destruct (Q ND) as (Q1 & Q2).
        rewrite stream_snoc, existsb_snoc. cbn [closes gives]. rewrite orb_false_r.
        assert (IN : In (so_id x, o) (c_sessions s)) by (rewrite Y2; apply find_In; auto).
        rewrite (proj2 Q2 IN). split; [|tauto].
        rewrite Y2, Z.eqb_refl, admit_owed, Ad, Q1, Y2. reflexivity.
    + intros Hx'. apply OTH; auto.
      * intros o2 E1 E2. congruence.
      * cbn. destruct (Nat.eqb_spec o' o); congruence.
  - cbn. rewrite R. apply Idle; auto.
  - cbn. apply (dinv_reader _ _ RTop); auto.
  - cbn. rewrite R. apply Idle; auto.
Qed.

Lemma dinv_put_keep objs o f ses r r' log :
  (forall x, nth_error objs o = Some x -> dobj ses r log o x -> dobj ses r' log o (f x)) ->
  (forall o', o' <> o -> flight r' o' = flight r o') ->
  dinv objs ses r log -> dinv (put_at objs o f) ses r' log.
Proof.
  intros K FR D o' x'. rewrite put_at_nth. destruct (Nat.eqb_spec o' o) as [-> | No].
  - destruct (nth_error objs o) as [x|] eqn:Hx; cbn; [|easy]. intros E. injection E as <-. apply K; auto.
  - intros Hx. destruct (D _ _ Hx) as [A B C F]. constructor; rewrite ?FR; auto.
Qed.

Lemma cd_step s e s' : cd s -> cstep reg mr s e s' -> cd s'.
Proof.
  intros (I & D) ST. split; [eapply cinv_step; eauto|]. destruct ST; try rewrite H in D; try (exact D); 
    try (apply (dinv_reader _ _ RTop); auto; fail).
  - apply dinv_read; auto.
  - rewrite <- H in D. apply cd_Close in D. cbn. apply (dinv_reader _ _ (c_reader (Close s))); [|auto].
    intros o. destruct (Close_fields s) as (_ & _ & -> & _). rewrite H. destruct x; reflexivity.
  - (* deliver *)
    cbn. apply (dinv_put_keep _ _ _ _ (RPayload o p)); [| |auto].
    + intros y Hy [A B C F]. constructor; cbn in *; rewrite ?Nat.eqb_refl in *; rewrite ?app_nil_r; auto.
    + intros o' No. cbn. destruct (Nat.eqb_spec o' o); congruence.
  - (* drop *)
    cbn. intros o' x' Hx'. destruct (D _ _ Hx') as [A B C F]. cbn in *. destruct (Nat.eqb_spec o' o) as [-> | No].
    + assert (x' = x) by congruence. subst x'. constructor; cbn; rewrite ?app_nil_r; auto.
      * eapply subseq_trans; [|exact A]. rewrite app_assoc. apply subseq_drop.
      * congruence.
    + constructor; cbn; auto.
  - (* closeobj *)
    cbn. do 2 (apply dinv_put; [auto with client|]). apply (dinv_reader _ _ (RClose o code)); auto.
  - (* exit *)
    rewrite upd_all_eq. cbn. apply dinv_upd; [auto with client|]. apply (dinv_reader _ _ RExit); auto.
  - (* register *)
    unfold register. destruct (_ || _); [exact D|]. cbn. intros o x. rewrite nth_snoc.
    destruct (Nat.eqb_spec o (length (c_objs s))) as [-> | No]; [|apply D].
    intros E. injection E as <-.
    assert (FL : flight (c_reader s) (length (c_objs s)) = []).
    { destruct (c_reader s) eqn:R; auto. cbn. destruct (Nat.eqb_spec (length (c_objs s)) o) as [E|]; auto. exfalso.
      destruct I as (I & _). rewrite R in I. pose proof (i_rdr _ _ _ _ I) as Q. cbn in Q. apply in_map_iff in Q.
      destruct Q as ([k o'] & Eo & Q). cbn in Eo. subst o'. destruct (i_ses _ _ _ _ I _ _ Q) as (y & Hy & _).
      assert (nth_error (c_objs s) o <> None) as Z by congruence. apply nth_error_Some in Z. lia. }
    constructor; cbn; rewrite ?FL; auto; try discriminate. constructor.
  - (* consume *)
    cbn. apply (dinv_put_keep _ _ _ _ (c_reader s)); [|auto|auto]. intros y Hy [A B C F].
    rewrite H in Hy. injection Hy as <-. rewrite H0 in *. constructor; cbn; rewrite ?H0; cbn; rewrite <- ?app_assoc; auto.
  - (* user close *) cbn. apply dinv_put; auto with client.
  - apply cd_Close. auto.
  - unfold startGraceful. destruct (c_closed s); [exact D|].
    destruct (c_sessions s) eqn:ES; destruct (c_pending s) eqn:EP; cbn; rewrite ?ES; exact D.
  - cbn. apply cd_Close. auto.
Qed.
Lemma cd_run es s : crun reg mr New es s -> cd s.
Proof.
  intros R. remember New as s0 eqn:E. induction R; subst.
  - split; [apply cinv_new|]. intros [|o] x; discriminate.
  - eapply cd_step; eauto.
Qed.
End D.
