(** Delivery on the server's side. *)
From Coq Require Import Lia List.
Import ListNotations.
From Verif.Model Require Import Base Compress Client ServerConn.
From Verif.Spec Require Import Delivery.
From Verif.Proofs Require Import ClientProofs ClientDelivery ServerConnProofs.
Open Scope list_scope. Open Scope Z_scope.

Section D.
Variable reg : creg.
Variable mr : Z.

Definition ends (sid : Z) (m : cmsg) : bool := match m with CClose sid' => sid' =? sid | CCancel sid' _ => sid' =? sid | _ => false end.
Definition sgives (sid : Z) (m : cmsg) : list payload :=
  match m with CPayload w => if wp_sess w =? sid then owed reg mr w else [] | _ => [] end.
Lemma requests_snoc sid m : forall l,
  requests_on reg mr sid (l ++ [m]) = requests_on reg mr sid l ++ (if existsb (ends sid) l then [] else sgives sid m).
Proof.
  induction l as [|a l IH]; cbn.
  - destruct m; cbn; auto; destruct (_ =? _); rewrite ?app_nil_r; auto.
  - destruct a; cbn; auto.
    + destruct (_ =? _); cbn; auto.
    + destruct (_ =? _); cbn; auto. rewrite IH, app_assoc. reflexivity.
    + destruct (_ =? _); cbn; auto.
Qed.
Definition live (x : ssess) : Prop := ss_h x = HNot \/ ss_h x = HRun.
Record sdobj (n : nat) (ses : list (Z * nat)) (r : sreader) (log : list cmsg) (o : nat) (x : ssess) : Prop := mkSD {
  sd_sub : subseq (ss_out x ++ ss_recv x ++ held r o) (ss_in x);
  sd_eq : ss_cancel x = false -> ss_out x ++ ss_recv x ++ held r o = ss_in x;
  sd_len : (ss_start x <= length log)%nat;
  sd_in : Z.of_nat n < 2 ^ 32 -> live x -> 
     ss_in x = requests_on reg mr (ss_id x) (skipn (ss_start x) log) /\
     (existsb (ends (ss_id x)) (skipn (ss_start x) log) = false <-> In (ss_id x, o) ses) }.
Definition sdinv (n : nat) objs ses r log := forall o x, nth_error objs o = Some x -> sdobj n ses r log o x.
Definition sd (s : sconn) := sinv s /\ sdinv (length (v_objs s)) (v_objs s) (v_sessions s) (v_reader s) (v_log s).

Lemma sdinv_keep n n' objs objs' ses r r' log :
  (n <= n')%nat ->
  (forall o x', nth_error objs' o = Some x' -> exists x, nth_error objs o = Some x /\
     ss_id x' = ss_id x /\ ss_in x' = ss_in x /\ ss_out x' = ss_out x /\ ss_recv x' = ss_recv x /\ ss_start x' = ss_start x /\
     (ss_cancel x' = false -> ss_cancel x = false) /\ (live x' -> live x)) ->
  (forall o, held r' o = held r o) ->
  sdinv n objs ses r log -> sdinv n' objs' ses r' log.
Proof.
  intros L K FR D o x' Hx'. destruct (K _ _ Hx') as (x & Hx & E1 & E2 & E3 & E4 & E5 & E6 & E7).
  destruct (D o x Hx) as [A B C F]. constructor; rewrite ?E1, ?E2, ?E3, ?E4, ?E5, ?FR; auto.
  intros W LV. apply F; auto. lia.
Qed.
Lemma sdinv_same n objs objs' ses r r' log :
  (forall o x', nth_error objs' o = Some x' -> exists x, nth_error objs o = Some x /\
     ss_id x' = ss_id x /\ ss_in x' = ss_in x /\ ss_out x' = ss_out x /\ ss_recv x' = ss_recv x /\ ss_start x' = ss_start x /\
     (ss_cancel x' = false -> ss_cancel x = false) /\ (live x' -> live x)) ->
  (forall o, held r' o = held r o) ->
  sdinv n objs ses r log -> sdinv n objs' ses r' log.
Proof. apply sdinv_keep. lia. Qed.
Definition sync (f : ssess -> ssess) := forall x,
  ss_id (f x) = ss_id x /\ ss_in (f x) = ss_in x /\ ss_out (f x) = ss_out x /\ ss_recv (f x) = ss_recv x /\ ss_start (f x) = ss_start x /\
  (ss_cancel (f x) = false -> ss_cancel x = false) /\ (live (f x) -> live x).
Lemma sdinv_put n objs o f ses r log : sync f -> sdinv n objs ses r log -> sdinv n (put_at objs o f) ses r log.
Proof.
  intros S. apply sdinv_same; auto. intros o' x'. rewrite put_at_nth. destruct (Nat.eqb o' o).
  - destruct (nth_error objs o') as [x|]; cbn; [|easy]. intros E. injection E as <-. exists x. split; [reflexivity|apply S].
  - intros E. exists x'. repeat split; auto.
Qed.
Lemma sdinv_all n os f ses r log : sync f -> forall objs, sdinv n objs ses r log -> sdinv n (put_all objs os f) ses r log.
Proof. intros S. induction os as [|o os IH]; cbn; auto. intros objs D. apply IH, sdinv_put; auto. Qed.
Lemma sync_close : sync ss_close. Proof. intros x; cbn; repeat split; auto; discriminate. Qed.
Lemma sync_recv : sync ss_close_recv. Proof. intros x; cbn; repeat split; auto. Qed.
Lemma sync_done : sync (ss_to HDone). Proof. intros x; cbn; repeat split; auto. intros [E|E]; discriminate. Qed.
Hint Resolve sync_close sync_recv sync_done : client.
Lemma sdinv_reader n objs ses r r' log : (forall o, held r' o = held r o) -> sdinv n objs ses r log -> sdinv n objs ses r' log.
Proof. intros E. apply sdinv_same; auto. intros o x Hx. exists x. repeat split; auto. Qed.
Lemma sdinv_ses n objs ses ses' r log :
  (forall o x, nth_error objs o = Some x -> Z.of_nat n < 2 ^ 32 -> live x -> (In (ss_id x, o) ses' <-> In (ss_id x, o) ses)) ->
  sdinv n objs ses r log -> sdinv n objs ses' r log.
Proof.
  intros K D o x Hx. destruct (D o x Hx) as [A B C F]. constructor; auto. intros W L. rewrite (K _ _ Hx W L). auto.
Qed.

Lemma sdobj_log n ses ses' r r' log m o x :
  sdobj n ses r log o x ->
  held r' o = held r o ->
  (Z.of_nat n < 2 ^ 32 -> live x ->
     (existsb (ends (ss_id x)) (skipn (ss_start x) log) = false -> sgives (ss_id x) m = []) /\
     (In (ss_id x, o) ses' <-> In (ss_id x, o) ses /\ ends (ss_id x) m = false)) ->
  sdobj n ses' r' (log ++ [m]) o x.
Proof.
  intros [A B C D] FR M. constructor; rewrite ?FR; auto.
  - rewrite app_length. lia.
  - intros W L. destruct (D W L) as (D1 & D2). destruct (M W L) as (M1 & M2).
    rewrite skipn_app. replace (ss_start x - length log)%nat with O by lia. cbn [skipn].
    rewrite requests_snoc, existsb_snoc, M2, <- D2. split.
    + rewrite D1. destruct (existsb _ _); [rewrite app_nil_r; auto|]. rewrite M1; auto. rewrite app_nil_r. auto.
    + destruct (existsb (ends (ss_id x)) (skipn (ss_start x) log)), (ends (ss_id x) m); cbn; intuition congruence.
Qed.

Lemma sd_Close s : sdinv (length (v_objs s)) (v_objs s) (v_sessions s) (v_reader s) (v_log s) ->
  sdinv (length (v_objs (v_Close s))) (v_objs (v_Close s)) (v_sessions (v_Close s)) (v_reader (v_Close s)) (v_log (v_Close s)).
Proof.
  intros D. destruct (v_Close_fields s) as (-> & _ & -> & _ & -> & _ & _ & _ & _ & _ & _ & ->).
  destruct (v_closed s); auto. rewrite put_all_len. apply sdinv_all; auto with client.
Qed.
(** Without wrap-around, ids name sessions. *)
Lemma ids_inj s o x o' x' : sinv s -> Z.of_nat (length (v_objs s)) < 2 ^ 32 -> nth_error (v_objs s) o = Some x -> nth_error (v_objs s) o' = Some x' ->
  ss_id x = ss_id x' -> o = o'.
Proof.
  intros I W Hx Hx' E. rewrite (v_ids _ I _ _ Hx), (v_ids _ I _ _ Hx') in E.
  assert (nth_error (v_objs s) o <> None) as Q1 by congruence. apply nth_error_Some in Q1.
  assert (nth_error (v_objs s) o' <> None) as Q2 by congruence. apply nth_error_Some in Q2.
  rewrite !Z.mod_small in E by lia. lia.
Qed.

Lemma sd_remove s sid m c :
  sinv s -> v_reader s = VTop -> sdinv (length (v_objs s)) (v_objs s) (v_sessions s) VTop (v_log s) ->
  (forall k, ends k m = (sid =? k)) -> (forall k, sgives k m = []) ->
  let s' := v_with_log (v_remove (v_with_log s (v_log s ++ [m])) sid c) (v_log s ++ [m]) in
  sdinv (length (v_objs s')) (v_objs s') (v_sessions s') (v_reader s') (v_log s').
Proof.
  intros I R D Em Gm. cbn zeta. unfold v_remove. cbn -[del]. destruct (find sid (v_sessions s)) as [o|] eqn:Fo; cbn -[del].
  - intros o' x' Hx'. apply (sdobj_log _ (v_sessions s) _ VTop); [apply D; auto|auto|]. intros _ _. split; auto. rewrite del_In, Em. cbn.
    destruct (Z.eqb_spec sid (ss_id x')); intuition congruence.
  - rewrite R. intros o' x' Hx'. apply (sdobj_log _ (v_sessions s) _ VTop); [apply D; auto|auto|]. intros _ _. split; auto. rewrite Em.
    destruct (Z.eqb_spec sid (ss_id x')) as [E|]; [|intuition]. subst sid. split; [|intuition congruence]. intros IN. exfalso.
    rewrite (find_NoDup _ _ o' (v_ndk _ I)) in Fo; [discriminate|auto].
Qed.
Lemma sd_read s m :
  sinv s -> v_reader s = VTop -> sdinv (length (v_objs s)) (v_objs s) (v_sessions s) VTop (v_log s) ->
  let s' := v_with_log (v_dispatch reg mr (v_with_log s (v_log s ++ [m])) m) (v_log s ++ [m]) in
  sdinv (length (v_objs s')) (v_objs s') (v_sessions s') (v_reader s') (v_log s').
Proof.
  intros I R D. set (log := v_log s) in *. cbn zeta.
  assert (Idle : forall (Gm : forall k, sgives k m = []) (Cm : forall k, ends k m = false),
            sdinv (length (v_objs s)) (v_objs s) (v_sessions s) VTop (log ++ [m])).
  { intros Gm Cm o x Hx. apply (sdobj_log _ (v_sessions s) (v_sessions s) VTop VTop); auto. intros _ _. split; auto.
    rewrite Cm. tauto. }
  destruct m as [oid served|sid|w|sid req| |]; cbn [v_dispatch].
  - unfold v_handleOpen. cbn. destruct (v_draining s); [|destruct served]; cbn; rewrite ?R; try (apply Idle; auto; fail).
    apply (sdinv_reader _ _ _ VTop); auto.
  - apply sd_remove; auto.
  - unfold v_handlePayload. cbn.
    assert (OTH : forall o' x', nth_error (v_objs s) o' = Some x' -> 
        (forall o, find (wp_sess w) (v_sessions s) = Some o -> o' = o -> admit reg mr w = None) ->
        forall r', held r' o' = [] -> sdobj (length (v_objs s)) (v_sessions s) r' (log ++ [CPayload w]) o' x').
    { intros o' x' Hx' NO r' Fr. apply (sdobj_log _ (v_sessions s) _ VTop); [apply D; auto|auto|]. intros W LV. split; [|cbn; tauto].
      intros OP. cbn. destruct (Z.eqb_spec (wp_sess w) (ss_id x')); auto. rewrite admit_owed.
      destruct (D _ _ Hx') as [_ _ _ F]. destruct (F W LV) as (_ & Q).
      apply Q in OP. rewrite (NO o'); auto. rewrite e. apply find_NoDup; auto. apply (v_ndk _ I). }
    destruct (find (wp_sess w) (v_sessions s)) as [o|] eqn:Fo.
    2:{ cbn. rewrite R. intros o' x' Hx'. apply OTH; auto. intros o E; discriminate. }
    destruct (admit reg mr w) as [p|] eqn:Ad.
    2:{ cbn. rewrite R. intros o' x' Hx'. apply OTH; auto. }
    cbn. rewrite put_at_len. intros o' x'. rewrite put_at_nth. destruct (Nat.eqb_spec o' o) as [-> | No].
    + destruct (nth_error (v_objs s) o) as [x|] eqn:Hx; cbn; [|discriminate]. intros E. injection E as <-.
      destruct (v_ses _ I _ _ (find_In _ _ _ Fo)) as (y & Hy & Y2 & _).
      rewrite Hx in Hy. injection Hy as <-.
      destruct (D _ _ Hx) as [A B C F]. cbn in A, B. rewrite app_nil_r in A, B.
      constructor; cbn -[Z.pow]; rewrite ?Nat.eqb_refl.
      * rewrite app_assoc. apply subseq_app_r; auto.
      * intros E. rewrite app_assoc. rewrite B; auto.
      * fold log. rewrite app_length. fold log in C. lia.
      * intros W LV. destruct (F W LV) as (Q1 & Q2). fold log in C |- *.
        rewrite skipn_app. replace (ss_start x - length log)%nat with O by lia. cbn [skipn].
        rewrite requests_snoc, existsb_snoc. cbn [ends sgives]. rewrite orb_false_r.
        assert (IN : In (ss_id x, o) (v_sessions s)) by (rewrite Y2; apply find_In; auto).
        rewrite (proj2 Q2 IN). split; [|tauto].
        rewrite Y2, Z.eqb_refl, admit_owed, Ad, Q1, Y2. reflexivity.
    + intros Hx'. apply OTH; auto.
      * intros o2 E1 E2. congruence.
      * cbn. destruct (Nat.eqb_spec o' o); congruence.
  - apply sd_remove; auto.
  - cbn. rewrite R. apply Idle; auto.
  - cbn. rewrite R. apply Idle; auto.
Qed.
Lemma sdinv_put_keep n objs o f ses r r' log :
  (forall x, nth_error objs o = Some x -> sdobj n ses r log o x -> sdobj n ses r' log o (f x)) ->
  (forall o', o' <> o -> held r' o' = held r o') ->
  sdinv n objs ses r log -> sdinv n (put_at objs o f) ses r' log.
Proof.
  intros K FR D o' x'. rewrite put_at_nth. destruct (Nat.eqb_spec o' o) as [-> | No].
  - destruct (nth_error objs o) as [x|] eqn:Hx; cbn; [|easy]. intros E. injection E as <-. apply K; auto.
  - intros Hx. destruct (D _ _ Hx) as [A B C F]. constructor; rewrite ?FR; auto.
Qed.

Lemma sd_step s e s' : sd s -> sstep reg mr s e s' -> sd s'.
Proof.
  intros (I & D) ST. split; [eapply sinv_step; eauto|]. destruct ST; try (exact D);
    try (cbn; rewrite H in D; apply (sdinv_reader _ _ _ VTop); auto; fail).
  - (* fatal close *) apply sd_Close in D. destruct (v_Close_fields s) as (_ & _ & E3 & _). rewrite E3, H in D.
    cbn. apply (sdinv_reader _ _ _ VFatal); auto.
  - rewrite H in D. apply sd_read; auto.
  - (* create *)
    rewrite H in D. unfold v_create. destruct (v_draining s); [cbn; apply (sdinv_reader _ _ _ VOpen); auto|].
    cbn -[put Z.pow Z.modulo]. intros o x. rewrite nth_snoc.
    destruct (Nat.eqb_spec o (length (v_objs s))) as [-> | No].
    + intros E. injection E as <-. constructor; cbn -[put Z.pow Z.modulo]; auto.
      * constructor.
      * intros _ _. rewrite skipn_all. cbn. split; auto. split; auto.
    + intros Hx. destruct (D _ _ Hx) as [A B C F]. constructor; auto.
      rewrite app_length. cbn [length]. intros W LV. destruct F as (F1 & F2); auto; [lia|]. split; auto. rewrite F2.
      rewrite put_In. cbn. split; [|intros [E|[E _]]; [congruence|auto]]. intros IN. right. split; auto.
      rewrite (v_ids _ I _ _ Hx), (v_nxt _ I). intros E.
      assert (nth_error (v_objs s) o <> None) as Q1 by congruence. apply nth_error_Some in Q1.
      rewrite !Z.mod_small in E by lia. lia.
  - (* submit *) rewrite H in D. cbn. apply (sdinv_reader _ _ _ (VSubmit o)); auto.
  - (* deliver *)
    rewrite H in D. cbn. rewrite put_at_len. apply (sdinv_put_keep _ _ _ _ _ (VPayload o p)); [| |auto].
    + intros y Hy [A B C F]. constructor; cbn in *; rewrite ?Nat.eqb_refl in *; rewrite ?app_nil_r; auto.
    + intros o' No. cbn. destruct (Nat.eqb_spec o' o); congruence.
  - (* drop *)
    rewrite H in D. cbn. intros o' x' Hx'. destruct (D _ _ Hx') as [A B C F]. cbn in *. destruct (Nat.eqb_spec o' o) as [-> | No].
    + assert (x' = x) by congruence. subst x'. constructor; cbn; rewrite ?app_nil_r; auto.
      * eapply subseq_trans; [|exact A]. rewrite app_assoc. apply subseq_drop.
      * congruence.
    + constructor; cbn; auto.
  - (* close channel *)
    rewrite H in D. cbn. rewrite !put_at_len. apply sdinv_put; [auto with client|]. apply sdinv_put.
    + destruct c; [auto with client|]. intros x; repeat split; auto.
    + apply (sdinv_reader _ _ _ (VClosing o c)); auto.
  - (* exit *)
    rewrite H in D. cbn. rewrite put_all_len. apply sdinv_all; [auto with client|]. apply (sdinv_reader _ _ _ VExit); auto.
  - (* start *)
    cbn. rewrite put_at_len. apply (sdinv_put_keep _ _ _ _ _ (v_reader s)); [|auto|auto]. intros y Hy [A B C F].
    constructor; auto. intros W _. apply F; auto. left. congruence.
  - (* consume *)
    cbn. rewrite put_at_len. apply (sdinv_put_keep _ _ _ _ _ (v_reader s)); [|auto|auto]. intros y Hy [A B C F].
    rewrite H in Hy. injection Hy as <-. rewrite H1 in *. constructor; cbn; rewrite ?H1; cbn; rewrite <- ?app_assoc; auto.
  - (* handler deletes *)
    cbn -[del]. rewrite put_at_len. apply (sdinv_ses _ _ (v_sessions s)).
    + intros o' x' Hx' W LV. rewrite put_at_nth in Hx'. rewrite del_In. cbn. split; [tauto|]. intros IN. split; auto. intros E.
      destruct (Nat.eqb_spec o' o) as [-> | No].
      * rewrite H in Hx'. cbn in Hx'. injection Hx' as <-. destruct LV as [LV|LV]; discriminate.
      * apply No. eapply ids_inj; eauto.
    + apply (sdinv_put_keep _ _ _ _ _ (v_reader s)); [|auto|auto]. intros y Hy [A B C F].
      constructor; auto. intros W [LV|LV]; discriminate.
  - (* done *)
    cbn. rewrite !put_at_len. do 2 (apply sdinv_put; [auto with client|]). auto.
  - apply sd_Close. auto.
  - cbn. apply sd_Close. auto.
Qed.
Lemma sd_run es s : srun reg mr newServerConn es s -> sd s.
Proof.
  intros R. remember newServerConn as s0 eqn:E. induction R; subst.
  - split; [apply sinv_new|]. intros [|o] x; discriminate.
  - eapply sd_step; eauto.
Qed.
End D.
