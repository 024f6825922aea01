(** Proofs for C148. *)
From Coq Require Import Lia List.
Import ListNotations.
From Verif.Model Require Import Base Compress Client ServerConn.
From Verif.Spec Require Import ServerClose.
From Verif.Proofs Require Import ClientProofs ServerConnProofs ServerDelivery ClientClose.
Open Scope list_scope. Open Scope Z_scope.

(** The handler has returned, or the session is cancelled. *)
Definition dying (x : ssess) : Prop := ss_h x = HDeleted \/ ss_cancel x = true.
(** [n]: the sessions made before the connection was closed. *)
Record J (n : nat) (cl : bool) (objs : list ssess) (ses : list (Z * nat)) (r : sreader) : Prop := mkJ {
  j_alive : forall o x, nth_error objs o = Some x -> alive x -> In o (map snd ses) \/ ss_recv_closed x = true \/ exists c, r = VClosing o c;
  j_done : r = VDone -> forall o x, In o (map snd ses) -> nth_error objs o = Some x -> ss_recv_closed x = true;
  j_can : cl = true -> forall o x, (o < n)%nat -> In o (map snd ses) -> nth_error objs o = Some x -> ss_cancel x = true;
  j_hold : forall o p, r = VPayload o p -> exists x, nth_error objs o = Some x /\ (In o (map snd ses) \/ dying x) }.
Definition Jst n s := J n (v_closed s) (v_objs s) (v_sessions s) (v_reader s).

Definition grows (x y : ssess) : Prop :=
  (alive y -> alive x) /\ (ss_recv_closed x = true -> ss_recv_closed y = true) /\ (ss_cancel x = true -> ss_cancel y = true) /\ (dying x -> dying y).
Lemma J_put n cl objs o f ses r : (forall x, nth_error objs o = Some x -> grows x (f x)) -> J n cl objs ses r -> J n cl (put_at objs o f) ses r.
Proof.
  intros M [A D C H].
  assert (P : forall o' x', nth_error (put_at objs o f) o' = Some x' -> exists x, nth_error objs o' = Some x /\ grows x x').
  { intros o' x'. rewrite put_at_nth. destruct (Nat.eqb_spec o' o) as [-> | N]; [|intros E; exists x'; split; [exact E|unfold grows; tauto]].
    destruct (nth_error objs o) as [x|] eqn:E; cbn; [|discriminate]. intros Q. injection Q as <-. exists x. split; [reflexivity|apply M; reflexivity]. }
  constructor.
  - intros o' x' Hx' L. destruct (P _ _ Hx') as (x & Hx & P1 & P2 & P3 & _). destruct (A _ _ Hx (P1 L)) as [Q|[Q|Q]]; auto.
  - intros E o' x' I Hx'. destruct (P _ _ Hx') as (x & Hx & P1 & P2 & P3 & _). eauto.
  - intros E o' x' N I Hx'. destruct (P _ _ Hx') as (x & Hx & P1 & P2 & P3 & _). eauto.
  - intros o' p E. destruct (H _ _ E) as (x & Hx & Q). rewrite put_at_nth. destruct (Nat.eqb_spec o' o) as [-> | N]; [|eauto].
    rewrite Hx. cbn. exists (f x). split; [reflexivity|]. destruct Q as [Q|Q]; auto. right. apply (M _ Hx), Q.
Qed.
Lemma J_all n cl os f ses r : (forall x, grows x (f x)) -> forall objs, J n cl objs ses r -> J n cl (put_all objs os f) ses r.
Proof. intros M. induction os as [|o os IH]; cbn; auto. intros objs K. apply IH, J_put; auto. Qed.
(** Another place of the reader, without a session in its hands. *)
Definition idle (r : sreader) : Prop := match r with VPayload _ _ | VClosing _ _ | VDone => False | _ => True end.
Lemma J_reader n cl objs ses r r' : (forall o c, r <> VClosing o c) -> idle r' -> J n cl objs ses r -> J n cl objs ses r'.
Proof.
  intros N W [A D C H]. constructor; auto.
  - intros o x Hx L. destruct (A _ _ Hx L) as [Q|[Q|(c & Q)]]; auto. exfalso. eapply N; eauto.
  - intros E. rewrite E in W. destruct W.
  - intros o p E. rewrite E in W. destruct W.
Qed.
Ltac gr := repeat split; cbn; unfold alive, dying; cbn; intuition (auto; congruence).
Lemma g_close x : grows x (ss_close x). Proof. gr. Qed.
Lemma g_recv x : grows x (ss_close_recv x). Proof. gr. Qed.
Lemma g_arrived p x : grows x (ss_arrived p x). Proof. gr. Qed.
Lemma g_enq p x : grows x (ss_enqueue p x). Proof. gr. Qed.
Lemma g_deq p x : grows x (ss_dequeue p x). Proof. gr. Qed.
Lemma g_deleted x : grows x (ss_to HDeleted x). Proof. gr. Qed.
Lemma g_done x : ss_cancel x = true -> grows x (ss_to HDone x). Proof. gr. Qed.
Lemma g_start x : ss_h x = HNot -> grows x (ss_to HRun x). Proof. gr. Qed.
#[local] Hint Resolve g_close g_recv g_arrived g_enq g_deq g_deleted : client.

Lemma J_same_Close n s : v_closed s = true \/ n = 0%nat -> Jst n s -> Jst n (v_Close s).
Proof.
  intros N K. unfold Jst in *. destruct (v_Close_fields s) as (-> & _ & -> & _ & _ & _ & _ & _ & _ & _ & -> & ->).
  destruct (v_closed s) eqn:C; [exact K|]. destruct N as [N| ->]; [discriminate|].
  apply (J_all _ _ (map snd (v_sessions s)) _ _ _ g_close) in K. destruct K as [A D _ H]. constructor; auto. intros; lia.
Qed.
(** The moment of Close. *)
Lemma J_at_Close s n : v_closed s = false -> Jst 0 s -> Jst n (v_Close s).
Proof.
  intros C K. unfold Jst in *. destruct (v_Close_fields s) as (-> & _ & -> & _ & _ & _ & _ & _ & _ & _ & -> & ->). rewrite C in *.
  assert (K2 := J_all _ _ (map snd (v_sessions s)) _ _ _ g_close _ K). destruct K2 as [A D _ H]. constructor; auto.
  intros _ o x _ Io. rewrite put_all_nth by reflexivity. rewrite (existsb_In _ _ Io). destruct (nth_error (v_objs s) o); cbn; [|discriminate].
  intros E. injection E as <-. reflexivity.
Qed.

Section Steps.
Variable reg : creg.
Variable mr : Z.
Lemma len_step s e s' : sstep reg mr s e s' -> (length (v_objs s) <= length (v_objs s'))%nat.
Proof.
  intros ST. destruct ST; cbn; rewrite ?put_at_len, ?put_all_len; auto; try (rewrite (proj2 (proj2 (proj2 (proj2 (proj2 (proj2 (proj2 (proj2 (proj2 (proj2 (proj2 (v_Close_fields s)))))))))))); destruct (v_closed s); rewrite ?put_all_len; auto).
  - destruct m as [oid served|sid|w|sid req| |]; cbn; auto.
    + unfold v_handleOpen. cbn. destruct (v_draining s), served; auto.
    + unfold v_remove. cbn. destruct (find _ _); auto.
    + unfold v_handlePayload. cbn. destruct (find _ _); auto. destruct (admit _ _ _); cbn; rewrite ?put_at_len; auto.
    + unfold v_remove. cbn. destruct (find _ _); auto.
  - unfold v_create. destruct (v_draining s); cbn; auto. rewrite app_length. lia.
Qed.
Lemma len_run s es s' : srun reg mr s es s' -> (length (v_objs s) <= length (v_objs s'))%nat.
Proof. induction 1 as [|s es s1 e s2 R IH ST]; [lia|]. apply len_step in ST. lia. Qed.
Lemma closed_mono s e s' : sstep reg mr s e s' -> v_closed s = true -> v_closed s' = true.
Proof.
  intros ST C. destruct ST; cbn; auto; try (unfold v_Close; rewrite C; exact C).
  - destruct m as [oid served|sid|w|sid req| |]; cbn; auto.
    + unfold v_handleOpen. cbn. destruct (v_draining s), served; auto.
    + unfold v_remove. cbn. destruct (find _ _); auto.
    + unfold v_handlePayload. cbn. destruct (find _ _); auto. destruct (admit _ _ _); auto.
    + unfold v_remove. cbn. destruct (find _ _); auto.
  - unfold v_create. destruct (v_draining s); auto.
Qed.
Lemma J_remove n s sid c m : sinv s -> v_reader s = VTop -> Jst n s -> Jst n (v_with_log (v_remove (v_with_log s (v_log s ++ [m])) sid c) (v_log s ++ [m])).
Proof.
  intros I RT K. unfold Jst in *. unfold v_remove. cbn. destruct (find sid (v_sessions s)) as [o|] eqn:F; [|exact K]. cbn.
  rewrite RT in K. destruct K as [A D C H]. constructor.
  - intros o' x Hx L. destruct (Nat.eq_dec o' o) as [-> | N]; [right; right; eauto|].
    destruct (A _ _ Hx L) as [Q|[Q|(c' & Q)]]; auto; [|discriminate]. left.
    apply in_map_iff in Q. destruct Q as ([k o2] & E & Q). cbn in E. subst o2. apply in_map_iff. exists (k, o'). split; [reflexivity|]. apply del_In. split; [exact Q|].
    cbn. intros ->. rewrite (find_NoDup _ _ _ (v_ndk _ I) Q) in F. congruence.
  - discriminate.
  - intros E o' x N Q. apply (C E _ _ N). eapply del_snd; eauto.
  - discriminate.
Qed.
Lemma J_step n s e s' : (v_closed s = true \/ n = 0%nat) -> (n <= length (v_objs s))%nat -> sinv s -> few s' -> Jst n s -> sstep reg mr s e s' -> Jst n s'.
Proof.
  intros N NL I W K ST. pose proof (len_step _ _ _ ST) as LN. unfold few in W. destruct ST.
  - refine (J_reader _ _ _ _ _ _ _ _ K); [congruence|exact Logic.I].
  - refine (J_reader _ _ _ _ _ _ _ _ K); [congruence|exact Logic.I].
  - apply (J_same_Close _ _ N) in K. refine (J_reader _ _ _ _ _ _ _ _ K); [|exact Logic.I]. destruct (v_Close_fields s) as (_ & _ & -> & _). congruence.
  - destruct m as [oid served|sid|w|sid req| |]; cbn [v_dispatch]; try exact K.
    + unfold v_handleOpen. cbn. destruct (v_draining s); [exact K|]. destruct served; [|exact K]. refine (J_reader _ _ _ _ _ _ _ _ K); [congruence|exact Logic.I].
    + apply J_remove; auto.
    + unfold v_handlePayload. cbn. destruct (find _ _) as [o|] eqn:F; [|exact K]. destruct (admit _ _ _) as [p|]; [|exact K]. unfold Jst in *. cbn.
      apply J_put; [auto with client|]. rewrite H in K. destruct K as [A D C _]. constructor; auto.
      * intros o' x Hx L. destruct (A _ _ Hx L) as [Q|[Q|(c' & Q)]]; auto; discriminate.
      * discriminate.
      * intros o' p' E. injection E as <- <-. apply find_In in F. destruct (v_ses _ I _ _ F) as (x & Hx & _). exists x. split; [exact Hx|]. left. apply in_map_iff. exists (wp_sess w, o). auto.
    + apply J_remove; auto.
  - unfold v_create in *. destruct (v_draining s); [refine (J_reader _ _ _ _ _ _ _ _ K); [congruence|exact Logic.I]|].
    unfold Jst in *. cbn -[put Z.of_nat] in *. rewrite app_length in W. cbn [length] in W.
    assert (KEEP : forall o, In o (map snd (v_sessions s)) -> In o (map snd (put (v_next s) (length (v_objs s)) (v_sessions s)))).
    { intros o Q. apply in_map_iff in Q. destruct Q as ([k o2] & E & Q). cbn in E. subst o2. apply in_map_iff. exists (k, o). split; [reflexivity|].
      apply put_In. right. split; [exact Q|]. cbn. destruct (v_ses _ I _ _ Q) as (x & Hx & <- & _). rewrite (v_ids _ I _ _ Hx), (v_nxt _ I).
      assert (nth_error (v_objs s) o <> None) as Q1 by congruence. apply nth_error_Some in Q1.
      destruct (Z.eq_dec (Z.of_nat (S (length (v_objs s)))) (2 ^ 32)) as [E|E].
      - rewrite E, Z.mod_same by lia. rewrite Z.mod_small; lia.
      - rewrite !Z.mod_small by lia. lia. }
    rewrite H in K. destruct K as [A D C _]. constructor.
    + intros o x. rewrite nth_snoc. destruct (Nat.eqb_spec o (length (v_objs s))) as [-> | NE].
      * intros _ _. left. apply in_map_iff. exists (v_next s, length (v_objs s)). split; [reflexivity|]. apply put_In. auto.
      * intros Hx L. destruct (A _ _ Hx L) as [Q|[Q|(c' & Q)]]; [left; auto|auto|discriminate].
    + discriminate.
    + intros E o x NO Q. rewrite nth_snoc. destruct (Nat.eqb_spec o (length (v_objs s))) as [-> | NE]; [exfalso; lia|]. intros Hx.
      apply put_snd in Q. destruct Q as [Q|Q]; [congruence|]. eapply C; eauto.
    + discriminate.
  - refine (J_reader _ _ _ _ _ _ _ _ K); [congruence|exact Logic.I].
  - unfold Jst in *. cbn. apply J_put; [auto with client|]. refine (J_reader _ _ _ _ _ _ _ _ K); [congruence|exact Logic.I].
  - refine (J_reader _ _ _ _ _ _ _ _ K); [congruence|exact Logic.I].
  - unfold Jst in *. cbn. rewrite H in K.
    assert (K2 : J n (v_closed s) (put_at (put_at (v_objs s) o (if c then ss_close else fun x => x)) o ss_close_recv) (v_sessions s) (VClosing o c)).
    { apply J_put; [auto with client|]. apply J_put; [|exact K]. intros x _. destruct c; [apply g_close|unfold grows; tauto]. }
    destruct K2 as [A D C _]. constructor.
    + intros o' x Hx L. destruct (A _ _ Hx L) as [Q|[Q|(c' & Q)]]; auto. injection Q as <- <-. right. left.
      rewrite put_at_nth, Nat.eqb_refl in Hx. destruct (nth_error _ o); cbn in Hx; [|discriminate]. injection Hx as <-. reflexivity.
    + discriminate.
    + exact C.
    + discriminate.
  - unfold Jst in *. cbn. rewrite H in K.
    assert (K2 := J_all _ _ (map snd (v_sessions s)) _ _ _ g_recv _ K). destruct K2 as [A D C _]. constructor.
    + intros o' x Hx L. destruct (A _ _ Hx L) as [Q|[Q|(c' & Q)]]; auto. discriminate.
    + intros _ o x Io. rewrite put_all_nth by reflexivity. rewrite (existsb_In _ _ Io). destruct (nth_error (v_objs s) o); cbn; [|discriminate].
      intros E. injection E as <-. reflexivity.
    + exact C.
    + discriminate.
  - unfold Jst in *. cbn. apply J_put; [|exact K]. intros y Hy. assert (y = x) as -> by congruence. apply g_start; auto.
  - unfold Jst in *. cbn. apply J_put; [auto with client|exact K].
  - unfold Jst in *. cbn -[del].
    assert (K2 : J n (v_closed s) (put_at (v_objs s) o (ss_to HDeleted)) (v_sessions s) (v_reader s)) by (apply J_put; [auto with client|exact K]).
    assert (NL2 : nth_error (put_at (v_objs s) o (ss_to HDeleted)) o = Some (ss_to HDeleted x)) by (rewrite put_at_nth, Nat.eqb_refl, H; reflexivity).
    assert (KEEP : forall o', o' <> o -> In o' (map snd (v_sessions s)) -> In o' (map snd (del (ss_id x) (v_sessions s)))).
    { intros o' NE Q. apply in_map_iff in Q. destruct Q as ([k o2] & E & Q). cbn in E. subst o2. apply in_map_iff. exists (k, o'). split; [reflexivity|].
      apply del_In. split; [exact Q|]. cbn. intros ->. apply NE. destruct (v_ses _ I _ _ Q) as (y & Hy & E & _). eapply ids_inj; eauto. lia. }
    destruct K2 as [A D C G]. constructor.
    + intros o' y Hy L. destruct (Nat.eq_dec o' o) as [-> | NE].
      * rewrite NL2 in Hy. injection Hy as <-. destruct L as [L|L]; discriminate.
      * destruct (A _ _ Hy L) as [Q|[Q|(c' & Q)]]; auto.
        right. right. exists c'. exact Q.
    + intros E o' y Q. apply (D E). eapply del_snd; eauto.
    + intros E o' y NO Q. apply (C E _ _ NO). eapply del_snd; eauto.
    + intros o' p E. destruct (G _ _ E) as (y & Hy & Q). exists y. split; [exact Hy|]. destruct (Nat.eq_dec o' o) as [-> | NE].
      * rewrite NL2 in Hy. injection Hy as <-. right. left. reflexivity.
      * destruct Q as [Q|Q]; auto.
  - unfold Jst in *. cbn. apply J_put; [|apply J_put; [auto with client|exact K]]. intros y. rewrite put_at_nth, Nat.eqb_refl, H. cbn. intros E. injection E as <-. apply g_done. reflexivity.
  - apply J_same_Close; auto.
  - exact K.
  - exact K.
  - exact K.
  - exact K.
  - exact K.
  - exact K.
  - exact (J_same_Close _ _ N K).
Qed.
Lemma J_run n s es s' : (v_closed s = true \/ n = 0%nat) -> (n <= length (v_objs s))%nat -> sinv s -> few s' -> Jst n s -> srun reg mr s es s' -> Jst n s' /\ sinv s'.
Proof.
  intros C NL I W K R. revert C NL I W K.
  induction R as [|s es s1 e s2 R IH ST]; intros C NL I W K; [auto|].
  assert (W1 : few s1) by (unfold few in *; apply len_step in ST; lia).
  destruct (IH C NL I W1 K) as (K1 & I1). split; [|eapply sinv_step; eauto].
  assert (C1 : v_closed s1 = true \/ n = 0%nat).
  { destruct C as [C|C]; auto. left. clear - R C. induction R as [|s es s1 e s2 R IH ST]; auto. eapply closed_mono; eauto. }
  eapply J_step; eauto. pose proof (len_run _ _ _ R). lia.
Qed.
Lemma J_new : Jst 0 newServerConn.
Proof. constructor; cbn; try discriminate; try easy. intros [|o]; discriminate. Qed.
Lemma J_reached es s : srun reg mr newServerConn es s -> few s -> Jst 0 s /\ sinv s.
Proof. intros R W. apply (J_run 0 newServerConn es s); auto; [apply sinv_new|apply J_new]. Qed.

(** ** After the read loop *)
Lemma requests_end es s o x : srun reg mr newServerConn es s -> few s -> v_reader s = VDone -> nth_error (v_objs s) o = Some x -> alive x -> ss_recv_closed x = true.
Proof.
  intros R W E Hx L. destruct (J_reached _ _ R W) as (K & _). destruct (j_alive _ _ _ _ _ K _ _ Hx L) as [Q|[Q|(c & Q)]]; [|exact Q|congruence].
  exact (j_done _ _ _ _ _ K E _ _ Q Hx).
Qed.
(** ** After Close *)
Lemma after_close es s es' s' : srun reg mr newServerConn es s -> v_closed s = false -> srun reg mr (v_Close s) es' s' -> few s' -> Jst (length (v_objs s)) s' /\ sinv s'.
Proof.
  intros R C R' W. pose proof (v_Close_fields s) as F. destruct F as (_ & _ & _ & _ & _ & _ & _ & _ & _ & _ & C1 & E).
  assert (L : length (v_objs (v_Close s)) = length (v_objs s)) by (rewrite E, C, put_all_len; reflexivity).
  assert (W0 : few s) by (unfold few in *; apply len_run in R'; lia).
  destruct (J_reached _ _ R W0) as (K & I).
  apply (J_run (length (v_objs s)) (v_Close s) es' s'); auto; [rewrite L; lia|apply sinv_Close, I|apply J_at_Close; auto].
Qed.
Lemma all_told es s es' s' o x : srun reg mr newServerConn es s -> v_closed s = false -> srun reg mr (v_Close s) es' s' -> few s' ->
  (o < length (v_objs s))%nat -> nth_error (v_objs s') o = Some x -> alive x -> v_closed s' = true /\ told s' o x.
Proof.
  intros R C R' W NO Hx L. destruct (after_close _ _ _ _ R C R' W) as (K & I).
  assert (C' : v_closed s' = true).
  { assert (C0 : v_closed (v_Close s) = true) by (destruct (v_Close_fields s) as (_ & _ & _ & _ & _ & _ & _ & _ & _ & _ & -> & _); reflexivity).
    clear - R' C0. induction R' as [|s0 es s1 e s2 R IH ST]; auto. eapply closed_mono; eauto. }
  split; [exact C'|]. destruct (j_alive _ _ _ _ _ K _ _ Hx L) as [Q|[Q|Q]]; [|right; left; exact Q|right; right; exact Q].
  left. exact (j_can _ _ _ _ _ K C' _ _ NO Q Hx).
Qed.
(** The read loop can end. *)
Lemma r1 s e s1 : sstep reg mr s e s1 -> srun reg mr s [e] s1.
Proof. intros H. apply (sr_step _ _ s [] s e s1); [constructor|exact H]. Qed.
Lemma r_cat s es s1 es' s2 : srun reg mr s es s1 -> srun reg mr s1 es' s2 -> srun reg mr s (es ++ es') s2.
Proof. intros R1 R2. induction R2; [rewrite app_nil_r; auto|]. rewrite app_assoc. econstructor; eauto. Qed.
Definition ends (s : sconn) (k : nat) : Prop := exists es' s', srun reg mr s es' s' /\ (length es' <= k)%nat /\ v_reader s' = VDone /\ v_log s' = v_log s.
Lemma ends_step s e s1 k : sstep reg mr s e s1 -> v_log s1 = v_log s -> ends s1 k -> ends s (S k).
Proof.
  intros ST E (es & s' & R & L & D & G). exists ([e] ++ es), s'. split; [eapply r_cat; [apply r1, ST|exact R]|]. split; [cbn; lia|]. split; [exact D|congruence].
Qed.
Lemma ends_exit s : v_reader s = VExit -> ends s 1.
Proof. intros E. eexists _, _. split; [apply r1, V_Exit, E|]. split; [cbn; lia|]. cbn. auto. Qed.
Lemma ends_top s : v_reader s = VTop -> ends s 2.
Proof. intros E. eapply ends_step; [apply V_Stop, E|reflexivity|]. apply ends_exit. reflexivity. Qed.
Lemma ends_more s k k' : (k <= k')%nat -> ends s k -> ends s k'.
Proof. intros L (es & s' & R & M & Q). exists es, s'. split; [exact R|]. split; [lia|exact Q]. Qed.
Lemma reader_ends es s es' s' : srun reg mr newServerConn es s -> v_closed s = false -> srun reg mr (v_Close s) es' s' -> few s' ->
  (forall o p, v_reader s' = VPayload o p -> (o < length (v_objs s))%nat) -> ends s' 4.
Proof.
  intros R C R' W NO. destruct (after_close _ _ _ _ R C R' W) as (K & I).
  assert (C' : v_closed s' = true).
  { assert (C0 : v_closed (v_Close s) = true) by (destruct (v_Close_fields s) as (_ & _ & _ & _ & _ & _ & _ & _ & _ & _ & -> & _); reflexivity).
    clear - R' C0. induction R' as [|s0 es s1 e s2 R IH ST]; auto. eapply closed_mono; eauto. }
  destruct (v_reader s') as [| |o|o p|o c| | |] eqn:E.
  - apply (ends_more _ 2); [lia|]. apply ends_top, E.
  - pose proof (V_Create reg mr s' E) as ST. eapply ends_step; [exact ST| |].
    { unfold v_create. destruct (v_draining s'); reflexivity. }
    destruct (v_draining s') eqn:D.
    + apply (ends_more _ 2); [lia|]. apply ends_top. unfold v_create. rewrite D. reflexivity.
    + eapply ends_step; [eapply V_Submit; unfold v_create; rewrite D; reflexivity|reflexivity|]. apply ends_top. reflexivity.
  - apply (ends_more _ 3); [lia|]. eapply ends_step; [eapply V_Submit, E|reflexivity|]. apply ends_top. reflexivity.
  - destruct (j_hold _ _ _ _ _ K _ _ E) as (x & Hx & Q).
    assert (Q2 : ss_h x = HDeleted \/ ss_cancel x = true).
    { destruct Q as [Q|Q]; [|exact Q]. right. exact (j_can _ _ _ _ _ K C' _ _ (NO _ _ eq_refl) Q Hx). }
    destruct Q2 as [Q2|Q2].
    + pose proof (V_HDone reg mr s' o x Hx Q2) as ST. eapply ends_step; [exact ST|reflexivity|].
      eapply ends_step; [eapply V_Drop|reflexivity|apply ends_top; reflexivity].
      * exact E.
      * cbn. rewrite put_at_nth, Nat.eqb_refl, put_at_nth, Nat.eqb_refl, Hx. reflexivity.
      * reflexivity.
    + apply (ends_more _ 3); [lia|]. eapply ends_step; [eapply V_Drop; eauto|reflexivity|apply ends_top; reflexivity].
  - apply (ends_more _ 3); [lia|]. eapply ends_step; [eapply V_CloseCh, E|reflexivity|apply ends_top; reflexivity].
  - apply (ends_more _ 2); [lia|]. eapply ends_step; [eapply V_FatalClose, E|cbn; destruct (v_Close_fields s') as (_ & _ & _ & _ & -> & _); reflexivity|apply ends_exit; reflexivity].
  - apply (ends_more _ 1); [lia|]. apply ends_exit, E.
  - exists [], s'. split; [constructor|]. split; [cbn; lia|auto].
Qed.
End Steps.
