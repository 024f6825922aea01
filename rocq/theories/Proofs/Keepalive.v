(** Proofs about the keepalive. *)
From Coq Require Import Arith List Bool Lia.
Import ListNotations.
From Verif.Model Require Import Base Keepalive.
From Verif.Spec Require Import Keepalive.
Local Open Scope nat_scope.

Section K.
Context (i t cap : nat).
Notation step := (step i t cap). Notation run := (run i t cap). Notation init := (init i). Notation always := (always i t cap).

Lemma run_app : forall a b s, run s (a ++ b) = match run s a with Some s' => run s' b | None => None end.
Proof. induction a as [|e a IH]; intros b s; cbn [app Keepalive.run]; [reflexivity|]. destruct (step s e); [apply IH|reflexivity]. Qed.
Lemma run_inv : forall (P : st -> Prop) (Q : event -> Prop) s0, P s0 -> (forall e s s', Q e -> P s -> step s e = Some s' -> P s') ->
  forall es s, Forall Q es -> run s0 es = Some s -> P s.
Proof.
  intros P Q s0 H0 HS es. revert s0 H0. induction es as [|e q IH]; intros s0 H0 s F R; cbn [Keepalive.run] in R; [injection R as <-; exact H0|].
  destruct (step s0 e) as [s1|] eqn:E; [|discriminate]. inversion F as [|x y F1 F2]; subst. exact (IH s1 (HS _ _ _ F1 H0 E) s F2 R).
Qed.

Ltac cases H :=
  repeat (match type of H with
  | None = Some _ => discriminate H
  | context [match ?x with _ => _ end] => let E := fresh "E" in destruct x eqn:E; try discriminate H
  end).
Ltac explode H :=
  cbn [Keepalive.step] in H; unfold read, ticked, pass, arrive, timed_out in H; cbv zeta in H; cases H; injection H as H.

(** The clock and the ticker. *)
Definition clock (s : st) : Prop :=
  k_now s < k_next s <= k_now s + i /\ k_last s <= k_now s /\ (k_pc s = KDone -> k_closed s = true \/ k_ctx s = true) /\
  (forall d, k_pc s = KWait d -> k_now s <= d <= k_now s + t).
Ltac bools := repeat match goal with
  | H : (_ || _) = true |- _ => apply orb_true_iff in H
  | H : (_ || _) = false |- _ => apply orb_false_iff in H; destruct H
  | H : (_ =? _) = true |- _ => apply Nat.eqb_eq in H
  | H : (_ =? _) = false |- _ => apply Nat.eqb_neq in H
  | H : (_ <=? _) = true |- _ => apply Nat.leb_le in H
  | H : (_ <=? _) = false |- _ => apply Nat.leb_gt in H
  | H : (_ <? _) = true |- _ => apply Nat.ltb_lt in H
  | H : (_ <? _) = false |- _ => apply Nat.ltb_ge in H
  | H : negb _ = true |- _ => apply negb_true_iff in H
  | H : negb _ = false |- _ => apply negb_false_iff in H
  end.
Lemma clock_step : forall e s s', 0 < i -> clock s -> step s e = Some s' -> clock s'.
Proof.
  intros e s s' HI (A & B & C & D) H. unfold clock.
  destruct e; explode H; subst s'; cbn [k_now k_next k_last k_pc k_closed k_ctx with_sess with_flags with_pc pinged ponged]; bools;
    (split; [lia|]); (split; [lia|]); (split; [try (intros X; discriminate X); try tauto|]); try (intros d X; try discriminate X; try exact (D d X)).
  all: try (match goal with H : loop_ready _ = false |- _ => unfold loop_ready in H; rewrite X in H end; specialize (D d X); bools; lia).
  all: try (injection X as <-; lia).
Qed.
Lemma clock_run : forall es s, 0 < i -> run init es = Some s -> clock s.
Proof.
  intros es s HI. apply (run_inv clock (fun _ => True)).
  - unfold clock. cbn. split; [lia|]. split; [lia|]. split; discriminate.
  - intros e x y _. apply clock_step. exact HI.
  - apply Forall_forall. intros. exact I.
Qed.

Definition doomed (T : nat) (s : st) : Prop :=
  clock s /\ T <= k_now s /\ k_last s <= T /\ k_ctx s = false /\ k_stuck s = false /\
  (k_closed s = true \/
   match k_pc s with
   | KSelect => if k_tick s then k_now s <= T + 2 * i else k_next s <= T + 2 * i
   | KPing => k_now s <= T + 2 * i /\ (k_pong s = true -> k_now s = T)
   | KWait d => d <= T + 2 * i + t /\ (k_pong s = true -> k_now s = T)
   | KDone => False
   end).
Lemma doomed_step : forall T e s s', 0 < i -> silent e -> doomed T s -> step s e = Some s' -> doomed T s'.
Proof.
  intros T e s s' HI (Q1 & Q2 & Q3) (C & A & B & X & S & D) H. pose proof (clock_step _ _ _ HI C H) as C'. destruct C as (C1 & C2 & C3 & C4).
  split; [exact C'|]. clear C'. destruct D as [D|D].
  - destruct e; explode H; subst s'; cbn [k_now k_next k_last k_pc k_closed k_ctx k_stuck with_sess with_flags with_pc pinged ponged] in *; try congruence;
      (split; [lia|]; split; [lia|]; split; [congruence|]; split; [try congruence|left; congruence]).
    destruct b; congruence.
  - destruct e; explode H; subst s'; cbn [k_now k_next k_last k_pc k_closed k_ctx k_stuck k_tick k_pong with_sess with_flags with_pc pinged ponged] in *; try congruence;
      (split; [lia|]; split; [lia|]; split; [congruence|]; split; [try congruence|]); try (right; exact D); try (left; congruence); bools.
    all: try (unfold loop_ready in *; destruct (k_pc s) eqn:PC; bools; try contradiction).
    all: try (exfalso; intuition congruence).
    all: try (destruct b; congruence).
    all: try (match goal with Y : k_closed _ = true \/ k_ctx _ = true |- _ => destruct Y as [Y|Y]; [left; exact Y|congruence] end).
    all: right; try (destruct (k_tick s) eqn:TK; cbn [orb] in *; try congruence; try lia).
    all: try (destruct D as (D1 & D2)); try (split; [|intros P; try specialize (D2 P); try congruence]; try lia).
Qed.
Lemma silent_closed : forall es s es' s', 0 < i -> run init es = Some s -> k_ctx s = false -> k_stuck s = false -> Forall silent es' -> run s es' = Some s' ->
  k_now s + 2 * i + t < k_now s' -> k_closed s' = true.
Proof.
  intros es s es' s' HI R X S F R' L. pose proof (clock_run _ _ HI R) as (C1 & C2 & C3 & C4).
  assert (D : doomed (k_now s) s').
  { eapply (run_inv (doomed (k_now s)) silent s); [| |exact F|exact R'].
    - split; [exact (conj C1 (conj C2 (conj C3 C4)))|]. split; [lia|]. split; [exact C2|]. split; [exact X|]. split; [exact S|].
      destruct (k_pc s) eqn:PC.
      + right. destruct (k_tick s); lia.
      + right. split; [lia|reflexivity].
      + right. specialize (C4 _ eq_refl). split; [lia|reflexivity].
      + left. destruct (C3 eq_refl); [assumption|congruence].
    - intros e x y Q. apply doomed_step; assumption. }
  destruct D as ((D1 & D2 & D3 & D4) & A & B & X' & S' & [D|D]); [exact D|]. exfalso.
  destruct (k_pc s') eqn:PC; [destruct (k_tick s')| | |exact D]; try lia. specialize (D4 _ eq_refl). lia.
Qed.

(** The history since the last ping. *)
Definition since (d : nat) (s : st) : Prop :=
  exists h p l, k_hist s = h ++ HPing p :: l /\ d = p + t /\ (k_pong s = false -> l = []) /\ Forall (fun e => e = HPong (k_now s)) l.
Definition why (s : st) : Prop :=
  clock s /\ (forall d, k_pc s = KWait d -> since d s) /\
  (forall d, k_dead s = Some d -> k_closed s = true /\ exists h p l, k_hist s = h ++ HPing p :: l /\ d = p + t /\ Forall (fun e => e = HPong d) l).
Lemma since_grow : forall d s s', since d s -> k_hist s' = k_hist s -> k_pong s' = k_pong s -> k_now s' = k_now s -> since d s'.
Proof. intros d s s' V H1 H2 H3. unfold since in *. rewrite H1, H2, H3. exact V. Qed.
Lemma why_step : forall e s s', 0 < i -> why s -> step s e = Some s' -> why s'.
Proof.
  intros e s s' HI (C & W & D) H. pose proof (clock_step _ _ _ HI C H) as C'. destruct C as (C1 & C2 & C3 & C4). split; [exact C'|]. clear C'.
  split.
  - intros d PC. destruct e; explode H; subst s'; cbn [k_pc with_sess with_flags with_pc pinged ponged] in PC; try discriminate PC;
      try (eapply since_grow; [exact (W d PC)|reflexivity|reflexivity|reflexivity]);
      try (destruct (W d PC) as (h & p & hl & Eh & Ed & El & El2); clear W).
    + apply orb_false_iff in E. destruct E as (L & _). unfold loop_ready in L. rewrite PC in L. bools. rewrite El in Eh by assumption.
      exists h, p, []. split; [exact Eh|]. split; [exact Ed|]. split; [reflexivity|constructor].
    + apply orb_false_iff in E. destruct E as (L & _). unfold loop_ready in L. rewrite PC in L. bools. rewrite El in Eh by assumption.
      exists h, p, []. split; [exact Eh|]. split; [exact Ed|]. split; [reflexivity|constructor].
    + exists h, p, (hl ++ [HPong (k_now s)]). cbn [k_hist k_pong k_now]. split; [rewrite Eh, <- app_assoc; reflexivity|]. split; [exact Ed|]. split; [discriminate|].
      apply Forall_app. split; [exact El2|constructor; [reflexivity|constructor]].
    + injection PC as <-. exists (k_hist s), (k_now s), []. split; [reflexivity|]. split; [reflexivity|]. split; [reflexivity|constructor].
  - intros d DD. destruct e; explode H; subst s'; cbn [k_dead k_hist k_closed with_sess with_flags with_pc pinged ponged] in *;
      try exact (D d DD); try (split; [reflexivity|exact (proj2 (D d DD))]);
      try (destruct (D d DD) as (Y & _); unfold read_ready in *; rewrite Y in *; rewrite ?andb_false_r in *; discriminate);
      try (destruct (D d DD) as (Y & _); congruence); try (split; [assumption|exact (proj2 (D d DD))]).
    injection DD as <-. split; [reflexivity|]. destruct (W _ eq_refl) as (h & p & l & Eh & Ed & _ & El2). exists h, p, l. split; [exact Eh|].
    specialize (C4 _ eq_refl). bools. assert (k_now s = deadline) by lia. split; [lia|exact El2].
Qed.
Lemma why_run : forall es s, 0 < i -> run init es = Some s -> why s.
Proof.
  intros es s HI. apply (run_inv why (fun _ => True)).
  - split; [|split; discriminate]. exact (clock_run [] init HI eq_refl).
  - intros e x y _. apply why_step. exact HI.
  - apply Forall_forall. intros. exact I.
Qed.

Definition safe (s : st) : Prop :=
  clock s /\ k_dead s = None /\
  forall d, k_pc s = KWait d -> k_closed s = true \/ (exists p, k_owe s = Some p /\ d = p + t) \/ (k_now s < d /\ (In IPong (k_inbox s) \/ k_pong s = true)).
Lemma woken : forall s d, k_pc s = KWait d -> k_busy s = false -> loop_ready s || read_ready s = false -> In IPong (k_inbox s) \/ k_pong s = true -> False.
Proof.
  intros s d PC NB R [Z|Z]; apply orb_false_iff in R; destruct R as (L & R); unfold loop_ready in L; rewrite PC in L.
  - unfold read_ready in R. rewrite NB in R. destruct (k_inbox s); [exact Z|].
    apply orb_false_iff in L. destruct L as (L & _). apply orb_false_iff in L. destruct L as (L & X). apply orb_false_iff in L. destruct L as (_ & L).
    rewrite L, X in R. discriminate.
  - rewrite Z in L. discriminate.
Qed.
Lemma safe_step : forall r e s s', 0 < i -> r < t -> answered r s -> safe s -> step s e = Some s' -> safe s'.
Proof.
  intros r e s s' HI HR (NB & AN) (C & ND & W) H. pose proof (clock_step _ _ _ HI C H) as C'. destruct C as (C1 & C2 & C3 & C4). split; [exact C'|]. clear C'.
  split.
  - destruct e; explode H; subst s'; cbn [k_dead with_sess with_flags with_pc pinged ponged] in *; try exact ND. exfalso.
    destruct (W _ eq_refl) as [Y|[(p & Y & ->)|(Y & _)]]; [congruence| |bools; lia]. specialize (AN p Y). bools. lia.
  - intros d PC. destruct e; explode H; subst s'; cbn [k_pc k_closed k_owe k_now k_inbox k_pong with_sess with_flags with_pc pinged ponged] in *; try discriminate PC; try exact (W d PC); try (left; reflexivity).
    + destruct (W d PC) as [Y|[Y|(Y & Z)]]; [left; exact Y|right; left; exact Y|]. exfalso. eapply woken; eassumption.
    + destruct (W d PC) as [Y|[Y|(Y & Z)]]; [left; exact Y|right; left; exact Y|]. exfalso. eapply woken; eassumption.
    + destruct (W d PC) as [Y|[(p & Y & ->)|(Y & Z)]]; [left; exact Y| |]; right; right; (split; [|left; apply in_or_app; right; left; reflexivity]); [|exact Y].
      specialize (AN p Y). lia.
    + destruct (W d PC) as [Y|[Y|(Y & Z)]]; [left; exact Y|right; left; exact Y|]. right; right. split; [exact Y|].
      destruct Z as [Z|Z]; [left; apply in_or_app; left; exact Z|right; exact Z].
    + destruct (W d PC) as [Y|[Y|(Y & Z)]]; [left; exact Y|right; left; exact Y|]. right; right. split; [exact Y|right; reflexivity].
    + destruct (W d PC) as [Y|[Y|(Y & Z)]]; [left; exact Y|right; left; exact Y|]. right; right. split; [exact Y|].
      destruct Z as [[Z|Z]|Z]; [discriminate|left; exact Z|right; exact Z].
    + destruct (W d PC) as [Y|[Y|(Y & Z)]]; [left; exact Y|right; left; exact Y|]. right; right. split; [exact Y|].
      destruct Z as [[Z|Z]|Z]; [discriminate|left; exact Z|right; exact Z].
    + right. left. exists (k_now s). injection PC as <-. split; reflexivity.
Qed.
Lemma safe_run : forall r es s, 0 < i -> r < t -> always (answered r) es -> run init es = Some s -> safe s.
Proof.
  intros r es. induction es as [|e es IH] using rev_ind; intros s HI HR AL R.
  - injection R as <-. split; [exact (clock_run [] init HI eq_refl)|]. split; [reflexivity|discriminate].
  - rewrite run_app in R. destruct (run init es) as [s1|] eqn:R1; [|discriminate]. cbn [Keepalive.run] in R. destruct (step s1 e) as [s2|] eqn:St; [|discriminate]. injection R as <-.
    eapply (safe_step r e s1); try eassumption.
    + exact (AL es [e] s1 eq_refl R1).
    + apply IH; try assumption; [|reflexivity]. intros a b x E. apply (AL a (b ++ [e]) x). rewrite E, <- app_assoc. reflexivity.
Qed.
End K.
