From Coq Require Import List Bool Arith Lia.
Import ListNotations.
From Verif.Model Require Import SrvLimit.
From Verif.Spec Require Import SrvLimit.

Local Arguments running : simpl never.
Local Arguments put : simpl never.
Lemma put_split : forall s i x, nth_error s i = Some x -> forall y, put s i y = firstn i s ++ y :: skipn (S i) s /\ s = firstn i s ++ x :: skipn (S i) s.
Proof.
  intros s i x H y. split; [reflexivity|]. revert i H. induction s as [|z s IH]; intros [|i] H; try discriminate; cbn in *; [congruence|]. f_equal. exact (IH i H).
Qed.
Lemma running_put : forall s i x y, nth_error s i = Some x -> running (put s i y) + (if is_run x then 1 else 0) = running s + (if is_run y then 1 else 0).
Proof.
  intros s i x y H. destruct (put_split s i x H y) as (E & E'). rewrite E. rewrite E' at 3. unfold running. rewrite !filter_app, !app_length. cbn [filter].
  destruct (is_run x), (is_run y); cbn [length]; lia.
Qed.
Lemma put_nth : forall s i x y j, nth_error s i = Some x -> nth_error (put s i y) j = if j =? i then Some y else nth_error s j.
Proof.
  intros s i x y j H. unfold put. revert i j H. induction s as [|z s IH]; intros [|i] [|j] H; try discriminate; cbn; try reflexivity.
  cbn in H. specialize (IH i j H). destruct s; [destruct i; discriminate|]. exact IH.
Qed.
Lemma put_length : forall s i x y, nth_error s i = Some x -> length (put s i y) = length s.
Proof. intros s i x y H. destruct (put_split s i x H y) as (E & E'). rewrite E. rewrite E' at 3. rewrite !app_length. reflexivity. Qed.
Lemma to_sess_running : forall s i f, (forall x, l_pc (f x) = l_pc x) -> running (to_sess s i f) = running s /\ length (to_sess s i f) = length s.
Proof.
  intros s i f H. unfold to_sess. destruct (nth_error s i) as [x|] eqn:N; [|auto]. pose proof (running_put s i x (f x) N) as R. pose proof (put_length s i x (f x) N) as L.
  unfold is_run in R. rewrite H in R. destruct (l_pc x); auto; split; auto; lia.
Qed.
Section P.
Context (max : nat).
Definition inv (c : lconn) : Prop := (max = 0 \/ running (l_sess c) <= max) /\
  forall i, l_loop c = LSubmit i -> exists x, nth_error (l_sess c) i = Some x /\ l_pc x = LWait.
Lemma inv_step : forall c e c', inv c -> step max c e = Some c' -> inv c'.
Proof.
  intros [inn lp ss] e c' (I1 & I2) E. cbn [l_sess l_loop] in I1, I2. destruct e as [m| | | |i|i]; cbn [step l_in l_loop l_sess] in E.
  - injection E as <-. split; assumption.
  - destruct lp; try discriminate. destruct inn as [|[|i fin|i] r]; try discriminate; injection E as <-; cbn.
    + split; cbn.
      * unfold running in *. rewrite filter_app, app_length. cbn. lia.
      * intros i H. injection H as <-. eexists. rewrite nth_error_app2, Nat.sub_diag by lia. split; reflexivity.
    + split; cbn [l_sess l_loop]; [match goal with |- context [to_sess ss i ?g] => rewrite (proj1 (to_sess_running ss i g (fun x => eq_refl))) end; exact I1|discriminate].
    + split; cbn [l_sess l_loop]; [match goal with |- context [to_sess ss i ?g] => rewrite (proj1 (to_sess_running ss i g (fun x => eq_refl))) end; exact I1|discriminate].
  - destruct lp as [|i|]; try discriminate. destruct (I2 i eq_refl) as (x & N & W). rewrite N in E. unfold free in E. destruct ((max =? 0) || (running ss <? max)) eqn:F; [|discriminate].
    injection E as <-. split; cbn; [|discriminate]. pose proof (running_put ss i x (mkLS LRun (l_q x) (l_got x) (l_can x)) N) as R. unfold is_run in R. rewrite W in R. cbn in R.
    apply orb_true_iff in F. destruct F as [F|F]; [left; apply Nat.eqb_eq in F; exact F|apply Nat.ltb_lt in F; right; lia].
  - destruct lp as [|i|]; try discriminate.
    + injection E as <-. split; cbn; [exact I1|discriminate].
    + destruct (I2 i eq_refl) as (x & N & W). rewrite N in E. injection E as <-. split; cbn; [|discriminate].
      pose proof (running_put ss i x (mkLS LLost (l_q x) (l_got x) (l_can x)) N) as R. unfold is_run in R. rewrite W in R. cbn in R. lia.
  - destruct (nth_error ss i) as [x|] eqn:N; [|discriminate]. destruct (l_pc x) eqn:W; try discriminate. destruct (l_q x) as [|d q]; [discriminate|]. injection E as <-. split; cbn.
    + pose proof (running_put ss i x (mkLS LRun q (l_got x ++ [d]) (l_can x)) N) as R. unfold is_run in R. rewrite W in R. cbn in R. lia.
    + intros j H. destruct (I2 j H) as (y & Ny & Wy). exists y. split; [|exact Wy]. rewrite (put_nth ss i x _ j N). destruct (Nat.eqb_spec j i) as [->|]; [congruence|exact Ny].
  - destruct (nth_error ss i) as [x|] eqn:N; [|discriminate]. destruct (l_pc x) eqn:W; try discriminate. injection E as <-. split; cbn.
    + pose proof (running_put ss i x (mkLS LDone (l_q x) (l_got x) (l_can x)) N) as R. unfold is_run in R. rewrite W in R. cbn in R. lia.
    + intros j H. destruct (I2 j H) as (y & Ny & Wy). exists y. split; [|exact Wy]. rewrite (put_nth ss i x _ j N). destruct (Nat.eqb_spec j i) as [->|]; [congruence|exact Ny].
Qed.
Lemma inv_new : inv l_new.
Proof. split; [right; apply Nat.le_0_l|discriminate]. Qed.
Lemma inv_run : forall es c c', inv c -> run max c es = Some c' -> inv c'.
Proof.
  induction es as [|e es IH]; intros c c' I R; cbn in R; [injection R as <-; exact I|]. destruct (step max c e) as [c1|] eqn:E; [|discriminate].
  exact (IH c1 c' (inv_step c e c1 I E) R).
Qed.

(** Held up: the loop waits in Submit and no place is free. *)
Definition held (c : lconn) : Prop := (exists i, l_loop c = LSubmit i) /\ 0 < max /\ running (l_sess c) = max.
Lemma held_step : forall c e c', held c -> e <> ECtx -> (forall i, e <> EEnd i) -> step max c e = Some c' ->
  held c' /\ (l_in c' = l_in c ++ match e with ESend m => [m] | _ => [] end) /\ (forall i, delivered c' i = delivered c i).
Proof.
  intros [inn lp ss] e c' ((k & L) & M & R) NC NE E. cbn [l_sess l_loop] in *. subst lp. destruct e as [m| | | |i|i]; cbn [step l_in l_loop l_sess] in E.
  - injection E as <-. repeat split; cbn; eauto.
  - discriminate.
  - destruct (nth_error ss k); [|discriminate]. unfold free in E. replace (max =? 0) with false in E by (symmetry; apply Nat.eqb_neq; lia).
    replace (running ss <? max) with false in E by (symmetry; apply Nat.ltb_ge; lia). discriminate.
  - congruence.
  - destruct (nth_error ss i) as [x|] eqn:N; [|discriminate]. destruct (l_pc x) eqn:W; try discriminate. destruct (l_q x) as [|d q] eqn:Q; [discriminate|]. injection E as <-.
    pose proof (running_put ss i x (mkLS LRun q (l_got x ++ [d]) (l_can x)) N) as RP. unfold is_run in RP. rewrite W in RP. cbn in RP.
    split; [split; [exists k; reflexivity|split; cbn; lia]|]. split; [rewrite app_nil_r; reflexivity|]. intros j. unfold delivered. cbn [l_sess]. rewrite (put_nth ss i x _ j N).
    destruct (Nat.eqb_spec j i) as [->|]; [rewrite N; cbn; rewrite Q, <- app_assoc; reflexivity|reflexivity].
  - exfalso. exact (NE i eq_refl).
Qed.
Definition sent (es : list levent) : list lmsg := flat_map (fun e => match e with ESend m => [m] | _ => [] end) es.
Lemma held_run : forall es c c', held c -> ~ In ECtx es -> (forall i, ~ In (EEnd i) es) -> run max c es = Some c' ->
  l_in c' = l_in c ++ sent es /\ (forall i, delivered c' i = delivered c i).
Proof.
  induction es as [|e es IH]; intros c c' H NC NE R; cbn in R; [injection R as <-; cbn; rewrite app_nil_r; auto|]. destruct (step max c e) as [c1|] eqn:E; [|discriminate].
  destruct (held_step c e c1 H) as (H1 & I1 & D1); [intros X; apply NC; left; congruence|intros i X; apply (NE i); left; congruence|exact E|].
  destruct (IH c1 c' H1) as (I2 & D2); [intros X; apply NC; right; exact X|intros i X; apply (NE i); right; exact X|exact R|].
  split; [rewrite I2, I1, <- app_assoc; reflexivity|]. intros i. rewrite D2. apply D1.
Qed.

(** The run into a standstill. *)
Definition opens (n : nat) : list levent := concat (repeat [ESend LOpen; ERead; EStart] n).
Definition idle : lsess := mkLS LRun [] [] false.
Lemma put_last : forall s x y, put (s ++ [x]) (length s) y = s ++ [y].
Proof. intros s x y. unfold put. rewrite firstn_app, firstn_all, Nat.sub_diag. cbn [firstn]. rewrite app_nil_r. rewrite skipn_all2 by (rewrite app_length; cbn; lia). reflexivity. Qed.
Lemma running_repeat : forall n, running (repeat idle n) = n.
Proof. intros n. unfold running. induction n as [|n IH]; [reflexivity|]. cbn. f_equal. exact IH. Qed.
Lemma opens_run : forall n k, (max = 0 \/ k + n <= max) -> run max (mkLC [] LTop (repeat idle k)) (opens n) = Some (mkLC [] LTop (repeat idle (k + n))).
Proof.
  induction n as [|n IH]; intros k H; [rewrite Nat.add_0_r; reflexivity|]. unfold opens. cbn [repeat concat app]. cbn [run step l_in l_loop l_sess app].
  rewrite nth_error_app2, Nat.sub_diag by lia. cbn [nth_error]. unfold free.
  assert (R : running (repeat idle k ++ [mkLS LWait [] [] false]) = k) by (unfold running; rewrite filter_app; cbn; rewrite app_nil_r; apply running_repeat).
  rewrite R. replace ((max =? 0) || (k <? max)) with true.
  - rewrite put_last. cbn [l_q l_got l_can]. change [mkLS LRun [] [] false] with (repeat idle 1). rewrite <- repeat_app. replace (k + S n) with (k + 1 + n) by lia. apply (IH (k + 1)). lia.
  - symmetry. apply orb_true_iff. destruct H as [->|H]; [left; reflexivity|right; apply Nat.ltb_lt; lia].
Qed.
Lemma opens_patient : forall n c, all_patient max c (opens n).
Proof.
  induction n as [|n IH]; intros c; [exact Logic.I|]. unfold opens. cbn [repeat concat app all_patient]. split; [exact Logic.I|]. destruct (step max c _) as [c1|]; [|exact Logic.I].
  split; [exact Logic.I|]. destruct (step max c1 _) as [c2|]; [|exact Logic.I]. split; [exact Logic.I|]. destruct (step max c2 _) as [c3|]; [|exact Logic.I]. apply IH.
Qed.
Definition still (c : lconn) : Prop := l_loop c = LSubmit max /\ l_sess c = repeat idle max ++ [mkLS LWait [] [] false].
Lemma still_step : forall c e c', 0 < max -> still c -> patient c e -> e <> ECtx -> step max c e = Some c' -> still c'.
Proof.
  intros [inn lp ss] e c' M (L & S) P NC E. cbn [l_sess l_loop] in L, S. subst lp ss.
  assert (N : forall i x, nth_error (repeat idle max ++ [mkLS LWait [] [] false]) i = Some x -> l_q x = [] /\ l_got x = [] /\ l_can x = false).
  { intros i x H. apply nth_error_In in H. apply in_app_or in H. destruct H as [H|[<-|[]]]; [apply repeat_spec in H; subst x|]; repeat split. }
  destruct e as [m| | | |i|i]; cbn [step l_in l_loop l_sess] in E.
  - injection E as <-. split; reflexivity.
  - discriminate.
  - destruct (nth_error _ max); [|discriminate]. unfold free in E. replace (max =? 0) with false in E by (symmetry; apply Nat.eqb_neq; lia).
    assert (R : running (repeat idle max ++ [mkLS LWait [] [] false]) = max) by (unfold running; rewrite filter_app; cbn; rewrite app_nil_r; apply running_repeat).
    rewrite R, Nat.ltb_irrefl in E. discriminate.
  - congruence.
  - destruct (nth_error _ i) as [x|] eqn:H; [|discriminate]. destruct (N i x H) as (Q & _). rewrite Q in E. destruct (l_pc x); discriminate.
  - destruct P as (x & H & P). cbn in H. destruct (N i x H) as (_ & G & C). rewrite G, C in P. destruct P as [[]|P]; discriminate.
Qed.
Lemma still_run : forall es c c', 0 < max -> still c -> all_patient max c es -> ~ In ECtx es -> run max c es = Some c' -> still c'.
Proof.
  induction es as [|e es IH]; intros c c' M S P NC R; cbn in R; [injection R as <-; exact S|]. cbn [all_patient] in P. destruct P as (P1 & P2).
  destruct (step max c e) as [c1|] eqn:E; [|discriminate]. apply (IH c1 c' M); [|exact P2|intros X; apply NC; right; exact X|exact R].
  apply (still_step c e c1 M S P1); [intros X; apply NC; left; congruence|exact E].
Qed.
Lemma run_app : forall a b c, run max c (a ++ b) = match run max c a with Some c => run max c b | None => None end.
Proof. induction a as [|e a IH]; intros b c; [reflexivity|]. cbn. destruct (step max c e); [apply IH|reflexivity]. Qed.
Lemma patient_app : forall a b c, all_patient max c a -> (forall c', run max c a = Some c' -> all_patient max c' b) -> all_patient max c (a ++ b).
Proof.
  induction a as [|e a IH]; intros b c P H; [exact (H c eq_refl)|]. cbn [app all_patient] in *. destruct P as (P1 & P2). split; [exact P1|].
  cbn [run] in H. destruct (step max c e) as [c1|]; [|exact Logic.I]. exact (IH b c1 P2 H).
Qed.
End P.

(** The server. *)
Lemma sv_inv : forall max es s s', Forall (inv max) s -> sv_run max s es = Some s' -> Forall (inv max) s'.
Proof.
  intros max es. induction es as [|e es IH]; intros s s' F R; cbn in R; [injection R as <-; exact F|]. destruct (sv_step max s e) as [s1|] eqn:E; [|discriminate]. apply (IH s1 s'); [|exact R].
  destruct e as [(k, e)|]; cbn in E.
  - destruct (nth_error s k) as [c|] eqn:N; [|discriminate]. destruct (step max c e) as [c1|] eqn:S; [|discriminate]. injection E as <-.
    assert (Ic : inv max c) by (rewrite Forall_forall in F; apply F; exact (nth_error_In _ _ N)).
    pose proof (firstn_skipn k s) as Sp. rewrite <- Sp in F. apply Forall_app in F. destruct F as (F1 & F2). apply Forall_app. split; [exact F1|]. constructor; [exact (inv_step max c e c1 Ic S)|].
    clear -F2. revert k F2. induction s as [|z s IH]; intros [|k] F2; cbn in *; [constructor|constructor|inversion F2; assumption|exact (IH k F2)].
  - injection E as <-. apply Forall_app. split; [exact F|]. constructor; [apply inv_new|constructor].
Qed.
