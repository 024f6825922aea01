(** C56: hedged calls, for every schedule. *)
From Verif.Model Require Import Base ErrText Hedge.
From Verif.Proofs Require Import BaseLemmas.
From Coq Require Import String Lia List.
Import ListNotations.
Open Scope list_scope. Open Scope Z_scope.

Section C56.
Variable Resp : Type.
Variables (ctxErr : bytes) (nonFatal : list code).
Notation hstate := (hstate Resp). Notation hevent := (hevent Resp). Notation outcome := (outcome Resp).
Notation hstep := (hstep Resp ctxErr nonFatal). Notation hruns := (hruns Resp ctxErr nonFatal).
Notation mkH := (mkH Resp).

(** The invocations of a run, and the results in the order in which they arrived. *)
Definition invoked (t : list hevent) : list nat :=
  flat_map (fun e => match e with EInvoke _ i => [i] | _ => [] end) t.
Definition arrived (t : list hevent) : list (nat * outcome) :=
  flat_map (fun e => match e with ESend _ i o => [(i, o)] | _ => [] end) t.

(** What a sequence of arrived results entitles the caller to: the first success or fatal
    error; the last error once all requests have failed. *)
Fixpoint verdict (left : nat) (l : list outcome) {struct l} : option outcome :=
  match l with
  | [] => None
  | inl r :: _ => Some (inl r)
  | inr e :: l =>
      if isFatal e nonFatal then Some (inr e)
      else match left with
      | O | S O => Some (inr e)
      | S n => verdict n l
      end
  end.

(** *** Lists of request states *)
Lemma set_req_nth (l : list (rstate Resp)) i r j x : nth_error l i = Some x ->
  nth_error (set_req _ l i r) j = if (j =? i)%nat then Some r else nth_error l j.
Proof.
  revert i j. induction l as [|y l IH]; intros [|i] [|j]; cbn; try discriminate; auto.
Qed.
Lemma set_req_len (l : list (rstate Resp)) i r : length (set_req _ l i r) = length l.
Proof. revert i. induction l; intros [|i]; cbn; auto. Qed.

Definition early (r : rstate Resp) : Prop := r = RDelay _ \/ r = RReady _.
Definition unsent (r : rstate Resp) : Prop := r <> RSent _.

Definition failed (o : outcome) : Prop := exists e, o = inr e /\ isFatal e nonFatal = false.

(** Invariants of the runs. *)
Record Inv1 (n : nat) (t : list hevent) (s : hstate) : Prop := {
  v_len : length (h_reqs _ s) = S n;
  v_inv_nodup : NoDup (invoked t);
  v_inv_lt : forall i, In i (invoked t) -> (i < S n)%nat;
  v_inv_early : forall i r, nth_error (h_reqs _ s) i = Some r -> early r -> ~ In i (invoked t);
  v_inv_busy : forall i, nth_error (h_reqs _ s) i = Some (RInvoking _) -> In i (invoked t) }.
Record Inv2 (t : list hevent) (s : hstate) : Prop := {
  v_ret : forall i o, nth_error (h_reqs _ s) i = Some (RReturned _ o) -> In (EResult _ i o) t;
  v_arr_nodup : NoDup (map fst (arrived t));
  v_arr_res : forall i o, In (i, o) (arrived t) -> In (EResult _ i o) t;
  v_arr_lt : forall i, In i (map fst (arrived t)) -> (i < length (h_reqs _ s))%nat;
  v_arr_unsent : forall i r, nth_error (h_reqs _ s) i = Some r -> unsent r -> ~ In i (map fst (arrived t));
  v_arr_sent : forall i, nth_error (h_reqs _ s) i = Some (RSent _) -> In i (map fst (arrived t));
  v_res_inv : forall i o, In (EResult _ i o) t -> In i (invoked t) }.
Record Inv3 (n : nat) (t : list hevent) (s : hstate) : Prop := {
  v_quit : forall i, nth_error (h_reqs _ s) i = Some (RQuit _) -> h_ctx _ s = true \/ h_cancel _ s = true;
  v_ctx : h_ctx _ s = true -> In (ECtxDone _) t;
  v_main : match h_main _ s with
           | MLoop _ k le => h_cancel _ s = false /\ (k < S n)%nat /\ (forall o, ~ In (EReturn _ o) t) /\
               exists eaten, map snd (arrived t) = eaten ++ h_chan _ s /\ Forall failed eaten /\ length eaten = k
           | MReturned _ o => h_cancel _ s = true /\ In (EReturn _ o) t /\
               (forall o', In (EReturn _ o') t -> o' = o) /\
               ((o = inr ctxErr /\ In (ECtxDone _) t) \/ verdict (S n) (map snd (arrived t)) = Some o)
           end }.

Lemma invoked_snoc t e : invoked (t ++ [e]) = invoked t ++ match e with EInvoke _ i => [i] | _ => [] end.
Proof. unfold invoked. rewrite flat_map_app. cbn. now rewrite app_nil_r. Qed.
Lemma arrived_snoc t e : arrived (t ++ [e]) = arrived t ++ match e with ESend _ i o => [(i, o)] | _ => [] end.
Proof. unfold arrived. rewrite flat_map_app. cbn. now rewrite app_nil_r. Qed.

Lemma verdict_app l : forall n l' o, verdict n l = Some o -> verdict n (l ++ l') = Some o.
Proof.
  induction l as [|[r|e] l IH]; intros n l' o; cbn; [intros X; discriminate X|auto|].
  destruct (isFatal e nonFatal); auto. destruct n as [|[|n]]; auto.
Qed.
Lemma verdict_failed eaten : forall n l, Forall failed eaten -> (length eaten < n)%nat ->
  verdict n (eaten ++ l) = verdict (n - length eaten) l.
Proof.
  induction eaten as [|o eaten IH]; intros n l HF HL; cbn [app length].
  - now rewrite Nat.sub_0_r.
  - pose proof (Forall_inv HF) as (e & -> & E). apply Forall_inv_tail in HF. cbn [length] in HL. cbn [verdict]. rewrite E.
    destruct n as [|[|n]]; [lia|lia|]. rewrite IH by (auto; lia). f_equal; lia.
Qed.

Lemma NoDup_snoc {A} (l : list A) x : NoDup l -> ~ In x l -> NoDup (l ++ [x]).
Proof.
  intros HL HX. induction l as [|y l IH]; cbn; [constructor; auto; constructor|].
  inversion HL; subst. constructor.
  - rewrite in_app_iff. cbn. intros [C|[C|[]]]; [auto|]. subst. apply HX. left; auto.
  - apply IH; auto. intros C. apply HX. right; auto.
Qed.

Lemma nth_lt {A} (l : list A) i x : nth_error l i = Some x -> (i < length l)%nat.
Proof. intros H. apply nth_error_Some. congruence. Qed.

Ltac at_req H j :=
  rewrite (set_req_nth _ _ _ j _ H); 
  match goal with |- context [(j =? ?i)%nat] => destruct (Nat.eqb_spec j i) as [->|] end.

Lemma Inv1_init n : Inv1 n [] (h_init Resp n).
Proof.
  constructor; cbn; try (intros; contradiction); try apply NoDup_nil; auto.
  - now rewrite repeat_length.
  - intros [|i]; cbn; [discriminate|]. intros E. apply nth_error_In, repeat_spec in E. discriminate.
Qed.
Lemma Inv1_step n t s e s' : Inv1 n t s -> hstep s e s' -> Inv1 n (t ++ [e]) s'.
Proof.
  intros [L I1 I2 I3 I4] HS.
  destruct HS; cbn [h_reqs] in *;
    (constructor; rewrite ?invoked_snoc, ?app_nil_r; cbn [h_reqs]; rewrite ?set_req_len; auto).
  all: try (intros j; at_req H j; auto; intros; try discriminate; eauto; fail).
  all: try (intros j r; at_req H j; [intros E1 E2; injection E1 as <-; destruct E2; discriminate|eauto; fail]).
  - intros j r; at_req H j; [|eauto]. intros _ _. apply (I3 _ _ H). left; auto.
  - apply NoDup_snoc; auto. apply (I3 _ _ H). right; auto.
  - intros j. rewrite in_app_iff. intros [C|[<-|[]]]; auto. apply nth_lt in H. lia.
  - intros j r. rewrite in_app_iff. at_req H j.
    + intros E1 E2. injection E1 as <-. destruct E2; discriminate.
    + intros E1 E2 [C|[C|[]]]; [|congruence]. eapply I3; eauto.
  - intros j. rewrite in_app_iff. at_req H j; [right; left; auto|]. left. auto.
Qed.

Lemma Inv2_init n : Inv2 [] (h_init Resp n).
Proof.
  constructor; cbn; try (intros; contradiction); try apply NoDup_nil; auto.
  - intros [|i] o; cbn; [discriminate|]. intros E. apply nth_error_In, repeat_spec in E. discriminate.
  - intros [|i]; cbn; [discriminate|]. intros E. apply nth_error_In, repeat_spec in E. discriminate.
Qed.
Lemma Inv2_step n t s e s' : Inv1 n t s -> Inv2 t s -> hstep s e s' -> Inv2 (t ++ [e]) s'.
Proof.
  intros [_ _ _ _ I4] [R A1 A2 A2b A3 A4 A5] HS.
  destruct HS; cbn [h_reqs] in *;
    (constructor; rewrite ?invoked_snoc, ?arrived_snoc, ?app_nil_r; cbn [h_reqs]; rewrite ?set_req_len; auto).
  all: try (intros; rewrite in_app_iff; eauto; fail).
  all: try (intros j o'; rewrite in_app_iff; intros [C|[C|[]]]; [eauto; fail|discriminate]).
  all: try (intros j; at_req H j; auto; intros; try discriminate; eauto; fail).
  all: try (intros j r; at_req H j; eauto; intros; apply (A3 _ _ H); discriminate).
  all: try (intros j o'; at_req H j; [|intros; rewrite in_app_iff; eauto]; intros; try discriminate; fail).
  - intros j o'. rewrite !in_app_iff. intros [C|[C|[]]]; [|discriminate]. eauto.
  - intros j o'. at_req H j; rewrite in_app_iff; [|eauto]. intros E. injection E as ->. right. left. auto.
  - intros j o'. rewrite in_app_iff. intros [C|[C|[]]]; [eauto|]. injection C as <- <-. auto.
  - rewrite map_app. apply NoDup_snoc; auto. apply (A3 _ _ H). discriminate.
  - intros j o'. rewrite !in_app_iff. intros [C|[C|[]]]; [left; auto|]. injection C as <- <-. left. auto.
  - intros j. rewrite map_app, in_app_iff. intros [C|[<-|[]]]; auto. cbn. eapply nth_lt; eauto.
  - intros j r. rewrite map_app, in_app_iff. at_req H j.
    + intros E U. injection E as <-. exfalso. apply U. auto.
    + intros E U [C|[C|[]]]; [|cbn in C; congruence]. eapply A3; eauto.
  - intros j. rewrite map_app, in_app_iff. at_req H j; [right; left; auto|]. intros. left. auto.
Qed.

Lemma Inv3_init n : Inv3 n [] (h_init Resp n).
Proof.
  constructor; cbn; try discriminate.
  - intros [|i]; cbn; [discriminate|]. intros E. apply nth_error_In, repeat_spec in E. discriminate.
  - split; auto. split; [lia|]. split; [auto|]. exists []. auto.
Qed.
Lemma Inv3_step n t s e s' : Inv1 n t s -> Inv3 n t s -> hstep s e s' -> Inv3 n (t ++ [e]) s'.
Proof.
  intros [L _ _ _ _] [Q C M] HS.
  assert (KEEP : forall m c cc e0, (forall o, e0 <> EReturn _ o) -> (forall i o, e0 <> ESend _ i o) ->
    match m with
    | MLoop _ k le => cc = false /\ (k < S n)%nat /\ (forall o, ~ In (EReturn _ o) t) /\
        exists eaten, map snd (arrived t) = eaten ++ c /\ Forall failed eaten /\ length eaten = k
    | MReturned _ o => cc = true /\ In (EReturn _ o) t /\
        (forall o', In (EReturn _ o') t -> o' = o) /\
        ((o = inr ctxErr /\ In (ECtxDone _) t) \/ verdict (S n) (map snd (arrived t)) = Some o)
    end ->
    match m with
    | MLoop _ k le => cc = false /\ (k < S n)%nat /\ (forall o, ~ In (EReturn _ o) (t ++ [e0])) /\
        exists eaten, map snd (arrived (t ++ [e0])) = eaten ++ c /\ Forall failed eaten /\ length eaten = k
    | MReturned _ o => cc = true /\ In (EReturn _ o) (t ++ [e0]) /\
        (forall o', In (EReturn _ o') (t ++ [e0]) -> o' = o) /\
        ((o = inr ctxErr /\ In (ECtxDone _) (t ++ [e0])) \/ verdict (S n) (map snd (arrived (t ++ [e0]))) = Some o)
    end).
  { intros m c cc e0 N1 N2 HM.
    assert (EA : arrived (t ++ [e0]) = arrived t).
    { rewrite arrived_snoc. destruct e0; try apply app_nil_r. exfalso. eapply N2; eauto. }
    rewrite EA. destruct m.
    - destruct HM as (? & ? & HR & ?). split; auto. split; auto. split; auto.
      intros o. rewrite in_app_iff. intros [X|[X|[]]]; [eapply HR; eauto|eapply N1; eauto].
    - destruct HM as (? & HI & HU & HV). split; auto. split; [rewrite in_app_iff; auto|]. split.
      + intros o'. rewrite in_app_iff. intros [X|[X|[]]]; auto. exfalso. eapply N1; eauto.
      + rewrite in_app_iff. tauto. }
  destruct HS; cbn [h_reqs h_main h_chan h_ctx h_cancel] in *.
  1-4,6: constructor; cbn [h_reqs h_main h_chan h_ctx h_cancel];
    [intros j; at_req H j; eauto; try (intros; discriminate)
    |intros; rewrite in_app_iff; auto
    |apply KEEP; auto; discriminate].
  - (* send *)
    constructor; cbn [h_reqs h_main h_chan h_ctx h_cancel].
    + intros j; at_req H j; eauto; intros; discriminate.
    + intros. rewrite in_app_iff. auto.
    + rewrite arrived_snoc, map_app. cbn [map snd]. destruct m.
      * destruct M as (? & ? & HR & eaten & E & HF & HL). split; auto. split; auto. split.
        -- intros o'. rewrite in_app_iff. intros [X|[X|[]]]; [eapply HR; eauto|discriminate].
        -- exists eaten. rewrite E, <- app_assoc. auto.
      * destruct M as (? & HI & HU & HV). split; auto. split; [rewrite in_app_iff; auto|]. split.
        -- intros o'. rewrite in_app_iff. intros [X|[X|[]]]; auto. discriminate.
        -- rewrite in_app_iff. destruct HV as [HV|HV]; [tauto|]. right. now apply verdict_app.
  - (* ctx done *)
    constructor; cbn [h_reqs h_main h_chan h_ctx h_cancel].
    + auto.
    + intros _. rewrite in_app_iff. right. left. auto.
    + apply KEEP; auto; discriminate.
  - constructor; cbn [h_reqs h_main h_chan h_ctx h_cancel]; auto.
    + intros _. rewrite in_app_iff. auto.
    + destruct M as (? & ? & HR & eaten & E & HF & HL). split; auto. split; [rewrite in_app_iff; right; left; auto|]. split.
      * intros o'. rewrite in_app_iff. intros [X|[X|[]]]; [exfalso; eapply HR; eauto|congruence].
      * left. split; auto. rewrite in_app_iff. auto.
  - constructor; cbn [h_reqs h_main h_chan h_ctx h_cancel]; auto.
    + intros. rewrite in_app_iff. auto.
    + destruct M as (? & ? & HR & eaten & E & HF & HL). split; auto. split; [rewrite in_app_iff; right; left; auto|]. split.
      * intros o'. rewrite in_app_iff. intros [X|[X|[]]]; [exfalso; eapply HR; eauto|congruence].
      * right. rewrite arrived_snoc, app_nil_r, E, verdict_failed by (auto; lia). reflexivity.
  - constructor; cbn [h_reqs h_main h_chan h_ctx h_cancel]; auto.
    + intros. rewrite in_app_iff. auto.
    + destruct M as (? & ? & HR & eaten & E & HF & HL). split; auto. split; [rewrite in_app_iff; right; left; auto|]. split.
      * intros o'. rewrite in_app_iff. intros [X|[X|[]]]; [exfalso; eapply HR; eauto|congruence].
      * right. rewrite arrived_snoc, app_nil_r, E, verdict_failed by (auto; lia). cbn. rewrite H. reflexivity.
  - constructor; cbn [h_reqs h_main h_chan h_ctx h_cancel]; auto.
    + intros. rewrite in_app_iff. auto.
    + destruct M as (? & ? & HR & eaten & E & HF & HL). unfold loop_head in H0.
      destruct (Nat.ltb_spec (S n0) (length q)); [|discriminate]. injection H0 as <- <-. split; auto. split; [lia|]. split.
      * intros o'. rewrite in_app_iff. intros [X|[X|[]]]; [eapply HR; eauto|discriminate].
      * exists (eaten ++ [inr er]). rewrite arrived_snoc, app_nil_r, E, <- app_assoc. split; auto. split.
        -- apply Forall_app. split; auto. constructor; auto. exists er. auto.
        -- rewrite app_length. cbn. lia.
  - constructor; cbn [h_reqs h_main h_chan h_ctx h_cancel]; auto.
    + intros. rewrite in_app_iff. auto.
    + destruct M as (? & ? & HR & eaten & E & HF & HL). unfold loop_head in H0.
      destruct (Nat.ltb_spec (S n0) (length q)); [discriminate|]. injection H0 as <-. split; auto.
      split; [rewrite in_app_iff; right; left; auto|]. split.
      * intros o'. rewrite in_app_iff. intros [X|[X|[]]]; [exfalso; eapply HR; eauto|congruence].
      * right. rewrite arrived_snoc, app_nil_r, E, verdict_failed by (auto; lia).
        replace (S n - length eaten)%nat with 1%nat by lia. cbn. rewrite H. reflexivity.
Qed.
Lemma Inv_run n t s : hruns (h_init Resp n) t s -> Inv1 n t s /\ Inv2 t s /\ Inv3 n t s.
Proof.
  induction 1 as [|t s e s' HR (I1 & I2 & I3) HS].
  - auto using Inv1_init, Inv2_init, Inv3_init.
  - split; [eapply Inv1_step; eauto|]. split; [eapply Inv2_step; eauto|eapply Inv3_step; eauto].
Qed.

(** *** The property, for MaxHedgedRequests = n > 0 *)

(** At most 1 + MaxHedgedRequests invocations, none of them twice. *)
Theorem C56_at_most : forall n t s, hruns (h_init Resp n) t s ->
  NoDup (invoked t) /\ (length (invoked t) <= 1 + n)%nat.
Proof.
  intros n t s H. destruct (Inv_run _ _ _ H) as ([L N LT _ _] & _ & _). split; auto.
  pose proof (NoDup_incl_length (l := invoked t) (l' := seq 0 (S n)) N) as X. rewrite seq_length in X.
  apply X. intros i Hi. apply in_seq. apply LT in Hi. lia.
Qed.

(** The call returns at most one value, which is the context's error after the context
    ended, or the verdict of the results in the order they arrived: the first success or
    fatal error, or the last error when all of the 1 + MaxHedgedRequests requests failed. *)
Theorem C56_first_result : forall n t s o, hruns (h_init Resp n) t s -> In (EReturn _ o) t ->
  (forall o', In (EReturn _ o') t -> o' = o) /\
  ((o = inr ctxErr /\ In (ECtxDone _) t) \/ verdict (1 + n) (map snd (arrived t)) = Some o).
Proof.
  intros n t s o H HI. destruct (Inv_run _ _ _ H) as (_ & _ & [_ _ M]).
  destruct (h_main _ s) as [k le|o0].
  - destruct M as (_ & _ & M & _). exfalso. eapply M; eauto.
  - destruct M as (_ & _ & U & V). rewrite (U o HI) in *. split; auto.
Qed.
(** Every arrived result is what some invocation returned, one per request. *)
Theorem C56_arrivals : forall n t s, hruns (h_init Resp n) t s ->
  NoDup (map fst (arrived t)) /\
  forall i o, In (i, o) (arrived t) -> (i <= n)%nat /\ In (EInvoke _ i) t /\ In (EResult _ i o) t.
Proof.
  intros n t s H. destruct (Inv_run _ _ _ H) as ([L N LT _ _] & [_ A1 A2 A3 _ _ A5] & _). split; auto.
  intros i o HI. specialize (A2 _ _ HI). assert (HV : In i (invoked t)) by eauto.
  split; [apply LT in HV; lia|]. split; auto. unfold invoked in HV. apply in_flat_map in HV.
  destruct HV as (e & HE & HV). destruct e; try destruct HV as [<-|[]]; auto; destruct HV.
Qed.
Lemma verdict_inv n l o : verdict n l = Some o -> In o l.
Proof.
  revert n. induction l as [|[r|e] l IH]; intros n; cbn; [intros X; discriminate X| |].
  - intros E. injection E as <-. auto.
  - destruct (isFatal e nonFatal); [intros E; injection E as <-; auto|].
    destruct n as [|[|n]]; try (intros E; injection E as <-; auto). eauto.
Qed.
Lemma verdict_err n l e : verdict n l = Some (inr e) -> isFatal e nonFatal = true \/
  (exists l1 l2, l = l1 ++ l2 /\ Forall failed l1 /\ length l1 = Nat.max 1 n).
Proof.
  revert n. induction l as [|[r|e'] l IH]; intros n; cbn; [intros X; discriminate X|intros X; discriminate X|].
  destruct (isFatal e' nonFatal) eqn:EF; [intros E; injection E as <-; auto|].
  assert (F : failed (inr e')) by (exists e'; auto).
  destruct n as [|[|n]].
  - intros E. injection E as <-. right. exists [inr e'], l. auto.
  - intros E. injection E as <-. right. exists [inr e'], l. auto.
  - intros E. destruct (IH _ E) as [X|(l1 & l2 & -> & X1 & X2)]; auto. right.
    exists (inr e' :: l1), l2. split; auto. split; auto. cbn. lia.
Qed.
(** A success is returned only if an invocation returned it; an error only if the context
    ended, some invocation failed fatally, or every request was made and failed. *)
Theorem C56_success_is_real : forall n t s r, hruns (h_init Resp n) t s -> In (EReturn _ (inl r)) t ->
  exists i, In (EResult _ i (inl r)) t.
Proof.
  intros n t s r H HI. destruct (C56_first_result _ _ _ _ H HI) as [_ [[E _]|V]]; [discriminate|].
  apply verdict_inv in V. apply in_map_iff in V. destruct V as ([i o] & E & V). cbn in E. subst o.
  exists i. eapply C56_arrivals; eauto.
Qed.
Theorem C56_failure_is_total : forall n t s e, hruns (h_init Resp n) t s -> In (EReturn _ (inr e)) t ->
  (e = ctxErr /\ In (ECtxDone _) t) \/
  (isFatal e nonFatal = true /\ exists i, In (EResult _ i (inr e)) t) \/
  (forall i, (i <= n)%nat -> exists e', In (EResult _ i (inr e')) t /\ isFatal e' nonFatal = false).
Proof.
  intros n t s e H HI. destruct (C56_first_result _ _ _ _ H HI) as [_ [[E C]|V]]; [left; split; congruence|].
  right. pose proof (verdict_inv _ _ _ V) as VI. apply verdict_err in V.
  destruct (C56_arrivals _ _ _ H) as [ND AR].
  destruct V as [V|(l1 & l2 & E & F & L)].
  - left. split; auto. apply in_map_iff in VI. destruct VI as ([i o] & E & VI). cbn in E. subst o. exists i.
    eapply AR; eauto.
  - right. cbn [Nat.add] in L. replace (Nat.max 1 (S n)) with (S n) in L by lia.
    assert (LE : (length (arrived t) <= S n)%nat).
    { rewrite <- (map_length fst). pose proof (NoDup_incl_length (l := map fst (arrived t)) (l' := seq 0 (S n)) ND) as X.
      rewrite seq_length in X. apply X. intros i Hi. apply in_map_iff in Hi. destruct Hi as ([j o] & <- & Hi).
      apply AR in Hi. apply in_seq. cbn. lia. }
    assert (l2 = []).
    { apply (f_equal (@length _)) in E. rewrite map_length, app_length in E. destruct l2; auto. cbn in E. lia. }
    subst l2. rewrite app_nil_r in E.
    assert (ALL : forall i, (i <= n)%nat -> In i (map fst (arrived t))).
    { intros i Hi. apply (NoDup_length_incl ND (l' := seq 0 (S n))).
      - rewrite seq_length, map_length. apply (f_equal (@length _)) in E. rewrite map_length in E. lia.
      - intros j Hj. apply in_map_iff in Hj. destruct Hj as ([j' o] & <- & Hj). apply AR in Hj. apply in_seq. cbn. lia.
      - apply in_seq. lia. }
    intros i Hi. specialize (ALL i Hi). apply in_map_iff in ALL. destruct ALL as ([i' o] & Ei & HA). cbn in Ei. subst i'.
    assert (HO : In o l1) by (rewrite <- E; apply in_map_iff; exists (i, o); auto).
    rewrite Forall_forall in F. destruct (F o HO) as (e' & -> & Hf). exists e'. split; auto. eapply AR; eauto.
Qed.

(** Once the call has returned, a hedge that is still waiting for its delay is never sent. *)
Theorem C56_no_late_hedge : forall n t s, hruns (h_init Resp n) t s -> (exists o, In (EReturn _ o) t) ->
  forall t' s', hruns s t' s' -> forall i, nth_error (h_reqs _ s) i = Some (RDelay _) -> ~ In (EInvoke _ i) t'.
Proof.
  intros n t s H [o HR] t' s' H' i HD.
  assert (HC : h_cancel _ s = true).
  { destruct (Inv_run _ _ _ H) as (_ & _ & [_ _ M]). destruct (h_main _ s); [|tauto].
    destruct M as (_ & _ & M & _). exfalso. eapply M; eauto. }
  assert (X : h_cancel _ s' = true /\ (nth_error (h_reqs _ s') i = Some (RDelay _) \/ nth_error (h_reqs _ s') i = Some (RQuit _)) /\
     ~ In (EInvoke _ i) t').
  { clear H HR. induction H' as [|t' s' e s'' H' (I1 & I2 & I3) HS]; [auto|].
    destruct HS; cbn [h_cancel h_reqs] in *; subst;
      try (split; [reflexivity|]; split; [auto|]; rewrite in_app_iff; intros [X|[X|[]]]; [auto|discriminate]);
      try discriminate.
    - split; auto. split; [|rewrite in_app_iff; intros [X|[X|[]]]; [auto|discriminate]].
      rewrite !(set_req_nth _ _ _ _ _ H). destruct (Nat.eqb_spec i i0); subst; auto.
    - split; auto. rewrite !(set_req_nth _ _ _ _ _ H). destruct (Nat.eqb_spec i i0); subst.
      + rewrite H in I2. destruct I2; discriminate.
      + split; auto. rewrite in_app_iff. intros [X|[X|[]]]; [auto|]. congruence.
    - split; auto. split; [|rewrite in_app_iff; intros [X|[X|[]]]; [auto|discriminate]].
      rewrite !(set_req_nth _ _ _ _ _ H). destruct (Nat.eqb_spec i i0); subst; auto. rewrite H in I2. destruct I2; discriminate.
    - split; auto. split; [|rewrite in_app_iff; intros [X|[X|[]]]; [auto|discriminate]].
      rewrite !(set_req_nth _ _ _ _ _ H). destruct (Nat.eqb_spec i i0); subst; auto.  rewrite H in I2. destruct I2; discriminate.
    - split; auto. split; [|rewrite in_app_iff; intros [X|[X|[]]]; [auto|discriminate]].
      rewrite !(set_req_nth _ _ _ _ _ H). destruct (Nat.eqb_spec i i0); subst; auto. }
  tauto.
Qed.

(** The call does not hang: when all requests have finished it can go on until it returns. *)
Theorem C56_returns : forall n t s, hruns (h_init Resp n) t s ->
  Forall (fun r => r = RSent _ \/ r = RQuit _) (h_reqs _ s) ->
  exists t' s' o, hruns s t' s' /\ h_main _ s' = MReturned _ o.
Proof.
  intros n t s H HF.
  assert (G : forall m s, (length (h_chan _ s) <= m)%nat -> forall t, hruns (h_init Resp n) t s ->
    Forall (fun r => r = RSent _ \/ r = RQuit _) (h_reqs _ s) ->
    exists t' s' o, hruns s t' s' /\ h_main _ s' = MReturned _ o); [|eapply G; eauto].
  clear. assert (TR : forall s e s', hstep s e s' -> forall t s'' o, hruns s' t s'' /\ h_main _ s'' = MReturned _ o ->
    exists t' s'' o, hruns s t' s'' /\ h_main _ s'' = MReturned _ o).
  { intros s e s' HS t s'' o [HR HM]. exists (e :: t), s'', o. split; auto. clear HM.
    induction HR.
    - apply (HSnoc _ _ _ s [] s e s'); [constructor|auto].
    - rewrite app_comm_cons. eapply HSnoc; eauto. }
  induction m as [|m IH]; intros s HL t H HF.
  all: destruct (Inv_run _ _ _ H) as ([L _ _ _ _] & [_ AN AR AL _ AS _] & [Q C M]).
  all: destruct (h_main _ s) as [k le|o] eqn:EM; [|exists [], s, o; split; [constructor|auto]].
  all: destruct s as [q c mm cd cc]; cbn [h_chan h_reqs h_main h_ctx h_cancel] in *; subst mm.
  all: destruct M as (-> & HK & HR & eaten & E & HE & HLE).
  all: destruct cd; [eapply TR; [apply SMainCtx|split; [constructor|reflexivity]]|].
  all: assert (LA : length (arrived t) = S n).
  1,3: assert (X1 : (S n <= length (map fst (arrived t)))%nat);
    [rewrite <- (seq_length (S n) 0); apply NoDup_incl_length; [apply seq_NoDup|]; intros i Hi; apply in_seq in Hi;
      destruct (nth_error q i) as [r|] eqn:Er; [|apply nth_error_None in Er; lia];
      rewrite Forall_forall in HF; destruct (HF r (nth_error_In _ _ Er)) as [->| ->]; [auto|];
      destruct (Q _ Er); discriminate|];
    assert (X2 : (length (map fst (arrived t)) <= S n)%nat);
    [rewrite <- (seq_length (S n) 0); apply NoDup_incl_length; auto; intros i Hi; apply in_seq; apply AL in Hi; lia|];
    rewrite map_length in *; lia.
  all: apply (f_equal (@length _)) in E; rewrite map_length, app_length in E.
  - destruct c; cbn in *; lia.
  - destruct c as [|[r|er] c]; [cbn in *; lia| |].
    + eapply TR; [apply SMainOk|split; [constructor|reflexivity]].
    + destruct (isFatal er nonFatal) eqn:EF.
      * eapply TR; [apply SMainFatal; auto|split; [constructor|reflexivity]].
      * destruct (loop_head Resp (length q) (S k) (Some er)) as [k' e'|o] eqn:EL.
        -- pose proof (SMainNext _ ctxErr nonFatal q c k le false false er k' e' EF EL) as ST.
           destruct (IH (mkH q c (MLoop _ k' e') false false) ltac:(cbn in HL |- *; lia) _ (HSnoc _ _ _ _ _ _ _ _ H ST) HF) as (t' & s' & o & HH).
           eapply TR; eauto.
        -- eapply TR; [eapply SMainAll; eauto|split; [constructor|reflexivity]].
Qed.
End C56.
Print Assumptions C56_at_most.
Print Assumptions C56_first_result.
Print Assumptions C56_arrivals.
Print Assumptions C56_success_is_real.
Print Assumptions C56_failure_is_total.
Print Assumptions C56_no_late_hedge.
Print Assumptions C56_returns.

(** A run with one hedge: the original fails, the hedge succeeds and is returned. *)
Example demo_hedge :
  exists s, hruns nat [] [] (h_init nat 1)
    [EInvoke _ 0; EResult _ 0 (inr (text "ErrInternal")); ETau _; EInvoke _ 1; ESend _ 0 (inr (text "ErrInternal")); ETau _;
     EResult _ 1 (inl 7); ESend _ 1 (inl 7); EReturn _ (inl 7)]%nat s.
Proof.
  eexists.
  repeat match goal with
  | |- hruns _ _ _ _ ?l _ =>
      match l with
      | nil => apply HNil
      | _ => let l' := eval cbv in (removelast l) in let x := eval cbv in (last l (ETau nat)) in
             change l with (l' ++ [x]); eapply HSnoc
      end
  end.
  - apply SInvoke with (i := 0%nat); reflexivity.
  - cbn. apply SResult with (i := 0%nat). reflexivity.
  - cbn. apply SDelayOver with (i := 1%nat); reflexivity.
  - cbn. apply SInvoke with (i := 1%nat). reflexivity.
  - cbn. apply SSend with (i := 0%nat). reflexivity.
  - cbn. eapply SMainNext; reflexivity.
  - cbn. apply SResult with (i := 1%nat). reflexivity.
  - cbn. apply SSend with (i := 1%nat). reflexivity.
  - cbn. apply SMainOk.
Qed.
