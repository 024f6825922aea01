(** C119: a sync session answers its requests in order, each once and under its id.
    C120: a stream handler gets what the client sent, and the client what it sends, in order; then the end, the status and the trailer. *)
From Coq Require Import ZArith List Bool Lia.
Import ListNotations.
From Verif.Model Require Import Base SrvSession.
From Verif.Spec Require Import SrvSession.
From Verif.Proofs Require Import SrvSession SrvStream SrvClose.
Local Open Scope nat_scope.

(** * C119 *)
(** Whatever the client, the handler, the connection and the clock do: the requests that the handler is given are the first of those
    that came in, in their order. *)
Theorem C119_order : forall m es s, run Sync m (init Sync) es = Some s ->
  x_begun s = firstn (length (x_begun s)) (x_arrived s).
Proof.
  intros m es s H. destruct (sync_holds _ _ _ H) as (A & B & _). rewrite A, B, firstn_app, firstn_all, Nat.sub_diag. cbn. rewrite app_nil_r. reflexivity.
Qed.

(** What the client is sent is the answers to the first requests, each once, under its id, in their order, and after them at most one
    Close, the last message; at most one call of the handler has no answer.  The Close has the code 0 where the client closed the
    session and each request has been answered; else it has the code of the error of the last call, or of the send of its answer. *)
Theorem C119_answers : forall m es s, run Sync m (init Sync) es = Some s ->
  exists done rest tail,
    x_calls s = map good done ++ rest /\ length rest <= 1 /\ sent s = map answer done ++ tail /\
    (exists l, x_arrived s = map fst done ++ map fst rest ++ l) /\
    (tail = [] \/ exists code, tail = [WClose code None] /\ close_reason m es s done rest code).
Proof.
  intros m es s H. destruct (sync_holds _ _ _ H) as (A & B & C & done & rest & tail & Cl & W & L & At).
  exists done, rest, tail. split; [exact Cl|]. split; [exact L|]. split; [exact W|]. rewrite A, <- B.
  unfold sync_at in At. destruct (x_h s); try contradiction.
  - destruct At as (-> & -> & Bg). rewrite Bg. split; [exists (x_q s); reflexivity|left; reflexivity].
  - destruct At as (-> & -> & Bg). rewrite Bg. split; [exists (p :: x_q s); rewrite <- app_assoc; reflexivity|left; reflexivity].
  - destruct At as (-> & -> & Bg). rewrite Bg. split; [exists (x_q s); rewrite <- app_assoc; reflexivity|left; reflexivity].
  - destruct md; [contradiction|]. destruct At as (-> & _ & Bg). rewrite Bg. split; [exists (x_q s); rewrite <- app_assoc; reflexivity|left; reflexivity].
  - destruct At as (Bg & T). rewrite Bg. split; [exists (x_q s); rewrite <- app_assoc; reflexivity|exact T].
Qed.

(** While the session waits for the client, each request that came in has been answered. *)
Theorem C119_idle : forall m es s, run Sync m (init Sync) es = Some s -> x_h s = HTake -> x_q s = [] ->
  exists done, x_calls s = map good done /\ x_arrived s = map fst done /\ sent s = map answer done.
Proof.
  intros m es s H T Q. destruct (sync_holds _ _ _ H) as (A & B & C & done & rest & tail & Cl & W & L & At).
  unfold sync_at in At. rewrite T in At. destruct At as (-> & -> & Bg). rewrite app_nil_r in *. exists done. split; [exact Cl|]. split; [|exact W].
  rewrite A, Q, app_nil_r, <- B. exact Bg.
Qed.

(** The session never stops by itself: it is over, or in the handler, or waits for the client, or goes on. *)
Theorem C119_goes_on : forall m es s, run Sync m (init Sync) es = Some s ->
  x_h s = HDone \/ (exists p, x_h s = HCall p) \/ (x_h s = HTake /\ x_q s = [] /\ x_qclosed s = false) \/ (forall e, exists s', step Sync m s (EStep e) = Some s').
Proof.
  intros m es s H. destruct (sync_holds _ _ _ H) as (_ & _ & _ & done & rest & tail & _ & _ & _ & At). unfold sync_at in At. cbn [step]. unfold stepH.
  destruct (x_h s) as [|p|p b| | | | | | |e md|]; try contradiction.
  - destruct (x_q s) as [|p q]; [|right; right; right; intros e; eexists; reflexivity]. destruct (x_qclosed s); [right; right; right; intros e; eexists; reflexivity|].
    right; right; left. auto.
  - right; left. exists p. reflexivity.
  - right; right; right. intros e. destruct (sendPayload m s None (p_req p) b false e). eexists. reflexivity.
  - right; right; right. intros g. destruct (sendMsg s None (WClose (errCode e) md) g). eexists. reflexivity.
  - left. reflexivity.
Qed.

(** The full statement of what a failed request does, "the client learns of the failure, and the other requests get their answers", is false.
    Part one holds if the category of the error is not a multiple of 65536: the Close then has another code than that of success. *)
Theorem C119_failure_partial : forall m es s w md p g, run Sync m (init Sync) es = Some s -> In (w, WClose 0 md) (x_wire s) -> In (p, inr g) (x_calls s) ->
  exists c, g_cat g = Some c /\ (65536 | c)%Z.
Proof.
  intros m es s w md p g H HW HC. destruct (C119_answers _ _ _ H) as (done & rest & tail & Cl & L & W & _ & T).
  assert (X : In (WClose 0 md) (sent s)) by (unfold sent; apply in_map_iff; exists (w, WClose 0 md); split; [reflexivity|exact HW]).
  rewrite W in X. apply in_app_or in X. destruct X as [X|X]; [apply in_map_iff in X; destruct X as (y & Y & _); discriminate|].
  destruct T as [->|(code & -> & R)]; [contradiction|]. destruct X as [X|[]]. injection X as -> _.
  rewrite Cl in HC. apply in_app_or in HC. destruct HC as [HC|HC]; [apply in_map_iff in HC; destruct HC as (y & Y & _); discriminate|].
  destruct R as [(-> & _)|[(p' & g' & -> & R)|(p' & b & g' & -> & _)]].
  - contradiction.
  - destruct HC as [HC|[]]. injection HC as -> ->. unfold errCode in R. destruct (g_cat g) as [c|].
    + exists c. split; [reflexivity|]. apply Z.mod_divide; [lia|]. symmetry. exact R.
    + destruct (g_deadline g); [discriminate|]. destruct (g_canceled g); discriminate.
  - destruct HC as [HC|[]]. discriminate.
Qed.

Definition req (n : Z) : pay := mkP n [n] false.
Definition st_of (k : hkind) (m : Z) (es : list event) : option st := run k m (init k) es.
Definition sync_demo : list event := [EArrive (req 1); EArrive (req 2); EStep None; EHandle (inl [7%Z]); EStep None; EStep None; ECloseQ; EHandle (inl [8%Z]); EStep None; EStep None; EStep None].
Example C119_example : exists s, st_of Sync 0 sync_demo = Some s /\ sent s = [WData 1 [7%Z] false; WData 2 [8%Z] false; WClose 0 None] /\ x_h s = HDone.
Proof. eexists. split; [vm_compute; reflexivity|]. split; reflexivity. Qed.
Example C119_idle_example : exists s, st_of Sync 0 [EArrive (req 1); EStep None; EHandle (inl [7%Z]); EStep None] = Some s /\ x_h s = HTake /\ x_q s = [] /\ x_arrived s <> [].
Proof. eexists. split; [vm_compute; reflexivity|]. split; [reflexivity|]. split; [reflexivity|discriminate]. Qed.
(** An error with the category Unknown (0), or with one of the application's own, 65536, closes the session as a success. *)
Definition failed_demo (c : Z) : list event := [EArrive (req 1); EStep None; EHandle (inr (cat c)); EStep None].
Theorem C119_failure_refuted : ~ (forall m es s p g, run Sync m (init Sync) es = Some s -> In (p, inr g) (x_calls s) -> forall w md, ~ In (w, WClose 0 md) (x_wire s)).
Proof.
  intros H. destruct (run Sync 0 (init Sync) (failed_demo 0)) as [s|] eqn:R; [|discriminate].
  assert (X : x_calls s = [(req 1, inr (cat 0))] /\ x_wire s = [(None, WClose 0 None)]).
  { revert R. vm_compute. intros R. injection R as <-. split; reflexivity. }
  destruct X as [X1 X2]. apply (H 0%Z _ s (req 1) (cat 0) R) with (w := None) (md := None).
  - rewrite X1. left. reflexivity.
  - rewrite X2. left. reflexivity.
Qed.
Example C119_own_category : exists s, st_of Sync 0 (failed_demo 65536) = Some s /\ sent s = [WClose 0 None].
Proof. eexists. split; vm_compute; reflexivity. Qed.
Example C119_failure_example : exists s, st_of Sync 0 (failed_demo 5) = Some s /\ sent s = [WClose 5 None].
Proof. eexists. split; vm_compute; reflexivity. Qed.
(** Part two: the request after one that fails is never given to the handler and has no answer, although the connection is fine. *)
Theorem C119_others_refuted : ~ (forall m es s p, run Sync m (init Sync) es = Some s -> x_h s = HDone -> x_conn s = false -> In p (x_arrived s) -> In p (x_begun s)).
Proof.
  intros H. destruct (run Sync 0 (init Sync) (EArrive (req 1) :: EArrive (req 2) :: [EStep None; EHandle (inr (cat 5)); EStep None])) as [s|] eqn:R; [|discriminate].
  assert (X : x_h s = HDone /\ x_conn s = false /\ x_arrived s = [req 1; req 2] /\ x_begun s = [req 1]).
  { revert R. vm_compute. intros R. injection R as <-. repeat split; reflexivity. }
  destruct X as (X1 & X2 & X3 & X4). assert (Y : In (req 2) (x_begun s)) by (eapply H; [exact R|exact X1|exact X2|rewrite X3; right; left; reflexivity]).
  rewrite X4 in Y. destruct Y as [Y|[]]. discriminate.
Qed.
(** A deadline does not end a sync session: it waits until the client does something, and sends nothing. *)
Theorem C119_deadline_refuted : exists m es s, run Sync m (init Sync) es = Some s /\ x_ctx s = true /\ x_h s <> HDone /\
  forall es' s', (forall e, In e es' -> (forall p, e <> EArrive p) /\ e <> ECloseQ) -> run Sync m s es' = Some s' -> x_h s' <> HDone /\ sent s' = sent s.
Proof.
  exists 0%Z, [EArrive (req 1); EStep None; EHandle (inl [7%Z]); EStep None; ECtx]. eexists. split; [vm_compute; reflexivity|]. split; [reflexivity|]. split; [discriminate|].
  intros es' s' N R. eapply waits in R; [|reflexivity|reflexivity|reflexivity|reflexivity|exact N]. destruct R as [A B]. split; [rewrite A; discriminate|exact B].
Qed.
Print Assumptions C119_order.
Print Assumptions C119_answers.
Print Assumptions C119_idle.
Print Assumptions C119_goes_on.
Print Assumptions C119_failure_partial.
Print Assumptions C119_failure_refuted.
Print Assumptions C119_others_refuted.
Print Assumptions C119_deadline_refuted.

(** * C120 *)
(** At all times, what the handler's loops over Recv got is the data of the first payloads that came in, in order, each once. *)
Theorem C120_recv : forall k m es s, k <> Sync -> run k m (init k) es = Some s ->
  exists l, x_arrived s = l ++ x_q s /\ x_got s = yields l.
Proof. intros k m es s HK H. destruct (recv_holds _ _ _ _ HK H) as (_ & A & G). exists (x_taken s). split; assumption. Qed.

(** A loop ends after an EndStream, or because the session's channel was closed, or because the context ended, and in the last two cases
    the handler was given all that came in; or because the handler stops it. *)
Theorem C120_loop_end : forall k m es e s s' n o, k <> Sync -> run k m (init k) es = Some s -> step k m s e = Some s' -> x_over s' = x_over s ++ [(n, o)] ->
  match o with
  | OClosed => x_qclosed s' = true /\ x_got s' = yields (x_arrived s')
  | OEnd => exists l p r, x_arrived s' = l ++ p :: r /\ p_end p = true /\ x_got s' = yields (l ++ [p])
  | OCtx => x_ctx s' = true /\ x_got s' = yields (x_arrived s')
  | OStopped => e = ENext false
  end.
Proof.
  intros k m es e s s' n o HK R St O. pose proof (recv_holds _ _ _ _ HK R) as V. pose proof (loop_holds _ _ _ _ R) as L.
  pose proof (step_recv _ _ _ _ _ HK V St) as (_ & A' & G').
  destruct (loop_end k m e s s' n o HK V) as (_ & X); try eassumption.
  - intros dr last E. unfold loop_inv in L. rewrite E in L. exact (proj1 L).
  - intros E. unfold loop_inv in L. rewrite E in L. exact L.
  - destruct o.
    + destruct X as [X1 X2]. rewrite <- X2. split; [exact X1|exact G'].
    + destruct X as (l & p & X1 & X2). exists l, p, (x_q s'). rewrite A', X1, <- app_assoc. split; [reflexivity|]. split; [exact X2|]. rewrite G', X1. reflexivity.
    + destruct X as [X1 X2]. rewrite <- X2. split; [exact X1|exact G'].
    + exact X.
Qed.

(** Once its context has ended, a loop that waits ends without the client, and the handler gets what is buffered, up to an EndStream. *)
Theorem C120_ctx : forall k m es s, run k m (init k) es = Some s -> x_h s = HRecv false -> x_ctx s = true ->
  exists es' s' a b, Forall (fun e => e = EEnded \/ e = EStep None \/ e = ENext true) es' /\ run k m s es' = Some s' /\ x_h s' = HUser /\
    x_q s = a ++ b /\ x_got s' = x_got s ++ yields a /\ (b = [] \/ exists l p, a = l ++ [p] /\ p_end p = true).
Proof.
  intros k m es s _ Hh Hc. destruct (drains k m (x_q s) (with_h s (HRecv true)) eq_refl eq_refl) as (es' & s' & a & b & F & R & U & Q & G & E).
  exists (EEnded :: es'), s', a, b. split; [|split; [|split; [exact U|split; [exact Q|split; [exact G|exact E]]]]].
  - constructor; [left; reflexivity|]. eapply Forall_impl; [|exact F]. intros x [X|X]; [right; left; exact X|right; right; exact X].
  - cbn [run step]. rewrite Hh, Hc. exact R.
Qed.

(** The full statement "a handler can tell the end of the client's stream from a stream that broke off" is false: whatever it makes of
    what it got and of its context, it is wrong for one of two clients: one ends its stream, the other cancels. *)
Definition ended_demo (broken : bool) : list event :=
  [ERange; EArrive (req 1); EStep None; ENext true] ++ (if broken then [ECancel; ECloseQ; EStep None] else [EArrive (mkP 0 [] true); EStep None]).
Theorem C120_broken_refuted : ~ (exists f : list bytes -> bool -> bool, forall m es s, run BiDir m (init BiDir) es = Some s -> x_h s = HUser -> x_over s <> [] ->
  f (x_got s) (x_ctx s) = existsb p_end (x_arrived s)).
Proof.
  intros (f & H).
  assert (X : forall b, exists s, run BiDir 0 (init BiDir) (ended_demo b) = Some s /\ x_h s = HUser /\ x_over s <> [] /\ x_got s = [[1%Z]] /\ x_ctx s = false /\ existsb p_end (x_arrived s) = negb b).
  { intros [|]; eexists; (split; [vm_compute; reflexivity|]); (split; [reflexivity|]); (split; [discriminate|]); (split; [reflexivity|]); split; reflexivity. }
  destruct (X true) as (s1 & R1 & U1 & O1 & G1 & C1 & E1). destruct (X false) as (s2 & R2 & U2 & O2 & G2 & C2 & E2).
  pose proof (H _ _ _ R1 U1 O1) as H1. pose proof (H _ _ _ R2 U2 O2) as H2. rewrite G1, C1, E1 in H1. rewrite G2, C2, E2 in H2. rewrite H1 in H2. discriminate.
Qed.

(** A Send that returned nil has put its data on the wire, once; one that failed, or that has not returned, has not. *)
Theorem C120_sends : forall k m es s, run k m (init k) es = Some s ->
  (forall i x, nth_error (x_senders s) i = Some x -> (s_pc x = SDone None <-> In (Some i, WData 0 (s_data x) false) (x_wire s))) /\
  (forall i w, In (Some i, w) (x_wire s) -> exists x, nth_error (x_senders s) i = Some x /\ w = WData 0 (s_data x) false) /\
  (forall i a b c w w', x_wire s <> a ++ (Some i, w) :: b ++ (Some i, w') :: c).
Proof.
  intros k m es s H. destruct (send_holds _ _ _ _ H) as (A & B & N). split; [|split].
  - intros i [d pc] X. cbn [s_data s_pc]. split.
    + intros ->. exact (B i d X).
    + intros W. destruct (A i _ W) as (d' & D & _). rewrite X in D. injection D as _ ->. reflexivity.
  - intros i w W. destruct (A i w W) as (d & D & ->). exists (mkS d (SDone None)). split; [exact D|reflexivity].
  - intros i a b c w w' E. rewrite E in N. unfold froms in N. rewrite flat_map_app in N. cbn [flat_map fst app] in N. rewrite flat_map_app in N. cbn [flat_map fst app] in N.
    apply NoDup_remove_2 in N. apply N. apply in_or_app. right. apply in_or_app. right. left. reflexivity.
Qed.

(** Of two Sends that succeed, of which the second was called after the first had returned, the first one's data comes first. *)
Theorem C120_order : forall k m es1 s1 es2 s i x j y, run k m (init k) es1 = Some s1 -> run k m s1 es2 = Some s ->
  nth_error (x_senders s1) i = Some x -> s_pc x = SDone None -> length (x_senders s1) <= j -> nth_error (x_senders s) j = Some y -> s_pc y = SDone None ->
  exists a b c, x_wire s = a ++ (Some i, WData 0 (s_data x) false) :: b ++ (Some j, WData 0 (s_data y) false) :: c.
Proof.
  intros k m es1 s1 es2 s i x j y R1 R2 X PX L Y PY.
  assert (R : run k m (init k) (es1 ++ es2) = Some s) by (rewrite run_app, R1; exact R2).
  destruct (C120_sends _ _ _ _ R1) as (A1 & B1 & _). destruct (C120_sends _ _ _ _ R) as (A & _).
  pose proof (proj1 (A1 i x X) PX) as W1. pose proof (proj1 (A j y Y) PY) as W2.
  destruct (run_grows _ _ _ _ _ R2) as ((l & G) & _). rewrite G in W2. apply in_app_or in W2. destruct W2 as [W2|W2].
  - destruct (B1 _ _ W2) as (z & Z1 & _). apply nth_error_None in L. congruence.
  - apply in_split in W1. destruct W1 as (a & b & W1). apply in_split in W2. destruct W2 as (c & d & W2).
    exists a, (b ++ c), d. rewrite G, W1, W2. rewrite <- !app_assoc. cbn [app]. rewrite <- ?app_assoc. reflexivity.
Qed.

(** There is at most one Close.  It has the code of what the handler returned and the trailer: for each key the last value given to it by
    SetTrailer, of all calls before the handler returned (and perhaps some later ones). *)
Theorem C120_close : forall k m es s w c md, k <> Sync -> run k m (init k) es = Some s -> In (w, WClose c md) (x_wire s) ->
  length (filter is_close (x_wire s)) = 1 /\
  exists es1 e es2 s1 n, es = es1 ++ EReturn e :: es2 /\ run k m (init k) es1 = Some s1 /\ c = errCode e /\
    length (x_sets s1) <= n /\ trailer_of md (firstn n (x_sets s)).
Proof.
  intros k m es s w c md HK H HW. pose proof (close_holds _ _ _ _ HK H) as V.
  assert (F : In (w, WClose c md) (filter is_close (x_wire s))) by (apply filter_In; split; [exact HW|reflexivity]).
  unfold close_inv in V. destruct (x_h s); try (rewrite V in F; contradiction); try (destruct V as [V _]; rewrite V in F; contradiction).
  destruct V as [V|(e & md' & V & T)]; rewrite V in F; [contradiction|]. destruct F as [F|[]]. injection F as <- <- <-.
  split; [rewrite V; reflexivity|]. destruct T as (n & L & (es1 & es2 & s1 & E & R & Ln) & T). exists es1, e, es2, s1, n. auto.
Qed.

(** What was sent before the handler returned comes before the Close; so does the EndStream, where the transport takes what it is given. *)
Theorem C120_before : forall k m es1 s1 es2 s w x c md, k <> Sync -> run k m (init k) es1 = Some s1 -> run k m s1 es2 = Some s -> x_h s1 <> HDone ->
  In x (x_wire s1) -> In (w, WClose c md) (x_wire s) -> exists a b d, x_wire s = a ++ x :: b ++ (w, WClose c md) :: d.
Proof.
  intros k m es1 s1 es2 s w x c md HK R1 R2 ND X W. destruct (run_grows _ _ _ _ _ R2) as ((l & G) & _).
  pose proof (close_holds _ _ _ _ HK R1) as V. rewrite G in W. apply in_app_or in W. destruct W as [W|W].
  - exfalso. assert (F : In (w, WClose c md) (filter is_close (x_wire s1))) by (apply filter_In; split; [exact W|reflexivity]).
    unfold close_inv in V. destruct (x_h s1); try (rewrite V in F; contradiction); try (destruct V as [V _]; rewrite V in F; contradiction). congruence.
  - apply in_split in X. destruct X as (a & b & X). apply in_split in W. destruct W as (e & f & W). exists a, (b ++ e), f.
    rewrite G, X, W, <- !app_assoc. cbn [app]. rewrite <- ?app_assoc. reflexivity.
Qed.
Theorem C120_end : forall k m es s w c md, has_send k = true -> (forall g, ~ In (EStep (Some g)) es) -> run k m (init k) es = Some s -> In (w, WClose c md) (x_wire s) ->
  exists a b d, x_wire s = a ++ (None, WData 0 [] true) :: b ++ (w, WClose c md) :: d.
Proof.
  intros k m es s w c md HK NE H HW. assert (KS : k <> Sync) by (intros ->; discriminate).
  pose proof (fin_holds _ _ _ _ HK NE H) as V. pose proof (close_holds _ _ _ _ KS H) as C.
  assert (F : In (w, WClose c md) (filter is_close (x_wire s))) by (apply filter_In; split; [exact HW|reflexivity]).
  unfold close_inv in C. unfold fin_inv in V. destruct (x_h s); try (rewrite C in F; contradiction); try (destruct C as [C _]; rewrite C in F; contradiction).
  destruct C as [C|(e & md' & C & _)]; rewrite C in F; [contradiction|]. destruct F as [F|[]]. injection F as <- <- <-.
  destruct V as [V|(a & b & d & code & md & V)]; [rewrite V in C; discriminate|]. exists a, b, d. rewrite V in C |- *.
  rewrite filter_app in C. cbn [filter is_close fin_msg snd] in C. rewrite filter_app in C. cbn [filter is_close snd] in C.
  assert (X : In (None, WClose code md) [(None, WClose (errCode e) md')]) by (rewrite <- C; apply in_or_app; right; apply in_or_app; right; left; reflexivity).
  destruct X as [X|[]]. rewrite X. reflexivity.
Qed.

(** Once the session is over nothing more is sent in it, if no Send is then under way that saw the stream open; later ones are refused. *)
Theorem C120_after_partial : forall k m es s es' s', run k m (init k) es = Some s -> x_h s = HDone -> Forall not_past (x_senders s) ->
  run k m s es' = Some s' -> x_wire s' = x_wire s.
Proof.
  intros k m es s es' s' R D F R'. refine (proj2 (run_quiet k m es' s s' _ R') D). split; [|exact F].
  destruct (over_holds _ _ _ _ R) as (A & B). destruct (has_send k) eqn:HK; [left|right; split; [exact (B eq_refl)|first [exact HK|reflexivity]]].
  specialize (A eq_refl). rewrite D in A. exact A.
Qed.
(** Without the condition it is false: a goroutine of the handler that is in Send when the handler returns can send after the Close. *)
Definition late_demo : list event := [ESend [5%Z]; ESender 0 None; EReturn None; EStep None; EStep None; EStep None; EStep None].
Theorem C120_after_refuted : ~ (forall m es s es' s', run BiDir m (init BiDir) es = Some s -> x_h s = HDone -> run BiDir m s es' = Some s' -> x_wire s' = x_wire s).
Proof.
  intros H. destruct (run BiDir 0 (init BiDir) late_demo) as [s|] eqn:R; [|discriminate]. destruct (run BiDir 0 s [ESender 0 None]) as [s'|] eqn:R'.
  - assert (X : x_h s = HDone /\ length (x_wire s') = 3 /\ length (x_wire s) = 2).
    { revert R R'. vm_compute. intros R. injection R as <-. vm_compute. intros R'. injection R' as <-. repeat split; reflexivity. }
    destruct X as (X1 & X2 & X3). pose proof (H _ _ _ _ _ R X1 R') as E. rewrite E in X2. lia.
  - revert R R'. vm_compute. intros R. injection R as <-. vm_compute. discriminate.
Qed.
Definition stream_demo : list event :=
  [ERange; EArrive (req 1); EStep None; ESend [1%Z]; ESender 0 None; ESender 0 None; ENext true; EArrive (mkP 0 [2%Z] true); EStep None; ESend [2%Z]; ESender 1 None; ESender 1 None;
   ESetTrailer [([9%Z], [[1%Z]]); ([8%Z], [[3%Z]])]; ESetTrailer [([9%Z], [[2%Z]])]; ENext true; EReturn (Some (cat 5)); EStep None; EStep None; EStep None; EStep None].
Example C120_example : exists s, st_of BiDir 0 stream_demo = Some s /\ x_got s = [[1%Z]; [2%Z]] /\ x_h s = HDone /\ Forall not_past (x_senders s) /\
  sent s = [WData 0 [1%Z] false; WData 0 [2%Z] false; WData 0 [] true; WClose 5 (Some [([9%Z], [[2%Z]]); ([8%Z], [[3%Z]])])].
Proof. eexists. split; [vm_compute; reflexivity|]. split; [reflexivity|]. split; [reflexivity|]. split; [repeat apply Forall_cons; try apply Forall_nil; right; eexists; reflexivity|reflexivity]. Qed.
Example C120_ctx_example : exists s, st_of SendH 0 [ERange; EArrive (req 1); EArrive (req 2); ECtx] = Some s /\ x_h s = HRecv false /\ x_ctx s = true /\ length (x_q s) = 2.
Proof. eexists. split; [vm_compute; reflexivity|]. repeat split; reflexivity. Qed.
Print Assumptions C120_recv.
Print Assumptions C120_loop_end.
Print Assumptions C120_ctx.
Print Assumptions C120_broken_refuted.
Print Assumptions C120_sends.
Print Assumptions C120_order.
Print Assumptions C120_close.
Print Assumptions C120_before.
Print Assumptions C120_end.
Print Assumptions C120_after_partial.
Print Assumptions C120_after_refuted.
