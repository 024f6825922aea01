(** C111: what the HTTP handler serves, what it sends and when it may return. *)
From Coq Require Import ZArith String List Bool Lia.
Import ListNotations.
From Verif.Model Require Import Base HttpServer.
From Verif.Spec Require Import HttpServer.
From Verif.Proofs Require Import HttpServer.
Local Open Scope nat_scope.

(** A request is served where and only where it is a POST with no Content-Type or the transport's, and the answer can be
    flushed; every other gets the status of the first thing that is wrong with it. *)
Theorem C111_admit : forall r,
  (admit r = None <-> q_method r = text "POST" /\ (q_type r = [] \/ q_type r = text "application/x-claw-rpc") /\ q_flusher r = true) /\
  (admit r = Some 405%Z <-> q_method r <> text "POST") /\
  (admit r = Some 415%Z <-> q_method r = text "POST" /\ q_type r <> [] /\ q_type r <> text "application/x-claw-rpc") /\
  (admit r = Some 500%Z <-> q_method r = text "POST" /\ (q_type r = [] \/ q_type r = text "application/x-claw-rpc") /\ q_flusher r = false).
Proof.
  intros [m c f]. unfold admit, same, ContentType. cbn [q_method q_type q_flusher].
  destruct (list_eq_dec Z.eq_dec m (text "POST")) as [M|M]; destruct (list_eq_dec Z.eq_dec c []) as [C|C]; destruct (list_eq_dec Z.eq_dec c (text "application/x-claw-rpc")) as [D|D];
    destruct f; cbn; intuition (try congruence).
Qed.
Print Assumptions C111_admit.

(** The body of the answer is made of the Writes, one after the other, each once and none in pieces between others: of a
    Write that returned nil all its bytes, and these are flushed; of one that failed, or is not yet through, the first
    bytes; of one refused with io.ErrClosedPipe none. *)
Theorem C111_body : forall es s, after es s ->
  exists l1 l2, made_of s s.(s_body) (l1 ++ l2) /\ s.(s_flushed) = length (parts s l1) /\
    forall t p, returned s t (Write p) ROk -> In (t, length p) l1.
Proof.
  intros es s A. pose proof (after_inv _ _ A) as I. destruct (h_flush s I) as (k & K1 & K2 & K3 & K4).
  exists (firstn k (s_log s)), (skipn k (s_log s)). rewrite firstn_skipn. split; [exact (inv_made s I)|]. split; [exact K2|].
  intros t p ((L & C) & D). specialize (K3 t p C D). apply in_map_iff in K3. destruct K3 as ((t' & n) & E & H). cbn in E. subst t'.
  assert (n = length p) as <-; [|exact H].
  pose proof (h_fl s I t p C (or_intror D)) as F. apply firstn_in in H. pose proof (h_nodup s I) as ND.
  clear - F H ND. induction (s_log s) as [|[a b] l IH]; [contradiction|]. cbn in ND. inversion ND as [|x y NI ND']; subst.
  destruct F as [F|F], H as [H|H]; auto.
  - congruence.
  - injection F as -> ->. elim NI. apply in_map_iff. exists (t, n). auto.
  - injection H as -> ->. elim NI. apply in_map_iff. exists (t, length p). auto.
Qed.
Print Assumptions C111_body.
(** What was sent stays sent, and what comes later goes behind it. *)
Theorem C111_order : forall es s es2 s2, after es s -> run s es2 = Some s2 ->
  (exists tl, s2.(s_body) = s.(s_body) ++ tl) /\
  exists l l2, made_of s s.(s_body) l /\ made_of s2 s2.(s_body) l2 /\ goes_on l l2.
Proof.
  intros es s es2 s2 A R. pose proof (after_inv _ _ A) as I. split; [exact (run_grows _ _ _ R)|].
  exists (s_log s), (s_log s2). split; [exact (inv_made s I)|]. split; [exact (inv_made s2 (run_inv _ _ _ I R))|]. exact (run_log _ _ _ I R).
Qed.
Print Assumptions C111_order.

(** Once a Close, or the handler, has returned, the ResponseWriter is not used any more, whoever still has the transport:
    no Write is in it, the body stays as it is, and a Write or Read called later, or not begun, gets io.ErrClosedPipe. *)
Theorem C111_after : forall es s t c r es2 s2, after es s -> c = Close \/ c = Handle -> returned s t c r -> run s es2 = Some s2 ->
  s2.(s_body) = s.(s_body) /\ s2.(s_flushed) = s.(s_flushed) /\
  (forall u n, (s2.(s_thread) u).(t_pc) <> WIn n) /\ (forall u, (s2.(s_thread) u).(t_pc) <> WFlush) /\
  (forall u p r2, s.(s_nt) <= u \/ not_begun s u -> returned s2 u (Write p) r2 -> r2 = RClosed) /\
  (forall u r2, s.(s_nt) <= u \/ not_begun s u -> returned s2 u Read r2 -> r2 = RClosed).
Proof.
  intros es s t c r es2 s2 A CC ((L & C) & D) R. pose proof (after_inv _ _ A) as I.
  assert (K : closes (t_call (s_thread s t)) = true) by (rewrite C; destruct CC; subst c; reflexivity).
  destruct (h_done s I t r D K) as (CL & _ & _).
  pose proof (run_later s s _ s2 I (later_refl s CL) R) as [C2 B F N KC W]. pose proof (run_inv _ _ _ I R) as I2.
  split; [exact B|]. split; [exact F|]. split; [|split].
  - intros u n P. pose proof (h_shut s2 I2 C2 u) as Q. rewrite P in Q. discriminate.
  - intros u P. pose proof (h_shut s2 I2 C2 u) as Q. rewrite P in Q. discriminate.
  - assert (G : forall u r2 cc, closes cc = false -> s_nt s <= u \/ not_begun s u -> returned s2 u cc r2 -> r2 = RClosed).
    { intros u r2 cc NC O ((L2 & Q) & P). specialize (W u L2). rewrite Q, P in W. specialize (W NC). cbn in W.
      destruct (Nat.le_gt_cases (s_nt s) u) as [LE|LE].
      - destruct r2; try (discriminate (W (or_introl LE))); reflexivity.
      - destruct O as [O|O]; [lia|]. unfold not_begun in O. rewrite (KC u LE) in Q. rewrite Q in O.
        rewrite O in W. destruct cc; try discriminate NC; cbn in W; destruct r2; try (discriminate (W (or_intror eq_refl))); reflexivity. }
    split; [intros u p r2 O; now apply G|intros u r2 O; now apply G].
Qed.
Print Assumptions C111_after.
(** Every Close gets the same answer, and so does the handler's own. *)
Theorem C111_same : forall es s t c r u d q, after es s -> c = Close \/ c = Handle -> d = Close \/ d = Handle ->
  returned s t c r -> returned s u d q -> r = q.
Proof.
  intros es s t c r u d q A CC DD ((L & C) & D) ((L2 & C2) & D2). pose proof (after_inv _ _ A) as I.
  destruct (h_done s I t r D) as (_ & -> & _); [rewrite C; destruct CC; subst c; reflexivity|].
  destruct (h_done s I u q D2) as (_ & -> & _); [rewrite C2; destruct DD; subst d; reflexivity|]. reflexivity.
Qed.
Print Assumptions C111_same.
(** When Serve has returned, the handler can return without any help from the peer, provided that a Write that is in the
    ResponseWriter comes to an end (here: fails) and the body is closed. *)
Theorem C111_returns : forall es s, after es s -> ~ serving s ->
  exists es2 s2, forallb own_step es2 = true /\ run s es2 = Some s2 /\ handler_returned s2.
Proof. exact ends. Qed.
Print Assumptions C111_returns.

(** Example: two Writes and a Read at once, the second Write in two pieces; Serve returns, a third Write comes too late. *)
Definition talk : list event :=
  [ECall (Write [1; 2]%Z); ECall (Write [3; 4; 5]%Z); ECall Read; EStep 2; EPut 2 2; EPut 2 9; EStep 2; EStep 2; EStep 3; EStep 1; EPut 1 1].
Definition rest : list event := [EFail 1; EServed 0; EStep 0; ECall (Write [6]%Z); EClosed 0 true; EStep 4; EGot 3 false].
Definition state_of (es : list event) : st := match run init es with Some s => s | None => init end.
Lemma state_run es : (if run init es then true else false) = true -> after es (state_of es).
Proof. unfold after, state_of. destruct (run init es); [reflexivity|discriminate]. Qed.
Ltac here := match goal with
  | |- after _ _ => apply state_run; vm_compute; reflexivity
  | |- returned _ _ _ _ => split; [split; [apply Nat.ltb_lt; vm_compute; reflexivity|vm_compute; reflexivity]|vm_compute; reflexivity]
  | |- _ => vm_compute; reflexivity
  end.
Example C111_example :
  after talk (state_of talk) /\ s_body (state_of talk) = [3; 4; 5; 1]%Z /\ s_flushed (state_of talk) = 3 /\ returned (state_of talk) 2 (Write [3; 4; 5]%Z) ROk /\
  after (talk ++ rest) (state_of (talk ++ rest)) /\ s_body (state_of (talk ++ rest)) = [3; 4; 5; 1]%Z /\
  returned (state_of (talk ++ rest)) 0 Handle ROk /\ returned (state_of (talk ++ rest)) 4 (Write [6]%Z) RClosed /\ returned (state_of (talk ++ rest)) 1 (Write [1; 2]%Z) RFail.
Proof. repeat match goal with |- _ /\ _ => split; [here|] end. here. Qed.
Example C111_admits : admit (mkReq (text "POST") [] true) = None /\ admit (mkReq (text "GET") [] true) = Some 405%Z /\
  admit (mkReq (text "POST") (text "text/html") false) = Some 415%Z /\ admit (mkReq (text "POST") ContentType false) = Some 500%Z.
Proof. repeat split. Qed.

(** The full claim, that Close (and with it the handler) needs nothing from the peer, is false: it waits for the Write in
    progress, and as long as the connection takes none of its bytes, Close does not return. *)
Definition held : list event := [ECall (Write [1; 2; 3]%Z); EStep 1; EPut 1 1; ECall Close].
Theorem C111_at_once_refuted : exists s, after held s /\ called s 2 Close /\
  forall es2 s2, run s es2 = Some s2 -> forallb (fun e => negb (moves 1 e)) es2 = true -> forall r, ~ returned s2 2 Close r.
Proof.
  assert (A : after held (state_of held)) by here.
  exists (state_of held). split; [exact A|]. split; [split; [vm_compute; lia|reflexivity]|].
  intros es2 s2 R F r (_ & D).
  assert (S : Stuck 1 2 (state_of held)).
  { split; [reflexivity|]. split; [vm_compute; lia|]. split; [vm_compute; lia|]. split; [|reflexivity]. exists 1, [1; 2; 3]%Z. split; [reflexivity|]. split; [reflexivity|cbn; lia]. }
  destruct (run_stuck 1 2 _ es2 s2 (after_inv _ _ A) S F R) as (_ & _ & _ & _ & Q). congruence.
Qed.
Print Assumptions C111_at_once_refuted.
