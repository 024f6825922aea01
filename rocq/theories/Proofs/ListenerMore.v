(** What follows for connections, Close and Serve. *)
From Coq Require Import List Bool Arith Lia.
Import ListNotations.
From Verif.Model Require Import Listener.
From Verif.Spec Require Import Listener.
From Verif.Proofs Require Import Listener.

(** A step of a call changes only this call. *)
Ltac ths H :=
  unfold step, stepT in H; cases H; injection H as <-; bools; proj.
Lemma after_inv es s : after es s -> Inv s.
Proof. apply run_inv, inv_init. Qed.

(** ** No connection is lost *)
Record Kept (s : st) : Prop := {
  k_ctx : forall t, t_ctx (s_thread s t) = false;
  k_chan : forall c g, c_at (s_conn s c) = Chan g -> exists t, t < s_nt s /\ sel (t_pc (s_thread s t)) = Some g;
  k_wait : forall g, g < s_ng s -> g_got (s_gor s g) = Waits -> exists t, t < s_nt s /\ sel (t_pc (s_thread s t)) = Some g;
  k_gone : forall c, c < s_nc s -> c_at (s_conn s c) = Gone -> s_shut s (c_lis (s_conn s c)) = true }.
Lemma kept_init : Kept init.
Proof. constructor; cbn; intros; try reflexivity; try discriminate; lia. Qed.
Lemma ex_sel s t p g (I : Inv s) : t < s_nt s -> sel (t_pc (s_thread s t)) <> Some g ->
  (exists u, u < s_nt s /\ sel (t_pc (s_thread s u)) = Some g) ->
  exists u, u < s_nt s /\ sel (t_pc (fupd (s_thread s) t (mkT (t_call (s_thread s t)) p (t_ctx (s_thread s t))) u)) = Some g.
Proof.
  intros L N (u & L' & P). exists u. split; [exact L'|]. unfold fupd. destruct (Nat.eqb_spec u t) as [->|D]; [contradiction|exact P].
Qed.
Lemma kept_to s s' t p : Inv s -> Kept s -> t < s_nt s -> (forall g, sel (t_pc (s_thread s t)) = Some g -> forall c, c_at (s_conn s' c) <> Chan g) ->
  s_nt s' = s_nt s -> s_thread s' = fupd (s_thread s) t (mkT (t_call (s_thread s t)) p (t_ctx (s_thread s t))) ->
  (forall g, g < s_ng s' -> g_got (s_gor s' g) = Waits -> sel p = Some g \/ g < s_ng s /\ g_got (s_gor s g) = Waits /\ sel (t_pc (s_thread s t)) <> Some g) ->
  (forall c g, c_at (s_conn s' c) = Chan g -> c_at (s_conn s c) = Chan g) ->
  (forall c, c < s_nc s' -> c_at (s_conn s' c) = Gone -> s_shut s' (c_lis (s_conn s' c)) = true) -> Kept s'.
Proof.
  intros I K L N E1 E2 W C G. constructor; [|intros c g H| |exact G].
  - intros u. rewrite E2. unfold fupd. destruct (u =? t); [cbn|]; apply (k_ctx s K).
  - rewrite E1, E2. apply ex_sel; [exact I|exact L| |exact (k_chan s K c g (C c g H))]. intros P. exact (N g P c H).
  - intros g L' E. rewrite E1, E2. destruct (W g L' E) as [P|(W1 & W2 & W3)].
    + exists t. split; [exact L|]. unfold fupd. now rewrite Nat.eqb_refl.
    + apply ex_sel; [exact I|exact L|exact W3|exact (k_wait s K g W1 W2)].
Qed.
Lemma gone_close s l c : (forall c, c < s_nc s -> c_at (s_conn s c) = Gone -> s_shut s (c_lis (s_conn s c)) = true) ->
  c < s_nc s -> c_at (s_conn (closeLis l s) c) = Gone -> s_shut (closeLis l s) (c_lis (s_conn (closeLis l s) c)) = true.
Proof.
  intros K L. cbn. unfold fupd. destruct (c_at (s_conn s c)) eqn:E; try (rewrite E; intros; discriminate).
  - destruct (Nat.eqb_spec (c_lis (s_conn s c)) l) as [D|D]; [cbn; now rewrite Nat.eqb_refl|rewrite E; discriminate].
  - intros _. destruct (c_lis (s_conn s c) =? l); [reflexivity|now apply K].
Qed.
Lemma chan_close s l c g : c_at (s_conn (closeLis l s) c) = Chan g -> c_at (s_conn s c) = Chan g.
Proof. cbn. destruct (c_at (s_conn s c)) eqn:E; try (rewrite E; auto). destruct (_ =? _); [discriminate|rewrite E; auto]. Qed.
Lemma gone_listen s c : Inv s -> c < s_nc s -> s_shut s (c_lis (s_conn s c)) = true -> fupd (s_shut s) (s_nl s) false (c_lis (s_conn s c)) = true.
Proof. intros I L E. unfold fupd. destruct (Nat.eqb_spec (c_lis (s_conn s c)) (s_nl s)) as [D|D]; [|exact E]. pose proof (i_clis s I c L). lia. Qed.
Lemma wait_same s t : (forall g, sel (t_pc (s_thread s t)) = Some g -> g_got (s_gor s g) <> Waits) -> forall p g, g < s_ng s -> g_got (s_gor s g) = Waits ->
  sel p = Some g \/ g < s_ng s /\ g_got (s_gor s g) = Waits /\ sel (t_pc (s_thread s t)) <> Some g.
Proof. intros H p g L W. right. split; [exact L|]. split; [exact W|]. intros P. exact (H g P W). Qed.
Ltac kept s I K :=
  match goal with
  | |- Kept (to ?t ?p (closeLis ?l s)) =>
    apply (kept_to s (to t p (closeLis l s)) t p I K); [assumption|pcof; intros; discriminate|reflexivity|reflexivity|
      exact (wait_same s t ltac:(pcof; intros; discriminate) p)|exact (chan_close s l)|intros c L; exact (gone_close s l c (k_gone s K) L)]
  | |- Kept (to ?t ?p (give ?c ?t s)) =>
    apply (kept_to s (to t p (give c t s)) t p I K); [assumption|pcof; proj|reflexivity|reflexivity|
        exact (wait_same s t ltac:(pcof; intros g' E; injection E as <-; congruence) p)|proj|proj];
      [intros g' E c' H; injection E as <-; unfold fupd in H; destruct (Nat.eqb_spec c' c); [discriminate|]; pose proof (i_chan s I _ _ H); congruence
      |intros c' g'; unfold fupd; destruct (Nat.eqb_spec c' c); [discriminate|auto]
      |intros c' L; unfold fupd; destruct (Nat.eqb_spec c' c); [discriminate|]; exact (k_gone s K c' L)]
  | |- Kept (to ?t ?p (spawn ?l s)) =>
    apply (kept_to s (to t p (spawn l s)) t p I K); [assumption|pcof; intros; discriminate|reflexivity|reflexivity| |proj; auto|proj; exact (k_gone s K)];
      intros g' L W; cbn in L, W; unfold fupd in W; destruct (Nat.eqb_spec g' (s_ng s)) as [->|D]; [now left|right; split; [lia|split; [exact W|pcof; discriminate]]]
  | |- Kept (to ?t ?p ?x) =>
    apply (kept_to s (to t p x) t p I K); [assumption| |reflexivity|reflexivity| |proj; auto|proj; exact (k_gone s K)];
      [pcof; first [intros; discriminate | intros g' E c' H; injection E as <-; pose proof (i_chan s I _ _ H); congruence]
      |exact (wait_same s t ltac:(pcof; first [intros; discriminate | intros g' E; injection E as <-; congruence]) p)]
  end.
Lemma step_kept s e s' : Inv s -> Kept s -> cancels e = false -> step s e = Some s' -> Kept s'.
Proof.
  intros I K N H. unfold step, stepT in H. destruct e; try discriminate N; cases H; injection H as <-; bools; try kept s I K.
  - constructor; proj; [exact (k_ctx s K)|exact (k_chan s K)|exact (k_wait s K)|]. intros c L G. apply gone_listen; auto. exact (k_gone s K c L G).
  - constructor; proj; [exact (k_ctx s K)| |exact (k_wait s K)|]; intros c; unfold fupd; destruct (Nat.eqb_spec c (s_nc s)) as [->|D]; try discriminate; [exact (k_chan s K c)|].
    intros L. apply (k_gone s K). lia.
  - assert (EX : forall g, (exists t, t < s_nt s /\ sel (t_pc (s_thread s t)) = Some g) ->
       exists t, t < S (s_nt s) /\ sel (t_pc (fupd (s_thread s) (s_nt s) (mkT c (start c) false) t)) = Some g).
    { intros g (t & L & P). exists t. split; [lia|]. unfold fupd. destruct (Nat.eqb_spec t (s_nt s)); [lia|exact P]. }
    constructor; proj; [| | |exact (k_gone s K)].
    + intros t. unfold fupd. destruct (t =? s_nt s); [reflexivity|apply (k_ctx s K)].
    + intros c' g G. apply EX, (k_chan s K c' g G).
    + intros g L W. apply EX, (k_wait s K g L W).
  - rewrite (k_ctx s K t) in H0. discriminate.
  - rewrite (k_ctx s K t) in H0. discriminate.
  - constructor; proj; [exact (k_ctx s K)| | |].
    + intros c' g'. unfold fupd. destruct (Nat.eqb_spec c' c) as [->|D]; [|exact (k_chan s K c' g')]. cbn. intros E. injection E as <-. exact (k_wait s K g H Heqg0).
    + intros g' L. unfold fupd. destruct (Nat.eqb_spec g' g); [discriminate|exact (k_wait s K g' L)].
    + intros c' L. unfold fupd. destruct (Nat.eqb_spec c' c) as [->|D]; [discriminate|exact (k_gone s K c' L)].
  - constructor; proj; [exact (k_ctx s K)|exact (k_chan s K)| |exact (k_gone s K)].
    intros g' L. unfold fupd. destruct (Nat.eqb_spec g' g); [discriminate|exact (k_wait s K g' L)].
Qed.
Lemma run_kept s es s' : Inv s -> Kept s -> Forall (fun e => cancels e = false) es -> run s es = Some s' -> Kept s'.
Proof.
  revert s. induction es as [|e es IH]; intros s I K F H; cbn [run] in H; [now injection H as <-|].
  destruct (step s e) as [m|] eqn:E; [|discriminate]. inversion F as [|? ? F1 F2]; subst. exact (IH m (step_inv _ _ _ I E) (step_kept _ _ _ I K F1 E) F2 H).
Qed.

(** ** What a step can change *)
Definition moved (s : st) (c : nat) (a' : place) : Prop :=
  match c_at (s_conn s c), a' with
  | Queue, Queue | Gone, Gone => True
  | Queue, Gone => True
  | Queue, Chan g => g < s_ng s /\ g_got (s_gor s g) = Waits
  | Chan g, Chan g' => g = g'
  | Chan g, Given t => t < s_nt s /\ sel (t_pc (s_thread s t)) = Some g
  | Given t, Given t' => t = t'
  | _, _ => False
  end.
Record Delta (s s' : st) : Prop := {
  d_nt : s_nt s <= s_nt s'; d_nc : s_nc s <= s_nc s'; d_nl : s_nl s <= s_nl s'; d_ng : s_ng s <= s_ng s';
  d_shut : forall l, l < s_nl s -> s_shut s l = true -> s_shut s' l = true;
  d_call : forall t, t < s_nt s -> t_call (s_thread s' t) = t_call (s_thread s t);
  d_conn : forall c, c < s_nc s -> c_lis (s_conn s' c) = c_lis (s_conn s c) /\ moved s c (c_at (s_conn s' c));
  d_new : forall c, s_nc s <= c -> c < s_nc s' -> c_at (s_conn s' c) = Queue /\ s_shut s (c_lis (s_conn s' c)) = false /\ c_lis (s_conn s' c) < s_nl s;
  d_got : forall g c, g < s_ng s -> g_got (s_gor s g) = GotConn c -> g_got (s_gor s' g) = GotConn c;
  d_closed : s_closed s = true -> s_closed s' = true }.
Lemma moved_refl s c : moved s c (c_at (s_conn s c)).
Proof. unfold moved. destruct (c_at (s_conn s c)); auto. Qed.
Lemma delta_close s l : Delta s (closeLis l s).
Proof.
  constructor; proj; auto; try lia.
  - intros m L H. unfold fupd. now destruct (m =? l).
  - intros c L. unfold moved. destruct (c_at (s_conn s c)) eqn:E; try (rewrite E; auto). destruct (Nat.eqb_spec (c_lis (s_conn s c)) l); cbn; [auto|rewrite E; auto].
Qed.
Lemma delta_to s s' t p : Delta s s' -> Delta s (to t p s').
Proof.
  intros [A1 A2 A3 A4 A5 A6 A7 A8 A9 A10]. constructor; proj; auto. intros u L. unfold fupd. destruct (Nat.eqb_spec u t) as [->|D]; cbn; auto.
Qed.
Lemma delta_server s b o : (s_closed s = true -> b = true) -> Delta s (withServer b o s).
Proof. intros H. constructor; proj; auto; try lia. intros c L. split; [reflexivity|apply moved_refl]. Qed.
Lemma delta_spawn s l : Delta s (spawn l s).
Proof.
  constructor; proj; auto; try lia.
  - intros c L. split; [reflexivity|apply moved_refl].
  - intros g c L H. unfold fupd. destruct (Nat.eqb_spec g (s_ng s)); [lia|exact H].
Qed.
Lemma delta_give s t g c : Inv s -> t < s_nt s -> sel (t_pc (s_thread s t)) = Some g -> g_got (s_gor s g) = GotConn c -> Delta s (give c t s).
Proof.
  intros I L P G. constructor; proj; auto; try lia.
  intros c' L'. unfold fupd. destruct (Nat.eqb_spec c' c) as [->|D]; cbn; [|split; [reflexivity|apply moved_refl]].
  split; [reflexivity|]. unfold moved. rewrite (i_sel2 s I t g c P G). auto.
Qed.
Lemma delta_refl s : Delta s s.
Proof. constructor; auto; try lia. intros c L. split; [reflexivity|apply moved_refl]. Qed.
Lemma step_delta s e s' : Inv s -> step s e = Some s' -> Delta s s'.
Proof.
  intros I H. unfold step, stepT in H. destruct e; cases H; injection H as <-; bools.
  all: try (apply delta_to; first [apply delta_close | apply delta_spawn | apply delta_refl | apply delta_server; congruence || auto |
       eapply delta_give; [exact I|assumption|pcof; reflexivity|assumption]]).
  all: constructor; proj; try exact (fun _ H => H); auto; try lia.
  all: try (intros c' L'; split; [reflexivity|apply moved_refl]).
  - intros l L E. unfold fupd. destruct (Nat.eqb_spec l (s_nl s)); [lia|exact E].
  - intros c L. unfold fupd. destruct (Nat.eqb_spec c (s_nc s)); [lia|]. split; [reflexivity|apply moved_refl].
  - intros c L1 L2. unfold fupd. destruct (Nat.eqb_spec c (s_nc s)); [cbn; auto|lia].
  - intros t L. unfold fupd. destruct (Nat.eqb_spec t (s_nt s)); [lia|reflexivity].
  - intros u L. unfold fupd. destruct (Nat.eqb_spec u t) as [->|D]; reflexivity.
  - intros c' L. unfold fupd. destruct (Nat.eqb_spec c' c) as [->|D]; cbn; [|split; [reflexivity|apply moved_refl]]. split; [reflexivity|]. unfold moved. now rewrite Heqp.
  - intros g' c' L E. unfold fupd. destruct (Nat.eqb_spec g' g) as [->|D]; [congruence|exact E].
  - intros g' c' L E. unfold fupd. destruct (Nat.eqb_spec g' g) as [->|D]; [congruence|exact E].
Qed.

(** ** After a listener is closed *)
Record Past (l : nat) (s0 s : st) : Prop := {
  p_nl : l < s_nl s; p_shut : s_shut s l = true; p_nt : s_nt s0 <= s_nt s;
  p_conn : forall c, c < s_nc s -> c_lis (s_conn s c) = l -> c < s_nc s0 /\ c_lis (s_conn s0 c) = l /\
    (c_at (s_conn s c) = c_at (s_conn s0 c) \/ exists g t, c_at (s_conn s0 c) = Chan g /\ c_at (s_conn s c) = Given t);
  p_new : forall t, s_nt s0 <= t -> t < s_nt s -> t_call (s_thread s t) = Accept l -> t_pc (s_thread s t) = AStart \/ t_pc (s_thread s t) = Done RClosed }.
Lemma past_refl l s : l < s_nl s -> s_shut s l = true -> Past l s s.
Proof. intros L H. constructor; auto. intros; lia. Qed.
Ltac fin t I C NW L1 :=
  unfold fupd in *;
  try match goal with Q : context [t =? ?u] |- _ => destruct (Nat.eqb_spec t u) as [?|D']; [subst|]; proj; auto end;
  try (apply NW; auto; lia);
  try (left; reflexivity); try (right; reflexivity); try congruence;
  try match goal with P : t_pc (s_thread ?s t) = _ |- _ => destruct (NW t L1 ltac:(assumption) C) as [B|B]; congruence end;
  try match goal with P : t_pc (s_thread ?s t) = _ |- _ => pose proof (i_pc s I t) as O; rewrite C, P in O; discriminate end.
Lemma step_past l s0 s e s' : Inv s -> Past l s0 s -> step s e = Some s' -> Past l s0 s'.
Proof.
  intros I P H. pose proof (step_delta _ _ _ I H) as D. constructor.
  - pose proof (d_nl _ _ D). pose proof (p_nl _ _ _ P). lia.
  - apply (d_shut _ _ D); [apply (p_nl _ _ _ P)|apply (p_shut _ _ _ P)].
  - pose proof (d_nt _ _ D). pose proof (p_nt _ _ _ P). lia.
  - intros c L E. destruct (Nat.lt_ge_cases c (s_nc s)) as [L'|L'].
    + destruct (d_conn _ _ D c L') as [E1 M]. rewrite E1 in E. destruct (p_conn _ _ _ P c L' E) as (Q1 & Q2 & Q3). split; [exact Q1|]. split; [exact Q2|].
      unfold moved in M. destruct Q3 as [Q3|(g & t & Q3 & Q4)].
      * destruct (c_at (s_conn s c)) eqn:A.
        { pose proof (i_queue s I c A) as B. rewrite E, (p_shut _ _ _ P) in B. discriminate. }
        { destruct (c_at (s_conn s' c)) eqn:A'; try contradiction; [left; congruence|right; eauto]. }
        { destruct (c_at (s_conn s' c)) eqn:A'; try contradiction. left. congruence. }
        { destruct (c_at (s_conn s' c)) eqn:A'; try contradiction. left. congruence. }
      * rewrite Q4 in M. destruct (c_at (s_conn s' c)) eqn:A'; try contradiction. right. eauto.
    + destruct (d_new _ _ D c L' L) as (_ & B & _). rewrite E, (p_shut _ _ _ P) in B. discriminate.
  - pose proof (p_shut _ _ _ P) as SH. pose proof (p_new _ _ _ P) as NW. intros t L1 L2 C. destruct e.
    all: unfold step, stepT in H; cases H; injection H as <-; bools; proj; auto; fin t I C NW L1.
    + left. now rewrite C.
    + exfalso. match goal with Q : t_pc (s_thread s ?u) = _ |- _ => destruct (NW u L1 L2 C); congruence end.
    + exfalso. match goal with Q : t_pc (s_thread s ?u) = _ |- _ => destruct (NW u L1 L2 C); congruence end.
    + exfalso. match goal with Q : t_pc (s_thread s ?u) = _ |- _ => destruct (NW u L1 L2 C); congruence end.
    + exfalso. match goal with Q : t_pc (s_thread s ?u) = _ |- _ => destruct (NW u L1 L2 C); congruence end.
Qed.
Lemma run_past l s0 s es s' : Inv s -> Past l s0 s -> run s es = Some s' -> Past l s0 s'.
Proof.
  revert s. induction es as [|e es IH]; intros s I K H; cbn [run] in H; [now injection H as <-|].
  destruct (step s e) as [m|] eqn:E; [|discriminate]. exact (IH m (step_inv _ _ _ I E) (step_past _ _ _ _ _ I K E) H).
Qed.

(** ** A connection that is lost *)
Record Lost (c g : nat) (s : st) : Prop := {
  x_c : c < s_nc s; x_at : c_at (s_conn s c) = Chan g; x_g : g < s_ng s; x_no : forall t, sel (t_pc (s_thread s t)) <> Some g }.
Lemma step_lost c g s e s' : Inv s -> Lost c g s -> step s e = Some s' -> Lost c g s'.
Proof.
  intros I X H. pose proof (step_delta _ _ _ I H) as D. pose proof (x_no _ _ _ X) as NO. constructor.
  - pose proof (d_nc _ _ D). pose proof (x_c _ _ _ X). lia.
  - destruct (d_conn _ _ D c (x_c _ _ _ X)) as [_ M]. unfold moved in M. rewrite (x_at _ _ _ X) in M.
    destruct (c_at (s_conn s' c)); try contradiction; [congruence|]. destruct M as [_ M]. now apply NO in M.
  - pose proof (d_ng _ _ D). pose proof (x_g _ _ _ X). lia.
  - pose proof (x_g _ _ _ X) as L. intros t. unfold step, stepT in H. destruct e; cases H; injection H as <-; bools; proj; auto; unfold fupd;
      match goal with |- context [?u =? ?v] => destruct (Nat.eqb_spec u v); proj; auto; try discriminate end.
    + destruct c0; discriminate.
    + intros E. injection E as E. lia.
    + intros E. injection E as E. lia.
Qed.
Lemma run_lost c g s es s' : Inv s -> Lost c g s -> run s es = Some s' -> Lost c g s'.
Proof.
  revert s. induction es as [|e es IH]; intros s I K H; cbn [run] in H; [now injection H as <-|].
  destruct (step s e) as [m|] eqn:E; [|discriminate]. exact (IH m (step_inv _ _ _ I E) (step_lost _ _ _ _ _ I K E) H).
Qed.

Lemma fupd_self {A} (f : nat -> A) k v : fupd f k v k = v.
Proof. unfold fupd. now rewrite Nat.eqb_refl. Qed.
Lemma fupd_other {A} (f : nat -> A) k v j : j <> k -> fupd f k v j = f j.
Proof. unfold fupd. intros N. destruct (Nat.eqb_spec j k); [contradiction|reflexivity]. Qed.
Lemma lost_gone c g s : Lost c g s -> ~ waiting s c /\ ~ refused s c /\ (forall t, ~ given s c t) /\ (forall t, ~ under_way s c t).
Proof.
  intros [X1 X2 X3 X4]. unfold waiting, refused, given, under_way. rewrite X2.
  split; [discriminate|]. split; [discriminate|]. split; [discriminate|]. intros t (g' & E & _ & P). injection E as <-. apply (X4 t). destruct P as [-> | ->]; reflexivity.
Qed.

(** ** Calls end once the listener is closed *)
Definition finishes (s : st) (t : nat) : Prop := can_end s t.
Lemma step_finishes s e s' t : own_events e = true -> step s e = Some s' -> finishes s' t -> finishes s t.
Proof. intros O H (es & s2 & R & F & E). exists (e :: es), s2. cbn [run]. rewrite H. repeat split; auto. Qed.
Lemma done_finishes s t r : t < s_nt s -> t_pc (s_thread s t) = Done r -> finishes s t.
Proof. intros L P. exists [], s. split; [reflexivity|]. split; [constructor|]. exists (t_call (s_thread s t)), r. repeat split; auto. Qed.
Lemma own s t p : t_pc (s_thread (to t p s) t) = p /\ t_call (s_thread (to t p s) t) = t_call (s_thread s t).
Proof. cbn. unfold fupd. rewrite Nat.eqb_refl. split; reflexivity. Qed.
Lemma last_finishes s t l r : t < s_nt s -> t_call (s_thread s t) = Serve l -> t_pc (s_thread s t) = SLast r -> finishes s t.
Proof.
  intros L C P. eapply (step_finishes s (EStep t) _ t eq_refl).
  - unfold step, stepT. apply Nat.ltb_lt in L. rewrite L, P, C. reflexivity.
  - apply (done_finishes _ t r); [exact L|]. apply (own (closeLis l s) t).
Qed.
Lemma end_finishes s t l r : t < s_nt s -> t_call (s_thread s t) = Serve l -> t_pc (s_thread s t) = SEnd r -> finishes s t.
Proof.
  intros L C P. eapply (step_finishes s (EStep t) _ t eq_refl).
  - unfold step, stepT. apply Nat.ltb_lt in L. rewrite L, P, C. reflexivity.
  - eapply (last_finishes _ t l r); [exact L| |]; [rewrite (proj2 (own _ t _)); exact C|apply (own _ t)].
Qed.
Lemma err_finishes s t l r : t < s_nt s -> t_call (s_thread s t) = Serve l -> t_pc (s_thread s t) = SErr r -> finishes s t.
Proof.
  intros L C P. eapply (step_finishes s (EStep t) _ t eq_refl).
  - unfold step, stepT. apply Nat.ltb_lt in L. rewrite L, P, C. reflexivity.
  - eapply (end_finishes _ t l _); [exact L| |]; [rewrite (proj2 (own _ t _)); exact C|apply (own _ t)].
Qed.
Lemma acc_finishes s t l : t < s_nt s -> t_call (s_thread s t) = Serve l -> t_pc (s_thread s t) = SAcc -> s_shut s l = true -> finishes s t.
Proof.
  intros L C P S. eapply (step_finishes s (EStep t) _ t eq_refl).
  - unfold step, stepT. apply Nat.ltb_lt in L. rewrite L, P, C, S. reflexivity.
  - eapply (err_finishes _ t l _); [exact L| |]; [rewrite (proj2 (own _ t _)); exact C|apply (own _ t)].
Qed.
Lemma got_finishes s t l g : t < s_nt s -> t_call (s_thread s t) = Accept l /\ t_pc (s_thread s t) = ASel g \/ t_call (s_thread s t) = Serve l /\ t_pc (s_thread s t) = SSel g ->
  s_shut s l = true -> g_got (s_gor s g) <> Waits -> finishes s t.
Proof.
  intros L D S G. pose proof L as LB. apply Nat.ltb_lt in LB. destruct (g_got (s_gor s g)) as [|c|] eqn:E; [congruence| |]; destruct D as [[C P]|[C P]].
  - eapply (step_finishes s (EStep t) _ t eq_refl); [unfold step, stepT; rewrite LB, P, C, E; reflexivity|]. apply (done_finishes _ t (RConn c)); [exact L|apply (own (give c t s) t)].
  - eapply (step_finishes s (EStep t) _ t eq_refl); [unfold step, stepT; rewrite LB, P, C, E; reflexivity|].
    apply (acc_finishes _ t l); [exact L|rewrite (proj2 (own _ t _)); exact C|apply (own _ t)|exact S].
  - eapply (step_finishes s (EStep t) _ t eq_refl); [unfold step, stepT; rewrite LB, P, C, E; reflexivity|]. apply (done_finishes _ t RErr); [exact L|apply (own s t)].
  - eapply (step_finishes s (EStep t) _ t eq_refl); [unfold step, stepT; rewrite LB, P, C, E; reflexivity|].
    apply (err_finishes _ t l RErr); [exact L|rewrite (proj2 (own _ t _)); exact C|apply (own _ t)].
Qed.
Lemma sel_finishes s t l g : Inv s -> t < s_nt s -> t_call (s_thread s t) = Accept l /\ t_pc (s_thread s t) = ASel g \/ t_call (s_thread s t) = Serve l /\ t_pc (s_thread s t) = SSel g ->
  s_shut s l = true -> finishes s t.
Proof.
  intros I L D S. destruct (g_got (s_gor s g)) eqn:E; try (apply (got_finishes s t l g L D S); congruence).
  assert (LG : g < s_ng s) by (apply (i_sel s I t g); destruct D as [[_ ->]|[_ ->]]; reflexivity). apply Nat.ltb_lt in LG.
  eapply (step_finishes s (EFail g) _ t eq_refl); [unfold step; rewrite LG, E; reflexivity|].
  apply (got_finishes _ t l g); [exact L|exact D|exact S|]. cbn. unfold fupd. rewrite Nat.eqb_refl. discriminate.
Qed.
Lemma call_finishes s t l : Inv s -> t < s_nt s -> t_call (s_thread s t) = Accept l \/ t_call (s_thread s t) = Serve l -> s_shut s l = true -> finishes s t.
Proof.
  intros I L D S. pose proof (i_pc s I t) as O. pose proof L as LB. apply Nat.ltb_lt in LB. destruct D as [C|C]; rewrite C in O; destruct (t_pc (s_thread s t)) eqn:P; try discriminate O;
    try (eapply done_finishes; eassumption); try (eapply sel_finishes; eauto; fail).
  - eapply (step_finishes s (EStep t) _ t eq_refl); [unfold step, stepT; rewrite LB, P, C, S; reflexivity|]. apply (done_finishes _ t RClosed); [exact L|apply (own s t)].
  - destruct (s_closed s) eqn:CL; (eapply (step_finishes s (EStep t) _ t eq_refl); [unfold step, stepT; rewrite LB, P, C, CL; reflexivity|]).
    + apply (done_finishes _ t RClosed); [exact L|apply (own _ t)].
    + apply (acc_finishes _ t l); [exact L|rewrite (proj2 (own _ t _)); exact C|apply (own _ t)|exact S].
  - eapply acc_finishes; eauto.
  - eapply err_finishes; eauto.
  - eapply end_finishes; eauto.
  - eapply last_finishes; eauto.
Qed.

Lemma ctx_finishes s t l : Inv s -> t < s_nt s -> t_call (s_thread s t) = Accept l \/ t_call (s_thread s t) = Serve l -> t_ctx (s_thread s t) = true -> finishes s t.
Proof.
  intros I L D X. pose proof L as LB. apply Nat.ltb_lt in LB.
  assert (A : forall s, t < s_nt s -> t_ctx (s_thread s t) = true -> (exists g, t_pc (s_thread s t) = ASel g) -> finishes s t).
  { clear. intros s L X (g & P). pose proof L as LB. apply Nat.ltb_lt in LB. eapply (step_finishes s (ECtx t) _ t eq_refl); [unfold step; rewrite LB, X, P; reflexivity|].
    apply (done_finishes _ t RCtx); [exact L|apply (own s t)]. }
  assert (B : forall s, t < s_nt s -> t_call (s_thread s t) = Serve l -> t_ctx (s_thread s t) = true -> (exists g, t_pc (s_thread s t) = SSel g) -> finishes s t).
  { clear. intros s L C X (g & P). pose proof L as LB. apply Nat.ltb_lt in LB. eapply (step_finishes s (ECtx t) _ t eq_refl); [unfold step; rewrite LB, X, P; reflexivity|].
    eapply (err_finishes _ t l); [exact L|rewrite (proj2 (own _ t _)); exact C|apply (own _ t)]. }
  assert (B2 : forall s, t < s_nt s -> t_call (s_thread s t) = Serve l -> t_ctx (s_thread s t) = true -> t_pc (s_thread s t) = SAcc -> finishes s t).
  { clear - B. intros s L C X P. destruct (s_shut s l) eqn:S; [eapply acc_finishes; eauto|]. pose proof L as LB. apply Nat.ltb_lt in LB.
    eapply (step_finishes s (EStep t) _ t eq_refl); [unfold step, stepT; rewrite LB, P, C, S; reflexivity|].
    apply B; [exact L|rewrite (proj2 (own _ t _)); exact C|cbn; now rewrite fupd_self|eexists; apply (own _ t)]. }
  pose proof (i_pc s I t) as O. destruct D as [C|C]; rewrite C in O; destruct (t_pc (s_thread s t)) eqn:P; try discriminate O;
    try (eapply done_finishes; eassumption).
  - destruct (s_shut s l) eqn:S; [eapply call_finishes; eauto|].
    eapply (step_finishes s (EStep t) _ t eq_refl); [unfold step, stepT; rewrite LB, P, C, S; reflexivity|].
    apply A; [exact L|cbn; now rewrite fupd_self|eexists; apply (own _ t)].
  - apply A; eauto.
  - destruct (s_closed s) eqn:CL; (eapply (step_finishes s (EStep t) _ t eq_refl); [unfold step, stepT; rewrite LB, P, C, CL; reflexivity|]).
    + apply (done_finishes _ t RClosed); [exact L|apply (own _ t)].
    + apply B2; [exact L|rewrite (proj2 (own _ t _)); exact C|cbn; now rewrite fupd_self|apply (own _ t)].
  - apply B2; auto.
  - apply B; eauto.
  - eapply err_finishes; eauto.
  - eapply end_finishes; eauto.
  - eapply last_finishes; eauto.
Qed.
Lemma conn_finishes s t l c : Inv s -> t < s_nt s -> t_call (s_thread s t) = Accept l -> c < s_nc s -> c_lis (s_conn s c) = l -> c_at (s_conn s c) = Queue -> finishes s t.
Proof.
  intros I L C LC CL Q. pose proof (i_queue s I c Q) as S. rewrite CL in S.
  assert (A : forall s g, t < s_nt s -> t_call (s_thread s t) = Accept l -> t_pc (s_thread s t) = ASel g -> c < s_nc s -> c_lis (s_conn s c) = l -> c_at (s_conn s c) = Queue ->
    g < s_ng s -> g_lis (s_gor s g) = l -> finishes s t).
  { clear. intros s g L C P LC CL Q LG GL. apply Nat.ltb_lt in LC, LG. pose proof L as LB. apply Nat.ltb_lt in LB.
    assert (G : forall s, t < s_nt s -> t_call (s_thread s t) = Accept l -> t_pc (s_thread s t) = ASel g -> g_got (s_gor s g) <> Waits -> finishes s t).
    { clear. intros s L C P G. pose proof L as LB. apply Nat.ltb_lt in LB. destruct (g_got (s_gor s g)) as [|c|] eqn:E; [congruence| |];
        (eapply (step_finishes s (EStep t) _ t eq_refl); [unfold step, stepT; rewrite LB, P, C, E; reflexivity|]).
      - apply (done_finishes _ t (RConn c)); [exact L|apply (own (give c t s) t)].
      - apply (done_finishes _ t RErr); [exact L|apply (own s t)]. }
    destruct (g_got (s_gor s g)) eqn:E; [|apply G; auto; congruence|apply G; auto; congruence].
    eapply (step_finishes s (ETake g c) _ t eq_refl); [unfold step; rewrite LC, LG, E, Q, CL, GL, Nat.eqb_refl; reflexivity|].
    apply G; cbn; auto. rewrite fupd_self. discriminate. }
  pose proof (i_pc s I t) as O. rewrite C in O. destruct (t_pc (s_thread s t)) eqn:P; try discriminate O; try (eapply done_finishes; eassumption).
  - pose proof L as LB. apply Nat.ltb_lt in LB. eapply (step_finishes s (EStep t) _ t eq_refl); [unfold step, stepT; rewrite LB, P, C, S; reflexivity|].
    apply (A _ (s_ng s)); cbn; auto; rewrite ?fupd_self; auto.
  - destruct (i_sel s I t g ltac:(now rewrite P)) as [LG E]. rewrite C in E. injection E as E. apply (A s g); auto.
Qed.

(** ** The server *)
Definition active (p : pc) : bool := match p with SAcc | SSel _ | SErr _ | SEnd _ => true | _ => false end.
Definition one (s : st) : Prop := forall t u l m, t < s_nt s -> u < s_nt s -> t_call (s_thread s t) = Serve l -> t_call (s_thread s u) = Serve m -> t = u.
Record Srv (s : st) : Prop := {
  r_end : forall t l r, t < s_nt s -> t_call (s_thread s t) = Serve l -> t_pc (s_thread s t) = Done r -> s_shut s l = true;
  r_done : forall t l r, t < s_nt s -> t_call (s_thread s t) = CloseLis l -> t_pc (s_thread s t) = Done r -> s_shut s l = true;
  r_cur : one s -> forall t l, t < s_nt s -> t_call (s_thread s t) = Serve l -> active (t_pc (s_thread s t)) = true -> s_listener s = Some l;
  r_x : one s -> forall t u l m, t < s_nt s -> u < s_nt s -> t_pc (s_thread s t) = XLis l -> t_call (s_thread s u) = Serve m -> active (t_pc (s_thread s u)) = true -> l = m;
  r_closing : forall t l, t < s_nt s -> t_pc (s_thread s t) = XLis l -> s_closed s = true;
  r_closed : forall t r, t < s_nt s -> t_call (s_thread s t) = CloseSrv -> t_pc (s_thread s t) = Done r -> s_closed s = true;
  r_shut : one s -> forall t u m r, t < s_nt s -> u < s_nt s -> t_call (s_thread s t) = CloseSrv -> t_pc (s_thread s t) = Done r ->
    t_call (s_thread s u) = Serve m -> active (t_pc (s_thread s u)) = true -> s_shut s m = true }.
Lemma srv_init : Srv init.
Proof. constructor; cbn; intros; lia. Qed.
Lemma one_back s s' : Delta s s' -> one s' -> one s.
Proof.
  intros D O t u l m L1 L2 C1 C2. pose proof (d_nt _ _ D). apply (O t u l m); try lia; rewrite (d_call _ _ D) by lia; assumption.
Qed.
Lemma srv_move s s' t p : Inv s -> Srv s -> t < s_nt s -> s_nt s' = s_nt s -> s_thread s' = fupd (s_thread s) t (mkT (t_call (s_thread s t)) p (t_ctx (s_thread s t))) ->
  (one s' -> one s) -> (forall l, l < s_nl s -> s_shut s l = true -> s_shut s' l = true) -> (s_closed s = true -> s_closed s' = true) ->
  (forall l r, t_call (s_thread s t) = Serve l \/ t_call (s_thread s t) = CloseLis l -> p = Done r -> s_shut s' l = true) ->
  (forall l, one s -> t_call (s_thread s t) = Serve l -> active p = true -> s_listener s' = Some l) ->
  (forall l, t_call (s_thread s t) = Serve l -> active p = true -> active (t_pc (s_thread s t)) = true \/ s_closed s' = false) ->
  (forall m, one s -> s_listener s = Some m -> s_listener s' = Some m \/ exists l, t_call (s_thread s t) = Serve l) ->
  (forall l, p = XLis l -> s_closed s' = true /\ s_listener s = Some l) ->
  (forall r, t_call (s_thread s t) = CloseSrv -> p = Done r -> s_closed s' = true /\ (s_listener s = None \/ exists l, t_pc (s_thread s t) = XLis l /\ s_shut s' l = true)) ->
  Srv s'.
Proof.
  intros I R L EN ET OB HS HC HD HA HA2 HL HX HZ. destruct R as [R1 R2 R3 R4 R5 R6 R7].
  assert (TS : s_thread s' t = mkT (t_call (s_thread s t)) p (t_ctx (s_thread s t))) by (rewrite ET; apply fupd_self).
  assert (TO : forall u, u <> t -> s_thread s' u = s_thread s u) by (intros u N; rewrite ET; now apply fupd_other).
  assert (CL : forall u, t_call (s_thread s' u) = t_call (s_thread s u)) by (intros u; destruct (Nat.eq_dec u t) as [->|N]; [now rewrite TS|now rewrite TO]).
  assert (HL2 : forall u m, u < s_nt s -> u <> t -> one s -> t_call (s_thread s u) = Serve m -> s_listener s = Some m -> s_listener s' = Some m).
  { intros u m LU N O C E. destruct (HL m O E) as [A|(l & A)]; [exact A|]. exfalso. apply N. exact (O u t m l LU L C A). }
  constructor; rewrite ?EN.
  - intros u l r LU C P. rewrite CL in C. destruct (Nat.eq_dec u t) as [->|N]; [rewrite TS in P; eauto|]. rewrite (TO u N) in P. apply HS; [|eauto].
    apply (i_call s I u). now rewrite C.
  - intros u l r LU C P. rewrite CL in C. destruct (Nat.eq_dec u t) as [->|N]; [rewrite TS in P; eauto|]. rewrite (TO u N) in P. apply HS; [|eauto].
    apply (i_call s I u). now rewrite C.
  - intros O u l LU C P. rewrite CL in C. apply OB in O. destruct (Nat.eq_dec u t) as [->|N]; [rewrite TS in P; eauto|]. rewrite (TO u N) in P. eauto.
  - intros O u v l m LU LV P C A. rewrite CL in C. apply OB in O. destruct (Nat.eq_dec u t) as [->|N].
    + rewrite TS in P. cbn in P. destruct (HX l P) as [_ E]. destruct (Nat.eq_dec v t) as [->|N]; [rewrite TS in A; cbn in A; subst p; discriminate|].
      rewrite (TO v N) in A. rewrite (R3 O v m LV C A) in E. congruence.
    + rewrite (TO u N) in P. destruct (Nat.eq_dec v t) as [->|N'].
      * rewrite TS in A. cbn in A. destruct (HA2 m C A) as [B|B]; [eauto|]. rewrite (HC (R5 u l LU P)) in B. discriminate.
      * rewrite (TO v N') in A. eauto.
  - intros u l LU P. destruct (Nat.eq_dec u t) as [->|N]; [rewrite TS in P; cbn in P; apply (HX l P)|]. rewrite (TO u N) in P. eauto.
  - intros u r LU C P. rewrite CL in C. destruct (Nat.eq_dec u t) as [->|N]; [rewrite TS in P; cbn in P; apply (HZ r C P)|]. rewrite (TO u N) in P. eauto.
  - intros O u v m r LU LV C P C2 A. rewrite CL in C, C2. apply OB in O. destruct (Nat.eq_dec u t) as [->|N].
    + rewrite TS in P. cbn in P. destruct (Nat.eq_dec v t) as [->|N]; [congruence|]. rewrite (TO v N) in A.
      destruct (HZ r C P) as [_ [E|(l & E & S)]]; [rewrite (R3 O v m LV C2 A) in E; discriminate|]. now rewrite <- (R4 O t v l m L LV E C2 A).
    + rewrite (TO u N) in P. destruct (Nat.eq_dec v t) as [->|N'].
      * rewrite TS in A. cbn in A. destruct (HA2 m C2 A) as [B|B]; [|rewrite (HC (R6 u r LU C P)) in B; discriminate].
        apply HS; [apply (i_call s I t); now rewrite C2|]. exact (R7 O u t m r LU L C P C2 B).
      * rewrite (TO v N') in A. apply HS; [apply (i_call s I v); now rewrite C2|]. exact (R7 O u v m r LU LV C P C2 A).
Qed.
Ltac mv s I R D :=
  match goal with
  | |- Srv (mkSt _ _ _ _ _ _ (S _) _ _ _) => idtac
  | T : ?t < s_nt s |- Srv ?x => match x with context [to t ?p _] => apply (srv_move s x t p I R T eq_refl eq_refl (one_back _ _ D) (d_shut _ _ D) (d_closed _ _ D)) end
  end.
Ltac sfin s R t :=
  repeat match goal with Q : _ \/ _ |- _ => destruct Q end; try congruence;
  match goal with
  | |- fupd _ ?l true ?m = true => first [replace m with l by congruence; apply fupd_self | exfalso; congruence]
  | |- s_listener s = Some ?m => apply (r_cur s R) with t; [assumption|assumption|congruence|repeat match goal with P : t_pc _ = _ |- _ => rewrite P end; reflexivity]
  | |- _ \/ _ => left; repeat match goal with P : t_pc _ = _ |- _ => rewrite P end; reflexivity
  | |- s_closed s = true /\ _ => split; [eapply (r_closing s R); eassumption|right; eexists; split; [eassumption|apply fupd_self]]
  | |- _ /\ _ => split; congruence
  | _ => idtac
  end.
Lemma step_srv s e s' : Inv s -> Srv s -> step s e = Some s' -> Srv s'.
Proof.
  intros I R H. pose proof (step_delta _ _ _ I H) as D.
  assert (SAME : forall x, s_nt x = s_nt s -> (forall u, t_call (s_thread x u) = t_call (s_thread s u) /\ t_pc (s_thread x u) = t_pc (s_thread s u)) ->
    s_closed x = s_closed s -> s_listener x = s_listener s -> Delta s x -> Srv x).
  { intros x E1 E2 E3 E4 DX. pose proof (one_back _ _ DX) as OX. destruct R as [R1 R2 R3 R4 R5 R6 R7].
    assert (M : forall u l, lisOf (t_call (s_thread s u)) = Some l -> s_shut s l = true -> s_shut x l = true).
    { intros u l C S. apply (d_shut _ _ DX); [exact (i_call s I u l C)|exact S]. }
    constructor; rewrite ?E1, ?E3, ?E4; intros; repeat match goal with Q : context [s_thread x ?u] |- _ => rewrite ?(proj1 (E2 u)), ?(proj2 (E2 u)) in Q end.
    - apply (M t); [now rewrite H1|eauto].
    - apply (M t); [now rewrite H1|eauto].
    - eauto.
    - eauto.
    - eauto.
    - eauto.
    - apply (M u); [now rewrite H5|eauto]. }
  unfold step, stepT in H. destruct e; cases H; injection H as <-; bools.
  all: try (solve [apply SAME; [reflexivity| |reflexivity|reflexivity|exact D]; intros u; proj; unfold fupd; split_eq; split; reflexivity]).
  all: clear SAME; mv s I R D.
  all: try (pose proof (i_pc s I t) as OK; repeat match goal with P : t_pc _ = _ |- _ => rewrite P in OK end; repeat match goal with P : t_call _ = _ |- _ => rewrite P in OK end; cbn in OK).
  all: lazymatch goal with |- Srv _ => idtac | _ => proj; intros end; try solve [discriminate | congruence | eauto | left; congruence | right; congruence | contradiction].
  all: lazymatch goal with |- Srv _ => idtac | _ => try (solve [sfin s R t]) end.
  { pose proof (one_back _ _ D) as OB. destruct R as [R1 R2 R3 R4 R5 R6 R7]. clear D.
    assert (NA : active (start c) = false) by (destruct c; reflexivity).
    assert (ND : forall r, start c <> Done r) by (destruct c; discriminate).
    assert (NX : forall l, start c <> XLis l) by (destruct c; discriminate).
    constructor; proj; intros; repeat match goal with Q : context [fupd _ _ _ ?u] |- _ => unfold fupd in Q; destruct (Nat.eqb_spec u (s_nt s)); proj; subst end;
      try solve [exfalso; eapply ND; eassumption | exfalso; eapply NX; eassumption | congruence].
    1: apply (R1 t l r); [lia|assumption..].
    1: apply (R2 t l r); [lia|assumption..].
    1: apply (R3 (OB ltac:(assumption)) t l); [lia|assumption..].
    1: apply (R4 (OB ltac:(assumption)) t u l m); [lia|lia|assumption..].
    1: apply (R5 t l); [lia|assumption..].
    1: apply (R6 t r); [lia|assumption..].
    1: apply (R7 (OB ltac:(assumption)) t u m r); [lia|lia|assumption..]. }
  all: exfalso; repeat match goal with Q : _ \/ _ |- _ => destruct Q end; match goal with Q : t_call _ = _ |- _ => rewrite Q in OK end; discriminate OK.
Qed.
Lemma run_srv s tr s' : Inv s -> Srv s -> run s tr = Some s' -> Srv s'.
Proof.
  revert s. induction tr as [|e tr IH]; intros s I R H; cbn [run] in H; [congruence|]. destruct (step s e) as [s1|] eqn:E; [|discriminate].
  eapply IH; [eapply step_inv|eapply step_srv|]; eassumption.
Qed.

