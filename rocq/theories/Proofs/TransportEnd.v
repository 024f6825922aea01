(** Close and what comes after it; that calls end. *)
From Coq Require Import ZArith List Bool Lia.
Import ListNotations.
From Verif.Model Require Import Base Transport.
From Verif.Spec Require Import Transport.
From Verif.Proofs Require Import BaseLemmas Transport.
Local Open Scope nat_scope.

(** ** After Close *)
(** Who sends has the writer; where a Close has returned nobody is at work under connMu. *)
Record Shut (s : st) : Prop := {
  z_writer : forall t x k c, th s t x -> t_pc x = WBody k c \/ t_pc x = WErr k c -> s_writer s = Some c;
  z_closed : forall t x r, th s t x -> t_call x = Close -> t_pc x = Done r -> s_closed s = true /\ s_connMu s = None;
  z_at : forall t x, th s t x -> t_pc x = CLock \/ t_pc x = CShut -> s_closed s = true }.
Lemma shut_init client : Shut (init client).
Proof. unfold init. destruct client; constructor; unfold th; cbn; intros; destruct t; discriminate. Qed.
Lemma nth_snoc {A} (l : list A) a t y : nth_error (l ++ [a]) t = Some y -> nth_error l t = Some y \/ y = a.
Proof.
  intros H. destruct (Nat.lt_ge_cases t (length l)) as [L|L].
  - left. now rewrite nth_error_app1 in H.
  - right. rewrite nth_error_app2 in H by exact L. destruct (t - length l) as [|[|k]]; [now injection H as <-|discriminate..].
Qed.
Ltac open s I H :=
  unfold step, stepT in H; cases H; injection H as <-;
  repeat match goal with H : free _ = true |- _ => apply free_none in H end;
  try match goal with G : nth_error _ ?t = Some ?x, P : t_pc ?x = _ |- _ => facts s I t x G P end.
Ltac snoc :=
  repeat match goal with H : nth_error (_ ++ [_]) _ = Some ?x |- _ => apply nth_snoc in H; destruct H as [H|H]; [|subst x] end.
Lemma step_shut client s e s' : Inv s -> Shut s -> step client s e = Some s' -> Shut s'.
Proof.
  intros I W H. open s I H.
  all: constructor; unfold th; proj; intros; snoc; threads; cbn [t_call t_pc] in *;
    try (match goal with H : _ \/ _ |- _ => destruct H; discriminate end); try discriminate;
    try (eapply (z_writer s W); eassumption); try (eapply (z_closed s W); eassumption).
  all: try (eapply (z_at s W); eassumption); try (split; [assumption|assumption]); try (split; [reflexivity|assumption]); try reflexivity.
  all: try (exfalso; destruct (t_call _); discriminate).
  all: try (match goal with G : nth_error _ ?u = Some ?x, C : t_call ?x = Close, D : t_pc ?x = Done ?r |- _ => destruct (z_closed s W u x r G C D) as [Z1 Z2]; first [(split; assumption) | exfalso; congruence | exfalso; specialize (A1 eq_refl); congruence] end).
  all: try (match goal with H : ?a = _ \/ ?a = _ |- _ => destruct H as [H|H]; injection H as ? ?; subst; first [assumption | eapply (z_writer s W); [eassumption|eauto]] end).
  all: try (match goal with G : nth_error _ ?t = Some ?x, P : t_pc ?x = _ |- _ = true /\ None = None => split; [apply (z_at s W t x G); rewrite P; auto|reflexivity] end).
  all: try (match goal with G : nth_error _ ?u = Some ?x, H : t_pc ?x = WBody ?k ?c \/ t_pc ?x = WErr ?k ?c |- _ =>
        exfalso; pose proof (i_write s I u x G ltac:(destruct H as [-> | ->]; reflexivity)); congruence end).
  - destruct H0 as [[= <- <-]|H0]; [assumption|discriminate].
  - apply (z_at s W t t0 Heqo). now left.
  - destruct H0 as [[= <- <-]|H0]; [|discriminate]. apply (z_writer s W t t0 n c Heqo). now left.
  - destruct H0 as [H0|[= <- <-]]; [discriminate|]. apply (z_writer s W t t0 n c Heqo). now left.
Qed.
Record All (s : st) : Prop := { a_inv : Inv s; a_wire : Wire s; a_shut : Shut s }.
Lemma all_init client : All (init client).
Proof. constructor; [apply inv_init|apply wire_init|apply shut_init]. Qed.
Lemma step_all client s e s' : All s -> step client s e = Some s' -> All s'.
Proof. intros [I W S] H. constructor; [exact (step_inv _ _ _ _ I H)|exact (step_wire _ _ _ _ I W H)|exact (step_shut _ _ _ _ I S H)]. Qed.
Lemma run_all client s es s' : All s -> run client s es = Some s' -> All s'.
Proof.
  revert s. induction es as [|e es IH]; intros s A H; cbn [run] in H; [now injection H as <-|].
  destruct (step client s e) as [m|] eqn:E; [|discriminate]. exact (IH m (step_all _ _ _ _ A E) H).
Qed.
Lemma after_all client es s : after client es s -> All s.
Proof. apply run_all, all_init. Qed.

(** ** What grows *)
Definition Grows (s s' : st) : Prop :=
  (exists l, s_sent s' = s_sent s ++ l) /\ (forall t x, th s t x -> exists x', th s' t x' /\ t_call x' = t_call x /\ (forall r, t_pc x = Done r -> x' = x)).
Lemma grows_to s s' t p x l : th s t x -> s_threads s' = setPc t p (s_threads s) -> s_sent s' = s_sent s ++ l -> (forall r, t_pc x <> Done r) -> Grows s s'.
Proof.
  intros G ET ES N. split; [eauto|]. intros u y H. destruct (Nat.eq_dec u t) as [->|D].
  - rewrite (th_fun _ _ _ _ H G). exists (mkT (t_call x) p). split; [exact (th_self s s' t p x ET G)|]. split; [reflexivity|]. intros r E. now apply N in E.
  - exists y. split; [exact (th_other s s' t p u y ET D H)|]. auto.
Qed.
Lemma step_grows client s e s' : step client s e = Some s' -> Grows s s'.
Proof.
  intros H. unfold step, stepT in H. cases H; injection H as <-.
  all: try (split; [exists []; cbn; now rewrite app_nil_r|]; intros t x G; exists x; split; [|auto]; unfold th in *; cbn; rewrite nth_error_app1; [exact G|apply nth_error_Some; congruence]).
  all: match goal with G : nth_error _ ?t = Some ?x, P : t_pc ?x = _ |- Grows _ (to ?t ?p _) =>
     first [ apply (grows_to s _ t p x [] G); [reflexivity|cbn; now rewrite app_nil_r|rewrite P; discriminate]
           | eapply (grows_to s _ t p x _ G); [reflexivity|reflexivity|rewrite P; discriminate] ] end.
Qed.
Lemma run_grows' client s es s' : run client s es = Some s' -> Grows s s'.
Proof.
  revert s. induction es as [|e es IH]; intros s H; cbn [run] in H.
  - injection H as <-. split; [exists []; now rewrite app_nil_r|]. intros t x G. exists x. auto.
  - destruct (step client s e) as [m|] eqn:E; [|discriminate]. destruct (step_grows _ _ _ _ E) as [(l1 & L1) T1]. destruct (IH m H) as [(l2 & L2) T2].
    split; [exists (l1 ++ l2); now rewrite L2, L1, app_assoc|]. intros t x G. destruct (T1 t x G) as (y & Y1 & Y2 & Y3). destruct (T2 t y Y1) as (z & Z1 & Z2 & Z3).
    exists z. split; [exact Z1|]. split; [congruence|]. intros r D. rewrite (Y3 r D) in *. exact (Z3 r D).
Qed.
Lemma run_grows client s es s' : All s -> run client s es = Some s' ->
  (exists l, s_sent s' = s_sent s ++ l /\ forall t c, In (t, c) l -> ~ ended s t) /\ (forall t, t < length (s_threads s) -> data s' t = data s t).
Proof.
  intros A H. destruct (run_grows' _ _ _ _ H) as [(l & L) T]. pose proof (run_all _ _ _ _ A H) as A'. split.
  - exists l. split; [exact L|]. intros t c IN (cl & r & R).
    assert (IN' : In (t, c) (s_sent s')) by (rewrite L; apply in_or_app; now right).
    destruct (w_sent s' (a_wire s' A') t c IN') as (_ & p & G'). destruct (T t _ R) as (x' & G2 & _ & D). rewrite (D r eq_refl) in G2.
    pose proof (th_fun _ _ _ _ G' G2) as E. injection E as <- <-. destruct (w_ok s (a_wire s A) t p R) as (c0 & I0).
    pose proof (w_once s' (a_wire s' A')) as N. rewrite L, map_app in N.
    apply (in_map fst) in IN. apply (in_map fst) in I0. cbn in IN, I0. revert N I0 IN. generalize (map fst (s_sent s)) (map fst l). clear.
    intros a. induction a as [|z a IH]; intros b N Ha Hb; [destruct Ha|]. cbn in N. inversion N as [|? ? N1 N2]; subst. destruct Ha as [->|Ha]; [|exact (IH b N2 Ha Hb)].
    apply N1. apply in_or_app. now right.
  - intros t LT. unfold data. destruct (nth_error (s_threads s) t) as [x|] eqn:G; [|apply nth_error_None in G; lia].
    destruct (T t x G) as (x' & G' & C & _). unfold th in G'. rewrite G'. unfold payload. now rewrite C.
Qed.

(** The state in which a Close has returned. *)
Definition over (s : st) : Prop := s_closed s = true /\ s_connMu s = None.
Lemma over_none s : Inv s -> over s -> s_conn s = None /\ s_writer s = None /\ s_reader s = None.
Proof. intros I [A B]. pose proof (i_closed2 s I A B) as C. split; [exact C|]. apply (i_bufs s I C). Qed.
(** How a call that is over or new may stand. *)
Definition fresh_ok (x : thread) : bool :=
  match x.(t_call), x.(t_pc) with
  | Write _, WStart | Read, RStart | Close, CStart | Connect, NStart => true
  | Close, Done ROk => true
  | Close, _ => false
  | _, Done RClosed => true
  | _, _ => false
  end.
Record Later (s s' : st) : Prop := {
  l_over : over s';
  l_wire : forall c, n_wire (netAt c s') = n_wire (netAt c s);
  l_sent : s_sent s' = s_sent s;
  l_nets : length (s_nets s) <= length (s_nets s');
  l_len : length (s_threads s) <= length (s_threads s');
  l_old : forall t x, th s t x -> exists x', th s' t x' /\ t_call x' = t_call x /\ (fresh_ok x = true -> fresh_ok x' = true) /\
     (t_call x = Connect -> t_pc x <> Done ROk -> t_pc x' <> Done ROk);
  l_new : forall t x', th s' t x' -> length (s_threads s) <= t -> fresh_ok x' = true }.
Lemma later_call s c : over s ->
  Later s (mkSt s.(s_connMu) s.(s_writeMu) s.(s_closed) s.(s_connected) s.(s_connErr) s.(s_conn) s.(s_reader) s.(s_writer) s.(s_nets) (s.(s_threads) ++ [mkT c (start c)]) s.(s_sent)).
Proof.
  intros O. constructor; proj; try reflexivity; try lia.
  - exact O.
  - rewrite app_length. lia.
  - intros t x G. exists x. unfold th in *. proj. rewrite nth_error_app1; [auto|]. apply nth_error_Some. congruence.
  - intros t x G L. unfold th in G. proj. rewrite nth_error_app2 in G by exact L.
    destruct (t - length (s_threads s)) as [|[|k]]; [injection G as <-|discriminate..]. destruct c; reflexivity.
Qed.
Lemma later_to s s' t p x : th s t x -> s_closed s' = true -> s_connMu s' = None -> s_threads s' = setPc t p (s_threads s) -> s_sent s' = s_sent s ->
  (forall c, n_wire (netAt c s') = n_wire (netAt c s)) -> length (s_nets s) <= length (s_nets s') ->
  (fresh_ok x = true -> fresh_ok (mkT (t_call x) p) = true) -> (t_call x = Connect -> p <> Done ROk) -> Later s s'.
Proof.
  intros G C M ET ES EW EL F N. constructor; auto.
  - split; assumption.
  - rewrite ET, set_pc_length. lia.
  - intros u y H. destruct (Nat.eq_dec u t) as [->|D].
    + rewrite (th_fun _ _ _ _ H G). exists (mkT (t_call x) p). split; [exact (th_self s s' t p x ET G)|]. cbn. auto.
    + exists y. split; [exact (th_other s s' t p u y ET D H)|]. auto.
  - intros u y H L. exfalso. destruct (th_set s s' t p u y ET H) as [(-> & z & Z1 & _)|[_ H']].
    + unfold th in Z1. assert (t < length (s_threads s)) by (apply nth_error_Some; congruence). lia.
    + unfold th in H'. assert (u < length (s_threads s)) by (apply nth_error_Some; congruence). lia.
Qed.
Lemma step_over client s e s' : All s -> over s -> step client s e = Some s' -> Later s s'.
Proof.
  intros [I W S] O H. destruct (over_none s I O) as (Cn & Cw & Cr). pose proof O as O'. destruct O as [Oc Om].
  assert (NB : forall t x k c, th s t x -> t_pc x <> WBody k c).
  { intros t x k c G E. pose proof (z_writer s S t x k c G (or_introl E)). congruence. }
  assert (NH : forall t x, th s t x -> holdsConn (t_pc x) = false).
  { intros t x G. pose proof (i_conn s I t x G) as A. destruct (holdsConn (t_pc x)); [|reflexivity]. specialize (A eq_refl). congruence. }
  open s I H.
  all: try congruence.
  all: try (exfalso; eapply NB; eassumption).
  all: try (match goal with G : nth_error _ ?t = Some ?x, P : t_pc ?x = _ |- _ => pose proof (NH t x G) as N; rewrite P in N; discriminate N end).
  all: try match goal with |- Later _ (mkSt _ _ _ _ _ _ _ _ _ (_ ++ [mkT ?c _]) _) => exact (later_call s c O') end.
  all: try (unfold refused in *; rewrite Oc in *; repeat match goal with H : Some _ = Some _ |- _ => injection H as <- end; try discriminate).
  all: match goal with G : nth_error _ ?t = Some ?x, P : t_pc ?x = _ |- Later _ (to ?t ?p _) =>
     apply (later_to s _ t p x G); try assumption; try reflexivity; unfold fresh_ok; rewrite ?P; cbn [t_call t_pc];
     try (destruct (t_call x); discriminate); try (intros; apply net_shut); try (destruct (t_call x); congruence) end.
  all: proj; rewrite ?set_nth_length, ?app_length; try lia.
  all: try (intros c'; unfold netAt; proj; destruct (Nat.lt_ge_cases c' (length (s_nets s))) as [L|L];
            [now rewrite app_nth1|rewrite app_nth2, (nth_overflow (s_nets s)) by exact L; destruct (c' - length (s_nets s)) as [|[|k]]; reflexivity]).
Qed.
Lemma later_trans s m s' : Later s m -> Later m s' -> Later s s'.
Proof.
  intros A B. constructor.
  - apply (l_over _ _ B).
  - intros c. now rewrite (l_wire _ _ B c), (l_wire _ _ A c).
  - now rewrite (l_sent _ _ B), (l_sent _ _ A).
  - pose proof (l_nets _ _ A). pose proof (l_nets _ _ B). lia.
  - pose proof (l_len _ _ A). pose proof (l_len _ _ B). lia.
  - intros t x G. destruct (l_old _ _ A t x G) as (y & Y1 & Y2 & Y3 & Y4). destruct (l_old _ _ B t y Y1) as (z & Z1 & Z2 & Z3 & Z4).
    exists z. split; [exact Z1|]. split; [congruence|]. split; [auto|]. intros C N. apply Z4; [congruence|auto].
  - intros t z G L. destruct (Nat.lt_ge_cases t (length (s_threads m))) as [L'|L']; [|exact (l_new _ _ B t z G L')].
    destruct (nth_error (s_threads m) t) as [y|] eqn:E; [|apply nth_error_None in E; lia].
    destruct (l_old _ _ B t y E) as (z' & Z1 & Z2 & Z3 & _). rewrite (th_fun _ _ _ _ G Z1). apply Z3. exact (l_new _ _ A t y E L).
Qed.
Lemma later_refl s : over s -> Later s s.
Proof.
  intros O. constructor; auto.
  - intros t x G. exists x. auto.
  - intros t x G L. unfold th in G. assert (t < length (s_threads s)) by (apply nth_error_Some; congruence). lia.
Qed.
Lemma run_over client s es s' : All s -> over s -> run client s es = Some s' -> Later s s'.
Proof.
  revert s. induction es as [|e es IH]; intros s A O H; cbn [run] in H; [injection H as <-; now apply later_refl|].
  destruct (step client s e) as [m|] eqn:E; [|discriminate]. pose proof (step_over _ _ _ _ A O E) as L.
  exact (later_trans _ _ _ L (IH m (step_all _ _ _ _ A E) (l_over _ _ L) H)).
Qed.
Lemma closed_over s t r : All s -> returned s t Close r -> over s.
Proof. intros A R. exact (z_closed s (a_shut s A) t (mkT Close (Done r)) r R eq_refl eq_refl). Qed.

(** ** What is left open *)
(** One connects at a time: what is dialed is closed, in use or in the hands of the one that connects. *)
Definition held (p : pc) : option nat := match p with NSet c => Some c | _ => None end.
Definition waits (p : pc) : bool := match p with NDial | NSet _ => true | _ => false end.
Record Kept (s : st) : Prop := {
  k_each : forall c, c < length (s_nets s) -> n_shut (netAt c s) = true \/ s_conn s = Some c \/ exists t x, th s t x /\ t_pc x = NSet c;
  k_none : forall t x, th s t x -> waits (t_pc x) = true -> s_conn s = None }.
Lemma kept_init client : Kept (init client).
Proof.
  unfold init. destruct client; constructor; unfold th; cbn; intros; try lia; try (destruct t; discriminate).
  right. left. f_equal. lia.
Qed.
Lemma net_shut_at c s d : d < length (s_nets s) -> n_shut (netAt d (shut c s)) = (d =? c) || n_shut (netAt d s).
Proof.
  intros L. unfold shut, setNet, withNets, netAt. cbn [s_nets]. rewrite nth_set_nth.
  destruct (Nat.eqb_spec d c) as [->|]; cbn [andb orb]; [|reflexivity]. apply Nat.ltb_lt in L. now rewrite L.
Qed.
Lemma kept_quiet s s' t p x : Kept s -> th s t x -> s_threads s' = setPc t p (s_threads s) -> s_conn s' = s_conn s ->
  length (s_nets s') = length (s_nets s) -> (forall c, c < length (s_nets s) -> n_shut (netAt c s') = n_shut (netAt c s)) ->
  (forall c, t_pc x <> NSet c) -> (waits p = true -> s_conn s = None) -> Kept s'.
Proof.
  intros K G ET EC EL EN NS Wp. constructor.
  - intros c L. rewrite EL in L. rewrite (EN c L), EC. destruct (k_each s K c L) as [A|[A|(u & y & A & B)]]; auto.
    right. right. exists u, y. split; [|exact B]. apply (th_other s s' t p u y ET); [|exact A]. intros ->.
    rewrite (th_fun _ _ _ _ A G) in B. now apply (NS c).
  - intros u y H B. rewrite EC. destruct (th_set s s' t p u y ET H) as [(-> & z & Z1 & ->)|[D H']]; [now apply Wp|now apply (k_none s K u y)].
Qed.
Lemma kept_shut s s' t p x n : Kept s -> th s t x -> s_conn s = Some n -> s_threads s' = setPc t p (s_threads s) -> s_conn s' = None ->
  s_nets s' = s_nets (shut n s) -> (forall c, t_pc x <> NSet c) -> Kept s'.
Proof.
  intros K G C ET EC EN NS.
  assert (NA : forall d, netAt d s' = netAt d (shut n s)) by (intros d; unfold netAt; now rewrite EN).
  constructor.
  - intros d L. rewrite NA. assert (L' : d < length (s_nets s)) by (rewrite EN in L; cbn in L; now rewrite set_nth_length in L).
    rewrite (net_shut_at n s d L'). destruct (Nat.eqb_spec d n) as [->|D]; [now left|].
    destruct (k_each s K d L') as [A|[A|(u & y & A & B)]]; [now left|congruence|].
    right. right. exists u, y. split; [|exact B]. apply (th_other s s' t p u y ET); [|exact A]. intros ->.
    rewrite (th_fun _ _ _ _ A G) in B. now apply (NS d).
  - intros u y H B. exact EC.
Qed.
Lemma step_kept client s e s' : Inv s -> Kept s -> one_dials s -> step client s e = Some s' -> Kept s'.
Proof.
  intros I K D H. 
  assert (ON : forall t u x y, th s t x -> th s u y -> fits Connect (t_pc x) = true -> (forall r, t_pc x <> Done r) -> waits (t_pc y) = true -> t = u).
  { intros t u x y G1 G2 F N B. apply (D t u x y G1 G2).
    - pose proof (i_fits s I t x G1) as A. unfold dialing. destruct (t_pc x), (t_call x); try discriminate F; try discriminate A; try reflexivity; exfalso; eapply N; reflexivity.
    - pose proof (i_fits s I u y G2) as A. unfold dialing. destruct (t_pc y), (t_call y); try discriminate B; try discriminate A; reflexivity. }
  open s I H.
  1-4: constructor; [intros d L; destruct (k_each s K d L) as [A|[A|(u & y & A & B)]]; auto; right; right; exists u, y; split; [|exact B];
        unfold th; proj; rewrite nth_error_app1; [exact A|apply nth_error_Some; unfold th in A; congruence]
       |intros u y G B; unfold th in G; proj; apply nth_snoc in G; destruct G as [G| ->]; [exact (k_none s K u y G B)|discriminate B]].
  all: try (match goal with G : nth_error _ ?t = Some ?x, P : t_pc ?x = _ |- Kept (to ?t ?p _) =>
    apply (kept_quiet s _ t p x K G); rewrite ?P; first [reflexivity | discriminate | (intros; assumption) | (proj; apply set_nth_length) | idtac] end;
    intros; unfold netAt; proj; rewrite ?nth_set_nth; try reflexivity;
    match goal with |- n_shut (if ?b then _ else _) = _ => destruct b eqn:B; [|reflexivity] end;
    apply andb_prop in B; destruct B as [B _]; apply Nat.eqb_eq in B; subst; reflexivity).
  - apply (kept_shut s _ t (Done ROk) t0 n K Heqo Heqo0); try reflexivity. rewrite Heqp. discriminate.
  - apply (kept_shut s _ t NDial t0 n K Heqo Heqo0); try reflexivity. rewrite Heqp. discriminate.
  - constructor.
    + intros d L. proj. rewrite set_nth_length in L. change (netAt d (to t (Done RClosed) (shut c s))) with (netAt d (shut c s)).
      rewrite (net_shut_at c s d L). destruct (Nat.eqb_spec d c) as [->|N]; [now left|]. destruct (k_each s K d L) as [A|[A|(u & y & A & B)]]; auto.
      right. right. exists u, y. split; [|exact B]. apply (th_other s (to t (Done RClosed) (shut c s)) t (Done RClosed) u y eq_refl); [|exact A]. intros ->.
      rewrite (th_fun _ _ _ _ A Heqo) in B. congruence.
    + intros u y H B. destruct (th_set s (to t (Done RClosed) (shut c s)) t (Done RClosed) u y eq_refl H) as [(-> & z & Z1 & ->)|[N H']]; [discriminate|].
      exact (k_none s K u y H' B).
  - assert (CN : s_conn s = None) by (apply (k_none s K t t0 Heqo); now rewrite Heqp).
    constructor.
    + intros d L. proj. destruct (k_each s K d L) as [A|[A|(u & y & A & B)]]; [now left|congruence|].
      assert (t = u) as <- by (apply (ON t u t0 y Heqo A); rewrite ?Heqp, ?B; try reflexivity; discriminate).
      rewrite (th_fun _ _ _ _ A Heqo), Heqp in B. injection B as ->. right. now left.
    + intros u y H B. exfalso. destruct (th_set s (to t (NBufs c) (withConn (Some c) s)) t (NBufs c) u y eq_refl H) as [(-> & z & Z1 & ->)|[N H']]; [discriminate|].
      apply N. symmetry. apply (ON t u t0 y Heqo H'); rewrite ?Heqp; try reflexivity; try discriminate. exact B.
  - assert (CN : s_conn s = None) by (apply (k_none s K t t0 Heqo); now rewrite Heqp).
    set (s' := to t _ _). assert (ET : s_threads s' = setPc t (NSet (length (s_nets s))) (s_threads s)) by reflexivity.
    constructor.
    + intros d L. unfold s' in L. proj. rewrite app_length in L. cbn [length] in L.
      destruct (Nat.eq_dec d (length (s_nets s))) as [->|N].
      * right. right. exists t, (mkT (t_call t0) (NSet (length (s_nets s)))). split; [exact (th_self s s' t _ _ ET Heqo)|reflexivity].
      * assert (L' : d < length (s_nets s)) by lia. replace (netAt d s') with (netAt d s) by (unfold netAt, s'; proj; now rewrite app_nth1).
        destruct (k_each s K d L') as [A|[A|(u & y & A & B)]]; [now left|congruence|].
        right. right. exists u, y. split; [|exact B]. apply (th_other s s' t _ u y ET); [|exact A]. intros ->.
        rewrite (th_fun _ _ _ _ A Heqo) in B. congruence.
    + intros u y H B. exact CN.
Qed.
Lemma run_kept client s es s' : Inv s -> Kept s -> (forall es1 es2 m, es = es1 ++ es2 -> run client s es1 = Some m -> one_dials m) ->
  run client s es = Some s' -> Kept s'.
Proof.
  revert s. induction es as [|e es IH]; intros s I K O H; cbn [run] in H; [now injection H as <-|].
  destruct (step client s e) as [m|] eqn:E; [|discriminate].
  apply (IH m); [exact (step_inv _ _ _ _ I E)| | |exact H].
  - apply (step_kept client s e m I K); [|exact E]. apply (O [] (e :: es) s); reflexivity.
  - intros es1 es2 m' -> R. apply (O (e :: es1) es2 m'); [reflexivity|]. cbn [run]. now rewrite E.
Qed.
