(** That calls end, and where they cannot. *)
From Coq Require Import ZArith List Bool Lia.
Import ListNotations.
From Verif.Model Require Import Base Transport.
From Verif.Spec Require Import Transport.
From Verif.Proofs Require Import BaseLemmas Transport TransportEnd.
Local Open Scope nat_scope.

(** ** The number of steps left *)
Definition rank (x : thread) : nat :=
  match t_pc x with
  | Done _ => 0
  | WErr _ _ | RErr | CShut | NBufs _ => 1
  | WBody n _ => 2 + (length (payload x) - n)
  | WLock => 3 + length (payload x) | WStart => 4 + length (payload x)
  | RWait _ => 2 | RStart => 3
  | CLock => 2 | CStart => 3
  | NSet _ => 2 | NDial => 3 | NShut => 4 | NLock => 5 | NStart => 6
  end.
Fixpoint sum (l : list thread) : nat := match l with [] => 0 | x :: q => rank x + sum q end.
Lemma sum_set l t x y : nth_error l t = Some x -> sum (set_nth t y l) + rank x = sum l + rank y.
Proof.
  revert t. induction l as [|z l IH]; intros [|t] H; cbn in H; try discriminate.
  - injection H as ->. cbn. lia.
  - specialize (IH t H). cbn [set_nth sum]. lia.
Qed.
Lemma sum_pc s t x p : th s t x -> rank (mkT (t_call x) p) < rank x -> sum (setPc t p (s_threads s)) < sum (s_threads s).
Proof. intros G L. unfold setPc, th in *. rewrite G. pose proof (sum_set _ _ _ (mkT (t_call x) p) G). lia. Qed.
Lemma set_same {A} (l : list A) n x : nth_error l n = Some x -> set_nth n x l = l.
Proof. revert n. induction l as [|y l IH]; intros [|n] H; cbn in *; try discriminate; [now injection H as ->|now rewrite IH]. Qed.
Lemma pc_same s t x : th s t x -> setPc t (t_pc x) (s_threads s) = s_threads s.
Proof. intros G. unfold setPc, th in *. rewrite G. destruct x. cbn. now apply set_same. Qed.
Lemma set_same_nth {A} (l : list A) n d : set_nth n (nth n l d) l = l.
Proof. revert n. induction l as [|y l IH]; intros [|n]; cbn; try reflexivity. now rewrite IH. Qed.

Lemma step_sum client s e s' : quiet e = true -> step client s e = Some s' -> s' <> s -> sum (s_threads s') < sum (s_threads s).
Proof.
  intros Q H NE. unfold step, stepT in H. cases H; try discriminate; injection H as <-; proj;
    try (match goal with G : nth_error _ ?t = Some ?x, P : t_pc ?x = _ |- _ =>
           apply (sum_pc s t x _ G); unfold rank, payload; cbn [t_pc t_call]; rewrite P end;
         repeat match goal with |- context [refused ?c ?s] => unfold refused end;
         repeat match goal with |- context [match ?b with _ => _ end] => destruct b end; cbn; lia).
  set (ch := firstn k (skipn n (payload t0))) in *.
  destruct ch as [|b ch'] eqn:E.
  - exfalso. apply NE. apply orb_false_iff in Heqb. destruct Heqb as [B1 B2]. rewrite app_nil_r. cbn [length]. rewrite Nat.add_0_r, <- Heqp.
    unfold to. cbn. rewrite (pc_same s t t0 Heqo). rewrite <- B1. unfold setNet. cbn.
    replace (mkNet (n_wire (netAt c s)) (n_bad (netAt c s)) (n_shut (netAt c s))) with (netAt c s) by now destruct (netAt c s).
    unfold netAt. rewrite set_same_nth. now destruct s.
  - apply (sum_pc s t t0 _ Heqo). unfold rank. rewrite Heqp. cbn [t_pc]. change (payload (mkT (t_call t0) (WBody (n + length (b :: ch')) c))) with (payload t0).
    assert (L : length ch <= length (payload t0) - n) by (unfold ch; rewrite firstn_length, skipn_length; lia).
    rewrite E in L. cbn [length] in *. lia.
Qed.
Lemma works_bound client s es s' : works client s es s' -> length es + sum (s_threads s') <= sum (s_threads s).
Proof. induction 1 as [s|s e m es s' Q H N _ IH]; cbn [length]; [lia|]. pose proof (step_sum _ _ _ _ Q H N). lia. Qed.
Lemma works_run client s es s' : works client s es s' -> run client s es = Some s'.
Proof. induction 1 as [s|s e m es s' Q H N _ IH]; cbn [run]; [reflexivity|]. now rewrite H. Qed.
Lemma run_works client s e s' : All s -> quiet e = true -> step client s e = Some s' -> sum (s_threads s') < sum (s_threads s) -> works client s [e] s'.
Proof. intros A Q H L. econstructor; [exact Q|exact H| |constructor]. intros ->. lia. Qed.

(** ** Progress *)
Definition moves (client : bool) (good : event -> bool) (s : st) : Prop :=
  exists e s', quiet e = true /\ good e = true /\ step client s e = Some s' /\ s' <> s.
Lemma to_other s s' t x p : th s t x -> p <> t_pc x -> s_threads s' = setPc t p (s_threads s) -> s' <> s.
Proof.
  intros G N E ->. pose proof (th_self s s t p x E G) as H. pose proof (th_fun _ _ _ _ H G) as F. rewrite <- F in N. now apply N.
Qed.
Lemma pc_moves client good s t x p e s' : quiet e = true -> good e = true -> th s t x -> step client s e = Some s' ->
  s_threads s' = setPc t p (s_threads s) -> p <> t_pc x -> moves client good s.
Proof. intros Q O G H E N. exists e, s'. repeat split; try assumption. exact (to_other s s' t x p G N E). Qed.

Section Progress.
Variable client : bool.
Variable good : event -> bool.
Hypothesis good_step : forall t, good (EStep t) = true.
Hypothesis good_got : forall t, good (EGot t) = true.
Hypothesis good_dial : forall t, good (EDial t false) = true.
Variable s : st.
Hypothesis I : Inv s.
Hypothesis W : forall t x, th s t x -> holdsWrite (t_pc x) = true -> moves client good s.

Lemma write_moves : s_writeMu s <> None -> moves client good s.
Proof. intros N. destruct (s_writeMu s) as [u|] eqn:E; [|congruence]. destruct (i_write' s I u E) as (x & G & H). exact (W u x G H). Qed.
Lemma thread_moves t x : th s t x -> (forall r, t_pc x <> Done r) -> (s_connMu s = None \/ s_connMu s = Some t) -> moves client good s.
Proof.
  intros G N M.
  destruct (s_writeMu s) as [u|] eqn:WM; [apply write_moves; congruence|].
  assert (S : forall p s', stepT client t x s = Some s' -> s_threads s' = setPc t p (s_threads s) -> p <> t_pc x -> moves client good s).
  { intros p s' H E D. apply (pc_moves client good s t x p (EStep t) s'); auto. unfold step. unfold th in G. now rewrite G. }
  assert (HC : holdsConn (t_pc x) = false -> s_connMu s = None).
  { intros H. destruct M as [M|M]; [exact M|]. destruct (i_conn' s I t M) as (y & Gy & Hy). rewrite (th_fun _ _ _ _ Gy G) in Hy. congruence. }
  pose proof (i_have s I t x G) as HV.
  destruct (t_pc x) eqn:P; cbn [holdsConn having] in HC, HV.
  all: try (specialize (HC eq_refl)).
  all: try (specialize (HV eq_refl); destruct (s_conn s) as [cn|] eqn:CN; [|congruence]).
  all: try (exact (W t x G ltac:(rewrite P; reflexivity))).
  all: try (exfalso; exact (N _ eq_refl)).
  - eapply S; [unfold stepT; rewrite P, HC; reflexivity|reflexivity|]. destruct (refused client s); discriminate.
  - destruct (s_writer s) eqn:WR; (eapply S; [unfold stepT; rewrite P, WM, WR; reflexivity|reflexivity|discriminate]).
  - eapply S; [unfold stepT; rewrite P, HC; reflexivity|reflexivity|]. destruct (refused client s); [discriminate|]. destruct (s_reader s); discriminate.
  - eapply (pc_moves client good s t x _ (EGot t)); [reflexivity|apply good_got|exact G|unfold step, th in *; rewrite G, P; reflexivity|reflexivity|rewrite P; discriminate].
  - eapply S; [unfold stepT; rewrite P, HC; reflexivity|reflexivity|discriminate].
  - destruct (s_closed s) eqn:C; [eapply S; [unfold stepT; rewrite P, HC, C; reflexivity|reflexivity|discriminate]|].
    destruct (s_conn s) eqn:CN; destruct client eqn:CL; (eapply S; [unfold stepT; rewrite P, HC, C; cbn [free withClosed withConnected s_conn]; rewrite CN; reflexivity|reflexivity|discriminate]).
  - eapply S; [unfold stepT; rewrite P, WM; reflexivity|reflexivity|discriminate].
  - eapply S; [unfold stepT; rewrite P, CN; reflexivity|reflexivity|discriminate].
  - destruct (s_closed s) eqn:C; [eapply S; [unfold stepT; rewrite P, HC, C; reflexivity|reflexivity|discriminate]|].
    destruct (s_conn s) eqn:CN; (eapply S; [unfold stepT; rewrite P, HC, C; cbn [free withClosed withConnected s_conn]; rewrite CN; reflexivity|reflexivity|discriminate]).
  - eapply S; [unfold stepT; rewrite P, WM; reflexivity|reflexivity|discriminate].
  - eapply S; [unfold stepT; rewrite P, CN; reflexivity|reflexivity|discriminate].
  - eapply (pc_moves client good s t x _ (EDial t false)); [reflexivity|apply good_dial|exact G|unfold step, th in *; rewrite G, P; reflexivity|reflexivity|rewrite P; discriminate].
  - destruct (s_closed s) eqn:C; (eapply S; [unfold stepT; rewrite P, HC, C; reflexivity|reflexivity|discriminate]).
  - eapply S; [unfold stepT; rewrite P, WM; reflexivity|reflexivity|discriminate].
Qed.
Lemma some_moves t x : th s t x -> (forall r, t_pc x <> Done r) -> moves client good s.
Proof.
  intros G N. destruct (s_connMu s) as [u|] eqn:E.
  - destruct (i_conn' s I u E) as (y & Gy & Hy). apply (thread_moves u y Gy); [|now right]. intros r Hr. now rewrite Hr in Hy.
  - apply (thread_moves t x G N). now left.
Qed.
Lemma ended_or_moves : all_ended s \/ moves client good s.
Proof.
  assert (D : forall l : list thread, (forall x, In x l -> exists r, t_pc x = Done r) \/ exists x, In x l /\ forall r, t_pc x <> Done r).
  { induction l as [|x l IH]; [left; intros x []|]. destruct IH as [IH|(y & Y & N)]; [|right; exists y; split; [now right|exact N]].
    destruct (t_pc x) eqn:P; try (right; exists x; split; [now left|intros; rewrite P; discriminate]).
    left. intros y [<-|Y]; [eauto|now apply IH]. }
  destruct (D (s_threads s)) as [A|(x & Y & N)].
  - left. intros t L. destruct (nth_error (s_threads s) t) as [x|] eqn:E; [|apply nth_error_None in E; lia].
    destruct (A x (nth_error_In _ _ E)) as [r R]. exists (t_call x), r. unfold returned. rewrite E. now destruct x; cbn in *; subst.
  - right. apply In_nth_error in Y. destruct Y as [t G]. exact (some_moves t x G N).
Qed.
End Progress.
(** ** The server *)
Record Served (s : st) : Prop := { v_err : forall t x, th s t x -> forall k c, t_pc x <> WErr k c; v_con : forall t x, th s t x -> t_call x <> Connect }.
Lemma served_init : Served (init false).
Proof. constructor; unfold th; cbn; intros t; intros; destruct t; discriminate. Qed.
Lemma step_served s e s' : Inv s -> Served s -> step false s e = Some s' -> Served s'.
Proof.
  intros I [V1 V2] H. open s I H; try (match goal with G : nth_error _ ?t = Some ?x |- _ => pose proof (V2 t x G) as NC end);
  try (destruct (t_call _); try discriminate; congruence); try discriminate.
  all: constructor; unfold th; proj; intros; snoc; threads; cbn [t_call t_pc] in *; try discriminate; try congruence;
    try (eapply V1; eassumption); try (eapply V2; eassumption);
    repeat match goal with |- context [match ?b with _ => _ end] => destruct b end; try discriminate.
Qed.
Lemma run_served s es s' : Inv s -> Served s -> run false s es = Some s' -> Served s'.
Proof.
  revert s. induction es as [|e es IH]; intros s I V H; cbn [run] in H; [now injection H as <-|].
  destruct (step false s e) as [m|] eqn:E; [|discriminate]. exact (IH m (step_inv _ _ _ _ I E) (step_served _ _ _ I V E) H).
Qed.
Lemma served_moves s : Inv s -> Served s -> all_ended s \/ moves false (fun _ => true) s.
Proof.
  intros I V. apply ended_or_moves; auto. intros t x G H. destruct (t_pc x) eqn:P; try discriminate H.
  - eapply (pc_moves false _ s t x (Done RFail) (EFail t)); [reflexivity|reflexivity|exact G|unfold step, th in *; rewrite G, P; reflexivity|reflexivity|rewrite P; discriminate].
  - exfalso. exact (v_err s V t x G _ _ P).
Qed.
Lemma served_one es : always_one_dials false es.
Proof.
  intros es1 es2 s E A t u x y Gt Gu D. exfalso. pose proof (run_served _ _ _ (a_inv _ (all_init false)) served_init A) as V.
  pose proof (v_con s V t x Gt) as N. unfold dialing in D. destruct (t_call x); try discriminate. now apply N.
Qed.
Lemma shut_all client es s t r : always_one_dials client es -> after client es s -> returned s t Close r -> all_ended s -> all_shut s.
Proof.
  intros O A R E n IN. pose proof (after_all _ _ _ A) as AL.
  assert (K : Kept s).
  { apply (run_kept client (init client) es s (a_inv _ (all_init client)) (kept_init client)); [|exact A].
    intros es1 es2 m EQ RM. exact (O es1 es2 m EQ RM). }
  destruct (closed_over s t r AL R) as [C M]. pose proof (i_closed2 s (a_inv s AL) C M) as CN.
  apply (In_nth _ _ (mkNet [] true true)) in IN. destruct IN as (c & L & <-).
  destruct (k_each s K c L) as [H|[H|(u & x & G & P)]]; [exact H|congruence|].
  exfalso. destruct (E u) as (cl & rr & RR); [apply nth_error_Some; unfold th in G; congruence|].
  unfold returned in RR. unfold th in G. rewrite G in RR. injection RR as ->. discriminate.
Qed.

(** ** A client whose connections do not fail *)
Record Live (s : st) : Prop := {
  v_bad : forall c, c < length (s_nets s) -> n_bad (netAt c s) = false;
  v_writer : forall c, s_writer s = Some c -> n_shut (netAt c s) = false;
  v_set : forall t x c, th s t x -> t_pc x = NSet c \/ t_pc x = NBufs c -> n_shut (netAt c s) = false;
  v_uniq : forall t u x y c, th s t x -> th s u y -> t_pc x = NSet c -> t_pc y = NSet c -> t = u;
  v_conn : forall t x c, th s t x -> t_pc x = NSet c -> s_conn s <> Some c }.
Lemma live_init client : Live (init client).
Proof.
  unfold init. destruct client; constructor; unfold th; cbn; intros; try lia; try (destruct t; discriminate); try discriminate.
  - destruct c; [reflexivity|lia].
  - injection H as <-. reflexivity.
Qed.
(** The connections stay as they are, but for what they have sent. *)
Lemma live_keep s s' t p x : Live s -> th s t x -> s_threads s' = setPc t p (s_threads s) -> length (s_nets s') = length (s_nets s) ->
  (forall c, c < length (s_nets s) -> n_bad (netAt c s') = false) -> (forall c, n_shut (netAt c s') = n_shut (netAt c s)) ->
  (forall c, s_writer s' = Some c -> s_writer s = Some c \/ t_pc x = NBufs c) -> (forall c, s_conn s' = Some c -> s_conn s = Some c \/ t_pc x = NSet c) ->
  (forall c, p <> NSet c) -> (forall c, p = NBufs c -> t_pc x = NSet c) -> Live s'.
Proof.
  intros L G ET EL B S WR CN P1 P2. constructor.
  - intros c LT. apply B. now rewrite <- EL.
  - intros c E. rewrite S. destruct (WR c E) as [A|A]; [exact (v_writer s L c A)|]. exact (v_set s L t x c G (or_intror A)).
  - intros u y c H K. rewrite S. destruct (th_set s s' t p u y ET H) as [(-> & z & Z1 & ->)|[N H']]; cbn [t_pc] in K.
    + rewrite (th_fun _ _ _ _ Z1 G) in *. destruct K as [K|K]; [now apply P1 in K|]. exact (v_set s L t x c G (or_introl (P2 c K))).
    + exact (v_set s L u y c H' K).
  - intros u v y z c H1 H2 K1 K2.
    destruct (th_set s s' t p u y ET H1) as [(-> & z1 & Z1 & ->)|[N1 H1']]; [now apply P1 in K1|].
    destruct (th_set s s' t p v z ET H2) as [(-> & z2 & Z2 & ->)|[N2 H2']]; [now apply P1 in K2|].
    exact (v_uniq s L u v y z c H1' H2' K1 K2).
  - intros u y c H K E. destruct (th_set s s' t p u y ET H) as [(-> & z1 & Z1 & ->)|[N1 H']]; [now apply P1 in K|].
    destruct (CN c E) as [A|A]; [exact (v_conn s L u y c H' K A)|]. apply N1. exact (v_uniq s L u t y x c H' G K A).
Qed.
Lemma net_bad_shut d s c : n_bad (netAt c (shut d s)) = n_bad (netAt c s).
Proof. exact (proj2 (net_shut d s c)). Qed.
(** A connection is closed. *)
Lemma live_shut s s' t p x d : Live s -> Inv s -> th s t x -> d < length (s_nets s) -> s_threads s' = setPc t p (s_threads s) -> s_nets s' = s_nets (shut d s) ->
  s_writer s' = None -> s_conn s' = None \/ s_conn s' = s_conn s -> (forall u y, th s u y -> u <> t -> forall c, t_pc y <> NBufs c) ->
  s_conn s = Some d \/ t_pc x = NSet d -> (forall c, p <> NSet c) -> (forall c, p <> NBufs c) -> Live s'.
Proof.
  intros L I G LD ET EN WR CN NB D P1 P2.
  assert (NA : forall c, netAt c s' = netAt c (shut d s)) by (intros c; unfold netAt; now rewrite EN).
  assert (EL : length (s_nets s') = length (s_nets s)) by (rewrite EN; cbn; apply set_nth_length).
  constructor.
  - intros c LT. rewrite EL in LT. rewrite NA, (net_bad_shut d s c). exact (v_bad s L c LT).
  - intros c E. congruence.
  - intros u y c H K. destruct (th_set s s' t p u y ET H) as [(-> & z & Z1 & ->)|[N H']]; cbn [t_pc] in K.
    + destruct K as [K|K]; [now apply P1 in K|now apply P2 in K].
    + destruct K as [K|K]; [|exfalso; exact (NB u y H' N c K)].
      assert (LC : c < length (s_nets s)) by (apply (i_uses s I u y c H'); now rewrite K).
      rewrite NA, (net_shut_at d s c LC). destruct (Nat.eqb_spec c d) as [->|NE]; [|exact (v_set s L u y c H' (or_introl K))].
      exfalso. destruct D as [D|D]; [exact (v_conn s L u y d H' K D)|]. apply N. exact (v_uniq s L u t y x d H' G K D).
  - intros u v y z c H1 H2 K1 K2.
    destruct (th_set s s' t p u y ET H1) as [(-> & z1 & Z1 & ->)|[N1 H1']]; [now apply P1 in K1|].
    destruct (th_set s s' t p v z ET H2) as [(-> & z2 & Z2 & ->)|[N2 H2']]; [now apply P1 in K2|].
    exact (v_uniq s L u v y z c H1' H2' K1 K2).
  - intros u y c H K E. destruct (th_set s s' t p u y ET H) as [(-> & z1 & Z1 & ->)|[N1 H']]; [now apply P1 in K|].
    destruct CN as [CN|CN]; rewrite CN in E; [discriminate|]. exact (v_conn s L u y c H' K E).
Qed.
Lemma live_call s s' c : Live s -> s_threads s' = s_threads s ++ [mkT c (start c)] -> s_nets s' = s_nets s -> s_writer s' = s_writer s -> s_conn s' = s_conn s -> Live s'.
Proof.
  intros L ET EN EW EC. assert (NA : forall d, netAt d s' = netAt d s) by (intros d; unfold netAt; now rewrite EN).
  assert (T : forall t x d, th s' t x -> t_pc x = NSet d \/ t_pc x = NBufs d -> th s t x).
  { intros t x d H K. unfold th in *. rewrite ET in H. apply nth_snoc in H. destruct H as [H| ->]; [exact H|]. destruct c; destruct K; discriminate. }
  constructor.
  - intros d LT. rewrite NA. apply (v_bad s L). now rewrite <- EN.
  - intros d E. rewrite NA. apply (v_writer s L). congruence.
  - intros t x d H K. rewrite NA. exact (v_set s L t x d (T t x d H K) K).
  - intros t u x y d H1 H2 K1 K2. exact (v_uniq s L t u x y d (T t x d H1 (or_introl K1)) (T u y d H2 (or_introl K2)) K1 K2).
  - intros t x d H K. rewrite EC. exact (v_conn s L t x d (T t x d H (or_introl K)) K).
Qed.
Lemma step_live client s e s' : All s -> Live s -> fails e = false -> step client s e = Some s' -> Live s'.
Proof.
  intros A L F H. pose proof (a_inv s A) as I. open s I H; try discriminate F.
  all: try (match goal with |- Live (to ?t ?p ?s') => match goal with G : nth_error (s_threads ?s0) t = Some ?x, P : t_pc ?x = _ |- _ =>
      apply (live_keep s0 (to t p s') t p x L G); proj; try rewrite P; unfold refused; [reflexivity|reflexivity|intros d LD; exact (v_bad s0 L d LD)|reflexivity|..];
      intros; repeat match goal with |- context [match ?b with _ => _ end] => destruct b end;
      repeat match goal with H : context [match ?b with _ => _ end] |- _ => destruct b end; solve [auto | congruence | left; congruence | right; congruence] end end).
  1-4: match goal with |- Live (mkSt _ _ _ _ _ _ _ _ _ (_ ++ [mkT ?c _]) _) => apply (live_call s _ c L); reflexivity end.
  - apply (live_shut s _ t (Done ROk) t0 n L I Heqo); try reflexivity; try (intros; discriminate); try (now left).
    + exact (i_connn s I n Heqo0).
    + exact (proj1 (A5 eq_refl)).
    + intros u y G NE d P. apply NE. assert (H : s_connMu s = Some u) by (apply (i_conn s I u y G); now rewrite P). rewrite (A1 eq_refl) in H. congruence.
  - apply (live_shut s _ t NDial t0 n L I Heqo); try reflexivity; try (intros; discriminate); try (now left).
    + exact (i_connn s I n Heqo0).
    + exact (proj1 (A5 eq_refl)).
    + intros u y G NE d P. apply NE. assert (H : s_connMu s = Some u) by (apply (i_conn s I u y G); now rewrite P). rewrite (A1 eq_refl) in H. congruence.
  - apply (live_shut s _ t (Done RClosed) t0 c L I Heqo); try reflexivity; try (intros; discriminate); try (now right).
    + exact (A7 c eq_refl).
    + exact (proj1 (i_bufs s I (i_closed2 s I Heqb0 Heqb))).
    + intros u y G NE d P. assert (H : s_connMu s = Some u) by (apply (i_conn s I u y G); now rewrite P). congruence.
  - assert (LC : c < length (s_nets s)) by exact (A7 c eq_refl).
    assert (NA : forall d m p, netAt d (to t p (setNet c m s)) = if d =? c then m else netAt d s) by (intros; exact (net_set c m s d LC)).
    eapply (live_keep s _ t _ t0 L Heqo); [reflexivity|cbn; apply set_nth_length| | | | |intros; discriminate|intros; discriminate].
    + intros d LD. rewrite NA. destruct (d =? c); [reflexivity|exact (v_bad s L d LD)].
    + intros d. rewrite NA. destruct (Nat.eqb_spec d c) as [->|]; reflexivity.
    + intros d E. now left.
    + intros d E. now left.
  - set (s' := to t _ _). assert (ET : s_threads s' = setPc t (NSet (length (s_nets s))) (s_threads s)) by reflexivity.
    assert (NA : forall d, d < length (s_nets s) -> netAt d s' = netAt d s) by (intros d LD; unfold netAt, s'; proj; now rewrite app_nth1).
    assert (NL : netAt (length (s_nets s)) s' = mkNet [] false false) by (unfold netAt, s'; proj; rewrite app_nth2, Nat.sub_diag by lia; reflexivity).
    constructor.
    + intros d LD. unfold s' in LD. proj. rewrite app_length in LD. cbn [length] in LD.
      destruct (Nat.eq_dec d (length (s_nets s))) as [->|N]; [now rewrite NL|]. rewrite NA by lia. apply (v_bad s L). lia.
    + intros d E. change (s_writer s = Some d) in E. rewrite (NA d (i_writer s I d E)). exact (v_writer s L d E).
    + intros u y d H K. destruct (th_set s s' t _ u y ET H) as [(-> & z & Z1 & ->)|[N H']]; cbn [t_pc] in K.
      * destruct K as [K|K]; [|discriminate]. injection K as <-. now rewrite NL.
      * assert (LD : d < length (s_nets s)) by (apply (i_uses s I u y d H'); destruct K as [K|K]; now rewrite K).
        rewrite (NA d LD). exact (v_set s L u y d H' K).
    + intros u v y z d H1 H2 K1 K2.
      assert (B : forall w q, th s w q -> t_pc q = NSet d -> d < length (s_nets s)) by (intros w q Q1 Q2; apply (i_uses s I w q d Q1); now rewrite Q2).
      destruct (th_set s s' t _ u y ET H1) as [(-> & z1 & Z1 & ->)|[N1 H1']]; destruct (th_set s s' t _ v z ET H2) as [(-> & z2 & Z2 & ->)|[N2 H2']].
      * reflexivity.
      * exfalso. injection K1 as <-. specialize (B v z H2' K2). lia.
      * exfalso. injection K2 as <-. specialize (B u y H1' K1). lia.
      * exact (v_uniq s L u v y z d H1' H2' K1 K2).
    + intros u y d H K E. change (s_conn s = Some d) in E. destruct (th_set s s' t _ u y ET H) as [(-> & z1 & Z1 & ->)|[N1 H']].
      * injection K as <-. pose proof (i_connn s I _ E). lia.
      * exact (v_conn s L u y d H' K E).
Qed.
Lemma run_live client s es s' : All s -> Live s -> Forall (fun e => fails e = false) es -> run client s es = Some s' -> Live s'.
Proof.
  revert s. induction es as [|e es IH]; intros s A L F H; cbn [run] in H; [now injection H as <-|].
  destruct (step client s e) as [m|] eqn:E; [|discriminate]. inversion F as [|? ? F1 F2]; subst.
  exact (IH m (step_all _ _ _ _ A E) (step_live _ _ _ _ A L F1 E) F2 H).
Qed.
Lemma live_moves client s : All s -> Live s -> all_ended s \/ moves client (fun e => negb (fails e)) s.
Proof.
  intros A L. pose proof (a_inv s A) as I. apply ended_or_moves; auto. intros t x G H. destruct (t_pc x) eqn:P; try discriminate H.
  - assert (LC : c < length (s_nets s)) by (apply (i_uses s I t x c G); now rewrite P).
    pose proof (v_bad s L c LC) as B. pose proof (v_writer s L c (z_writer s (a_shut s A) t x n c G (or_introl P))) as S.
    destruct (Nat.le_gt_cases (length (payload x)) n) as [LE|GT].
    + eapply (pc_moves client _ s t x (Done ROk) (EStep t)); [reflexivity|reflexivity|exact G| |idtac|rewrite P; discriminate].
      { unfold step, th in *. rewrite G. unfold stepT. rewrite P. apply Nat.leb_le in LE. rewrite LE, B. reflexivity. }
      reflexivity.
    + eapply (pc_moves client _ s t x _ (EChunk t (length (payload x)))); [reflexivity|reflexivity|exact G| |idtac|].
      * unfold step, th in *. rewrite G, P, B, S. reflexivity.
      * reflexivity.
      * rewrite P. intros E. injection E as E. assert (Q : length (firstn (length (payload x)) (skipn n (payload x))) > 0) by (rewrite firstn_length, skipn_length; lia). lia.
  - exfalso. assert (LC : c < length (s_nets s)) by (apply (i_uses s I t x c G); now rewrite P).
    pose proof (w_err s (a_wire s A) t x n c G P) as B. rewrite (v_bad s L c LC) in B. discriminate.
Qed.

(** ** Stuck *)
Definition failing (y : thread) : Prop := exists n c, t_pc y = WErr n c.
Definition sending (y : thread) : Prop := exists n c, t_pc y = WBody n c /\ n < length (payload y).
(** [t] has connMu and waits for writeMu, which [u] has; the calls from [m] on have not begun. *)
Record Knot (b : thread -> Prop) (t u m : nat) (s : st) : Prop := {
  q_connMu : s_connMu s = Some t;
  q_writeMu : s_writeMu s = Some u;
  q_close : exists x, th s t x /\ t_pc x = CLock;
  q_write : exists y, th s u y /\ b y;
  q_late : forall v x, th s v x -> m <= v -> t_pc x = start (t_call x);
  q_len : m <= length (s_threads s) }.
Lemma knot_call b t u m s s' c : Knot b t u m s -> s_connMu s' = s_connMu s -> s_writeMu s' = s_writeMu s ->
  s_threads s' = s_threads s ++ [mkT c (start c)] -> Knot b t u m s'.
Proof.
  intros [Q1 Q2 (x & Gx & Px) (y & Gy & Py) Q5 Q6] E1 E2 ET.
  assert (T : forall v z, th s v z -> th s' v z).
  { unfold th. intros v z G. rewrite ET, nth_error_app1; [exact G|]. apply nth_error_Some. congruence. }
  constructor; [congruence|congruence|exists x; auto|exists y; auto| |].
  - intros v z G L. unfold th in G. rewrite ET in G. apply nth_snoc in G. destruct G as [G| ->]; [exact (Q5 v z G L)|reflexivity].
  - rewrite ET, app_length. lia.
Qed.
Lemma knot_other b t u m s s' v p z : Knot b t u m s -> s_connMu s' = s_connMu s -> s_writeMu s' = s_writeMu s -> th s v z -> v <> t -> v <> u -> t_pc z <> start (t_call z) ->
  s_threads s' = setPc v p (s_threads s) -> Knot b t u m s'.
Proof.
  intros [Q1 Q2 (x & Gx & Px) (y & Gy & Py) Q5 Q6] E1 E2 G NT NU NS ET.
  constructor; [congruence|congruence| | | |].
  - exists x. split; [|exact Px]. exact (th_other s s' v p t x ET (not_eq_sym NT) Gx).
  - exists y. split; [|exact Py]. exact (th_other s s' v p u y ET (not_eq_sym NU) Gy).
  - intros w q H L. destruct (th_set s s' v p w q ET H) as [(-> & z1 & Z1 & ->)|[N H']]; [|exact (Q5 w q H' L)].
    exfalso. rewrite (th_fun _ _ _ _ Z1 G) in *. exact (NS (Q5 v z G L)).
  - rewrite ET, set_pc_length. exact Q6.
Qed.
(** What a step can be there. *)
Lemma knot_step b t u m client s e s' : Knot b t u m s -> Inv s -> step client s e = Some s' ->
  (forall y, b y -> holdsWrite (t_pc y) = true) ->
  (forall y, th s u y -> b y -> forall s', stepT client u y s <> Some s') ->
  Knot b t u m s' \/ exists v k, (e = EChunk v k \/ e = EFail v) /\ exists y, th s u y /\ b y /\ exists n c, t_pc y = WBody n c.
Proof.
  intros Q I H HB NB. pose proof Q as [Q1 Q2 (x & Gx & Px) (y & Gy & By) Q5 Q6].
  assert (HU : forall v z, th s v z -> holdsWrite (t_pc z) = true -> v = u).
  { intros v z G W. pose proof (i_write s I v z G W). congruence. }
  unfold step in H. destruct e as [c|v|v k|v|v|v|v ok].
  - left. destruct c, client; try discriminate; injection H as <-;
      match goal with |- Knot _ _ _ _ (mkSt _ _ _ _ _ _ _ _ _ (_ ++ [mkT ?c _]) _) => apply (knot_call b t u m s _ c Q); reflexivity end.
  - left. destruct (nth_error (s_threads s) v) as [z|] eqn:G; [|discriminate].
    destruct (Nat.eq_dec v t) as [->|NT].
    { rewrite (th_fun s t z x G Gx) in *. unfold stepT in H. rewrite Px, Q2 in H. discriminate. }
    destruct (Nat.eq_dec v u) as [->|NU].
    { exfalso. rewrite (th_fun s u z y G Gy) in *. exact (NB y Gy By s' H). }
    assert (NC : holdsConn (t_pc z) = false).
    { destruct (holdsConn (t_pc z)) eqn:E; [|reflexivity]. pose proof (i_conn s I v z G E). congruence. }
    exfalso. unfold stepT in H. rewrite Q1, Q2 in H. destruct (t_pc z) eqn:P; cbn [free holdsConn] in *; try discriminate.
    apply NU. apply (HU v z G). now rewrite P.
  - destruct (nth_error (s_threads s) v) as [z|] eqn:G; [|discriminate]. destruct (t_pc z) eqn:P; try discriminate.
    right. exists v, k. split; [now left|]. exists z. assert (v = u) as -> by (apply (HU v z G); now rewrite P). rewrite (th_fun s u z y G Gy) in *.
    split; [exact Gy|]. split; [exact By|eauto].
  - destruct (nth_error (s_threads s) v) as [z|] eqn:G; [|discriminate]. destruct (t_pc z) eqn:P; try discriminate.
    right. exists v, 0. split; [now right|]. exists z. assert (v = u) as -> by (apply (HU v z G); now rewrite P). rewrite (th_fun s u z y G Gy) in *.
    split; [exact Gy|]. split; [exact By|eauto].
  - left. destruct (nth_error (s_threads s) v) as [z|] eqn:G; [|discriminate]. destruct (t_pc z) eqn:P; try discriminate. injection H as <-.
    eapply (knot_other b t u m s _ v _ z Q); try reflexivity; try exact G; rewrite ?P; [| |destruct (t_call z); discriminate]; intros ->.
    + rewrite (th_fun s t z x G Gx) in P. congruence.
    + rewrite (th_fun s u z y G Gy) in P. specialize (HB y By). rewrite P in HB. discriminate.
  - left. destruct (nth_error (s_threads s) v) as [z|] eqn:G; [|discriminate]. destruct (t_pc z) eqn:P; try discriminate. injection H as <-.
    eapply (knot_other b t u m s _ v _ z Q); try reflexivity; try exact G; rewrite ?P; [| |destruct (t_call z); discriminate]; intros ->.
    + rewrite (th_fun s t z x G Gx) in P. congruence.
    + rewrite (th_fun s u z y G Gy) in P. specialize (HB y By). rewrite P in HB. discriminate.
  - left. destruct (nth_error (s_threads s) v) as [z|] eqn:G; [|discriminate]. destruct (t_pc z) eqn:P; try discriminate.
    assert (NT : v <> t) by (intros ->; rewrite (th_fun s t z x G Gx) in P; congruence).
    assert (NU : v <> u) by (intros ->; rewrite (th_fun s u z y G Gy) in P; specialize (HB y By); rewrite P in HB; discriminate).
    destruct ok; injection H as <-; eapply (knot_other b t u m s _ v _ z Q); try reflexivity; try exact G; try exact NT; try exact NU; rewrite P; destruct (t_call z); discriminate.
Qed.
Lemma knot_failing client t u m s es s' : Knot failing t u m s -> Inv s -> run client s es = Some s' -> Knot failing t u m s'.
Proof.
  revert s. induction es as [|e es IH]; intros s Q I H; cbn [run] in H; [now injection H as <-|].
  destruct (step client s e) as [s1|] eqn:E; [|discriminate]. apply (IH s1); [|exact (step_inv _ _ _ _ I E)|exact H].
  destruct (knot_step failing t u m client s e s1 Q I E) as [K|(v & k & _ & y & Gy & (n & c & B) & n' & c' & P)]; [| |exact K|congruence].
  - intros y (n & c & P). now rewrite P.
  - intros y Gy (n & c & P) s2 H2. unfold stepT in H2. rewrite P, (q_connMu _ _ _ _ _ Q) in H2. discriminate.
Qed.
Lemma knot_sending client t u m s es s' : Knot sending t u m s -> Inv s -> Forall (fun e => inner e = true) es -> run client s es = Some s' -> Knot sending t u m s'.
Proof.
  revert s. induction es as [|e es IH]; intros s Q I F H; cbn [run] in H; [now injection H as <-|].
  inversion F as [|? ? F1 F2]; subst.
  destruct (step client s e) as [s1|] eqn:E; [|discriminate]. apply (IH s1); [|exact (step_inv _ _ _ _ I E)|exact F2|exact H].
  destruct (knot_step sending t u m client s e s1 Q I E) as [K|(v & k & [-> | ->] & _)]; [| |exact K|discriminate F1|discriminate F1].
  - intros y (n & c & P & _). now rewrite P.
  - intros y Gy (n & c & P & L) s2 H2. unfold stepT in H2. rewrite P in H2. apply Nat.leb_gt in L. rewrite L in H2. discriminate.
Qed.
Lemma knot_never b t u m s v : Knot b t u m s -> (forall y, b y -> holdsWrite (t_pc y) = true) -> v = t \/ v = u \/ m <= v -> ~ ended s v.
Proof.
  intros [Q1 Q2 (x & Gx & Px) (y & Gy & By) Q5 Q6] HB D (c & r & R). unfold returned in R.
  destruct D as [->|[->|L]].
  - rewrite (th_fun s t x _ Gx R) in Px. discriminate.
  - specialize (HB y By). rewrite (th_fun s u y _ Gy R) in HB. discriminate.
  - specialize (Q5 v _ R L). destruct c; discriminate.
Qed.
