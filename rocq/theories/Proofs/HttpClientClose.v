(** The HTTP client transport after Close. *)
From Coq Require Import ZArith List Bool Lia.
Import ListNotations.
From Verif.Model Require Import Base HttpClient.
From Verif.Spec Require Import HttpClient.
From Verif.Proofs Require Import HttpClient HttpClientData HttpClientMore.
Local Open Scope nat_scope.

(** ** Who has the write lock of a pipe is writing *)
Definition Held (s : st) : Prop := forall k u, p_wr (c_pipes s k) = Some u -> exists n b, t_pc (c_thread s u) = WIn k n b.
Lemma cleanup_wr s k : p_wr (c_pipes (cleanup s) k) = p_wr (c_pipes s k).
Proof. cbn. destruct (c_pipe s) as [x|]; [|reflexivity]. unfold upd. destruct (Nat.eqb_spec k x) as [->|]; reflexivity. Qed.
Lemma held_frame s s' : Held s -> (forall k, p_wr (c_pipes s' k) = p_wr (c_pipes s k)) ->
  (forall u k n b, t_pc (c_thread s u) = WIn k n b -> exists n' b', t_pc (c_thread s' u) = WIn k n' b') -> Held s'.
Proof. intros H P T k u W. rewrite P in W. destruct (H k u W) as (n & b & E). exact (T _ _ _ _ E). Qed.
Lemma step_held s e s' : Inv s -> Held s -> step s e = Some s' -> Held s'.
Proof.
  intros [I D] H ST. unfold step in ST. destruct (c_panic s); [discriminate|].
  assert (MV : forall t p, (forall k n b, t_pc (c_thread s t) <> WIn k n b) ->
    forall u k n b, t_pc (c_thread s u) = WIn k n b -> exists n' b', t_pc (upd (c_thread s) t (mkT (t_call (c_thread s t)) p) u) = WIn k n' b').
  { intros t p N u k n b E. unfold upd. destruct (Nat.eqb_spec u t) as [->|]; [elim (N _ _ _ E)|eauto]. }
  destruct e as [c|t|t|t|t q k|q ok|q|q|k|t ok].
  - injection ST as <-. apply (held_frame s _ H); [reflexivity|]. intros u k n b E. cbn. unfold upd.
    destruct (Nat.eqb_spec u (c_nt s)) as [->|]; [|eauto]. rewrite (g_th0 s I (c_nt s)) in E by lia. discriminate.
  - destruct (t <? c_nt s); [|discriminate]. unfold stepT in ST.
    destruct (t_pc (c_thread s t)) as [| |q|q c| | | |q| |p|p|p n once| |q| |r] eqn:P; try discriminate ST.
    1-7: injection ST as <-.
    1: destruct (c_closed s).
    all: try (apply (held_frame s _ H); [reflexivity|apply MV; intros; rewrite P; discriminate]).
    + apply (held_frame s _ H); [|apply MV; intros; rewrite P; discriminate]. intros k. cbn [to fresh c_pipes]. change (c_np (cleanup s)) with (c_np s). unfold upd. destruct (Nat.eqb_spec k (c_np s)) as [->|].
      * cbn. destruct (d_new s D (c_np s)) as (_ & _ & W); [lia|now rewrite W].
      * apply cleanup_wr.
    + apply (held_frame s _ H); [|apply MV; intros; rewrite P; discriminate]. intros k. apply cleanup_wr.
    + apply (held_frame s _ H); [|apply MV; intros; rewrite P; discriminate]. intros k. apply cleanup_wr.
    + cases ST; injection ST as <-; (apply (held_frame s _ H); [reflexivity|]; (apply MV; intros; rewrite P; discriminate) || eauto).
    + injection ST as <-. apply (held_frame s _ H); [reflexivity|]. apply MV; intros; rewrite P; discriminate.
    + destruct (p_wr (c_pipes s p)) eqn:W; [discriminate|]. injection ST as <-. intros k u. cbn. unfold upd.
      destruct (Nat.eqb_spec k p) as [->|NK]; cbn.
      * intros Q. injection Q as <-. rewrite Nat.eqb_refl. cbn. eauto.
      * intros Q. destruct (H k u Q) as (n & b & E). destruct (Nat.eqb_spec u t) as [->|]; [congruence|eauto].
    + assert (F : forall r, Held (to t (Done r) (withPipe p (mkPipe (p_open (c_pipes s p)) None (p_wire (c_pipes s p)) (p_log (c_pipes s p))) s))).
      { intros r k u. cbn. unfold upd. destruct (Nat.eqb_spec k p) as [->|NK]; cbn; [discriminate|].
        intros Q. destruct (H k u Q) as (n' & b & E). destruct (Nat.eqb_spec u t) as [->|]; [congruence|eauto]. }
      cases ST; injection ST as <-; apply F.
    + cases ST; injection ST as <-; (apply (held_frame s _ H); [reflexivity|]; (apply MV; intros; rewrite P; discriminate) || eauto).
    + cases ST; injection ST as <-. apply (held_frame s _ H); [reflexivity|]. apply MV; intros; rewrite P; discriminate.
    + injection ST as <-. destruct (c_closed s); (apply (held_frame s _ H); [|apply MV; intros; rewrite P; discriminate]); [reflexivity|]. intros k. apply (cleanup_wr s).
  - destruct (t_pc (c_thread s t)) eqn:P; try discriminate ST. cases ST. injection ST as <-. apply (held_frame s _ H); [reflexivity|]. apply MV; intros; rewrite P; discriminate.
  - destruct (t_pc (c_thread s t)) eqn:P; try discriminate ST. cases ST; injection ST as <-; (apply (held_frame s _ H); [reflexivity|]; apply MV; intros; rewrite P; discriminate).
  - destruct (t_pc (c_thread s t)) as [| | | | | | | | | | |p n once| | | |] eqn:P; try discriminate ST. destruct (r_pipe (c_reqs s q)) as [p'|]; [|discriminate].
    destruct ((q <? c_nq s) && (p' =? p) && p_open (c_pipes s p) && _); [|discriminate]. injection ST as <-. apply (held_frame s _ H).
    + intros x. cbn. unfold upd. destruct (Nat.eqb_spec x p) as [->|]; reflexivity.
    + intros u x m b E. cbn. unfold upd. destruct (Nat.eqb_spec u t) as [->|]; [|eauto]. rewrite P in E. injection E as -> -> ->. cbn. eauto.
  - cases ST; injection ST as <-; (apply (held_frame s _ H); [reflexivity|eauto]).
  - cases ST; injection ST as <-; (apply (held_frame s _ H); [reflexivity|eauto]).
  - cases ST; injection ST as <-; (apply (held_frame s _ H); [|eauto]); [|reflexivity]. intros x. cbn. unfold upd. destruct (x =? n) eqn:E; [|reflexivity]. apply Nat.eqb_eq in E. now subst.
  - cases ST; injection ST as <-; (apply (held_frame s _ H); [reflexivity|eauto]).
  - destruct (t_pc (c_thread s t)) eqn:P; try discriminate ST. cases ST; injection ST as <-; (apply (held_frame s _ H); [reflexivity|]; apply MV; intros; rewrite P; discriminate).
Qed.
Lemma run_held es : forall s s', Inv s -> Held s -> run s es = Some s' -> Held s'.
Proof.
  induction es as [|e es IH]; intros s s' I H R; cbn in R; [injection R as <-; exact H|].
  destruct (step s e) as [m|] eqn:ST; [|discriminate]. apply (IH m s'); [exact (step_inv _ _ _ I ST)|exact (step_held _ _ _ I H ST)|exact R].
Qed.

(** ** After Close *)
Definition refusal (c : call) : result := match c with Close => ROk | _ => RClosed end.
Lemma closed_dead s k : Ctl s -> c_closed s = true -> c_live s k = false.
Proof. intros I C. destruct (c_live s k) eqn:E; [|reflexivity]. apply (g_live s I) in E. rewrite (g_closed s I C) in E. discriminate. Qed.
Lemma closed_shut s k : Ctl s -> c_closed s = true -> p_open (c_pipes s k) = false.
Proof. intros I C. destruct (p_open (c_pipes s k)) eqn:E; [|reflexivity]. apply (g_open s I) in E. rewrite (g_closed s I C) in E. discriminate. Qed.
Lemma cleanup_wires s q : r_wire (c_reqs (cleanup s) q) = r_wire (c_reqs s q).
Proof. cbn. destruct (c_resp s) as [x|]; [|reflexivity]. unfold upd. destruct (Nat.eqb_spec q x) as [->|]; reflexivity. Qed.

Definition Later (s s' : st) : Prop :=
  c_closed s' = true /\ c_nt s <= c_nt s' /\ c_nq s <= c_nq s' /\
  (forall q, q < c_nq s -> r_wire (c_reqs s' q) = r_wire (c_reqs s q)) /\ (forall q, c_nq s <= q -> q < c_nq s' -> r_wire (c_reqs s' q) = []) /\
  (forall t, t < c_nt s -> t_call (c_thread s' t) = t_call (c_thread s t)) /\
  (forall t r, t_pc (c_thread s t) = Done r -> t < c_nt s -> t_pc (c_thread s' t) = Done r) /\
  (forall t, t < c_nt s' -> (t < c_nt s -> t_pc (c_thread s t) = start (t_call (c_thread s t))) ->
     t_pc (c_thread s' t) = start (t_call (c_thread s' t)) \/ t_pc (c_thread s' t) = Done (refusal (t_call (c_thread s' t)))).
Lemma later_refl s : c_closed s = true -> Later s s.
Proof. intros C. repeat split; auto. lia. Qed.
Lemma later_trans a b c : Later a b -> Later b c -> Later a c.
Proof.
  intros (A1 & A2 & A3 & A4 & A5 & A6 & A7 & A8) (B1 & B2 & B3 & B4 & B5 & B6 & B7 & B8). repeat split; auto; try lia.
  - intros q L. rewrite B4 by lia. auto.
  - intros q L1 L2. destruct (Nat.lt_ge_cases q (c_nq b)); [|auto]. rewrite B4 by lia. auto.
  - intros t L. rewrite B6 by lia. auto.
  - intros t r E L. apply B7; [|lia]. auto.
  - intros t L N. destruct (Nat.lt_ge_cases t (c_nt b)) as [LB|GB]; [|apply B8; auto; lia].
    destruct (A8 t LB N) as [S|S]; [apply B8; auto|]. right. rewrite B6 by lia. apply B7; auto.
Qed.
(** A step that leaves the requests' bytes and moves one call. *)
Lemma later_to s s' t p : Ctl s -> c_closed s' = true -> c_nt s' = c_nt s -> t < c_nt s -> c_nq s <= c_nq s' ->
  (forall q, q < c_nq s -> r_wire (c_reqs s' q) = r_wire (c_reqs s q)) -> (forall q, c_nq s <= q -> q < c_nq s' -> r_wire (c_reqs s' q) = []) ->
  (forall u, c_thread s' u = upd (c_thread s) t (mkT (t_call (c_thread s t)) p) u) -> (forall r, t_pc (c_thread s t) <> Done r) ->
  (t_pc (c_thread s t) = start (t_call (c_thread s t)) -> p = Done (refusal (t_call (c_thread s t)))) -> Later s s'.
Proof.
  intros I C NT L NQ W1 W2 TH ND N. split; [exact C|]. split; [lia|]. split; [exact NQ|]. split; [exact W1|]. split; [exact W2|].
  assert (CL : forall u, t_call (c_thread s' u) = t_call (c_thread s u)) by (intros u; rewrite TH; unfold upd; destruct (Nat.eqb_spec u t) as [->|]; reflexivity).
  split; [auto|]. split.
  - intros u r E _. rewrite TH. unfold upd. destruct (Nat.eqb_spec u t) as [->|]; [elim (ND _ E)|exact E].
  - intros u LU E. rewrite NT in LU. specialize (E LU). rewrite CL, TH. unfold upd. destruct (Nat.eqb_spec u t) as [->|]; [right; cbn; auto|now left].
Qed.
Lemma later_same s s' : c_closed s' = true -> c_nt s' = c_nt s -> c_nq s' = c_nq s -> (forall q, r_wire (c_reqs s' q) = r_wire (c_reqs s q)) ->
  c_thread s' = c_thread s -> Later s s'.
Proof. intros C NT NQ W TH. unfold Later. rewrite NT, NQ, TH. repeat split; auto; lia. Qed.
Ltac lto s t := match goal with |- Later _ (to _ ?p _) => apply (later_to s _ t p) end.
Lemma step_later s e s' : Inv s -> c_closed s = true -> step s e = Some s' -> Later s s'.
Proof.
  intros [I D] C ST. unfold step in ST. destruct (c_panic s); [discriminate|].
  destruct e as [c|t|t|t|t q k|q ok|q|q|k|t ok].
  - injection ST as <-. unfold Later. cbn. repeat split; auto; try lia.
    + intros t L. now rewrite upd_other by lia.
    + intros t r E L. now rewrite upd_other by lia.
    + intros t L N. unfold upd. destruct (Nat.eqb_spec t (c_nt s)); [left; reflexivity|]. left. apply N. lia.
  - destruct (t <? c_nt s) eqn:L; [|discriminate]. apply Nat.ltb_lt in L. unfold stepT in ST. pose proof (g_call s I t) as OK.
    destruct (t_pc (c_thread s t)) as [| |q|q c| | | |q| |p|p|p n once| |q| |r] eqn:P; try discriminate ST.
    all: destruct (t_call (c_thread s t)) as [|d| |] eqn:CA; try discriminate OK.
    all: rewrite ?C in ST.
    + injection ST as <-. apply (later_to s _ t (Done RClosed)); auto; cbn; try lia; rewrite ?P, ?CA; intros; (discriminate || reflexivity || lia).
    + injection ST as <-. apply (later_to s _ t (NWait (c_nq s))); auto; cbn; try lia; rewrite ?P, ?CA; try (intros; discriminate || reflexivity).
      * intros q Q. unfold upd. destruct (Nat.eqb_spec q (c_nq s)); [lia|reflexivity].
      * intros q Q1 Q2. unfold upd. destruct (Nat.eqb_spec q (c_nq s)); [reflexivity|lia].
    + injection ST as <-. apply (later_to s _ t (NSel q (c_ctx s))); auto; cbn; try lia; rewrite ?P, ?CA; intros; (discriminate || reflexivity || lia).
    + injection ST as <-. apply (later_to s _ t NErr2); auto; try (cbn; lia); rewrite ?P, ?CA; try (intros; discriminate || reflexivity).
      all: try (intros; apply cleanup_wires); cbn; intros; try lia; try reflexivity; discriminate.
    + injection ST as <-. apply (later_to s _ t (Done (if c_live s (c_ctx s) then ROk else RCtx))); auto; cbn; try lia; rewrite ?P, ?CA; intros; (discriminate || reflexivity || lia).
    + injection ST as <-. apply (later_to s _ t (Done RFail)); auto; try (cbn; lia); rewrite ?P, ?CA; try (intros; discriminate || reflexivity).
      all: try (intros; apply cleanup_wires); cbn; intros; try lia; try reflexivity; discriminate.
    + injection ST as <-. apply (later_to s _ t (Done ROk)); auto; cbn; try lia; rewrite ?P, ?CA; intros; (discriminate || reflexivity || lia).
    + injection ST as <-. apply (later_to s _ t (Done RClosed)); auto; cbn; try lia; rewrite ?P, ?CA; intros; (discriminate || reflexivity || lia).
    + injection ST as <-. lto s t; auto; cbn; try lia; rewrite ?P, ?CA; intros; (discriminate || reflexivity || lia).
    + cases ST. injection ST as <-. lto s t; auto; cbn; try lia; rewrite ?P, ?CA; intros; (discriminate || reflexivity || lia).
    + cases ST; injection ST as <-; (lto s t; auto; cbn; try lia; rewrite ?P, ?CA; intros; (discriminate || reflexivity || lia)).
    + injection ST as <-. apply (later_to s _ t (Done RClosed)); auto; cbn; try lia; rewrite ?P, ?CA; intros; (discriminate || reflexivity || lia).
    + cases ST; injection ST as <-. apply (later_to s _ t (Done RFail)); auto; cbn; try lia; rewrite ?P, ?CA; intros; (discriminate || reflexivity || lia).
    + injection ST as <-. apply (later_to s _ t (Done ROk)); auto; cbn; try lia; rewrite ?P, ?CA; intros; (discriminate || reflexivity || lia).
  - destruct (t_pc (c_thread s t)) eqn:P; try discriminate ST. cases ST. injection ST as <-.
    assert (L : t < c_nt s) by (apply (pc_lt s t I); intros r; rewrite P; discriminate).
    apply (later_to s _ t NCtx); auto; cbn; try lia; rewrite ?P; try (intros; discriminate || lia). destruct (t_call (c_thread s t)); discriminate.
  - destruct (t_pc (c_thread s t)) eqn:P; try discriminate ST.
    assert (L : t < c_nt s) by (apply (pc_lt s t I); intros r; rewrite P; discriminate).
    cases ST; injection ST as <-; (lto s t; auto; cbn; try lia; rewrite ?P; try (intros; discriminate || lia); try (destruct (t_call (c_thread s t)); discriminate)).
    intros x _. up; reflexivity.
  - destruct (t_pc (c_thread s t)) as [| | | | | | | | | | |p n once| | | |] eqn:P; try discriminate ST. destruct (r_pipe (c_reqs s q)) as [p'|]; [|discriminate].
    rewrite (closed_shut s p I C), andb_false_r in ST. discriminate.
  - cases ST; injection ST as <-; apply later_same; auto; intros x; cbn; up; reflexivity.
  - cases ST; injection ST as <-; apply later_same; auto; intros x; cbn; up; reflexivity.
  - cases ST; injection ST as <-; apply later_same; auto.
  - cases ST; injection ST as <-; apply later_same; auto.
  - destruct (t_pc (c_thread s t)) eqn:P; try discriminate ST.
    assert (L : t < c_nt s) by (apply (pc_lt s t I); intros r; rewrite P; discriminate).
    cases ST; injection ST as <-; (lto s t; auto; cbn; try lia; rewrite ?P; try (intros; discriminate || lia); try (destruct (t_call (c_thread s t)); discriminate)).
Qed.
Lemma run_later es : forall s s', Inv s -> c_closed s = true -> run s es = Some s' -> Later s s'.
Proof.
  induction es as [|e es IH]; intros s s' I C R; cbn in R; [injection R as <-; now apply later_refl|].
  destruct (step s e) as [m|] eqn:ST; [|discriminate]. pose proof (step_later _ _ _ I C ST) as L. apply (later_trans _ m); [exact L|].
  apply (IH m s'); [exact (step_inv _ _ _ I ST)|exact (proj1 L)|exact R].
Qed.

(** ** All calls end *)
Definition rank (p : pc) : nat :=
  match p with NBuild => 5 | NWait _ => 4 | NSel _ _ => 3 | NCtx | WLock _ => 2 | Done _ => 0 | _ => 1 end.
Fixpoint total (f : nat -> thread) (n : nat) : nat := match n with 0 => 0 | S m => total f m + rank (t_pc (f m)) end.
Lemma total_le f n : total f n <= 5 * n.
Proof. induction n; cbn; [lia|]. destruct (t_pc (f n)); cbn; lia. Qed.
Lemma total_upd f t x n : total (upd f t x) n + (if t <? n then rank (t_pc (f t)) else 0) = total f n + (if t <? n then rank (t_pc x) else 0).
Proof.
  induction n; cbn [total]; [reflexivity|]. unfold upd at 2. destruct (Nat.eqb_spec n t) as [->|N].
  - rewrite Nat.ltb_irrefl in IHn. replace (t <? S t) with true by (symmetry; apply Nat.ltb_lt; lia). lia.
  - replace (t <? S n) with (t <? n); [lia|]. destruct (Nat.ltb_spec t n), (Nat.ltb_spec t (S n)); auto; lia.
Qed.
Lemma own_total s e s' : Inv s -> c_closed s = true -> own_step e = true -> step s e = Some s' -> total (c_thread s') (c_nt s') < total (c_thread s) (c_nt s) /\ c_nt s' = c_nt s /\ c_panic s' = false.
Proof.
  intros [I D] C OW ST. unfold step in ST. destruct (c_panic s) eqn:PA; [discriminate|].
  assert (F : forall t p (m : st), t < c_nt s -> rank p < rank (t_pc (c_thread s t)) -> c_nt m = c_nt s -> c_panic m = false -> c_thread m = c_thread s ->
    total (c_thread (to t p m)) (c_nt (to t p m)) < total (c_thread s) (c_nt s) /\ c_nt (to t p m) = c_nt s /\ c_panic (to t p m) = false).
  { intros t p m L R N Q T. cbn. rewrite N, T. split; [|auto]. pose proof (total_upd (c_thread s) t (mkT (t_call (c_thread s t)) p) (c_nt s)) as E.
    apply Nat.ltb_lt in L. rewrite L in E. cbn [t_pc] in E. lia. }
  destruct e as [c|t|t|t|t q k|q ok|q|q|k|t ok]; try discriminate OW.
  - destruct (t <? c_nt s) eqn:L; [|discriminate]. apply Nat.ltb_lt in L. unfold stepT in ST.
    destruct (t_pc (c_thread s t)) as [| |q|q c| | | |q| |p|p|p n once| |q| |r] eqn:P; try discriminate ST.
    all: rewrite ?C in ST; try (rewrite (closed_shut s p I C) in ST); cases ST; injection ST as <-.
    all: apply F; auto; rewrite ?P; cbn; try lia.
  - destruct (t_pc (c_thread s t)) eqn:P; try discriminate ST. cases ST. injection ST as <-.
    apply F; auto; [apply (pc_lt s t I); intros r; rewrite P; discriminate|rewrite P; cbn; lia].
Qed.
Lemma own_run es : forall s s', Inv s -> c_closed s = true -> forallb own_step es = true -> run s es = Some s' ->
  total (c_thread s') (c_nt s') + length es <= total (c_thread s) (c_nt s) /\ c_nt s' = c_nt s /\ (c_panic s = false -> c_panic s' = false).
Proof.
  induction es as [|e es IH]; intros s s' I C OW R; cbn in R; [injection R as <-; cbn; split; [lia|auto]|].
  destruct (step s e) as [m|] eqn:ST; [|discriminate]. cbn in OW. apply andb_true_iff in OW. destruct OW as [O1 O2].
  destruct (own_total _ _ _ I C O1 ST) as (T & N & Q).
  destruct (IH m s' (step_inv _ _ _ I ST) (proj1 (step_later _ _ _ I C ST)) O2 R) as (T' & N' & Q'). cbn [length]. split; [lia|]. split; [congruence|auto].
Qed.
(** While a call goes on, a call can go on. *)
Lemma own_next s t : Inv s -> Held s -> c_closed s = true -> c_panic s = false -> t < c_nt s -> (forall r, t_pc (c_thread s t) <> Done r) ->
  exists e s', own_step e = true /\ step s e = Some s'.
Proof.
  intros [I D] H C PA L ND.
  assert (W : forall u p n b, t_pc (c_thread s u) = WIn p n b -> exists e s', own_step e = true /\ step s e = Some s').
  { intros u p n b P. assert (LU : u < c_nt s) by (apply (pc_lt s u I); intros r; rewrite P; discriminate). apply Nat.ltb_lt in LU.
    exists (EStep u). unfold step. rewrite PA, LU. unfold stepT. rewrite P, (closed_shut s p I C). destruct (b && _); eauto. }
  pose proof L as L'. apply Nat.ltb_lt in L'.
  destruct (t_pc (c_thread s t)) as [| |q|q c| | | |q| |p|p|p n once| |q| |r] eqn:P.
  all: try (exists (EStep t); unfold step; rewrite PA, L'; unfold stepT; rewrite P; eauto; fail).
  - exists (ECtx t). unfold step. rewrite PA, P, (closed_dead s c I C). eauto.
  - destruct (p_wr (c_pipes s p)) as [u|] eqn:WR; [destruct (H p u WR) as (n & b & E); exact (W u p n b E)|].
    exists (EStep t). unfold step. rewrite PA, L'. unfold stepT. rewrite P, WR. eauto.
  - exact (W t p n once P).
  - exists (EStep t). unfold step. rewrite PA, L'. unfold stepT. rewrite P, (closed_dead s _ I C), orb_true_r. eauto.
  - elim (ND r). reflexivity.
Qed.
Lemma total_zero f n : total f n = 0 -> forall t, t < n -> exists r, t_pc (f t) = Done r.
Proof.
  induction n; cbn; intros E t L; [lia|]. destruct (Nat.eq_dec t n) as [->|]; [|apply IHn; lia].
  assert (Z0 : rank (t_pc (f n)) = 0) by lia. destruct (t_pc (f n)); try discriminate Z0. eauto.
Qed.
Lemma not_zero f n : total f n <> 0 -> exists t, t < n /\ forall r, t_pc (f t) <> Done r.
Proof.
  induction n; cbn; [lia|]. intros E. destruct (Nat.eq_dec (rank (t_pc (f n))) 0) as [Z0|N].
  - destruct IHn as (t & L & ND); [lia|]. exists t. split; [lia|exact ND].
  - exists n. split; [lia|]. intros r Q. rewrite Q in N. now elim N.
Qed.

(** ** The Writes of a pipe only grow *)
Definition Grown (s s' : st) : Prop :=
  c_nq s <= c_nq s' /\ (forall q, q < c_nq s -> r_pipe (c_reqs s' q) = r_pipe (c_reqs s q)) /\
  (forall k, exists l, map fst (p_log (c_pipes s' k)) = map fst (p_log (c_pipes s k)) ++ l) /\
  c_nt s <= c_nt s' /\ (forall t, t < c_nt s -> t_call (c_thread s' t) = t_call (c_thread s t)) /\
  (forall t r, t < c_nt s -> t_pc (c_thread s t) = Done r -> t_pc (c_thread s' t) = Done r).
Lemma grown_refl s : Grown s s.
Proof. repeat split; auto. intros k. exists []. now rewrite app_nil_r. Qed.
Lemma grown_trans a b c : Grown a b -> Grown b c -> Grown a c.
Proof.
  intros (A1 & A2 & A3 & A4 & A5 & A6) (B1 & B2 & B3 & B4 & B5 & B6). repeat split; try lia.
  - intros q L. rewrite B2 by lia. auto.
  - intros k. destruct (A3 k) as (l & E), (B3 k) as (l' & E'). exists (l ++ l'). now rewrite E', E, app_assoc.
  - intros t L. rewrite B5 by lia. auto.
  - intros t r L E. apply B6; [lia|auto].
Qed.
Lemma cleanup_log s k : p_log (c_pipes (cleanup s) k) = p_log (c_pipes s k).
Proof. cbn. destruct (c_pipe s) as [x|]; [|reflexivity]. unfold upd. destruct (Nat.eqb_spec k x) as [->|]; reflexivity. Qed.
Lemma grown_to s s' t p : c_nt s' = c_nt s -> c_nq s <= c_nq s' -> (forall q, q < c_nq s -> r_pipe (c_reqs s' q) = r_pipe (c_reqs s q)) ->
  (forall k, exists l, map fst (p_log (c_pipes s' k)) = map fst (p_log (c_pipes s k)) ++ l) ->
  c_thread s' = upd (c_thread s) t (mkT (t_call (c_thread s t)) p) -> (forall r, t_pc (c_thread s t) <> Done r) -> Grown s s'.
Proof.
  intros NT NQ RP PL TH ND. repeat split; auto; try lia; rewrite TH.
  - intros u _. unfold upd. destruct (Nat.eqb_spec u t) as [->|]; reflexivity.
  - intros u r _ E. unfold upd. destruct (Nat.eqb_spec u t) as [->|]; [elim (ND _ E)|exact E].
Qed.
Lemma grown_same s s' : c_nt s' = c_nt s -> c_nq s' = c_nq s -> (forall q, r_pipe (c_reqs s' q) = r_pipe (c_reqs s q)) ->
  (forall k, p_log (c_pipes s' k) = p_log (c_pipes s k)) -> c_thread s' = c_thread s -> Grown s s'.
Proof.
  intros NT NQ RP PL TH. unfold Grown. rewrite NT, NQ, TH. repeat split; auto. intros k. exists []. now rewrite PL, app_nil_r.
Qed.
Ltac gto s t := match goal with |- Grown _ (to _ ?p _) => apply (grown_to s _ t p) end.
Lemma step_grown s e s' : Inv s -> step s e = Some s' -> Grown s s'.
Proof.
  intros [I D] ST. unfold step in ST. destruct (c_panic s); [discriminate|].
  assert (SM : forall k, exists l, map fst (p_log (c_pipes s k)) = map fst (p_log (c_pipes s k)) ++ l) by (intros k; exists []; now rewrite app_nil_r).
  assert (SC : forall k, exists l, map fst (p_log (c_pipes (cleanup s) k)) = map fst (p_log (c_pipes s k)) ++ l) by (intros k; exists []; now rewrite cleanup_log, app_nil_r).
  destruct e as [c|t|t|t|t q k|q ok|q|q|k|t ok].
  - injection ST as <-. unfold Grown. cbn. repeat split; auto; try lia.
    + intros t L. now rewrite upd_other by lia.
    + intros t r L E. now rewrite upd_other by lia.
  - destruct (t <? c_nt s) eqn:L; [|discriminate]. apply Nat.ltb_lt in L. unfold stepT in ST.
    assert (ND : forall r, t_pc (c_thread s t) = Done r -> False) by (intros r P; rewrite P in ST; discriminate).
    destruct (t_pc (c_thread s t)) as [| |q|q c| | | |q| |p|p|p n once| |q| |r] eqn:P; try discriminate ST.
    + injection ST as <-. destruct (c_closed s); gto s t; auto; try (rewrite P; discriminate); try (intros; apply cleanup_req; fail).
      intros k. cbn [to fresh c_pipes]. change (c_np (cleanup s)) with (c_np s). unfold upd. destruct (Nat.eqb_spec k (c_np s)) as [->|]; [|apply SC].
      cbn. destruct (d_new s D (c_np s)) as (-> & _); [lia|]. exists []. reflexivity.
    + injection ST as <-. gto s t; auto; try (rewrite P; discriminate); [cbn; lia|]. intros q Q. cbn. unfold upd. destruct (Nat.eqb_spec q (c_nq s)); [lia|reflexivity].
    + injection ST as <-. gto s t; auto; rewrite P; discriminate.
    + injection ST as <-. gto s t; auto; try (rewrite P; discriminate). intros; apply cleanup_req.
    + injection ST as <-. gto s t; auto; rewrite P; discriminate.
    + injection ST as <-. gto s t; auto; try (rewrite P; discriminate). intros; apply cleanup_req.
    + injection ST as <-. gto s t; auto; rewrite P; discriminate.
    + cases ST; injection ST as <-; try (gto s t; auto; rewrite P; discriminate). apply grown_same; auto.
    + injection ST as <-. gto s t; auto; rewrite P; discriminate.
    + cases ST. injection ST as <-. gto s t; auto; try (rewrite P; discriminate).
      intros k. cbn. unfold upd. destruct (Nat.eqb_spec k p) as [->|]; [|apply SM]. cbn. rewrite map_app. eauto.
    + cases ST; injection ST as <-; (gto s t; auto; try (rewrite P; discriminate); intros k; cbn; unfold upd; destruct (Nat.eqb_spec k p) as [->|]; apply SM).
    + cases ST; injection ST as <-; try (gto s t; auto; rewrite P; discriminate). apply grown_same; auto.
    + cases ST; injection ST as <-. gto s t; auto; rewrite P; discriminate.
    + injection ST as <-. destruct (c_closed s); gto s t; auto; try (rewrite P; discriminate). intros q Q. apply (cleanup_req s).
  - destruct (t_pc (c_thread s t)) eqn:P; try discriminate ST. cases ST. injection ST as <-. gto s t; auto; rewrite P; discriminate.
  - destruct (t_pc (c_thread s t)) eqn:P; try discriminate ST. cases ST; injection ST as <-; (gto s t; auto; try (rewrite P; discriminate)). intros x _. cbn. up; reflexivity.
  - destruct (t_pc (c_thread s t)) as [| | | | | | | | | | |p n once| | | |] eqn:P; try discriminate ST. destruct (r_pipe (c_reqs s q)) as [p'|] eqn:RP; [|discriminate].
    destruct ((q <? c_nq s) && (p' =? p) && p_open (c_pipes s p) && _); [|discriminate]. injection ST as <-. gto s t; auto; try (rewrite P; discriminate).
    + intros x _. cbn. up; cbn; congruence.
    + intros x. cbn. unfold upd. destruct (Nat.eqb_spec x p) as [->|]; [|apply SM]. cbn. destruct (d_in s D _ _ _ _ P) as (l & E). rewrite E, count_last.
      exists []. rewrite app_nil_r, !map_app. reflexivity.
  - cases ST; injection ST as <-; apply grown_same; auto; intros x; cbn; up; reflexivity.
  - cases ST; injection ST as <-; apply grown_same; auto; intros x; cbn; up; reflexivity.
  - cases ST; injection ST as <-; apply grown_same; auto. intros x. cbn. unfold upd. destruct (x =? n) eqn:E; [|reflexivity]. apply Nat.eqb_eq in E. now subst.
  - cases ST; injection ST as <-; apply grown_same; auto.
  - destruct (t_pc (c_thread s t)) eqn:P; try discriminate ST. cases ST; injection ST as <-; (gto s t; auto; try (rewrite P; discriminate)).
Qed.
Lemma run_grown es : forall s s', Inv s -> run s es = Some s' -> Grown s s'.
Proof.
  induction es as [|e es IH]; intros s s' I R; cbn in R; [injection R as <-; apply grown_refl|].
  destruct (step s e) as [m|] eqn:ST; [|discriminate]. apply (grown_trans _ m); [exact (step_grown _ _ _ I ST)|]. apply (IH m s'); [exact (step_inv _ _ _ I ST)|exact R].
Qed.
(** The Writes of a request. *)
Definition log (s : st) (q : nat) : list (nat * nat) := match r_pipe (c_reqs s q) with Some k => p_log (c_pipes s k) | None => [] end.
