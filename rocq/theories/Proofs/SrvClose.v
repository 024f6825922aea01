(** Proofs about one session of the server: its end. *)
From Coq Require Import ZArith List Bool Lia.
Import ListNotations.
From Verif.Model Require Import Base SrvSession.
From Verif.Spec Require Import SrvSession.
From Verif.Proofs Require Import SrvSession SrvStream.
Local Open Scope nat_scope.

Definition grows (s s' : st) : Prop := (exists l, x_wire s' = x_wire s ++ l) /\ (exists l, x_sets s' = x_sets s ++ l).
Lemma grows_refl : forall s, grows s s.
Proof. intros s. split; exists []; rewrite app_nil_r; reflexivity. Qed.
Lemma grows_trans : forall a b c, grows a b -> grows b c -> grows a c.
Proof.
  intros a b c ((l1 & A) & (l2 & B)) ((l3 & C) & (l4 & D)). split; [exists (l1 ++ l3)|exists (l2 ++ l4)]; rewrite app_assoc; congruence.
Qed.
Lemma step_grows : forall k m e s s', step k m s e = Some s' -> grows s s'.
Proof.
  intros k m e s s' H. destruct e; explode H; subst s';
    first [ split; exists []; rewrite app_nil_r; reflexivity
          | split; [exists []; rewrite app_nil_r; reflexivity|eexists; reflexivity]
          | split; [eexists; reflexivity|exists []; rewrite app_nil_r; reflexivity] ].
Qed.
Lemma run_grows : forall k m es s s', run k m s es = Some s' -> grows s s'.
Proof.
  intros k m es. induction es as [|e q IH]; intros s s' H; cbn [run] in H; [injection H as <-; apply grows_refl|].
  destruct (step k m s e) as [s1|] eqn:St; [|discriminate]. eapply grows_trans; [exact (step_grows _ _ _ _ _ St)|exact (IH _ _ H)].
Qed.

(** * The trailer *)
Lemma lookup_put : forall k v x t, lookup x (md_put k v t) = if list_eq_dec Z.eq_dec k x then Some v else lookup x t.
Proof.
  intros k v x t. unfold lookup, md_put. cbn [find fst]. destruct (list_eq_dec Z.eq_dec k x) as [E|E]; [reflexivity|].
  induction t as [|[a b] t IH]; [reflexivity|]. cbn [filter fst]. destruct (list_eq_dec Z.eq_dec a k) as [Ea|Ea]; cbn [negb find fst].
  - destruct (list_eq_dec Z.eq_dec a x) as [Ex|Ex]; [congruence|]. exact IH.
  - destruct (list_eq_dec Z.eq_dec a x) as [Ex|Ex]; [reflexivity|]. exact IH.
Qed.

Lemma last_snoc : forall k v l a b, last_bound k v (l ++ [(a, b)]) <-> (if list_eq_dec Z.eq_dec a k then v = b else last_bound k v l).
Proof.
  intros k v l a b. destruct (list_eq_dec Z.eq_dec a k) as [->|N].
  - split.
    + intros (x & y & H & Ny). destruct y as [|y0 y] using rev_ind.
      * apply app_inj_tail in H. destruct H as [_ H]. congruence.
      * rewrite app_comm_cons, app_assoc in H. apply app_inj_tail in H. destruct H as [_ <-]. exfalso. apply Ny. rewrite map_app. apply in_or_app. right. left. reflexivity.
    + intros ->. exists l, []. split; [reflexivity|intros []].
  - split.
    + intros (x & y & H & Ny). destruct y as [|y0 y] using rev_ind.
      * apply app_inj_tail in H. destruct H as [_ H]. congruence.
      * rewrite app_comm_cons, app_assoc in H. apply app_inj_tail in H. destruct H as [-> <-]. exists x, y. split; [reflexivity|].
        intros X. apply Ny. rewrite map_app. apply in_or_app. left. exact X.
    + intros (x & y & -> & Ny). exists x, (y ++ [(a, b)]). split; [rewrite <- app_assoc; reflexivity|].
      rewrite map_app. intros X. apply in_app_or in X. destruct X as [X|[X|[]]]; [exact (Ny X)|exact (N X)].
Qed.

Lemma merged : forall md t l, (forall k v, lookup k t = Some v <-> last_bound k v l) ->
  forall k v, lookup k (fold_left (fun t p => md_put (fst p) (snd p) t) md t) = Some v <-> last_bound k v (l ++ md).
Proof.
  intros md. induction md as [|[a b] md IH]; intros t l H k v; cbn [fold_left fst snd].
  - rewrite app_nil_r. apply H.
  - replace (l ++ (a, b) :: md) with ((l ++ [(a, b)]) ++ md) by (rewrite <- app_assoc; reflexivity). apply IH.
    intros x y. rewrite lookup_put, last_snoc. destruct (list_eq_dec Z.eq_dec a x); [|apply H]. split; congruence.
Qed.

Lemma trailer_set : forall s md, trailer_of (x_trailer s) (x_sets s) -> trailer_of (x_trailer (setTrailer s md)) (x_sets (setTrailer s md)).
Proof.
  intros s md H. cbn [setTrailer x_trailer x_sets trailer_of]. rewrite concat_app. cbn [concat]. rewrite app_nil_r. apply merged.
  destruct (x_trailer s) as [t|]; cbn [trailer_of] in H; [exact H|]. rewrite H. cbn [concat]. intros k v. split; [discriminate|].
  intros (a & b & X & _). destruct a; discriminate.
Qed.

Lemma trailer_holds : forall k m es s, run k m (init k) es = Some s -> trailer_of (x_trailer s) (x_sets s).
Proof.
  intros k m es s H. eapply (run_keeps k m (fun s => trailer_of (x_trailer s) (x_sets s))); [|clear H|exact H]; [|reflexivity].
  intros e x x' T St. destruct e; explode St; subst x'; try exact T; apply trailer_set; exact T.
Qed.

(** * The Close *)
Definition is_close (w : option nat * wmsg) : bool := match snd w with WClose _ _ => true | _ => false end.
(** The handler has returned e, after SetTrailer was called at least as often as n. *)
Definition returned (k : hkind) (m : Z) (es : list event) (e : option gerr) (n : nat) : Prop :=
  exists es1 es2 s1, es = es1 ++ EReturn e :: es2 /\ run k m (init k) es1 = Some s1 /\ length (x_sets s1) <= n.
Definition trailed (k : hkind) (m : Z) (es : list event) (s : st) (e : option gerr) (md : option MD) : Prop :=
  exists n, n <= length (x_sets s) /\ returned k m es e n /\ trailer_of md (firstn n (x_sets s)).
Definition close_inv (k : hkind) (m : Z) (es : list event) (s : st) : Prop :=
  match x_h s with
  | HEnd e => filter is_close (x_wire s) = [] /\ returned k m es e (length (x_sets s))
  | HShut e md | HFin e md | HClose e md => filter is_close (x_wire s) = [] /\ trailed k m es s e md
  | HDone => filter is_close (x_wire s) = [] \/ exists e md, filter is_close (x_wire s) = [(None, WClose (errCode e) md)] /\ trailed k m es s e md
  | _ => filter is_close (x_wire s) = []
  end.

Lemma returned_grow : forall k m es x e n n', returned k m es e n -> n <= n' -> returned k m (es ++ [x]) e n'.
Proof.
  intros k m es x e n n' (es1 & es2 & s1 & -> & R & L) LE. exists es1, (es2 ++ [x]), s1. split; [rewrite <- app_assoc; reflexivity|]. split; [exact R|lia].
Qed.
Lemma trailed_grow : forall k m es x s s' e md, trailed k m es s e md -> grows s s' -> trailed k m (es ++ [x]) s' e md.
Proof.
  intros k m es x s s' e md (n & L & R & T) (_ & (l & G)). exists n. rewrite G, app_length. split; [lia|]. split; [eapply returned_grow; [exact R|lia]|].
  rewrite firstn_app. replace (n - length (x_sets s)) with 0 by lia. rewrite firstn_O, app_nil_r. exact T.
Qed.

(** A step that leaves the handler alone and sends no Close. *)
Lemma close_grow : forall k m es x s s', close_inv k m es s -> grows s s' -> x_h s' = x_h s -> filter is_close (x_wire s') = filter is_close (x_wire s) ->
  close_inv k m (es ++ [x]) s'.
Proof.
  intros k m es x s s' V G Hh Hf. pose proof G as (_ & (l & Gs)). unfold close_inv in *. rewrite Hh, Hf. destruct (x_h s); try exact V.
  - destruct V as [V R]. split; [exact V|]. eapply returned_grow; [exact R|]. rewrite Gs, app_length. lia.
  - destruct V as [V R]. split; [exact V|]. eapply trailed_grow; eassumption.
  - destruct V as [V R]. split; [exact V|]. eapply trailed_grow; eassumption.
  - destruct V as [V R]. split; [exact V|]. eapply trailed_grow; eassumption.
  - destruct V as [V|(e & md & V & R)]; [left; exact V|right]. exists e, md. split; [exact V|]. eapply trailed_grow; eassumption.
Qed.

Lemma close_data : forall l w q d f, filter is_close (l ++ [(w, WData q d f)]) = filter is_close l.
Proof. intros. rewrite filter_app. cbn. apply app_nil_r. Qed.

Lemma step_close : forall k m es e s s', k <> Sync -> streaming (x_h s) -> run k m (init k) es = Some s -> close_inv k m es s ->
  step k m s e = Some s' -> close_inv k m (es ++ [e]) s'.
Proof.
  intros k m es e s s' HK Hs Rn V H. pose proof (step_grows _ _ _ _ _ H) as G.
  destruct e; try (eapply close_grow; [exact V|exact G| |]; explode H; subst s'; try reflexivity; try apply close_data; fail).
  - cbn [step] in H. destruct (x_h s); try discriminate. contradiction.
  - cbn [step] in H. unfold stepH in H. unfold close_inv in V. destruct (x_h s) eqn:Hh; try discriminate; try contradiction.
    + destruct (x_q s) as [|p q].
      * destruct (x_qclosed s); [injection H as <-; exact V|]. destruct drain; [injection H as <-; exact V|discriminate].
      * injection H as <-. unfold received. destruct (p_end p && match p_data p with [] => true | _ => false end); exact V.
    + injection H as <-. destruct V as [V R]. split; [exact V|]. exists (length (x_sets s)). split; [exact (le_n _)|].
      split; [eapply returned_grow; [exact R|lia]|]. cbn [with_h x_sets]. rewrite firstn_all. exact (trailer_holds _ _ _ _ Rn).
    + injection H as <-. destruct V as [V R]. destruct (has_send k); (split; [exact V|eapply trailed_grow; eassumption]).
    + destruct V as [V R]. destruct (sendPayload m s None 0 [] true e) as [s1 r] eqn:SP. injection H as <-.
      destruct (sendPayload_same _ _ _ _ _ _ _ _ _ SP) as [(-> & _)|(-> & _)].
      * split; [exact V|eapply trailed_grow; eassumption].
      * split; [cbn [with_h with_wire x_wire]; rewrite close_data; exact V|eapply trailed_grow; eassumption].
    + destruct V as [V R]. destruct (sendMsg s None (WClose (errCode e0) md) e) as [s1 r] eqn:SP. injection H as <-.
      destruct (sendMsg_same _ _ _ _ _ _ SP) as [(-> & _)|(-> & _)].
      * left. exact V.
      * right. exists e0, md. split; [cbn [with_h with_wire x_wire]; rewrite filter_app, V; reflexivity|eapply trailed_grow; eassumption].
  - cbn [step] in H. unfold close_inv in V. destruct (x_h s) eqn:Hh; try discriminate. destruct (has_recv k); [|discriminate]. injection H as <-. exact V.
  - cbn [step] in H. unfold close_inv in V. destruct (x_h s) eqn:Hh; try discriminate. destruct drain; [discriminate|]. destruct (x_ctx s); [|discriminate]. injection H as <-. exact V.
  - cbn [step] in H. unfold close_inv in V. destruct (x_h s) eqn:Hh; try discriminate. injection H as <-. destruct (negb go); [exact V|]. destruct last; exact V.
  - cbn [step] in H. unfold close_inv in V. destruct (x_h s) eqn:Hh; try discriminate. injection H as <-. split; [exact V|].
    exists es, [], s. split; [reflexivity|]. split; [exact Rn|exact (le_n _)].
Qed.

Lemma close_holds : forall k m es s, k <> Sync -> run k m (init k) es = Some s -> close_inv k m es s.
Proof.
  intros k m es s HK. revert es s. apply run_inv.
  - destruct k; [congruence| | |]; reflexivity.
  - intros es e s s' R V St. eapply step_close; try eassumption. exact (proj1 (recv_holds _ _ _ _ HK R)).
Qed.

(** * EndStream before the Close *)
Definition fin_msg : option nat * wmsg := (None, WData 0 [] true).
Definition fin_inv (s : st) : Prop :=
  match x_h s with
  | HClose _ _ => x_conn s = true \/ In fin_msg (x_wire s)
  | HDone => filter is_close (x_wire s) = [] \/ exists a b c code md, x_wire s = a ++ fin_msg :: b ++ (None, WClose code md) :: c
  | _ => True
  end.

Lemma fin_grow : forall s s', fin_inv s -> x_h s' = x_h s -> (x_conn s = true -> x_conn s' = true) ->
  (exists l, x_wire s' = x_wire s ++ l /\ filter is_close l = []) -> fin_inv s'.
Proof.
  intros s s' V Hh Hc (l & Hw & Hl). unfold fin_inv in *. rewrite Hh, Hw. destruct (x_h s); try exact V.
  - destruct V as [V|V]; [left; exact (Hc V)|right; apply in_or_app; left; exact V].
  - destruct V as [V|(a & b & c & code & md & V)].
    + left. rewrite filter_app, V, Hl. reflexivity.
    + right. exists a, b, (c ++ l), code, md. rewrite V. rewrite <- app_assoc. cbn [app]. rewrite <- app_assoc. reflexivity.
Qed.

Lemma step_fin : forall k m es e s s', has_send k = true -> (forall g, e <> EStep (Some g)) -> close_inv k m es s -> streaming (x_h s) -> fin_inv s ->
  step k m s e = Some s' -> fin_inv s'.
Proof.
  intros k m es e s s' HK NE C Hs V H.
  destruct e; try (eapply fin_grow; [exact V| | |]; explode H; subst s'; try reflexivity; try (intros X; exact X);
    first [exists []; split; [rewrite app_nil_r; reflexivity|reflexivity]|eexists; split; reflexivity]; fail).
  - cbn [step] in H. destruct (x_h s); try discriminate. contradiction.
  - destruct e as [g|]; [destruct (NE g eq_refl)|]. cbn [step] in H. unfold stepH in H. unfold close_inv in C. unfold fin_inv in V.
    destruct (x_h s) eqn:Hh; try discriminate; try contradiction.
    + destruct (x_q s) as [|p q].
      * destruct (x_qclosed s); [injection H as <-; exact I|]. destruct drain; [injection H as <-; exact I|discriminate].
      * injection H as <-. unfold received. destruct (p_end p && match p_data p with [] => true | _ => false end); exact I.
    + injection H as <-. exact I.
    + injection H as <-. rewrite HK. exact I.
    + unfold sendPayload, sendMsg in H. cbn [length] in H.
      replace ((0 <? m)%Z && (m <? Z.of_nat 0)%Z) with false in H by (destruct (Z.ltb_spec 0 m), (Z.ltb_spec m (Z.of_nat 0)); cbn; try reflexivity; lia).
      destruct (x_conn s) eqn:Cn; injection H as <-.
      * left. exact Cn.
      * right. cbn [with_h with_wire x_wire]. apply in_or_app. right. left. reflexivity.
    + destruct C as [C _]. unfold sendMsg in H. destruct (x_conn s) eqn:Cn; injection H as <-.
      * left. exact C.
      * right. destruct V as [V|V]; [discriminate|]. apply in_split in V. destruct V as (a & b & V).
        exists a, b, [], (errCode e), md. cbn [with_h with_wire x_wire]. rewrite V. rewrite <- app_assoc. reflexivity.
  - cbn [step] in H. destruct (x_h s); try discriminate. destruct (has_recv k); [|discriminate]. injection H as <-. exact I.
  - cbn [step] in H. destruct (x_h s); try discriminate. destruct drain; [discriminate|]. destruct (x_ctx s); [|discriminate]. injection H as <-. exact I.
  - cbn [step] in H. destruct (x_h s); try discriminate. injection H as <-. destruct (negb go); [exact I|]. destruct last; exact I.
  - cbn [step] in H. destruct (x_h s); try discriminate. injection H as <-. exact I.
Qed.

Lemma fin_holds : forall k m es s, has_send k = true -> (forall g, ~ In (EStep (Some g)) es) -> run k m (init k) es = Some s -> fin_inv s.
Proof.
  intros k m es s HK. assert (KS : k <> Sync) by (intros ->; discriminate). intros NE R. revert NE.
  revert es s R. apply (run_inv k m (fun es s => (forall g, ~ In (EStep (Some g)) es) -> fin_inv s)).
  - intros _. destruct k; [congruence| | |]; exact I.
  - intros es e s s' R IH St NE. eapply (step_fin k m es e s s'); try eassumption.
    + intros g ->. apply (NE g). apply in_or_app. right. left. reflexivity.
    + exact (close_holds _ _ _ _ KS R).
    + exact (proj1 (recv_holds _ _ _ _ KS R)).
    + apply IH. intros g X. apply (NE g). apply in_or_app. left. exact X.
Qed.

(** * After the Close *)
Definition over_inv (k : hkind) (s : st) : Prop :=
  (has_send k = true -> match x_h s with HFin _ _ | HClose _ _ | HDone => x_closed s = true | _ => True end) /\
  (has_send k = false -> x_senders s = []).
Lemma step_over : forall k m e s s', over_inv k s -> streaming (x_h s) \/ k = Sync -> step k m s e = Some s' -> over_inv k s'.
Proof.
  intros k m e s s' (A & B) Hs H. destruct (has_send k) eqn:HK.
  - split; [intros _|congruence]. specialize (A eq_refl). clear B.
    assert (Hst : streaming (x_h s)) by (destruct Hs as [Hs|Hs]; [exact Hs|subst k; discriminate]). clear Hs.
    destruct e; explode H; subst s'; cbn in *; repeat match goal with E : x_h _ = _ |- _ => rewrite E in * end; try exact A; try exact I; try reflexivity; try congruence; try contradiction.
    all: destruct (x_h s); try exact A; try exact I.
  - split; [congruence|intros _]. specialize (B eq_refl).
    destruct e; cbn [step] in H; try (explode H; subst s'; exact B; fail).
    + rewrite HK in H. discriminate.
    + unfold stepS in H. rewrite B in H. destruct i; discriminate.
Qed.

Lemma over_holds : forall k m es s, run k m (init k) es = Some s -> over_inv k s.
Proof.
  intros k m. apply (run_inv k m (fun es s => over_inv k s)).
  - destruct k; (split; [intros; try discriminate; exact I|reflexivity]).
  - intros es e s s' R V St. eapply step_over; [exact V| |exact St].
    destruct k; [right; reflexivity| | |]; left; eapply recv_holds; try exact R; discriminate.
Qed.

Definition quiet (k : hkind) (s : st) : Prop := (x_closed s = true \/ x_senders s = [] /\ has_send k = false) /\ Forall not_past (x_senders s).

Lemma in_put : forall (l : list sender) i x (P : sender -> Prop), Forall P l -> P x -> Forall P (firstn i l ++ x :: skipn (S i) l).
Proof.
  intros l i x P H Hx. apply Forall_app. split.
  - rewrite <- (firstn_skipn i l) in H. apply Forall_app in H. exact (proj1 H).
  - constructor; [exact Hx|]. rewrite <- (firstn_skipn (S i) l) in H. apply Forall_app in H. exact (proj2 H).
Qed.

Definition senders_wire (s : st) : list (option nat * wmsg) := filter (fun w => match fst w with Some _ => true | None => false end) (x_wire s).

Lemma step_quiet : forall k m e s s', quiet k s -> step k m s e = Some s' -> quiet k s' /\ senders_wire s' = senders_wire s /\ (x_h s = HDone -> x_h s' = HDone /\ x_wire s' = x_wire s).
Proof.
  intros k m e s s' (A & F) H. destruct e.
  13: { cbn [step] in H. destruct (has_send k) eqn:HK; [|discriminate]. injection H as <-. destruct A as [A|(_ & A)]; [|discriminate].
    split; [|split; [reflexivity|intros X; split; [exact X|reflexivity]]]. split; [left; exact A|]. apply Forall_app. split; [exact F|]. constructor; [left; reflexivity|constructor]. }
  13: { cbn [step] in H. unfold stepS in H. destruct (nth_error (x_senders s) i) as [x|] eqn:X; [|discriminate].
    assert (Q : not_past x) by (eapply Forall_forall; [exact F|eapply nth_error_In; exact X]).
    destruct A as [A|(A & _)]; [|rewrite A in X; destruct i; discriminate].
    destruct Q as [Q|(r & Q)]; rewrite Q in H; [|discriminate]. rewrite A in H. injection H as <-.
    split; [|split; [reflexivity|intros Y; split; [exact Y|reflexivity]]]. split; [left; exact A|]. cbn [put_sender with_senders x_senders]. apply in_put; [exact F|].
    right. eexists. reflexivity. }
  all: assert (K : x_senders s' = x_senders s /\ (x_closed s = true -> x_closed s' = true) /\ senders_wire s' = senders_wire s /\ (x_h s = HDone -> x_h s' = HDone /\ x_wire s' = x_wire s));
    [|destruct K as (K1 & K2 & K3 & K4); split; [|split; [exact K3|exact K4]]; unfold quiet; rewrite K1; split; [|exact F];
      destruct A as [A|A]; [left; exact (K2 A)|right; exact A] ].
  all: explode H; subst s'; (split; [reflexivity|split; [intros X; first [exact X|reflexivity]|split; [|first [congruence|intros X; split; [exact X|reflexivity]]]]]);
    try reflexivity; unfold senders_wire; cbn [with_h with_wire x_wire]; rewrite filter_app; cbn; apply app_nil_r.
Qed.

Lemma run_quiet : forall k m es s s', quiet k s -> run k m s es = Some s' -> senders_wire s' = senders_wire s /\ (x_h s = HDone -> x_wire s' = x_wire s).
Proof.
  intros k m es. induction es as [|e q IH]; intros s s' Q R; cbn [run] in R.
  - injection R as <-. split; [reflexivity|intros _; reflexivity].
  - destruct (step k m s e) as [s1|] eqn:St; [|discriminate]. destruct (step_quiet _ _ _ _ _ Q St) as (Q1 & W & D).
    destruct (IH _ _ Q1 R) as [W1 D1]. split; [congruence|]. intros X. destruct (D X) as [X1 X2]. rewrite (D1 X1). exact X2.
Qed.
