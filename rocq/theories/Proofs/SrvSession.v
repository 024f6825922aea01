(** Proofs about one session of the server: requests and answers. *)
From Coq Require Import ZArith List Bool Lia.
Import ListNotations.
From Verif.Model Require Import Base SrvSession.
From Verif.Spec Require Import SrvSession.
Local Open Scope nat_scope.

Lemma run_app : forall k m es1 es2 s, run k m s (es1 ++ es2) = match run k m s es1 with Some s' => run k m s' es2 | None => None end.
Proof.
  intros k m es1. induction es1 as [|e q IH]; intros es2 s; cbn [app run]; [reflexivity|].
  destruct (step k m s e); [apply IH|reflexivity].
Qed.

Lemma run_snoc : forall k m es e s s', run k m s (es ++ [e]) = Some s' -> exists s1, run k m s es = Some s1 /\ step k m s1 e = Some s'.
Proof.
  intros k m es e s s' H. rewrite run_app in H. destruct (run k m s es) as [s1|]; [|discriminate].
  exists s1. split; [reflexivity|]. cbn [run] in H. destruct (step k m s1 e); congruence.
Qed.

Lemma run_inv : forall k m (P : list event -> st -> Prop),
  P [] (init k) ->
  (forall es e s s', run k m (init k) es = Some s -> P es s -> step k m s e = Some s' -> P (es ++ [e]) s') ->
  forall es s, run k m (init k) es = Some s -> P es s.
Proof.
  intros k m P H0 HS es. induction es as [|e q IH] using rev_ind; intros s H.
  - injection H as <-. exact H0.
  - destruct (run_snoc _ _ _ _ _ _ H) as (s1 & R & St). exact (HS q e s1 s R (IH s1 R) St).
Qed.

(** A run that starts anywhere keeps what every step keeps. *)
Lemma run_keeps : forall k m (P : st -> Prop),
  (forall e s s', P s -> step k m s e = Some s' -> P s') ->
  forall es s s', P s -> run k m s es = Some s' -> P s'.
Proof.
  intros k m P HS es. induction es as [|e q IH]; intros s s' H R; cbn [run] in R; [injection R as <-; exact H|].
  destruct (step k m s e) as [s1|] eqn:St; [|discriminate]. exact (IH s1 s' (HS e s s1 H St) R).
Qed.

(** The state of a sync session: done are the requests answered, rest the call that was not, tail the Close. *)
Definition sync_at (m : Z) (es : list event) (s : st) (done : list (pay * bytes)) (rest : list (pay * (bytes + gerr))) (tail : list wmsg) : Prop :=
  match x_h s with
  | HTake => rest = [] /\ tail = [] /\ x_begun s = map fst done
  | HCall p => rest = [] /\ tail = [] /\ x_begun s = map fst done ++ [p]
  | HAnswer p b => rest = [(p, inl b)] /\ tail = [] /\ x_begun s = map fst done ++ [p]
  | HClose e None => tail = [] /\ (x_conn s = true \/ close_reason m es s done rest (errCode e)) /\ x_begun s = map fst done ++ map fst rest
  | HDone => x_begun s = map fst done ++ map fst rest /\ (tail = [] \/ exists c, tail = [WClose c None] /\ close_reason m es s done rest c)
  | _ => False
  end.
Definition sync_inv (m : Z) (es : list event) (s : st) : Prop :=
  x_arrived s = x_taken s ++ x_q s /\ x_begun s = x_taken s /\ x_senders s = [] /\
  exists done rest tail, x_calls s = map good done ++ rest /\ sent s = map answer done ++ tail /\ length rest <= 1 /\ sync_at m es s done rest tail.

Lemma reason_grow : forall m es e s s' done rest c, close_reason m es s done rest c ->
  (x_qclosed s = true -> x_qclosed s' = true /\ x_arrived s' = x_arrived s) -> close_reason m (es ++ [e]) s' done rest c.
Proof.
  intros m es e s s' done rest c [(A & B & C & D)|[H|(p & b & g & A & B & C)]] HK.
  - left. destruct (HK C) as [K1 K2]. rewrite K1, K2. auto.
  - right; left. exact H.
  - right; right. exists p, b, g. split; [exact A|]. split; [exact B|]. destruct C as [C|C]; [left; exact C|right; apply in_or_app; left; exact C].
Qed.

(** Steps that leave the handler, the calls, the wire and the requests alone. *)
Lemma sync_grow : forall m es e s s',
  sync_inv m es s -> x_h s' = x_h s -> x_calls s' = x_calls s -> x_wire s' = x_wire s -> x_begun s' = x_begun s -> x_taken s' = x_taken s ->
  x_senders s' = [] -> x_arrived s' = x_taken s' ++ x_q s' -> (x_qclosed s = true -> x_qclosed s' = true /\ x_arrived s' = x_arrived s) ->
  (x_conn s = true -> x_conn s' = true) -> sync_inv m (es ++ [e]) s'.
Proof.
  intros m es e s s' (_ & B & _ & done & rest & tail & Cl & W & L & At) Hh Hc Hw Hb Ht Hs Ha HK HC.
  split; [exact Ha|]. split; [congruence|]. split; [exact Hs|].
  exists done, rest, tail. split; [congruence|]. split; [unfold sent in *; congruence|]. split; [exact L|].
  unfold sync_at in *. rewrite Hh, Hb. destruct (x_h s); try exact At.
  - destruct md; [exact At|]. destruct At as (T & R & Bg). split; [exact T|]. split; [|exact Bg]. destruct R as [R|R]; [left; exact (HC R)|right; eapply reason_grow; eassumption].
  - destruct At as (Bg & [T|(c & T & R)]); (split; [exact Bg|]); [left; exact T|right; exists c; split; [exact T|eapply reason_grow; eassumption]].
Qed.

Lemma step_sync : forall m es e s s', sync_inv m es s -> step Sync m s e = Some s' -> sync_inv m (es ++ [e]) s'.
Proof.
  intros m es e s s' I H. pose proof I as (A & B & C & done & rest & tail & Cl & W & L & At).
  destruct e; cbn [step has_recv has_send] in H.
  - destruct (x_qclosed s) eqn:Q; cbn [orb] in H; [discriminate|]. destruct (negb (length (x_q s) <? 16)); [discriminate|]. injection H as <-.
    eapply sync_grow; try exact I; try reflexivity; try exact C.
    + cbn [arrive x_arrived x_taken x_q]. rewrite A, app_assoc. reflexivity.
    + rewrite Q. discriminate.
    + intros X; exact X.
  - destruct (x_qclosed s); [discriminate|]. injection H as <-.
    eapply sync_grow; try exact I; try reflexivity; try exact C; try exact A; first [intros; split; reflexivity|intros X; exact X].
  - injection H as <-. eapply sync_grow; try exact I; try reflexivity; try exact C; try exact A; first [intros Q; split; [exact Q|reflexivity]|intros X; exact X].
  - injection H as <-. eapply sync_grow; try exact I; try reflexivity; try exact C; try exact A; first [intros Q; split; [exact Q|reflexivity]|intros X; exact X].
  - injection H as <-. eapply sync_grow; try exact I; try reflexivity; try exact C; try exact A; first [intros Q; split; [exact Q|reflexivity]|intros X; exact X].
  - unfold sync_at in At. destruct (x_h s) eqn:Hh; try discriminate. injection H as <-. destruct At as (-> & -> & Bg).
    split; [exact A|]. split; [exact B|]. split; [exact C|].
    exists done, [(p, r)], []. cbn [handled x_calls]. rewrite app_nil_r in Cl.
    split; [rewrite Cl; reflexivity|]. split; [exact W|]. split; [cbn; lia|].
    unfold sync_at. cbn [handled x_h]. destruct r as [b|g].
    + split; [reflexivity|]. split; [reflexivity|exact Bg].
    + split; [reflexivity|]. split; [right; right; left; exists p, g; split; reflexivity|exact Bg].
  - unfold stepH in H. unfold sync_at in At. destruct (x_h s) eqn:Hh; try discriminate; try contradiction.
    + destruct At as (-> & -> & Bg). rewrite app_nil_r in *. destruct (x_q s) as [|p q] eqn:Q.
      * destruct (x_qclosed s) eqn:QC; [|discriminate]. injection H as <-.
        split; [cbn; rewrite Q; exact A|]. split; [exact B|]. split; [exact C|]. exists done, [], []. rewrite !app_nil_r.
        split; [exact Cl|]. split; [exact W|]. split; [cbn; lia|]. unfold sync_at. cbn [with_h x_h].
        split; [reflexivity|]. split; [right; left|rewrite app_nil_r; exact Bg]. split; [reflexivity|]. split; [reflexivity|]. split; [exact QC|].
        cbn [with_h x_arrived]. rewrite A, app_nil_r, <- B. exact Bg.
      * injection H as <-.
        split; [cbn [take x_arrived x_taken x_q]; rewrite A, <- app_assoc; reflexivity|]. split; [cbn [take x_begun x_taken]; rewrite B; reflexivity|]. split; [exact C|].
        exists done, [], []. rewrite !app_nil_r. split; [exact Cl|]. split; [exact W|]. split; [cbn; lia|]. unfold sync_at. cbn [take x_h x_begun].
        split; [reflexivity|]. split; [reflexivity|rewrite Bg; reflexivity].
    + destruct At as (-> & -> & Bg). rewrite app_nil_r in W.
      assert (F : forall g, ((0 < m < Z.of_nat (length resp))%Z /\ g = cat 8 \/ In (EStep (Some g)) (es ++ [EStep e])) ->
                   sync_inv m (es ++ [EStep e]) (with_h s (HClose (Some g) None))).
      { intros g Hg. split; [exact A|]. split; [exact B|]. split; [exact C|]. exists done, [(p, inl resp)], []. rewrite app_nil_r.
        split; [exact Cl|]. split; [exact W|]. split; [cbn; lia|]. unfold sync_at. cbn [with_h x_h].
        split; [reflexivity|]. split; [right; right; right; exists p, resp, g; split; [reflexivity|split; [reflexivity|exact Hg]]|exact Bg]. }
      unfold sendPayload in H. destruct ((0 <? m)%Z && (m <? Z.of_nat (length resp))%Z) eqn:M.
      * injection H as <-. apply F. left. split; [lia|reflexivity].
      * unfold sendMsg in H. destruct (x_conn s) eqn:Cn.
        { injection H as <-. 
          split; [exact A|]. split; [exact B|]. split; [exact C|]. exists done, [(p, inl resp)], []. rewrite app_nil_r.
          split; [exact Cl|]. split; [exact W|]. split; [cbn; lia|]. unfold sync_at. cbn [with_h x_h].
          split; [reflexivity|]. split; [left; exact Cn|exact Bg]. }
        destruct e as [g|].
        { injection H as <-. apply F. right. apply in_or_app. right. left. reflexivity. }
        injection H as <-. split; [exact A|]. split; [exact B|]. split; [exact C|].
        exists (done ++ [(p, resp)]), [], []. rewrite !app_nil_r. rewrite !map_app. split; [exact Cl|]. split.
        { unfold sent in *. cbn [with_h with_wire x_wire]. rewrite map_app, W. reflexivity. }
        split; [cbn; lia|]. unfold sync_at. cbn [with_h x_h with_wire x_begun]. split; [reflexivity|]. split; [reflexivity|]. rewrite map_app. exact Bg.
    + destruct md; [contradiction|]. destruct At as (-> & R & Bg). rewrite app_nil_r in W. unfold sendMsg in H.
      assert (F : sync_inv m (es ++ [EStep e]) (with_h s HDone)).
      { split; [exact A|]. split; [exact B|]. split; [exact C|]. exists done, rest, []. rewrite app_nil_r. split; [exact Cl|]. split; [exact W|].
        split; [exact L|]. unfold sync_at. cbn [with_h x_h]. split; [exact Bg|left; reflexivity]. }
      destruct (x_conn s) eqn:Cn; [injection H as <-; exact F|]. destruct e as [g|]; [injection H as <-; exact F|]. injection H as <-.
      split; [exact A|]. split; [exact B|]. split; [exact C|]. exists done, rest, [WClose (errCode e0) None]. split; [exact Cl|]. split.
      { unfold sent in *. cbn [with_h with_wire x_wire]. rewrite map_app, W. reflexivity. }
      split; [exact L|]. unfold sync_at. cbn [with_h x_h]. split; [exact Bg|]. right. exists (errCode e0). split; [reflexivity|].
      destruct R as [R|R]; [congruence|]. eapply reason_grow; [exact R|]. intros Q; split; [exact Q|reflexivity].
  - destruct (x_h s); discriminate.
  - unfold sync_at in At. destruct (x_h s); try discriminate. contradiction.
  - unfold sync_at in At. destruct (x_h s); try discriminate. contradiction.
  - unfold sync_at in At. destruct (x_h s); try discriminate. contradiction.
  - discriminate.
  - discriminate.
  - unfold stepS in H. rewrite C in H. destruct i; discriminate.
Qed.

Lemma sync_holds : forall m es s, run Sync m (init Sync) es = Some s -> sync_inv m es s.
Proof.
  intros m es s H. revert es s H. apply run_inv.
  - split; [reflexivity|]. split; [reflexivity|]. split; [reflexivity|]. exists [], [], []. split; [reflexivity|]. split; [reflexivity|].
    split; [cbn; lia|]. split; [reflexivity|]. split; reflexivity.
  - intros es e s s' _ I St. eapply step_sync; eassumption.
Qed.

(** A session that waits for the client does nothing else. *)
Lemma waits : forall m s, x_h s = HTake -> x_q s = [] -> x_qclosed s = false -> x_senders s = [] ->
  forall es s', (forall e, In e es -> (forall p, e <> EArrive p) /\ e <> ECloseQ) -> run Sync m s es = Some s' ->
  x_h s' = HTake /\ sent s' = sent s.
Proof.
  intros m s Hh Hq Hc Hs es. revert s Hh Hq Hc Hs. induction es as [|e q IH]; intros s Hh Hq Hc Hs s' N R; cbn [run] in R.
  - injection R as <-. split; [exact Hh|reflexivity].
  - destruct (step Sync m s e) as [s1|] eqn:St; [|discriminate].
    assert (K : x_h s1 = HTake /\ x_q s1 = [] /\ x_qclosed s1 = false /\ x_senders s1 = [] /\ sent s1 = sent s).
    { destruct (N e (or_introl eq_refl)) as [N1 N2].
      destruct e; cbn [step has_recv has_send] in St; try (injection St as <-; repeat split; assumption); try discriminate; try (rewrite Hh in St; discriminate).
      - exfalso. exact (N1 p eq_refl).
      - exfalso. apply N2. reflexivity.
      - unfold stepH in St. rewrite Hh, Hq, Hc in St. discriminate.
      - unfold stepS in St. rewrite Hs in St. destruct i; discriminate. }
    destruct K as (K1 & K2 & K3 & K4 & K5). destruct (IH s1 K1 K2 K3 K4 s' (fun e H => N e (or_intror H)) R) as [X Y].
    split; [exact X|congruence].
Qed.
