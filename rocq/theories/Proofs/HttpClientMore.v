(** The HTTP client transport: one connect at a time, and what comes after Close. *)
From Coq Require Import ZArith List Bool Lia.
Import ListNotations.
From Verif.Model Require Import Base HttpClient.
From Verif.Spec Require Import HttpClient.
From Verif.Proofs Require Import HttpClient HttpClientData.
Local Open Scope nat_scope.

Definition conn (p : pc) : bool := match p with NStart | NBuild | NWait _ | NSel _ _ | NCtx | NErr2 | NErr | NGot _ => true | _ => false end.
Lemma conn_iff s t : Ctl s -> conn (t_pc (c_thread s t)) = true <-> in_progress s t Connect.
Proof.
  intros I. pose proof (g_call s I t) as O. split.
  - intros C. assert (D : forall r, t_pc (c_thread s t) <> Done r) by (intros r E; rewrite E in C; discriminate).
    split; [|exact D]. split; [exact (pc_lt s t I D)|]. destruct (t_call (c_thread s t)), (t_pc (c_thread s t)); (reflexivity || discriminate).
  - intros ((L & C) & D). rewrite C in O. destruct (t_pc (c_thread s t)); try reflexivity; try discriminate O. now elim (D r).
Qed.
Lemma close_iff s t : Ctl s -> t_pc (c_thread s t) = CStart <-> in_progress s t Close.
Proof.
  intros I. pose proof (g_call s I t) as O. split.
  - intros C. assert (D : forall r, t_pc (c_thread s t) <> Done r) by (intros r E; rewrite E in C; discriminate).
    split; [|exact D]. split; [exact (pc_lt s t I D)|]. rewrite C in O. destruct (t_call (c_thread s t)); (reflexivity || discriminate).
  - intros ((L & C) & D). rewrite C in O. destruct (t_pc (c_thread s t)); try reflexivity; try discriminate O. now elim (D r).
Qed.

(** ** A request has a pipe of its own *)
Record Own (s : st) : Prop := {
  a_one : forall t u, conn (t_pc (c_thread s t)) = true -> conn (t_pc (c_thread s u)) = true -> t = u;
  a_build : forall t q k, t_pc (c_thread s t) = NBuild -> q < c_nq s -> c_pipe s = Some k -> r_pipe (c_reqs s q) <> Some k;
  a_uniq : forall q q' k, q < c_nq s -> q' < c_nq s -> r_pipe (c_reqs s q) = Some k -> r_pipe (c_reqs s q') = Some k -> q = q';
  a_wire : forall q k, q < c_nq s -> r_pipe (c_reqs s q) = Some k -> r_wire (c_reqs s q) = p_wire (c_pipes s k);
  a_nil : forall q, q < c_nq s -> r_pipe (c_reqs s q) = None -> r_wire (c_reqs s q) = [];
  a_empty : forall k, (forall q, q < c_nq s -> r_pipe (c_reqs s q) <> Some k) -> p_wire (c_pipes s k) = [] }.
Lemma own_init : Own init.
Proof. constructor; cbn; intros; try discriminate; try lia; reflexivity. Qed.
Lemma own_frame s s' : Own s -> (forall u, conn (t_pc (c_thread s' u)) = true -> conn (t_pc (c_thread s u)) = true) ->
  (forall u, t_pc (c_thread s' u) = NBuild -> t_pc (c_thread s u) = NBuild) -> (forall k, c_pipe s' = Some k -> c_pipe s = Some k) ->
  c_nq s' = c_nq s -> (forall q, r_pipe (c_reqs s' q) = r_pipe (c_reqs s q) /\ r_wire (c_reqs s' q) = r_wire (c_reqs s q)) ->
  (forall k, p_wire (c_pipes s' k) = p_wire (c_pipes s k)) -> Own s'.
Proof.
  intros [A B C D E F] H1 H2 H3 H4 H5 H6.
  assert (R1 : forall q, r_pipe (c_reqs s' q) = r_pipe (c_reqs s q)) by apply H5. assert (R2 : forall q, r_wire (c_reqs s' q) = r_wire (c_reqs s q)) by apply H5.
  constructor; try rewrite H4; auto.
  - intros t q k P L Q. rewrite R1. eapply B; eauto.
  - intros q q' k. rewrite !R1. apply C.
  - intros q k. rewrite R1, R2, H6. apply D.
  - intros q. rewrite R1, R2. apply E.
  - intros k H. rewrite H6. apply F. intros q L. rewrite <- R1. auto.
Qed.
Lemma one_to (f : nat -> thread) t x : (forall u v, conn (t_pc (f u)) = true -> conn (t_pc (f v)) = true -> u = v) -> conn (t_pc (f t)) = true \/ conn (t_pc x) = false ->
  forall u v, conn (t_pc (upd f t x u)) = true -> conn (t_pc (upd f t x v)) = true -> u = v.
Proof.
  intros A C u v. unfold upd. destruct (Nat.eqb_spec u t) as [->|U], (Nat.eqb_spec v t) as [->|V]; auto; destruct C as [C|C]; auto; try congruence.
Qed.
Lemma cleanup_wire s q : r_wire (c_reqs (cleanup s) q) = r_wire (c_reqs s q).
Proof. cbn. destruct (c_resp s); [|reflexivity]. up; reflexivity. Qed.
Ltac same := try reflexivity; try (intros; apply cleanup_same); try (intros; split; [apply cleanup_req|apply cleanup_wire]); auto.
Ltac ownf OW t P := apply (own_frame _ _ OW); cbn [to withReq withPipe got panic c_thread c_pipe c_nq c_reqs c_pipes];
  [intros u; up; cbn [t_pc]; try discriminate; auto; rewrite ?P; auto|intros u; up; cbn [t_pc]; try discriminate; auto|try discriminate; auto|try reflexivity|same|same].
Lemma step_own s e s' : Inv s -> Own s -> (e = ECall Connect -> idle s Connect) -> step s e = Some s' -> Own s'.
Proof.
  intros [I DA] OW AL H. unfold step in H. destruct (c_panic s) eqn:PA; [discriminate|]. destruct e as [c|t|t|t|t q k|q ok|q|q|k|t ok].
  - injection H as <-.
    assert (OLD : forall u, conn (t_pc (c_thread s u)) = true -> u <> c_nt s /\ c <> Connect).
    { intros u CU. split; [intros ->; rewrite (g_th0 s I _ (le_n _)) in CU; discriminate|]. intros ->. apply (AL eq_refl u). now apply conn_iff. }
    destruct OW as [A B C D E F]. constructor; cbn; auto.
    + intros t u. unfold upd. destruct (Nat.eqb_spec t (c_nt s)) as [T|T], (Nat.eqb_spec u (c_nt s)) as [U|U]; cbn [t_pc].
      * congruence.
      * intros CT CU. destruct (OLD u CU) as [_ N]. destruct c; try discriminate CT. congruence.
      * intros CT CU. destruct (OLD t CT) as [_ N]. destruct c; try discriminate CU. congruence.
      * apply A.
    + intros t q k. up; cbn; [destruct c; discriminate|]. apply B.
  - destruct (t <? c_nt s) eqn:L; [|discriminate]. apply Nat.ltb_lt in L. unfold stepT in H.
    destruct (t_pc (c_thread s t)) as [| |q|q c| | | |q| |p|p|p n once| |q| |r] eqn:P; try discriminate H.
    + injection H as <-. destruct (c_closed s) eqn:CL; [ownf OW t P|].
      assert (CW : forall k, p_wire (c_pipes (cleanup s) k) = p_wire (c_pipes s k)) by (intros; apply cleanup_same).
      assert (CR : forall q, r_pipe (c_reqs (cleanup s) q) = r_pipe (c_reqs s q)) by (intros; apply cleanup_req).
      destruct OW as [A B C D E F]. constructor; cbn [to fresh c_thread c_pipe c_nq c_reqs c_pipes c_np].
      * apply one_to; [exact A|left; change (conn (t_pc (c_thread s t)) = true); now rewrite P].
      * intros u q k _ LQ Q R. injection Q as <-. rewrite CR in R. apply (g_rp s I) in R. cbn in R. lia.
      * intros q q' k. rewrite !CR. apply C.
      * intros q k LQ R. rewrite CR in R. rewrite cleanup_wire. assert (k < c_np s) by now apply (g_rp s I) in R.
        rewrite upd_other by (cbn; lia). rewrite CW. now apply D.
      * intros q LQ. rewrite CR, cleanup_wire. now apply E.
      * intros k Q. unfold upd. cbn [c_np cleanup]. destruct (Nat.eqb_spec k (c_np s)); [reflexivity|]. rewrite CW. apply F. intros q LQ. rewrite <- CR. now apply Q.
    + injection H as <-. destruct OW as [A B C D E F].
      assert (NB : forall u, u <> t -> t_pc (c_thread s u) <> NBuild) by (intros u D1 D2; apply D1; apply A; [now rewrite D2|now rewrite P]).
      constructor; cbn [to launch c_thread c_pipe c_nq c_reqs c_pipes c_np].
      * apply one_to; [exact A|left; change (conn (t_pc (c_thread s t)) = true); now rewrite P].
      * intros u q k. unfold upd at 1. destruct (Nat.eqb_spec u t) as [->|NE]; cbn [t_pc]; [discriminate|]. intros Q. elim (NB u NE Q).
      * intros q q' k L1 L2. unfold upd. destruct (Nat.eqb_spec q (c_nq s)) as [N1|N1], (Nat.eqb_spec q' (c_nq s)) as [N2|N2]; cbn [r_pipe]; [congruence| | |].
        -- intros Q1 Q2. exfalso. apply (B t q' k P) in Q2; auto. lia.
        -- intros Q1 Q2. exfalso. apply (B t q k P) in Q1; auto. lia.
        -- intros Q1 Q2. apply (C q q' k); auto; lia.
      * intros q k L1. up; cbn [r_pipe r_wire]; [|intros Q; apply D; [lia|exact Q]]. intros Q. symmetry. apply F. intros q' L2. now apply (B t q' k P).
      * intros q L1. up; cbn [r_pipe r_wire]; [reflexivity|]. apply E. lia.
      * intros k Q. apply F. intros q L1 R. apply (Q q); [lia|]. now rewrite upd_other by lia.
    + injection H as <-. ownf OW t P.
    + injection H as <-. ownf OW t P.
    + injection H as <-. ownf OW t P.
    + injection H as <-. ownf OW t P.
    + injection H as <-. ownf OW t P.
    + cases H; injection H as <-; ownf OW t P.
    + injection H as <-. destruct (p_open (c_pipes s p)); ownf OW t P.
    + cases H. injection H as <-. ownf OW t P. intros k. up; reflexivity.
    + cases H; injection H as <-; ownf OW t P; intros k; up; reflexivity.
    + cases H; injection H as <-; ownf OW t P.
    + cases H; injection H as <-. ownf OW t P.
    + injection H as <-. destruct (c_closed s); ownf OW t P; first [discriminate | intros; split; [apply (cleanup_req s)|apply (cleanup_wire s)] | intros; apply (cleanup_same s)].
  - destruct (t_pc (c_thread s t)) eqn:P; try discriminate H. cases H. injection H as <-. ownf OW t P.
  - destruct (t_pc (c_thread s t)) eqn:P; try discriminate H. destruct (r_state (c_reqs s q)); try discriminate H; injection H as <-; ownf OW t P.
    intros x; up; auto.
  - okof s I t. destruct (t_pc (c_thread s t)) eqn:P; try discriminate H. destruct (t_call (c_thread s t)) eqn:CT; try discriminate O.
    destruct (r_pipe (c_reqs s q)) as [p'|] eqn:RP; [|discriminate]. cbn [payload] in H.
    destruct ((q <? c_nq s) && (p' =? p) && p_open (c_pipes s p) && (negb once || (n <? length p0))) eqn:B; [|discriminate].
    apply andb_true_iff in B. destruct B as [B _]. apply andb_true_iff in B. destruct B as [B _]. apply andb_true_iff in B. destruct B as [B1 B2].
    apply Nat.ltb_lt in B1. apply Nat.eqb_eq in B2. subst p'. injection H as <-.
    assert (R1 : forall x, r_pipe (upd (c_reqs s) q (mkRq (Some p) (r_ctx (c_reqs s q)) (r_state (c_reqs s q)) (r_wire (c_reqs s q) ++ firstn k (skipn n p0)) (r_closed (c_reqs s q))) x) = r_pipe (c_reqs s x)).
    { intros x. up; cbn; congruence. }
    destruct OW as [A Bu C D E F]. constructor; cbn [to withReq withPipe c_thread c_pipe c_nq c_reqs c_pipes c_np].
    + apply one_to; [exact A|now right].
    + intros u x j. rewrite R1. up; cbn [t_pc]; [discriminate|]. intros. eapply Bu; eauto.
    + intros x x' j. rewrite !R1. apply C.
    + intros x j LX Q. rewrite R1 in Q. unfold upd. destruct (Nat.eqb_spec x q) as [->|NE].
      * assert (j = p) as -> by congruence. rewrite Nat.eqb_refl. cbn. now rewrite (D q p LX Q).
      * destruct (Nat.eqb_spec j p) as [->|NE2]; [elim NE; exact (C x q p LX B1 Q RP)|]. now apply D.
    + intros x LX Q. rewrite R1 in Q. rewrite upd_other by congruence. now apply E.
    + intros j Q. destruct (Nat.eq_dec j p) as [->|NE]; [elim (Q q B1); now rewrite R1|]. rewrite upd_other by assumption. apply F. intros x LX. rewrite <- R1. now apply Q.
  - cases H; injection H as <-; (apply (own_frame _ _ OW); cbn; auto; intros x; up; auto).
  - cases H; injection H as <-; (apply (own_frame _ _ OW); cbn; auto; intros x; up; auto).
  - destruct (q <? c_nq s); [|discriminate]. destruct (r_pipe (c_reqs s q)); injection H as <-; apply (own_frame _ _ OW); cbn; auto. intros x. up; reflexivity.
  - cases H. injection H as <-. apply (own_frame _ _ OW); cbn; auto.
  - destruct (t_pc (c_thread s t)) eqn:P; try discriminate H. cases H; injection H as <-; ownf OW t P.
Qed.
Lemma run_snoc s es e s' : run s (es ++ [e]) = Some s' -> exists m, run s es = Some m /\ step m e = Some s'.
Proof.
  revert s. induction es as [|x es IH]; intros s; cbn [app run].
  - destruct (step s e) as [m|] eqn:E; [|discriminate]. intros H. injection H as <-. exists s. auto.
  - destruct (step s x) as [m|]; [apply IH|discriminate].
Qed.
Lemma alone_own es s : alone es -> after es s -> Own s.
Proof.
  revert s. induction es as [|e es IH] using rev_ind; intros s AL A; [injection A as <-; exact own_init|].
  unfold after in A. apply run_snoc in A. destruct A as (m & A & ST).
  assert (AL' : alone es) by (intros e1 e2 x E; apply (AL e1 (e2 ++ [e])); rewrite E, <- app_assoc; reflexivity).
  apply (step_own m e); auto; [exact (after_inv _ _ A)|]. intros ->. apply (AL es [] m); auto.
Qed.

(** ** No connect while another call connects or closes *)
Definition mid (p : pc) : bool := match p with NBuild | NWait _ | NSel _ _ | NCtx | NErr | NGot _ => true | _ => false end.
Record Kept (s : st) : Prop := {
  k_excl : forall t u, conn (t_pc (c_thread s t)) = true -> t_pc (c_thread s u) <> CStart;
  k_panic : c_panic s = false;
  k_conn : c_connected s = true -> c_pipe s <> None;
  k_req : forall q, q < c_nq s -> r_pipe (c_reqs s q) <> None;
  k_mid : forall t, mid (t_pc (c_thread s t)) = true -> c_closed s = false /\ c_pipe s <> None /\ c_connected s = false;
  k_own : forall t q, conn (t_pc (c_thread s t)) = true -> pcReq (t_pc (c_thread s t)) = Some q -> c_pipe s = r_pipe (c_reqs s q);
  k_got : forall t q, t_pc (c_thread s t) = NGot q -> r_state (c_reqs s q) = Answered;
  k_err : forall t, t_pc (c_thread s t) = NErr2 -> c_pipe s = None;
  k_resp : forall q, c_connected s = true -> c_resp s = Some q -> c_pipe s = r_pipe (c_reqs s q) /\ r_state (c_reqs s q) = Answered }.
Lemma kept_init : Kept init.
Proof. constructor; cbn; intros; try discriminate; try lia; reflexivity. Qed.
(** Calls that are no connects move, and pipes, contexts and answers change. *)
Lemma kept_frame s s' : Kept s -> c_panic s' = false -> c_closed s' = c_closed s -> c_connected s' = c_connected s -> c_pipe s' = c_pipe s -> c_resp s' = c_resp s -> c_nq s' = c_nq s ->
  (forall q, r_pipe (c_reqs s' q) = r_pipe (c_reqs s q)) -> (forall q, r_state (c_reqs s q) = Answered -> r_state (c_reqs s' q) = Answered) ->
  (forall u, t_pc (c_thread s' u) = t_pc (c_thread s u) \/
     (t_pc (c_thread s' u) <> CStart /\ mid (t_pc (c_thread s' u)) = mid (t_pc (c_thread s u)) /\ conn (t_pc (c_thread s' u)) = conn (t_pc (c_thread s u)) /\
      (conn (t_pc (c_thread s' u)) = true -> pcReq (t_pc (c_thread s' u)) = pcReq (t_pc (c_thread s u)) \/ pcReq (t_pc (c_thread s' u)) = None) /\
      (forall q, t_pc (c_thread s' u) = NGot q -> r_state (c_reqs s' q) = Answered) /\ t_pc (c_thread s' u) <> NErr2)) -> Kept s'.
Proof.
  intros [A B C D E F G H K] PN CL CO PI RE NQ RP RS TH.
  assert (CN : forall u, conn (t_pc (c_thread s' u)) = conn (t_pc (c_thread s u))) by (intros u; destruct (TH u) as [-> |(_ & _ & -> & _)]; reflexivity).
  assert (MD : forall u, mid (t_pc (c_thread s' u)) = mid (t_pc (c_thread s u))) by (intros u; destruct (TH u) as [-> |(_ & -> & _)]; reflexivity).
  constructor; rewrite ?CL, ?CO, ?PI, ?RE, ?NQ; auto.
  - intros t u. rewrite CN. intros Q. destruct (TH u) as [-> |(N & _)]; [now apply (A t u)|exact N].
  - intros q. rewrite RP. apply D.
  - intros t. rewrite MD. apply E.
  - intros t q X Q. rewrite RP. pose proof X as X'. rewrite CN in X. destruct (TH t) as [Y|(_ & _ & _ & Y & _)]; [rewrite Y in Q; now apply (F t q)|].
    destruct (Y X') as [Y'|Y']; [rewrite Y' in Q; now apply (F t q)|congruence].
  - intros t q Q. destruct (TH t) as [Y|(_ & _ & _ & _ & Y & _)]; [|now apply Y]. rewrite Y in Q. apply RS. now apply (G t q).
  - intros t Q. destruct (TH t) as [Y|(_ & _ & _ & _ & _ & Y)]; [|contradiction]. rewrite Y in Q. now apply (H t).
  - intros q Q1 Q2. rewrite RP. destruct (K q Q1 Q2). auto.
Qed.
(** Only the connect of [t] is under way. *)
Ltac others A P := intros u; unfold upd; match goal with |- context [Nat.eqb ?a ?b] => destruct (Nat.eqb_spec a b) as [->|NE]; cbn [t_pc] end.
Lemma only s t : Own s -> conn (t_pc (c_thread s t)) = true -> forall u, u <> t -> conn (t_pc (c_thread s u)) = false.
Proof. intros O C u N. destruct (conn (t_pc (c_thread s u))) eqn:E; [|reflexivity]. elim N. exact (a_one s O _ _ E C). Qed.
Lemma mid_conn p : mid p = true -> conn p = true.
Proof. destruct p; auto. Qed.
(** The step of a connect: what it has to keep for itself. *)
Lemma kept_conn s s' t p : Own s -> Kept s -> conn (t_pc (c_thread s t)) = true -> (conn p = true \/ exists r, p = Done r) ->
  (forall u, c_thread s' u = upd (c_thread s) t (mkT (t_call (c_thread s t)) p) u) -> c_panic s' = false ->
  (c_connected s' = true -> c_pipe s' <> None /\ (mid p = false) /\ forall q, c_resp s' = Some q -> c_pipe s' = r_pipe (c_reqs s' q) /\ r_state (c_reqs s' q) = Answered) ->
  (forall q, q < c_nq s' -> r_pipe (c_reqs s' q) <> None) ->
  (mid p = true -> c_closed s' = false /\ c_pipe s' <> None /\ c_connected s' = false) ->
  (forall q, conn p = true -> pcReq p = Some q -> c_pipe s' = r_pipe (c_reqs s' q)) -> (forall q, p = NGot q -> r_state (c_reqs s' q) = Answered) ->
  (p = NErr2 -> c_pipe s' = None) -> Kept s'.
Proof.
  intros O K CT CP TH PN H1 H2 H3 H4 H5 H6.
  assert (TP : t_pc (c_thread s' t) = p) by (rewrite TH, upd_same; reflexivity).
  assert (TO : forall u, u <> t -> c_thread s' u = c_thread s u) by (intros u D; rewrite TH; now apply upd_other).
  assert (NC : forall u, u <> t -> conn (t_pc (c_thread s' u)) = false) by (intros u D; rewrite (TO u D); exact (only s t O CT u D)).
  constructor; auto.
  - intros v u Q E. destruct (Nat.eq_dec u t) as [->|D]; [rewrite TP in E; rewrite E in CP; destruct CP as [CP|[r CP]]; discriminate|].
    rewrite (TO u D) in E. exact (k_excl s K t u CT E).
  - intros Q. now destruct (H1 Q).
  - intros u Q. destruct (Nat.eq_dec u t) as [->|D]; [rewrite TP in Q; auto|]. apply mid_conn in Q. rewrite (NC u D) in Q. discriminate.
  - intros u q X Q. destruct (Nat.eq_dec u t) as [->|D]; [rewrite TP in Q, X; auto|]. rewrite (NC u D) in X. discriminate.
  - intros u q Q. destruct (Nat.eq_dec u t) as [->|D]; [rewrite TP in Q; auto|]. specialize (NC u D). rewrite Q in NC. discriminate.
  - intros u Q. destruct (Nat.eq_dec u t) as [->|D]; [rewrite TP in Q; auto|]. specialize (NC u D). rewrite Q in NC. discriminate.
  - intros q Q. now destruct (H1 Q) as (_ & _ & X); auto.
Qed.
Lemma pipe_cleanup s q : r_pipe (c_reqs (cleanup s) q) <> None -> r_pipe (c_reqs s q) <> None.
Proof. now rewrite cleanup_req. Qed.
Lemma step_kept s e s' : Inv s -> Own s -> Kept s -> (e = ECall Connect -> idle s Connect /\ idle s Close) -> (e = ECall Close -> idle s Connect) -> step s e = Some s' -> Kept s'.
Proof.
  intros [I DA] O K A1 A2 H. unfold step in H. rewrite (k_panic s K) in H. pose proof (k_panic s K) as PN. destruct e as [c|t|t|t|t q k|q ok|q|q|k|t ok].
  - injection H as <-.
    assert (F : forall u, c_thread s u = c_thread s u) by reflexivity. destruct K as [B1 B2 B3 B4 B5 B6 B7 B8 B9]. constructor; cbn; auto.
    + intros t u. unfold upd. destruct (Nat.eqb_spec t (c_nt s)) as [T|T], (Nat.eqb_spec u (c_nt s)) as [U|U]; cbn [t_pc].
      * destruct c; cbn; discriminate.
      * intros CT E. destruct c; try discriminate CT. destruct (A1 eq_refl) as [_ X]. apply (X u). now apply close_iff.
      * intros CT E. destruct c; try discriminate E. apply (A2 eq_refl t). now apply conn_iff.
      * apply B1.
    + intros t. unfold upd. destruct (Nat.eqb_spec t (c_nt s)); [destruct c; discriminate|apply B5].
    + intros t q. unfold upd. destruct (Nat.eqb_spec t (c_nt s)); [destruct c; discriminate|apply B6].
    + intros t q. unfold upd. destruct (Nat.eqb_spec t (c_nt s)); [destruct c; discriminate|apply B7].
    + intros t. unfold upd. destruct (Nat.eqb_spec t (c_nt s)); [destruct c; discriminate|apply B8].
  - destruct (t <? c_nt s) eqn:L; [|discriminate]. apply Nat.ltb_lt in L. unfold stepT in H.
    assert (KM := k_mid s K t). assert (KO := k_own s K t). assert (KE := k_err s K t). assert (KG := k_got s K t). assert (KX := k_excl s K).
    assert (KP : forall p, conn p = false -> p <> CStart -> conn (t_pc (c_thread s t)) = false -> Kept (to t p s)).
    { intros p C1 C2 C3. apply (kept_frame s _ K); auto. intros u. cbn. unfold upd. destruct (Nat.eqb_spec u t) as [->|NE]; [|now left]. right. cbn.
      assert (M1 : mid p = false) by (destruct p; auto; discriminate). assert (M2 : mid (t_pc (c_thread s t)) = false) by (destruct (t_pc (c_thread s t)); auto; discriminate).
      rewrite M1, M2, C1, C3. repeat split; auto; try discriminate; try (intros q ->; discriminate C1). intros ->. discriminate C1. }
    destruct (t_pc (c_thread s t)) as [| |q|q c| | | |q| |p|p|p n once| |q| |r] eqn:P; try discriminate H.
    + injection H as <-. destruct (c_closed s) eqn:CL.
      * apply (kept_conn s _ t (Done RClosed)); auto; try discriminate; try (now rewrite P); eauto.
        -- intros Q. split; [now apply (k_conn s K)|]. split; [reflexivity|]. intros q Q2. now apply (k_resp s K).
        -- apply (k_req s K).
      * apply (kept_conn s _ t NBuild); auto; try discriminate; try (now rewrite P).
        -- intros q LQ. change (r_pipe (c_reqs (cleanup s) q) <> None). rewrite cleanup_req. now apply (k_req s K).
        -- intros _. cbn. repeat split; auto. discriminate.
    + injection H as <-. destruct (KM eq_refl) as (M1 & M2 & M3). apply (kept_conn s _ t (NWait (c_nq s))); auto; try discriminate; try (now rewrite P).
      * cbn. congruence.
      * cbn. intros q LQ. unfold upd. destruct (Nat.eqb_spec q (c_nq s)); [exact M2|]. apply (k_req s K). lia.
      * intros q _ Q. injection Q as <-. cbn. now rewrite upd_same.
    + injection H as <-. destruct (KM eq_refl) as (M1 & M2 & M3). apply (kept_conn s _ t (NSel q (c_ctx s))); auto; try discriminate; try (now rewrite P).
      * cbn. congruence.
      * apply (k_req s K).
    + injection H as <-. apply (kept_conn s _ t NErr2); auto; try discriminate; try (now rewrite P).
      intros q LQ. change (r_pipe (c_reqs (cleanup s) q) <> None). rewrite cleanup_req. now apply (k_req s K).
    + injection H as <-. apply (kept_conn s _ t (Done (if c_live s (c_ctx s) then ROk else RCtx))); auto; try discriminate; try (now rewrite P); eauto.
      * cbn. intros Q. elim (k_conn s K Q). exact (KE eq_refl).
      * apply (k_req s K).
    + injection H as <-. apply (kept_conn s _ t (Done RFail)); auto; try discriminate; try (now rewrite P); eauto.
      intros q LQ. change (r_pipe (c_reqs (cleanup s) q) <> None). rewrite cleanup_req. now apply (k_req s K).
    + injection H as <-. destruct (KM eq_refl) as (M1 & M2 & M3). apply (kept_conn s _ t (Done ROk)); auto; try discriminate; try (now rewrite P); eauto.
      * intros _. split; [exact M2|]. split; [reflexivity|]. cbn. intros x X. injection X as <-. split; [now apply KO|]. now apply KG.
      * apply (k_req s K).
    + destruct (c_closed s); [injection H as <-; apply KP; auto; discriminate|]. destruct (c_connected s) eqn:CO; [|injection H as <-; apply KP; auto; discriminate].
      destruct (c_pipe s) as [p|] eqn:CP; [|now elim (k_conn s K CO)]. injection H as <-. apply KP; auto; discriminate.
    + injection H as <-. destruct (p_open (c_pipes s p)); apply KP; auto; discriminate.
    + cases H. injection H as <-. apply (kept_frame s _ K); auto. intros u. cbn. unfold upd. destruct (Nat.eqb_spec u t) as [->|NE]; [|now left]. right. rewrite P. cbn. repeat split; auto; discriminate.
    + cases H; injection H as <-; (apply (kept_frame s _ K); auto; intros u; cbn; unfold upd; destruct (Nat.eqb_spec u t) as [->|NE]; [|now left]; right; rewrite P; cbn; repeat split; auto; discriminate).
    + destruct (c_closed s); [injection H as <-; apply KP; auto; discriminate|]. destruct (c_connected s) eqn:CO; [|injection H as <-; apply KP; auto; discriminate].
      destruct (c_resp s) as [q|] eqn:CR; [|now elim (g_conn s I CO)]. injection H as <-. apply KP; auto; discriminate.
    + cases H; injection H as <-. apply KP; auto; discriminate.
    + injection H as <-. destruct (c_closed s) eqn:CL; [apply KP; auto; discriminate|].
      assert (NC : forall u, conn (t_pc (c_thread s u)) = false) by (intros u; destruct (conn (t_pc (c_thread s u))) eqn:E; [|reflexivity]; elim (KX u t E P)).
      assert (NC' : forall u, conn (t_pc (upd (c_thread s) t (mkT (t_call (c_thread s t)) (Done ROk)) u)) = false) by (intros u; unfold upd; destruct (Nat.eqb_spec u t); [reflexivity|apply NC]).
      constructor; cbn [to shutdown cleanup c_panic c_connected c_pipe c_nq c_closed c_resp c_thread]; try discriminate; auto.
      * intros v u Q. rewrite NC' in Q. discriminate.
      * intros q LQ. change (r_pipe (c_reqs (cleanup s) q) <> None). rewrite cleanup_req. now apply (k_req s K).
      * intros u Q. apply mid_conn in Q. rewrite NC' in Q. discriminate.
      * intros u q Q. rewrite NC' in Q. discriminate.
      * intros u q Q. specialize (NC' u). rewrite Q in NC'. discriminate.
  - destruct (t_pc (c_thread s t)) eqn:P; try discriminate H. destruct (c_live s c); [discriminate|]. injection H as <-.
    apply (kept_frame s _ K); auto. intros u. cbn. unfold upd. destruct (Nat.eqb_spec u t) as [->|NE]; [|now left]. right. rewrite P. cbn. repeat split; auto; discriminate.
  - destruct (t_pc (c_thread s t)) eqn:P; try discriminate H. destruct (r_state (c_reqs s q)) eqn:RS; try discriminate H; injection H as <-.
    + apply (kept_frame s _ K); auto. intros u. cbn. unfold upd. destruct (Nat.eqb_spec u t) as [->|NE]; [|now left]. right. rewrite P. cbn. repeat split; auto; try discriminate. intros x X. now injection X as <-.
    + apply (kept_frame s _ K); auto.
      * intros x. cbn. up; reflexivity.
      * intros x. cbn. up; auto.
      * intros u. cbn. unfold upd. destruct (Nat.eqb_spec u t) as [->|NE]; [|now left]. right. rewrite P. cbn. repeat split; auto; discriminate.
    + apply (kept_frame s _ K); auto. intros u. cbn. unfold upd. destruct (Nat.eqb_spec u t) as [->|NE]; [|now left]. right. rewrite P. cbn. repeat split; auto; discriminate.
  - destruct (t_pc (c_thread s t)) eqn:P; try discriminate H. destruct (r_pipe (c_reqs s q)) as [p'|] eqn:RP; [|discriminate].
    destruct ((q <? c_nq s) && (p' =? p) && p_open (c_pipes s p) && _); [|discriminate]. injection H as <-. apply (kept_frame s _ K); auto.
    + intros x. cbn. up; cbn; congruence.
    + intros x. cbn. up; auto.
    + intros u. cbn. unfold upd. destruct (Nat.eqb_spec u t) as [->|NE]; [|now left]. right. rewrite P. cbn. repeat split; auto; discriminate.
  - destruct (q <? c_nq s); [|discriminate]. destruct (r_state (c_reqs s q)) eqn:RS; try discriminate H. injection H as <-. apply (kept_frame s _ K); auto; intros x; cbn; up; auto; congruence.
  - destruct (q <? c_nq s); [|discriminate]. destruct (r_state (c_reqs s q)) eqn:RS; try discriminate H. injection H as <-. apply (kept_frame s _ K); auto; intros x; cbn; up; auto; congruence.
  - destruct (q <? c_nq s) eqn:L; [|discriminate]. apply Nat.ltb_lt in L. destruct (r_pipe (c_reqs s q)) eqn:RP; [|now elim (k_req s K q L)]. injection H as <-. apply (kept_frame s _ K); auto.
  - destruct (k <? c_np s); [|discriminate]. injection H as <-. apply (kept_frame s _ K); auto.
  - destruct (t_pc (c_thread s t)) eqn:P; try discriminate H. destruct (r_closed (c_reqs s q)); [discriminate|]. injection H as <-.
    apply (kept_frame s _ K); auto. intros u. cbn. unfold upd. destruct (Nat.eqb_spec u t) as [->|NE]; [|now left]. right. rewrite P. cbn. repeat split; auto; discriminate.
Qed.
Lemma apart_kept es s : apart es -> after es s -> Own s /\ Kept s.
Proof.
  revert s. induction es as [|e es IH] using rev_ind; intros s AP A; [injection A as <-; split; [exact own_init|exact kept_init]|].
  unfold after in A. apply run_snoc in A. destruct A as (m & A & ST). destruct AP as (P1 & P2 & P3).
  assert (AP' : apart es).
  { split; [|split]; intros e1 e2 x E; [apply (P1 e1 (e2 ++ [e]))|apply (P2 e1 (e2 ++ [e]))|apply (P3 e1 (e2 ++ [e]))]; rewrite E, <- app_assoc; reflexivity. }
  destruct (IH m AP' A) as [O K]. pose proof (after_inv _ _ A) as I.
  split; [apply (step_own m e); auto; intros ->; apply (P1 es [] m); auto|].
  apply (step_kept m e); auto.
  - intros ->. split; [apply (P1 es [] m)|apply (P2 es [] m)]; auto.
  - intros ->. apply (P3 es [] m); auto.
Qed.
