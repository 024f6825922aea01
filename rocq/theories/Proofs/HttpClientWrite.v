(** A connected HTTP client can send: the pipe is open, so that a Write gets through. *)
From Coq Require Import ZArith List Bool Lia.
Import ListNotations.
From Verif.Model Require Import Base HttpClient.
From Verif.Spec Require Import HttpClient.
From Verif.Proofs Require Import HttpClient HttpClientData HttpClientMore HttpClientClose.
Local Open Scope nat_scope.

Lemma step_open s e s' k : Inv s -> step s e = Some s' -> c_pipe s' = Some k -> p_open (c_pipes s' k) = false ->
  (exists q, e = EBody q /\ q < c_nq s /\ r_pipe (c_reqs s q) = Some k) \/ (c_pipe s = Some k /\ p_open (c_pipes s k) = false).
Proof.
  intros [I D] ST CP OP. unfold step in ST. destruct (c_panic s); [discriminate|]. destruct e as [c|t|t|t|t q n|q ok|q|q|n|t ok].
  - injection ST as <-. auto.
  - destruct (t <? c_nt s); [|discriminate]. unfold stepT in ST.
    destruct (t_pc (c_thread s t)) as [| |q|q c| | | |q| |p|p|p n once| |q| |r0] eqn:P; try discriminate ST.
    + destruct (c_closed s); injection ST as <-; auto. cbn in CP, OP. injection CP as <-. rewrite upd_same in OP. discriminate OP.
    + injection ST as <-. auto.
    + injection ST as <-. auto.
    + injection ST as <-. discriminate CP.
    + injection ST as <-. auto.
    + injection ST as <-. discriminate CP.
    + injection ST as <-. auto.
    + destruct (c_closed s); [|destruct (c_connected s); [destruct (c_pipe s) eqn:E|]]; injection ST as <-; cbn in CP, OP; auto; try (right; split; congruence).
    + injection ST as <-. auto.
    + destruct (p_wr (c_pipes s p)); [discriminate|]. injection ST as <-. cbn in CP, OP. right. split; auto.
      unfold upd in OP. destruct (Nat.eqb_spec k p); [subst; exact OP|exact OP].
    + destruct (once && _)%bool; [|destruct (p_open (c_pipes s p)) eqn:EO; [discriminate|]]; injection ST as <-; cbn in CP, OP; right; split; auto;
        unfold upd in OP; destruct (Nat.eqb_spec k p); subst; auto.
    + destruct (c_closed s); [|destruct (c_connected s); [destruct (c_resp s)|]]; injection ST as <-; auto.
    + destruct (_ || _)%bool; [|discriminate]. injection ST as <-. auto.
    + destruct (c_closed s); injection ST as <-; auto. discriminate CP.
  - destruct (t_pc (c_thread s t)); try discriminate ST. destruct (c_live s c); [discriminate|]. injection ST as <-. auto.
  - destruct (t_pc (c_thread s t)); try discriminate ST. destruct (r_state (c_reqs s q)); try discriminate ST; injection ST as <-; auto.
  - destruct (t_pc (c_thread s t)) as [| | | | | | | | | | |p x once| | | |]; try discriminate ST. destruct (r_pipe (c_reqs s q)); [|discriminate].
    destruct (_ && _)%bool; [|discriminate]. injection ST as <-. cbn in CP, OP. right. split; auto.
    unfold upd in OP. destruct (Nat.eqb_spec k p); subst; auto.
  - destruct (q <? c_nq s); [|discriminate]. destruct (r_state (c_reqs s q)); try discriminate ST. injection ST as <-. auto.
  - destruct (q <? c_nq s); [|discriminate]. destruct (r_state (c_reqs s q)); try discriminate ST. injection ST as <-. auto.
  - destruct (Nat.ltb_spec q (c_nq s)) as [L|]; [|discriminate]. destruct (r_pipe (c_reqs s q)) as [p|] eqn:EP; injection ST as <-; auto.
    cbn in CP, OP. unfold upd in OP. destruct (Nat.eqb_spec k p); [subst; left; exists q; auto|auto].
  - destruct (n <? c_np s); [|discriminate]. injection ST as <-. auto.
  - destruct (t_pc (c_thread s t)); try discriminate ST. destruct (r_closed (c_reqs s q)); [discriminate|]. injection ST as <-. auto.
Qed.

(** The pipe in use is open as long as the HTTP client has not closed it. *)
Lemma pipe_open es : forall s k, after es s -> c_pipe s = Some k -> (forall q, q < c_nq s -> r_pipe (c_reqs s q) = Some k -> ~ In (EBody q) es) ->
  p_open (c_pipes s k) = true.
Proof.
  induction es as [|e es IH] using rev_ind; intros s k A CP NB.
  - injection A as <-. discriminate CP.
  - destruct (run_snoc _ _ _ _ A) as (m & Am & ST). pose proof (after_inv _ _ Am) as I.
    destruct (p_open (c_pipes s k)) eqn:OP; [reflexivity|exfalso].
    destruct (step_grown _ _ _ I ST) as (NQ & RP & _).
    destruct (step_open _ _ _ _ I ST CP OP) as [(q & -> & L & E)|[CM OM]].
    + apply (NB q); [lia|rewrite RP by exact L; exact E|]. apply in_or_app. right. now left.
    + rewrite (IH m k Am CM) in OM; [discriminate|]. intros q L E IN. apply (NB q); [lia|rewrite RP by exact L; exact E|].
      apply in_or_app. now left.
Qed.

(** What one Write does where nobody else writes. *)
Definition sending (p : Base.bytes) (t q : nat) : list event :=
  [ECall (Write p); EStep t; EStep t; EStep t; ETake t q (length p); EStep t].
Lemma write_sent s k q p : c_panic s = false -> c_closed s = false -> c_connected s = true -> c_pipe s = Some k ->
  p_open (c_pipes s k) = true -> p_wr (c_pipes s k) = None -> q < c_nq s -> r_pipe (c_reqs s q) = Some k ->
  exists s', run s (sending p (c_nt s) q) = Some s' /\ returned s' (c_nt s) (Write p) ROk /\
    r_wire (c_reqs s' q) = r_wire (c_reqs s q) ++ p /\ (forall q', q' <> q -> c_reqs s' q' = c_reqs s q').
Proof.
  intros PA CL CN CP OP WR L RP. assert (LT : c_nt s <? S (c_nt s) = true) by (apply Nat.ltb_lt; lia).
  assert (LQ : q <? c_nq s = true) by (apply Nat.ltb_lt; exact L).
  eexists. split; [|split; [|split]].
  - unfold sending. cbn [run].
    unfold step at 1. rewrite PA.
    unfold step at 1. cbn [c_panic c_nt c_thread]. rewrite LT. unfold stepT at 1. rewrite upd_same. cbn [to withPipe withReq t_pc t_call c_thread c_pipes c_reqs c_nt c_nq start c_closed c_connected c_pipe].
    rewrite CL, CN, CP.
    unfold step at 1. cbn [to c_panic c_nt c_thread]. rewrite LT. unfold stepT at 1. rewrite upd_same. cbn [to withPipe withReq t_pc t_call c_thread c_pipes c_reqs c_nt c_nq c_pipes]. rewrite OP.
    unfold step at 1. cbn [to c_panic c_nt c_thread]. rewrite LT. unfold stepT at 1. rewrite upd_same. cbn [to withPipe withReq t_pc t_call c_thread c_pipes c_reqs c_nt c_nq c_pipes]. rewrite WR.
    unfold step at 1. cbn [to withPipe c_panic c_nt c_thread]. rewrite upd_same. cbn [to withPipe withReq t_pc t_call c_thread c_pipes c_reqs c_nt c_nq c_pipes c_reqs c_nq]. rewrite RP, LQ, Nat.eqb_refl. rewrite upd_same. cbn [p_open]. rewrite OP. cbn [andb orb negb].
    unfold step at 1. cbn [to withPipe withReq c_panic c_nt c_thread]. rewrite LT. unfold stepT at 1. rewrite !upd_same. cbn [to withPipe withReq t_pc t_call c_thread c_pipes c_reqs c_nt c_nq c_pipes payload].
    cbn [skipn]. rewrite firstn_all. cbn [Nat.add]. rewrite Nat.leb_refl. cbn [andb]. reflexivity.
  - split; [split; cbn; [lia|rewrite !upd_same; reflexivity]|cbn; rewrite !upd_same; reflexivity].
  - cbn. rewrite !upd_same. cbn. rewrite ?firstn_all. reflexivity.
  - intros q' NE. cbn. now rewrite !upd_other.
Qed.

(** Only an answer makes a request answered. *)
Lemma step_answered s e s' q : step s e = Some s' -> r_state (c_reqs s' q) = Answered -> e = EAnswer q true \/ r_state (c_reqs s q) = Answered.
Proof.
  intros ST AN. unfold step in ST. destruct (c_panic s); [discriminate|].
  assert (CLEAN : forall m, r_state (c_reqs (cleanup m) q) = r_state (c_reqs m q)).
  { intros m. cbn. destruct (c_resp m) as [x|]; [|reflexivity]. unfold upd. destruct (Nat.eqb_spec q x); [subst; reflexivity|reflexivity]. }
  destruct e as [c|t|t|t|t y n|y ok|y|y|n|t ok].
  - injection ST as <-. auto.
  - destruct (t <? c_nt s); [|discriminate]. unfold stepT in ST.
    destruct (t_pc (c_thread s t)) as [| |y|y c| | | |y| |p|p|p n once| |y| |r0] eqn:P; try discriminate ST.
    + destruct (c_closed s); injection ST as <-; auto. change (r_state (c_reqs (cleanup s) q) = Answered) in AN. rewrite CLEAN in AN. auto.
    + injection ST as <-. cbn in AN. unfold upd in AN. destruct (Nat.eqb_spec q (c_nq s)); [discriminate AN|auto].
    + injection ST as <-. auto.
    + injection ST as <-. change (r_state (c_reqs (cleanup s) q) = Answered) in AN. rewrite CLEAN in AN. auto.
    + injection ST as <-. auto.
    + injection ST as <-. change (r_state (c_reqs (cleanup s) q) = Answered) in AN. rewrite CLEAN in AN. auto.
    + injection ST as <-. auto.
    + destruct (c_closed s); [|destruct (c_connected s); [destruct (c_pipe s) eqn:E|]]; injection ST as <-; auto.
    + injection ST as <-. auto.
    + destruct (p_wr (c_pipes s p)); [discriminate|]. injection ST as <-. auto.
    + destruct (once && _)%bool; [|destruct (p_open (c_pipes s p)) eqn:EO; [discriminate|]]; injection ST as <-; auto.
    + destruct (c_closed s); [|destruct (c_connected s); [destruct (c_resp s)|]]; injection ST as <-; auto.
    + destruct (_ || _)%bool; [|discriminate]. injection ST as <-. auto.
    + destruct (c_closed s); injection ST as <-; auto. right. rewrite <- AN. symmetry. unfold shutdown. cbn [to c_reqs]. rewrite CLEAN. reflexivity.
  - destruct (t_pc (c_thread s t)); try discriminate ST. destruct (c_live s c); [discriminate|]. injection ST as <-. auto.
  - destruct (t_pc (c_thread s t)); try discriminate ST. destruct (r_state (c_reqs s q0)) eqn:E; try discriminate ST; injection ST as <-; auto.
    cbn in AN. unfold upd in AN. destruct (Nat.eqb_spec q q0); [subst; cbn in AN; congruence|auto].
  - destruct (t_pc (c_thread s t)) as [| | | | | | | | | | |p x once| | | |]; try discriminate ST. destruct (r_pipe (c_reqs s y)); [|discriminate].
    destruct (_ && _)%bool; [|discriminate]. injection ST as <-. cbn in AN. unfold upd in AN. destruct (Nat.eqb_spec q y); [subst|]; auto.
  - destruct (y <? c_nq s); [|discriminate]. destruct (r_state (c_reqs s y)); try discriminate ST. injection ST as <-.
    cbn in AN. unfold upd in AN. destruct (Nat.eqb_spec q y); [subst; cbn in AN; destruct ok; [auto|discriminate]|auto].
  - destruct (y <? c_nq s); [|discriminate]. destruct (r_state (c_reqs s y)); try discriminate ST. injection ST as <-.
    cbn in AN. unfold upd in AN. destruct (Nat.eqb_spec q y); [subst; cbn in AN; discriminate|auto].
  - destruct (y <? c_nq s); [|discriminate]. injection ST as <-. destruct (r_pipe (c_reqs s y)); auto.
  - destruct (n <? c_np s); [|discriminate]. injection ST as <-. auto.
  - destruct (t_pc (c_thread s t)); try discriminate ST. destruct (r_closed (c_reqs s q0)); [discriminate|]. injection ST as <-. auto.
Qed.
Lemma answered es : forall s q, after es s -> r_state (c_reqs s q) = Answered -> In (EAnswer q true) es.
Proof.
  induction es as [|e es IH] using rev_ind; intros s q A AN.
  - injection A as <-. discriminate AN.
  - destruct (run_snoc _ _ _ _ A) as (m & Am & ST). apply in_or_app. destruct (step_answered _ _ _ _ ST AN) as [->|H]; [right; now left|left; eauto].
Qed.
