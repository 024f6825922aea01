(** C112-C114: the HTTP client transport. *)
From Coq Require Import ZArith List Bool Lia.
Import ListNotations.
From Verif.Model Require Import Base HttpClient.
From Verif.Spec Require Import HttpClient.
From Verif.Proofs Require Import HttpClient HttpClientData HttpClientMore HttpClientClose HttpClientWrite.
Local Open Scope nat_scope.

Lemma run_app es : forall es' s m, run s es = Some m -> run s (es ++ es') = run m es'.
Proof. induction es as [|e es IH]; intros es' s m R; cbn in *; [now injection R as ->|]. destruct (step s e); [|discriminate]. auto. Qed.
Lemma sorted es s : alone es -> after es s -> sorted_out s (log s).
Proof.
  intros AL A. pose proof (alone_own _ _ AL A) as O. destruct (after_inv _ _ A) as [I D]. unfold log. split; [|split; [|split]].
  - intros q L. unfold made_of. destruct (r_pipe (c_reqs s q)) as [k|] eqn:RP.
    + split; [rewrite (a_wire s O q k L RP); apply (d_body s D)|]. split; [apply (d_nodup s D)|]. intros t n IN.
      destruct (d_log s D _ _ _ IN) as (LT & (d & E & LE) & _). exists d. repeat split; auto.
    + split; [now rewrite (a_nil s O q L RP)|]. split; [constructor|contradiction].
  - intros q q' t L L' IN IN'. destruct (r_pipe (c_reqs s q)) as [k|] eqn:RP; [|contradiction]. destruct (r_pipe (c_reqs s q')) as [k'|] eqn:RP'; [|contradiction].
    pose proof (d_disj s D _ _ _ IN IN'). subst k'. exact (a_uniq s O _ _ _ L L' RP RP').
  - intros t p ((LT & C) & P). destruct (d_ok s D t p C P) as (k & q & IN & L & RP). exists q. rewrite RP. auto.
  - intros t p r ((LT & C) & P) RR q L IN. destruct (r_pipe (c_reqs s q)) as [k|]; [|contradiction]. apply in_fst in IN. destruct IN as (n & IN).
    destruct (d_log s D _ _ _ IN) as (_ & _ & LG). rewrite P in LG. destruct RR; subst r; contradiction.
Qed.
Lemma alone_app es es' : alone (es ++ es') -> alone es.
Proof. intros AL e1 e2 x E. apply (AL e1 (e2 ++ es')). now rewrite E, <- app_assoc. Qed.
(** If connects do not overlap, the bodies of the requests are made of the Writes, each in one request only, and what
    comes later goes behind.  Missing: connects may overlap. *)
Theorem C112_partial es es' s s' : alone (es ++ es') -> after es s -> run s es' = Some s' ->
  exists log log', sorted_out s log /\ sorted_out s' log' /\ forall q, q < c_nq s -> exists l, map fst (log' q) = map fst (log q) ++ l.
Proof.
  intros AL A R. assert (A' : after (es ++ es') s') by (unfold after; now rewrite (run_app _ _ _ _ A)).
  exists (log s), (log s'). split; [exact (sorted _ _ (alone_app _ _ AL) A)|]. split; [exact (sorted _ _ AL A')|].
  destruct (run_grown _ _ _ (after_inv _ _ A) R) as (_ & RP & PL & _). intros q L. unfold log. rewrite (RP q L).
  destruct (r_pipe (c_reqs s q)) as [k|]; [apply PL|]. exists []. reflexivity.
Qed.

(** Close ends at once, in any state. *)
Theorem C113_at_once es s t : after es s -> c_panic s = false -> in_progress s t Close ->
  exists s', step s (EStep t) = Some s' /\ returned s' t Close ROk /\ c_closed s' = true.
Proof.
  intros A PA P. destruct (after_inv _ _ A) as [I D]. pose proof P as P'. destruct P' as ((L & C) & _). apply (close_iff s t I) in P.
  exists (to t (Done ROk) (if c_closed s then s else shutdown s)). unfold step. rewrite PA. assert (L' := L). apply Nat.ltb_lt in L'. rewrite L'. unfold stepT. rewrite P. split; [reflexivity|].
  destruct (c_closed s) eqn:CL; cbn; (split; [|auto]); (split; [split; cbn; [exact L|]|cbn]; rewrite upd_same; auto).
Qed.
(** Once it is closed: not connected, no byte goes into a request any more, calls that had not begun get ErrClosed. *)
Theorem C113_after es s es' s' : after es s -> c_closed s = true -> run s es' = Some s' ->
  ~ is_connected s' /\
  (forall q, q < c_nq s' -> r_wire (c_reqs s' q) = if q <? c_nq s then r_wire (c_reqs s q) else []) /\
  (forall t c r, (t < c_nt s -> not_begun s t) -> returned s' t c r -> r = refused c).
Proof.
  intros A C R. destruct (run_later _ _ _ (after_inv _ _ A) C R) as (C' & _ & _ & W1 & W2 & _ & _ & N). split; [intros [_ X]; congruence|]. split.
  - intros q L. destruct (Nat.ltb_spec q (c_nq s)); auto.
  - intros t c r NB ((L & CA) & P). destruct (N t L NB) as [S|S]; rewrite CA, P in S; [destruct c; discriminate|]. destruct c; now injection S.
Qed.
(** And then all calls end, without anything from the peer, however they are scheduled: they take at most five steps
    each, and as long as one goes on, one can take a step. *)
Theorem C113_ends es s es' s' : after es s -> c_panic s = false -> c_closed s = true -> forallb own_step es' = true -> run s es' = Some s' ->
  length es' <= 5 * c_nt s /\ (all_done s' \/ exists e, own_step e = true /\ step s' e <> None).
Proof.
  intros A PA C OW R. pose proof (after_inv _ _ A) as I. destruct (own_run _ _ _ I C OW R) as (T & N & Q).
  assert (H : Held s') by (assert (HI : Held init) by (intros k u E; discriminate E); assert (Held s) by (apply (run_held es init); auto; exact (after_inv [] init eq_refl)); now apply (run_held es' s)).
  pose proof (run_inv _ _ _ I R) as I'. pose proof (proj1 (run_later _ _ _ I C R)) as C'.
  split; [pose proof (total_le (c_thread s) (c_nt s)); lia|].
  destruct (Nat.eq_dec (total (c_thread s') (c_nt s')) 0) as [E|E].
  - left. intros t c ((L & _) & ND). destruct (total_zero _ _ E t L) as (r & P). exact (ND r P).
  - right. destruct (not_zero _ _ E) as (t & L & ND). destruct (own_next s' t I' H C' (Q PA) L ND) as (e & m & O & ST). exists e. split; [exact O|congruence].
Qed.

(** Connects neither overlap with each other nor with Close: nothing panics, a connected transport has an answered
    request, and connect tells which it is.  Missing: connects may overlap. *)
Lemma conn_usable s : Ctl s -> Kept s -> is_connected s -> usable s.
Proof.
  intros I K CN. split; [exact CN|]. destruct CN as [CN _]. destruct (c_resp s) as [q|] eqn:R; [|now elim (g_conn s I CN)].
  destruct (k_resp s K q CN R) as (E & AN). pose proof (k_conn s K CN) as NP. destruct (c_pipe s) as [k|] eqn:P; [|now elim NP]. exists q, k. rewrite <- E.
  split; [exact (g_resp s I q R)|]. auto.
Qed.
Theorem C114_safe_partial es s : apart es -> after es s -> c_panic s = false /\ (is_connected s -> usable s).
Proof. intros AP A. destruct (apart_kept _ _ AP A) as [O K]. destruct (after_inv _ _ A) as [I D]. split; [exact (k_panic s K)|now apply conn_usable]. Qed.
Ltac moved MV ST := match type of ST with Some (to ?u ?p ?m) = _ => let E1 := fresh in let E2 := fresh in destruct (MV u p m eq_refl ST) as [E1 E2]; subst u; try discriminate E2; try (injection E2 as <-) end.
Theorem C114_connect_partial es e s s' t r : apart (es ++ [e]) -> after es s -> step s e = Some s' -> in_progress s t Connect -> returned s' t Connect r ->
  (r = ROk -> usable s') /\ (r <> ROk -> ~ is_connected s').
Proof.
  intros AP A ST IP RE. assert (A' : after (es ++ [e]) s') by (unfold after; rewrite (run_app _ _ _ _ A); cbn; now rewrite ST).
  destruct (apart_kept _ _ AP A') as [O' K']. destruct (after_inv _ _ A') as [I' D'].
  assert (AP0 : apart es).
  { destruct AP as (P1 & P2 & P3). split; [|split]; intros e1 e2 x E; [apply (P1 e1 (e2 ++ [e]))|apply (P2 e1 (e2 ++ [e]))|apply (P3 e1 (e2 ++ [e]))]; rewrite E, <- app_assoc; reflexivity. }
  destruct (apart_kept _ _ AP0 A) as [O K]. destruct (after_inv _ _ A) as [I D].
  assert (G : (r = ROk -> is_connected s') /\ (r <> ROk -> ~ is_connected s')); [|destruct G as [G1 G2]; split; [intros E; apply (conn_usable s' I' K'); auto|exact G2]].
  pose proof (k_mid s K t) as KM. pose proof (k_err s K t) as KE.
  apply (conn_iff s t I) in IP. destruct RE as (_ & P'). unfold step in ST. rewrite (k_panic s K) in ST.
  assert (MV : forall u p m, c_thread m = c_thread s -> Some (to u p m) = Some s' -> u = t /\ p = Done r).
  { intros u p m T E. injection E as <-. cbn in P'. rewrite T in P'. unfold upd in P'. destruct (Nat.eqb_spec t u) as [->|]; [auto|]. rewrite P' in IP. discriminate. }
  assert (NM : c_thread s' = c_thread s -> False) by (intros E; rewrite E in P'; rewrite P' in IP; try discriminate).
  destruct e as [c|u|u|u|u q k|q ok|q|q|k|u ok].
  - injection ST as <-. cbn in P'. unfold upd in P'. destruct (Nat.eqb_spec t (c_nt s)) as [->|]; [destruct c; discriminate|]. rewrite P' in IP. discriminate.
  - destruct (u <? c_nt s); [|discriminate]. unfold stepT in ST. destruct (t_pc (c_thread s u)) as [| |q|q c| | | |q| |p|p|p n once| |q| |r0] eqn:P; try discriminate ST.
    + destruct (c_closed s) eqn:CL; moved MV ST. injection ST as <-. split; [discriminate|]. intros _ [_ X]. cbn in X. congruence.
    + moved MV ST.
    + moved MV ST.
    + moved MV ST.
    + moved MV ST. injection ST as <-. specialize (KE P).
      assert (LV : c_live s (c_ctx s) = false) by (destruct (c_live s (c_ctx s)) eqn:E; [apply (g_live s I) in E; congruence|reflexivity]). rewrite LV. split; [discriminate|]. intros _ [X _]. cbn in X. now apply (k_conn s K) in X.
    + moved MV ST. injection ST as <-. split; [discriminate|]. intros _ [X _]. discriminate X.
    + moved MV ST. injection ST as <-. split; [|congruence]. intros _. rewrite P in KM. destruct (KM eq_refl) as (M1 & _). split; [reflexivity|exact M1].
    + cases ST; try (moved MV ST; rewrite P in IP; try discriminate). elim NM. injection ST as <-. reflexivity.
    + moved MV ST; rewrite P in IP; discriminate.
    + cases ST. moved MV ST; rewrite P in IP; discriminate.
    + cases ST; (moved MV ST; rewrite P in IP; try discriminate).
    + cases ST; try (moved MV ST; rewrite P in IP; try discriminate). elim NM. injection ST as <-. reflexivity.
    + cases ST. moved MV ST; rewrite P in IP; discriminate.
    + destruct (c_closed s); (moved MV ST; rewrite P in IP; try discriminate).
  - cases ST. moved MV ST.
  - cases ST; (moved MV ST).
  - cases ST. moved MV ST.
  - elim NM. cases ST; injection ST as <-; reflexivity.
  - elim NM. cases ST; injection ST as <-; reflexivity.
  - elim NM. cases ST; injection ST as <-; reflexivity.
  - elim NM. cases ST; injection ST as <-; reflexivity.
  - destruct (t_pc (c_thread s u)) eqn:P; try discriminate ST. cases ST; (moved MV ST; rewrite P in IP; try discriminate).
Qed.

(** A connected transport has been answered with 200 by the peer. *)
Theorem C114_answered_partial es s : apart es -> after es s -> is_connected s -> exists q, c_resp s = Some q /\ In (EAnswer q true) es.
Proof.
  intros AP A CN. destruct (C114_safe_partial _ _ AP A) as [_ US]. destruct (US CN) as (_ & q & k & _ & RS & _ & _ & AN). exists q. split; [exact RS|]. exact (answered _ _ _ A AN).
Qed.
(** And a connected transport can send: where no other Write goes on and the HTTP client has not closed the body of the request,
    a Write returns nil after some steps, with its bytes at the end of that request. *)
Theorem C114_write_partial es s p : apart es -> after es s -> is_connected s -> (forall t b, ~ in_progress s t (Write b)) ->
  (forall q, q < c_nq s -> r_pipe (c_reqs s q) = c_pipe s -> ~ In (EBody q) es) ->
  exists q es' s', c_resp s = Some q /\ run s (ECall (Write p) :: es') = Some s' /\ returned s' (c_nt s) (Write p) ROk /\
    r_wire (c_reqs s' q) = r_wire (c_reqs s q) ++ p.
Proof.
  intros AP A CN ID NB. destruct (C114_safe_partial _ _ AP A) as [PA US]. destruct (US CN) as (_ & q & k & L & RS & CP & RP & _). destruct CN as [CN CL].
  assert (OP : p_open (c_pipes s k) = true) by (apply (pipe_open es); auto; intros q' L' E; apply NB; [exact L'|congruence]).
  assert (HE : Held s) by (apply (run_held es init); [exact (after_inv [] init eq_refl)|intros x u E; discriminate E|exact A]).
  assert (WR : p_wr (c_pipes s k) = None).
  { destruct (p_wr (c_pipes s k)) as [u|] eqn:E; [exfalso|reflexivity]. destruct (HE _ _ E) as (n & b & P). destruct (after_inv _ _ A) as [I D].
    pose proof (g_call s I u) as G. rewrite P in G. destruct (t_call (c_thread s u)) as [|w| |] eqn:C; try discriminate G.
    apply (ID u w). split; [split; [|exact C]|intros r; rewrite P; discriminate].
    destruct (Nat.lt_ge_cases u (c_nt s)) as [H|H]; [exact H|]. rewrite (g_th0 s I u H) in C. discriminate C. }
  destruct (write_sent s k q p PA CL CN CP OP WR L RP) as (s' & R & RT & W & _). unfold sending in R. exists q. eexists. exists s'. split; [exact RS|]. split; [exact R|]. auto.
Qed.

(** ** Cases *)
Definition isCall (c : call) (x : call) : bool := match c, x with Connect, Connect | Close, Close => true | _, _ => false end.
Definition idleb (s : st) (c : call) : bool :=
  forallb (fun t => negb (isCall c (t_call (c_thread s t))) || match t_pc (c_thread s t) with Done _ => true | _ => false end) (seq 0 (c_nt s)).
Fixpoint apartb (strict : bool) (s : st) (es : list event) : bool :=
  match es with
  | [] => true
  | e :: q =>
    match e with ECall Connect => idleb s Connect && (negb strict || idleb s Close) | ECall Close => negb strict || idleb s Connect | _ => true end
    && match step s e with Some s' => apartb strict s' q | None => true end
  end.
Lemma idleb_idle s c : c = Connect \/ c = Close -> idleb s c = true -> idle s c.
Proof.
  intros CC E t ((L & C) & ND). unfold idleb in E. rewrite forallb_forall in E. specialize (E t ltac:(apply in_seq; lia)). rewrite C in E.
  assert (X : isCall c c = true) by (destruct CC; subst; reflexivity). rewrite X in E. cbn in E. destruct (t_pc (c_thread s t)) eqn:P; try discriminate. now elim (ND r).
Qed.
Lemma apartb_at strict : forall es1 s e es2 m, apartb strict s (es1 ++ e :: es2) = true -> run s es1 = Some m ->
  match e with ECall Connect => idleb m Connect && (negb strict || idleb m Close) | ECall Close => negb strict || idleb m Connect | _ => true end = true.
Proof.
  induction es1 as [|x es1 IH]; intros s e es2 m H R; cbn [app run apartb] in *.
  - injection R as <-. now apply andb_true_iff in H as [H _].
  - apply andb_true_iff in H as [_ H]. destruct (step s x) as [y|]; [|discriminate]. exact (IH y e es2 m H R).
Qed.
Lemma apartb_alone es strict : apartb strict init es = true -> alone es.
Proof.
  intros H es1 es2 s -> R. pose proof (apartb_at _ _ _ _ _ _ H R) as X. cbn in X. apply andb_true_iff in X as [X _]. apply idleb_idle; auto.
Qed.
Lemma apartb_apart es : apartb true init es = true -> apart es.
Proof.
  intros H. split; [exact (apartb_alone _ _ H)|]. split; intros es1 es2 s -> R; pose proof (apartb_at _ _ _ _ _ _ H R) as X; cbn in X.
  - apply andb_true_iff in X as [_ X]. apply idleb_idle; auto.
  - apply idleb_idle; auto.
Qed.
Definition state_of (es : list event) : st := match run init es with Some s => s | None => init end.
Lemma state_run es : (if run init es then true else false) = true -> after es (state_of es).
Proof. unfold after, state_of. destruct (run init es); [reflexivity|discriminate]. Qed.
Lemma state_split a b : (if run init (a ++ b) then true else false) = true -> run (state_of a) b = Some (state_of (a ++ b)).
Proof.
  unfold state_of. destruct (run init a) as [m|] eqn:A.
  - rewrite (run_app _ b _ _ A). destruct (run m b); [reflexivity|discriminate].
  - intros H. exfalso. assert (N : run init (a ++ b) = None); [|rewrite N in H; discriminate]. clear H. revert A. generalize init. induction a as [|e a IH]; intros x X; cbn in *; [discriminate|].
    destruct (step x e); auto.
Qed.
Lemma state_step a e : (if run init (a ++ [e]) then true else false) = true -> step (state_of a) e = Some (state_of (a ++ [e])).
Proof. intros H. apply state_split in H. cbn in H. destruct (step (state_of a) e); [exact H|discriminate]. Qed.
Ltac here := match goal with
  | |- after _ _ => apply state_run; vm_compute; reflexivity
  | |- run _ _ = _ => apply state_split; vm_compute; reflexivity
  | |- step _ _ = _ => apply state_step; vm_compute; reflexivity
  | |- alone _ => apply (apartb_alone _ false); vm_compute; reflexivity
  | |- apart _ => apply apartb_apart; vm_compute; reflexivity
  | |- is_connected _ => split; vm_compute; reflexivity
  | |- returned _ _ _ _ => split; [split; [apply Nat.ltb_lt; vm_compute; reflexivity|vm_compute; reflexivity]|vm_compute; reflexivity]
  | |- in_progress _ _ _ => split; [split; [apply Nat.ltb_lt; vm_compute; reflexivity|vm_compute; reflexivity]|let r := fresh in intros r; vm_compute; discriminate]
  | |- _ => vm_compute; reflexivity
  end.
Ltac each := match goal with |- _ /\ _ => split; each | |- _ => here end.
(** Connect, two Writes and a reconnect with one Write; a Write and a Read go on. *)
Definition talk : list event :=
  [ECall Connect; EStep 0; EStep 0; EStep 0; EAnswer 0 true; EReq 0; EStep 0;
   ECall (Write [1; 2; 3]%Z); ECall (Write [4]%Z); EStep 1; EStep 2; EStep 2; EStep 1; EStep 1; ETake 1 0 2; ETake 1 0 5; EStep 1; EStep 2; ETake 2 0 1; EStep 2;
   ECall Connect; EStep 3; EStep 3; EStep 3; EAnswer 1 true; EReq 3; EStep 3;
   ECall (Write [5; 6]%Z); EStep 4; EStep 4; EStep 4; ETake 4 1 1; ECall (Write [7]%Z); EStep 5; EStep 5; ECall Read; EStep 6].
Example C112_example :
  alone talk /\ after talk (state_of talk) /\ r_wire (c_reqs (state_of talk) 0) = [1; 2; 3; 4]%Z /\ r_wire (c_reqs (state_of talk) 1) = [5]%Z /\
  returned (state_of talk) 1 (Write [1; 2; 3]%Z) ROk /\ in_progress (state_of talk) 4 (Write [5; 6]%Z).
Proof. each. Qed.
(** A Close then ends the two Writes and the Read; a Write that comes later is refused. *)
Definition closing : list event := talk ++ [ECall Close; ECall (Write [8]%Z); EStep 7].
Definition ending : list event := [EStep 4; EStep 5; EStep 5; EStep 6; EStep 8].
Example C113_example :
  after closing (state_of closing) /\ c_panic (state_of closing) = false /\ c_closed (state_of closing) = true /\ not_begun (state_of closing) 8 /\
  forallb own_step ending = true /\
  in_progress (state_of (talk ++ [ECall Close])) 7 Close /\
  in_progress (state_of closing) 4 (Write [5; 6]%Z) /\ in_progress (state_of closing) 6 Read /\
  after (closing ++ ending) (state_of (closing ++ ending)) /\
  returned (state_of (closing ++ ending)) 4 (Write [5; 6]%Z) RFail /\ returned (state_of (closing ++ ending)) 5 (Write [7]%Z) RFail /\
  returned (state_of (closing ++ ending)) 6 Read RFail /\ returned (state_of (closing ++ ending)) 8 (Write [8]%Z) RClosed.
Proof. each. Qed.
Definition dialled : list event := [ECall Connect; EStep 0; EStep 0; EStep 0; EAnswer 0 true; EReq 0].
Example C114_example :
  apart (dialled ++ [EStep 0]) /\ after dialled (state_of dialled) /\ in_progress (state_of dialled) 0 Connect /\
  after (dialled ++ [EStep 0]) (state_of (dialled ++ [EStep 0])) /\ returned (state_of (dialled ++ [EStep 0])) 0 Connect ROk /\
  apart closing /\ after closing (state_of closing).
Proof. each. Qed.
Example C114_connected : is_connected (state_of talk) /\ apart talk.
Proof. each. Qed.

Example C114_write_example :
  exists q es' s', c_resp (state_of (dialled ++ [EStep 0])) = Some q /\ run (state_of (dialled ++ [EStep 0])) (ECall (Write [1; 2]%Z) :: es') = Some s' /\
    returned s' (c_nt (state_of (dialled ++ [EStep 0]))) (Write [1; 2]%Z) ROk /\ r_wire (c_reqs s' q) = r_wire (c_reqs (state_of (dialled ++ [EStep 0])) q) ++ [1; 2]%Z.
Proof.
  apply (C114_write_partial (dialled ++ [EStep 0])); try here.
  - intros t b ((L & C) & _). assert (E : c_nt (state_of (dialled ++ [EStep 0])) = 1) by (vm_compute; reflexivity). rewrite E in L. destruct t; [|lia].
    vm_compute in C. discriminate C.
  - intros q _ _ IN. cbn in IN. intuition discriminate.
Qed.

(** Two connects at a time: the second one's pipe is the body of both requests, and the bytes of one Write that returns
    nil go to both. *)
Definition both : list event :=
  [ECall Connect; ECall Connect; EStep 0; EStep 1; EStep 0; EStep 1; EStep 0; EStep 1; EAnswer 0 true; EAnswer 1 true; EReq 0; EReq 1; EStep 0; EStep 1;
   ECall (Write [1; 2; 3]%Z); EStep 2; EStep 2; EStep 2; ETake 2 0 1; ETake 2 1 2; EStep 2].
Example both_write t p : t < c_nt (state_of both) -> t_call (c_thread (state_of both) t) = Write p -> t = 2.
Proof.
  assert (NT : c_nt (state_of both) = 3) by (vm_compute; reflexivity).
  assert (C0 : t_call (c_thread (state_of both) 0) = Connect) by (vm_compute; reflexivity). assert (C1 : t_call (c_thread (state_of both) 1) = Connect) by (vm_compute; reflexivity).
  rewrite NT. revert C0 C1. clear NT. generalize (state_of both). intros s C0 C1 L C. destruct t as [|[|t]]; [congruence|congruence|lia].
Qed.
Theorem C112_refuted : ~ forall es s, after es s -> exists log, sorted_out s log.
Proof.
  intros H. destruct (H both (state_of both) ltac:(here)) as (log & M & U & OK & _).
  assert (R : returned (state_of both) 2 (Write [1; 2; 3]%Z) ROk) by here.
  destruct (OK _ _ R) as (q & L & IN).
  assert (NQ : c_nq (state_of both) = 2) by (vm_compute; reflexivity). rewrite NQ in *.
  destruct (M 0 ltac:(lia)) as (W0 & _ & B0). destruct (M 1 ltac:(lia)) as (W1 & _ & B1).
  assert (E0 : r_wire (c_reqs (state_of both) 0) = [1]%Z) by (vm_compute; reflexivity). assert (E1 : r_wire (c_reqs (state_of both) 1) = [2; 3]%Z) by (vm_compute; reflexivity).
  rewrite E0 in W0. rewrite E1 in W1.
  assert (IN2 : forall l, (forall t n, In (t, n) l -> exists p, called (state_of both) t (Write p) /\ n <= length p) -> parts (state_of both) l <> [] -> In 2 (map fst l)).
  { intros l B. induction l as [|[t n] l IHl]; [intros X; now elim X|]. intros _. cbn. destruct (B t n (or_introl eq_refl)) as (p & (LT & C) & _). left.
    apply both_write with p; assumption. }
  assert (X : 0 = 1); [|discriminate]. apply (U 0 1 2); try lia; apply IN2; auto; congruence.
Qed.
(** A connect that is at work when Close returns can return nil. *)
Definition late : list event := [ECall Connect; EStep 0; EStep 0; EStep 0; EAnswer 0 true; ECall Close; EStep 1].
Theorem C113_connect_refuted : ~ forall es s es' s' t, after es s -> c_closed s = true -> run s es' = Some s' -> in_progress s t Connect -> ~ returned s' t Connect ROk.
Proof.
  intros H. apply (H late (state_of late) [EReq 0; EStep 0] (state_of (late ++ [EReq 0; EStep 0])) 0); here.
Qed.
(** A Close between the two parts of connect leaves the request a nil pointer for its body. *)
Definition crossed : list event := [ECall Connect; EStep 0; ECall Close; EStep 1; EStep 0; EBody 0].
Theorem C114_close_refuted : ~ forall es s, alone es -> after es s -> c_panic s = false.
Proof. intros H. specialize (H crossed (state_of crossed) ltac:(here) ltac:(here)). vm_compute in H. discriminate. Qed.
(** A connect that succeeds after another one has cleaned up leaves the transport connected without a pipe: Write panics. *)
Definition twice : list event :=
  [ECall Connect; EStep 0; EStep 0; EStep 0; EAnswer 0 true; EReq 0; ECall Connect; EStep 1; EStep 1; EStep 1; EFail 1; EReq 1; EStep 1; EStep 0].
Theorem C114_twice_refuted : ~ forall es s, after es s -> is_connected s -> usable s.
Proof.
  intros H. destruct (H twice (state_of twice) ltac:(here) ltac:(here)) as (_ & q & k & _ & _ & P & _). vm_compute in P. discriminate.
Qed.
Example C114_write_panics : exists s, after (twice ++ [ECall (Write [1]%Z); EStep 2]) s /\ c_panic s = true.
Proof. exists (state_of (twice ++ [ECall (Write [1]%Z); EStep 2])). each. Qed.
(** And a connect can return nil although it did not connect. *)
Definition unborn : list event :=
  [ECall Connect; EStep 0; EStep 0; EStep 0; EEnd 0; ECtx 0; EStep 0; ECall Connect; EStep 1].
Theorem C114_nil_refuted : ~ forall es e s s' t, after es s -> step s e = Some s' -> in_progress s t Connect -> returned s' t Connect ROk -> is_connected s'.
Proof.
  intros H. destruct (H unborn (EStep 0) (state_of unborn) (state_of (unborn ++ [EStep 0])) 0 ltac:(here) ltac:(here) ltac:(here) ltac:(here)) as [X _].
  vm_compute in X. discriminate.
Qed.

Print Assumptions C112_partial.
Print Assumptions C112_refuted.
Print Assumptions C113_at_once.
Print Assumptions C113_after.
Print Assumptions C113_ends.
Print Assumptions C113_connect_refuted.
Print Assumptions C114_safe_partial.
Print Assumptions C114_connect_partial.
Print Assumptions C114_answered_partial.
Print Assumptions C114_write_partial.
Print Assumptions C114_close_refuted.
Print Assumptions C114_twice_refuted.
Print Assumptions C114_nil_refuted.
