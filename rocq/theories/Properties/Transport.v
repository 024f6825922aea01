(** The TCP and the Unix socket transport. *)
From Coq Require Import ZArith List Bool Lia.
Import ListNotations.
From Verif.Model Require Import Base Transport.
From Verif.Spec Require Import Transport.
From Verif.Proofs Require Import BaseLemmas Transport TransportEnd TransportProgress.
Local Open Scope nat_scope.

(** ** C105: what is on the wire *)
(** On each connection: the whole data of the Writes that returned nil, in some order, each once, and then at most a
    first part of the data of one Write that has not returned nil. *)
Theorem C105_wire client es s : after client es s ->
  (forall k, exists tl, wire s k = concat (map (data s) (sent_on s k)) ++ tl /\
     (tl = [] \/ exists t p m, called s t (Write p) /\ ~ returned s t (Write p) ROk /\ tl = firstn m p)) /\
  (forall t, (exists k, In t (sent_on s k)) <-> exists p, returned s t (Write p) ROk) /\
  (forall k, NoDup (sent_on s k)) /\
  (forall t k k', In t (sent_on s k) -> In t (sent_on s k') -> k = k').
Proof.
  intros A. pose proof (after_all _ _ _ A) as AL. pose proof (a_wire s AL) as W.
  assert (IN : forall t k, In t (sent_on s k) <-> In (t, k) (s_sent s)).
  { intros t k. unfold sent_on. rewrite in_map_iff. split.
    - intros ([u c] & <- & H). apply filter_In in H. destruct H as [H E]. cbn in *. apply Nat.eqb_eq in E. now subst.
    - intros H. exists (t, k). split; [reflexivity|]. apply filter_In. split; [exact H|]. cbn. apply Nat.eqb_refl. }
  assert (ONE : forall t k k', In (t, k) (s_sent s) -> In (t, k') (s_sent s) -> k = k').
  { pose proof (w_once s W) as N. clear -N. induction (s_sent s) as [|[a b] l IH]; intros t k k' H K; [destruct H|].
    cbn in N. inversion N as [|? ? N1 N2]; subst. destruct H as [H|H], K as [K|K].
    - congruence.
    - injection H as <- <-. exfalso. apply N1. apply in_map_iff. exists (a, k'). auto.
    - injection K as <- <-. exfalso. apply N1. apply in_map_iff. exists (a, k). auto.
    - exact (IH N2 t k k' H K). }
  repeat split.
  - intros k. destruct (Nat.lt_ge_cases k (length (s_nets s))) as [L|L].
    + destruct (w_tail s W k L) as (tl & E & T). exists tl. split; [exact E|].
      assert (P : forall t x m, th s t x -> fits (Write []) (t_pc x) = true -> t_pc x <> Done ROk -> tl = firstn m (payload x) ->
        tl = [] \/ exists t p m, called s t (Write p) /\ ~ returned s t (Write p) ROk /\ tl = firstn m p).
      { intros t x m G F N ->. destruct x as [c p]. destruct c as [d| | |]; cbn [payload t_call].
        - right. exists t, d, m. split; [exists p; exact G|]. split; [|reflexivity]. intros R. apply N. unfold returned in R. unfold th in G. rewrite G in R. now injection R as ->.
        - left. now rewrite firstn_nil.
        - left. now rewrite firstn_nil.
        - left. now rewrite firstn_nil. }
      unfold tail in T. destruct (n_bad (netAt k s)).
      * destruct T as (t & x & m & G & F & B & E2). apply (P t x m G F); [|exact E2]. intros R. rewrite R in B. discriminate.
      * destruct T as [(t & x & m & G & F & E2)|[_ E2]]; [|now left]. apply (P t x m G); [now rewrite F|rewrite F; discriminate|exact E2].
    + exists []. split; [|now left]. rewrite app_nil_r. replace (sent_on s k) with (@nil nat).
      * unfold wire, netAt. now rewrite nth_overflow.
      * destruct (sent_on s k) as [|t l] eqn:E; [reflexivity|]. assert (H : In (t, k) (s_sent s)) by (apply IN; rewrite E; now left).
        destruct (w_sent s W t k H) as [L' _]. lia.
  - intros (k & H). apply IN in H. destruct (w_sent s W t k H) as (_ & p & G). now exists p.
  - intros (p & R). destruct (w_ok s W t p R) as (k & H). exists k. now apply IN.
  - intros k. unfold sent_on. pose proof (w_once s W) as N. clear -N. induction (s_sent s) as [|[a b] l IH]; cbn; [constructor|].
    cbn in N. inversion N as [|? ? N1 N2]; subst. destruct (b =? k); cbn; [|auto]. constructor; [|auto].
    intros H. apply N1. apply in_map_iff in H. destruct H as ([c d] & E & H). apply filter_In in H. apply in_map_iff. exists (c, d). tauto.
  - intros t k k' H K. apply IN in H. apply IN in K. exact (ONE t k k' H K).
Qed.
(** And the order is that in which they return: what follows later comes from Writes that had not returned. *)
Theorem C105_order client es s es' s' : after client es s -> run client s es' = Some s' ->
  forall k, exists more, sent_on s' k = sent_on s k ++ more /\ (forall t, In t more -> ~ ended s t) /\
    (forall t, t < length s.(s_threads) -> data s' t = data s t).
Proof.
  intros A R k. pose proof (after_all _ _ _ A) as AL. pose proof (run_all _ _ _ _ AL R) as AL'.
  destruct (run_grows client s es' s' AL R) as [(l & E & NE) D].
  exists (map fst (filter (fun e => snd e =? k) l)). split; [|split; [|exact D]].
  - unfold sent_on. now rewrite E, filter_app, map_app.
  - intros t H. apply in_map_iff in H. destruct H as ([u c] & <- & H). apply filter_In in H. exact (NE u c (proj1 H)).
Qed.

(** ** C106: after Close *)
Theorem C106_after_close client es s t r es' s' : after client es s -> returned s t Close r -> run client s es' = Some s' ->
  (forall k, wire s' k = wire s k) /\
  (forall u c q, length s.(s_threads) <= u -> returned s' u c q -> q = match c with Close => ROk | _ => RClosed end) /\
  (forall u c, returned s' u c ROk -> (exists p, c = Write p) \/ c = Connect -> returned s u c ROk).
Proof.
  intros A R H. pose proof (after_all _ _ _ A) as AL. pose proof (closed_over s t r AL R) as O. pose proof (run_over _ _ _ _ AL O H) as L.
  pose proof (run_all _ _ _ _ AL H) as AL'.
  split; [exact (l_wire _ _ L)|]. split.
  - intros u c q LU Q. pose proof (l_new _ _ L u _ Q LU) as F. unfold fresh_ok in F. cbn in F. destruct c, q; try discriminate; reflexivity.
  - intros u c Q D. destruct (Nat.lt_ge_cases u (length (s_threads s))) as [LU|LU].
    + destruct (nth_error (s_threads s) u) as [x|] eqn:G; [|apply nth_error_None in G; lia].
      destruct (l_old _ _ L u x G) as (x' & G' & C & F & N). unfold returned in Q. rewrite (th_fun _ _ _ _ G' Q) in C, N. cbn in C, N.
      destruct D as [(p & ->)| ->].
      * destruct (w_ok s' (a_wire s' AL') u p Q) as (k & IN). rewrite (l_sent _ _ L) in IN. destruct (w_sent s (a_wire s AL) u k IN) as (_ & p' & G2).
        unfold returned. rewrite (th_fun _ _ _ _ G G2) in C. cbn in C. unfold th in G2. rewrite G2. congruence.
      * unfold returned. destruct x as [cx px]. cbn in C, N. subst cx. rewrite G. destruct px; try (exfalso; now apply N). destruct r0; try (exfalso; now apply N). reflexivity.
    + pose proof (l_new _ _ L u _ Q LU) as F. unfold fresh_ok in F. cbn in F. destruct D as [(p & ->)| ->]; discriminate.
Qed.

(** ** C107: no connection is left open *)
Theorem C107_server_shut es s t r : after false es s -> returned s t Close r -> all_ended s -> all_shut s.
Proof. apply shut_all, served_one. Qed.
(** For a client where no two calls connect at the same time. *)
Theorem C107_client_shut_partial es s t r : always_one_dials true es -> after true es s -> returned s t Close r -> all_ended s -> all_shut s.
Proof. apply shut_all. Qed.

(** ** C108: calls end *)
(** The steps without new calls are bounded in number. *)
Theorem C108_bounded client s : exists n, forall es s', works client s es s' -> length es <= n.
Proof. exists (sum (s_threads s)). intros es s' W. pose proof (works_bound _ _ _ _ W). lia. Qed.
(** A server transport never gets stuck: whatever happens, all calls have ended or something can still happen. *)
Theorem C108_server_ends es s : after false es s -> all_ended s \/ exists e s', works false s [e] s'.
Proof.
  intros A. pose proof (after_all _ _ _ A) as AL. destruct (served_moves s (a_inv s AL) (run_served _ _ _ (a_inv _ (all_init false)) served_init A)) as [E|(e & s' & Q & _ & H & N)]; [now left|].
  right. exists e, s'. econstructor; [exact Q|exact H|exact N|constructor].
Qed.
(** A client transport never gets stuck while no write has failed, and goes on without one failing. *)
Theorem C108_client_ends_partial es s : Forall (fun e => fails e = false) es -> after true es s ->
  all_ended s \/ exists e s', works true s [e] s' /\ fails e = false.
Proof.
  intros F A. pose proof (after_all _ _ _ A) as AL. pose proof (run_live _ _ _ _ (all_init true) (live_init true) F A) as L.
  destruct (live_moves true s AL L) as [E|(e & s' & Q & G & H & N)]; [now left|].
  right. exists e, s'. split; [econstructor; [exact Q|exact H|exact N|constructor]|]. now apply negb_true_iff.
Qed.

(** ** What does not hold *)
Definition connected : list event := [ECall Connect; EStep 0; EDial 0 true; EStep 0; EStep 0].
Definition two_dials : list event :=
  [ECall Connect; ECall Connect; EStep 0; EStep 1; EDial 0 true; EDial 1 true; EStep 0; EStep 0; EStep 1; EStep 1; ECall Close; EStep 2; EStep 2; EStep 2].
(** Two calls of Reconnect at the same time: a connection stays open after Close. *)
Theorem C107_client_shut_refuted : exists es s t, after true es s /\ returned s t Close ROk /\ all_ended s /\ ~ all_shut s.
Proof.
  exists two_dials. eexists. exists 2. split; [vm_compute; reflexivity|]. split; [reflexivity|]. split.
  - intros t L. cbn in L. destruct t as [|[|[|t]]]; [exists Connect, ROk|exists Connect, ROk|exists Close, ROk|lia]; reflexivity.
  - intros H. specialize (H (mkNet [] false false) (or_introl eq_refl)). discriminate.
Qed.
Definition stuck : list event := connected ++ [ECall (Write [7%Z]); EStep 1; EStep 1; EFail 1; ECall Close; EStep 2].
(** A Write that fails while Close is under way: neither ever returns, whatever happens, nor does any later call. *)
Theorem C108_client_ends_refuted : exists es s t u p, after true es s /\ called s t Close /\ called s u (Write p) /\
  forall es' s', run true s es' = Some s' -> ~ ended s' t /\ ~ ended s' u /\ forall v, length s.(s_threads) <= v -> ~ ended s' v.
Proof.
  destruct (run true (init true) stuck) as [s|] eqn:E; [|vm_compute in E; discriminate].
  exists stuck, s, 2, 1, [7%Z]. split; [exact E|]. pose proof (after_all true stuck s E) as A. vm_compute in E. injection E as <-.
  split; [exists CLock; reflexivity|]. split; [exists (WErr 0 0); reflexivity|].
  intros es' s' R. assert (K : Knot failing 2 1 3 s').
  { refine (knot_failing true 2 1 3 _ es' s' _ (a_inv _ A) R). constructor; try reflexivity.
    - exists (mkT Close CLock). split; reflexivity.
    - exists (mkT (Write [7%Z]) (WErr 0 0)). split; [reflexivity|]. exists 0, 0. reflexivity.
    - intros v x G L. unfold th in G. cbn in G. destruct v as [|[|[|v]]]; try lia. destruct v; discriminate. }
  assert (HB : forall y, failing y -> holdsWrite (t_pc y) = true) by (intros y (n & c & P); now rewrite P).
  split; [apply (knot_never _ _ _ _ _ 2 K HB); now left|]. split; [apply (knot_never _ _ _ _ _ 1 K HB); right; now left|].
  intros v L. apply (knot_never _ _ _ _ _ v K HB). right. now right.
Qed.
(** Close waits for the peer: while a Write is held up in the connection neither it nor any later call returns. *)
Definition held_up (client : bool) : list event :=
  if client then connected ++ [ECall (Write [7%Z]); EStep 1; EStep 1; ECall Close; EStep 2] else [ECall (Write [7%Z]); EStep 0; EStep 0; ECall Close; EStep 1].
Theorem C108_close_alone_refuted client : exists es s t, after client es s /\ called s t Close /\
  forall es' s', Forall (fun e => inner e = true) es' -> run client s es' = Some s' -> ~ ended s' t /\ forall v, length s.(s_threads) <= v -> ~ ended s' v.
Proof.
  destruct (run client (init client) (held_up client)) as [s|] eqn:E; [|destruct client; vm_compute in E; discriminate].
  exists (held_up client), s, (if client then 2 else 1). split; [exact E|]. pose proof (after_all client _ s E) as A.
  assert (K : Knot sending (if client then 2 else 1) (if client then 1 else 0) (length (s_threads s)) s).
  { destruct client; vm_compute in E; injection E as <-; constructor; try reflexivity.
    - exists (mkT Close CLock). split; reflexivity.
    - exists (mkT (Write [7%Z]) (WBody 0 0)). split; [reflexivity|]. exists 0, 0. split; [reflexivity|cbn; lia].
    - intros v x G L. unfold th in G. cbn in G, L. destruct v as [|[|[|v]]]; try lia. destruct v; discriminate.
    - exists (mkT Close CLock). split; reflexivity.
    - exists (mkT (Write [7%Z]) (WBody 0 0)). split; [reflexivity|]. exists 0, 0. split; [reflexivity|cbn; lia].
    - intros v x G L. unfold th in G. cbn in G, L. destruct v as [|[|v]]; try lia. destruct v; discriminate. }
  split.
  { exists CLock. destruct client; vm_compute in E; injection E as <-; reflexivity. }
  intros es' s' F R. pose proof (knot_sending _ _ _ _ _ _ _ K (a_inv _ A) F R) as K'.
  assert (HB : forall y, sending y -> holdsWrite (t_pc y) = true) by (intros y (n & c & P & _); now rewrite P).
  split; [apply (knot_never _ _ _ _ _ _ K' HB); now left|]. intros v L. apply (knot_never _ _ _ _ _ v K' HB). right. now right.
Qed.

(** ** The hypotheses can be met *)
Definition demo : list event :=
  connected ++ [ECall (Write [1; 2; 3]%Z); ECall (Write [4; 5]%Z); EStep 1; EStep 2; EStep 2; EChunk 2 1; EChunk 2 9; EStep 2; EStep 1; EChunk 1 2].
Example C105_demo : exists s, after true demo s /\ wire s 0 = [4; 5; 1; 2]%Z /\ sent_on s 0 = [2] /\ returned s 2 (Write [4; 5]%Z) ROk.
Proof. eexists. split; [vm_compute; reflexivity|]. repeat split. Qed.
Example C105_order_demo : exists s s', after true demo s /\ run true s [EChunk 1 1; EStep 1] = Some s' /\ sent_on s' 0 = [2; 1] /\ wire s' 0 = [4; 5; 1; 2; 3]%Z.
Proof. eexists. eexists. split; [vm_compute; reflexivity|]. split; [vm_compute; reflexivity|]. split; reflexivity. Qed.
Definition closed_demo : list event := connected ++ [ECall Close; EStep 1; EStep 1; EStep 1].
Example C106_demo : exists s s', after true closed_demo s /\ returned s 1 Close ROk /\
  run true s [ECall (Write [1]%Z); EStep 2; ECall Connect; EStep 3] = Some s' /\ returned s' 2 (Write [1]%Z) RClosed /\ returned s' 3 Connect RClosed.
Proof. eexists. eexists. split; [vm_compute; reflexivity|]. split; [reflexivity|]. split; [vm_compute; reflexivity|]. split; reflexivity. Qed.
Example C107_demo : exists s, after true closed_demo s /\ returned s 1 Close ROk /\ all_ended s /\ all_shut s /\ length s.(s_nets) = 1.
Proof.
  eexists. split; [vm_compute; reflexivity|]. split; [reflexivity|]. split; [|split; [|reflexivity]].
  - intros t L. cbn in L. destruct t as [|[|t]]; [exists Connect, ROk|exists Close, ROk|lia]; reflexivity.
  - intros n [<-|[]]. reflexivity.
Qed.
Example C107_one_demo : always_one_dials true closed_demo.
Proof.
  intros es1 es2 s E A t u x y Gt Gu Dt Du.
  assert (L : length s.(s_threads) <= 2 /\ forall v z, nth_error s.(s_threads) v = Some z -> dialing z = true -> v = 0).
  { unfold closed_demo, connected in E. cbn [app] in E. unfold after in A.
    do 10 (destruct es1 as [|e1 es1]; [vm_compute in A; injection A as <-; split; [cbn; lia|intros [|[|v]] z G D; cbn in G; try reflexivity; try discriminate G; try (injection G as <-; discriminate D); destruct v; discriminate G]|
      try discriminate E; injection E as <- E; cbn [app] in E]). }
  destruct L as [_ L]. rewrite (L t x Gt Dt), (L u y Gu Du). reflexivity.
Qed.
Example C107_server_demo : exists s, after false [ECall (Write [1; 2]%Z); EStep 0; EStep 0; EChunk 0 2; EStep 0; ECall Close; EStep 1; EStep 1; EStep 1] s /\
  returned s 1 Close ROk /\ all_ended s /\ wire s 0 = [1; 2]%Z.
Proof.
  eexists. split; [vm_compute; reflexivity|]. split; [reflexivity|]. split; [|reflexivity].
  intros t L. cbn in L. destruct t as [|[|t]]; [exists (Write [1; 2]%Z), ROk|exists Close, ROk|lia]; reflexivity.
Qed.
Example C108_demo : exists s, after true demo s /\ Forall (fun e => fails e = false) demo /\ ~ all_ended s.
Proof.
  eexists. split; [vm_compute; reflexivity|]. split; [repeat constructor|]. intros H. destruct (H 1 ltac:(cbn; lia)) as (c & r & R). discriminate.
Qed.
Example C108_works_demo : exists s s', after true demo s /\ works true s [EChunk 1 1; EStep 1] s' /\ all_ended s'.
Proof.
  eexists. eexists. split; [vm_compute; reflexivity|]. split.
  - econstructor; [reflexivity|vm_compute; reflexivity|discriminate|]. econstructor; [reflexivity|vm_compute; reflexivity|discriminate|constructor].
  - intros t L. cbn in L. destruct t as [|[|[|t]]]; [exists Connect, ROk|exists (Write [1; 2; 3]%Z), ROk|exists (Write [4; 5]%Z), ROk|lia]; reflexivity.
Qed.

Print Assumptions C105_wire.
Print Assumptions C105_order.
Print Assumptions C106_after_close.
Print Assumptions C107_server_shut.
Print Assumptions C107_client_shut_partial.
Print Assumptions C107_client_shut_refuted.
Print Assumptions C108_bounded.
Print Assumptions C108_server_ends.
Print Assumptions C108_client_ends_partial.
Print Assumptions C108_client_ends_refuted.
Print Assumptions C108_close_alone_refuted.
