(** C130: the telemetry interceptors leave calls as they are and count them; C131: the trace rules. *)
From Coq Require Import ZArith List Bool Lia.
Import ListNotations.
From Verif.Model Require Import Base SrvSession.
From Verif.Spec Require Import Otel.
Local Open Scope Z_scope.

Section C130.
Context {Net : Type} (ParseCIDR : bytes -> option Net) (keeps : bool).
Notation UnaryServer := (UnaryServer keeps).
Notation StreamServer := (StreamServer keeps).
Notation UnaryClient := (UnaryClient keeps).
Notation StreamClient := (StreamClient keeps).

(** What New makes: the configuration is the one given but for the compiled rules, and the instruments that the calls
    use are there. *)
Lemma New_ok ok cfg i : New ParseCIDR ok cfg = Some i ->
  (c_tracing (i_cfg i), c_metrics (i_cfg i), c_sizes (i_cfg i)) = (c_tracing cfg, c_metrics cfg, c_sizes cfg) /\
  forall s, s = i_server i \/ s = i_client i ->
    s_duration s = c_metrics cfg /\ s_count s = c_metrics cfg /\
    s_req s = c_metrics cfg && c_sizes cfg /\ s_resp s = c_metrics cfg && c_sizes cfg.
Proof.
  unfold New, initMetrics, initSide. intros H. destruct cfg as [tr me si ru]. cbn [c_metrics c_sizes c_rules c_tracing] in *.
  destruct me, si; cbn in H;
    repeat match type of H with context [ok ?n] => destruct (ok n); try discriminate H end; cbn in H;
    destruct (compile ParseCIDR ru); try discriminate H; injection H as <-; (split; [reflexivity|]); intros s [-> | ->]; cbn; auto.
Qed.
Lemma within_E c e : within e (E keeps c e).
Proof. unfold E. destruct (keeps && is_Error e); constructor. constructor. Qed.

(** C130: whatever the configuration, as long as New makes an interceptor of it: the handler is called once, with the request or
    stream given; the caller gets its result, an error exactly if it gave one, with the handler's error in its chain, and the
    handler's panic; nothing else panics. *)
Theorem C130_unary : forall ok cfg i pkg svc m method req h, New ParseCIDR ok cfg = Some i ->
  passed (fun r => r) (h req) (snd (UnaryServer i pkg svc m req h)) /\ called_once (c_tracing cfg) req (fst (UnaryServer i pkg svc m req h)) /\
  passed (fun r => r) (h req) (snd (UnaryClient i method req h)) /\ called_once (c_tracing cfg) req (fst (UnaryClient i method req h)).
Proof.
  intros ok cfg i pkg svc m method req h HN. apply New_ok in HN as [HC HS].
  pose proof (HS _ (or_introl eq_refl)) as (A1 & A2 & A3 & A4). pose proof (HS _ (or_intror eq_refl)) as (B1 & B2 & B3 & B4). clear HS.
  injection HC as C1 C2 C3. unfold called_once. 
  unfold Otel.UnaryServer, Otel.UnaryClient, traced, metrics, record. rewrite C1, C2, C3, A1, A2, A3, A4, B1, B2, B3, B4.
  destruct (c_tracing cfg), (c_metrics cfg), (c_sizes cfg), (h req) as [r [e|]|]; cbn; repeat split; try reflexivity;
    eexists; (split; [reflexivity|apply within_E]).
Qed.
Theorem C130_stream : forall S ok cfg i pkg svc m method (stream : S) h (streamer : unit -> out (option S)), New ParseCIDR ok cfg = Some i ->
  passed (fun r => r) (h stream) (snd (StreamServer i pkg svc m stream h)) /\
  called_once (c_tracing cfg) stream (fst (StreamServer i pkg svc m stream h)) /\
  passed (fun _ : option S => None) (streamer tt) (snd (StreamClient i method streamer)) /\
  called_once (c_tracing cfg) tt (fst (StreamClient i method streamer)).
Proof.
  intros S ok cfg i pkg svc m method stream h streamer HN. apply New_ok in HN as [HC HS].
  pose proof (HS _ (or_introl eq_refl)) as (A1 & A2 & A3 & A4). pose proof (HS _ (or_intror eq_refl)) as (B1 & B2 & B3 & B4). clear HS.
  injection HC as C1 C2 C3. unfold called_once.
  unfold Otel.StreamServer, Otel.StreamClient, traced, metrics, record. rewrite C1, C2, A1, A2, B1, B2.
  destruct (c_tracing cfg), (c_metrics cfg), (h stream) as [r [e|]|], (streamer tt) as [r' [e'|]|]; cbn; repeat split; try reflexivity;
    eexists; (split; [reflexivity|apply within_E]).
Qed.

(** C130: with tracing there is one span around the call, named after the method, which is ended also if the handler panics; without
    tracing there is none. *)
Definition span_of {A} (cfg : config (Net := Net)) (server : bool) (name : bytes) (log : list (tele A)) : Prop :=
  if c_tracing cfg then one_span server name log else no_span log.
Theorem C130_span : forall S ok cfg i pkg svc m method req h (stream : S) hs (streamer : unit -> out (option S)), New ParseCIDR ok cfg = Some i ->
  span_of cfg true (pkg ++ [47] ++ svc ++ [47] ++ m) (fst (UnaryServer i pkg svc m req h)) /\
  span_of cfg true (pkg ++ [47] ++ svc ++ [47] ++ m) (fst (StreamServer i pkg svc m stream hs)) /\
  span_of cfg false method (fst (UnaryClient i method req h)) /\
  span_of cfg false method (fst (StreamClient i method streamer)).
Proof.
  intros S ok cfg i pkg svc m method req h stream hs streamer HN. apply New_ok in HN as [HC HS].
  pose proof (HS _ (or_introl eq_refl)) as (A1 & A2 & A3 & A4). pose proof (HS _ (or_intror eq_refl)) as (B1 & B2 & B3 & B4). clear HS.
  injection HC as C1 C2 C3. unfold span_of.
  unfold Otel.UnaryServer, Otel.UnaryClient, Otel.StreamServer, Otel.StreamClient, traced, metrics, record, full.
  rewrite C1, C2, C3, A1, A2, A3, A4, B1, B2, B3, B4. unfold one_span, no_span.
  split; [|split; [|split]]; (destruct (c_tracing cfg); [cbn [fst]; eexists; split; [reflexivity|]|]); destruct (c_metrics cfg), (c_sizes cfg);
    repeat match goal with |- context [match ?x with ORet _ _ => _ | OPanic => _ end] => destruct x as [? [?|]|] end; reflexivity.
Qed.

(** C130: with metrics a call that returns is counted once and timed once, under its status; without, and if it panics, it is not. *)
Definition count_of {A R} (cfg : config (Net := Net)) (name : bytes) (o : out R) (log : list (tele A)) : Prop :=
  if c_metrics cfg then counted name o log else not_counted log.
Theorem C130_count : forall S ok cfg i pkg svc m method req h (stream : S) hs (streamer : unit -> out (option S)), New ParseCIDR ok cfg = Some i ->
  count_of cfg (pkg ++ [47] ++ svc ++ [47] ++ m) (h req) (fst (UnaryServer i pkg svc m req h)) /\
  count_of cfg (pkg ++ [47] ++ svc ++ [47] ++ m) (hs stream) (fst (StreamServer i pkg svc m stream hs)) /\
  count_of cfg method (h req) (fst (UnaryClient i method req h)) /\
  count_of cfg method (streamer tt) (fst (StreamClient i method streamer)).
Proof.
  intros S ok cfg i pkg svc m method req h stream hs streamer HN. apply New_ok in HN as [HC HS].
  pose proof (HS _ (or_introl eq_refl)) as (A1 & A2 & A3 & A4). pose proof (HS _ (or_intror eq_refl)) as (B1 & B2 & B3 & B4). clear HS.
  injection HC as C1 C2 C3. unfold count_of.
  unfold Otel.UnaryServer, Otel.UnaryClient, Otel.StreamServer, Otel.StreamClient, traced, metrics, record, full.
  rewrite C1, C2, C3, A1, A2, A3, A4, B1, B2, B3, B4. unfold counted, not_counted, status_of.
  split; [|split; [|split]]; destruct (c_tracing cfg), (c_metrics cfg), (c_sizes cfg);
    repeat match goal with |- context [match ?x with ORet _ _ => _ | OPanic => _ end] => destruct x as [? [?|]|] end; cbn;
    split; reflexivity.
Qed.
(** C130: with metrics and sizes the length of the request is recorded before the call and that of the response after it. *)
Theorem C130_sizes : forall ok cfg i pkg svc m method req h, New ParseCIDR ok cfg = Some i ->
  forall log name, (log, name) = (fst (UnaryServer i pkg svc m req h), pkg ++ [47] ++ svc ++ [47] ++ m) \/
    (log, name) = (fst (UnaryClient i method req h), method) ->
  let on := c_metrics cfg && c_sizes cfg in
  filter (fun t => is_reqsize t || is_call t || is_respsize t) log =
    (if on then [TReqSize name (len req)] else []) ++ [TCall (c_tracing cfg) req] ++
    (if on then match h req with ORet resp _ => [TRespSize name (len resp)] | OPanic => [] end else []).
Proof.
  intros ok cfg i pkg svc m method req h HN log name HL. apply New_ok in HN as [HC HS].
  pose proof (HS _ (or_introl eq_refl)) as (A1 & A2 & A3 & A4). pose proof (HS _ (or_intror eq_refl)) as (B1 & B2 & B3 & B4). clear HS.
  injection HC as C1 C2 C3. revert HL. unfold Otel.UnaryServer, Otel.UnaryClient, traced, metrics, record, full.
  rewrite C1, C2, C3, A1, A2, A3, A4, B1, B2, B3, B4. clear.
  intros [H|H]; injection H as -> ->; destruct (c_tracing cfg), (c_metrics cfg), (c_sizes cfg), (h req) as [r [e|]|]; reflexivity.
Qed.

(** C130: over any history of calls the counter of a method and status is the number of calls of that method that ended so. *)
Theorem C130_counter : forall ok cfg i (calls : list call) M s, New ParseCIDR ok cfg = Some i -> c_metrics cfg = true ->
  counter M s (flat_map (fun k => fst (UnaryServer i (k_pkg k) (k_svc k) (k_m k) (k_req k) (fun _ => k_out k))) calls) =
  length (filter (ends_so M s) calls).
Proof.
  intros ok cfg i calls M s HN HM. unfold counter. induction calls as [|k q IH]; [reflexivity|]. cbn [flat_map filter].
  rewrite filter_app, app_length, IH.
  destruct (C130_count unit ok cfg i (k_pkg k) (k_svc k) (k_m k) [] (k_req k) (fun _ => k_out k) tt (fun _ => OPanic) (fun _ => OPanic) HN) as (HC & _).
  unfold count_of in HC. rewrite HM in HC. destruct HC as [HC _].
  assert (G : forall log : list (tele bytes),
    filter (fun t => match t with TCount m' s' => beq m' M && st_eqb s' s | _ => false end) log =
    filter (fun t => match t with TCount m' s' => beq m' M && st_eqb s' s | _ => false end) (filter is_count log)).
  { induction log as [|t l IL]; [reflexivity|]. cbn [filter]. destruct t; cbn [is_count filter]; rewrite IL; reflexivity. }
  rewrite G, HC. unfold ends_so, full. destruct (status_of (k_out k)) as [s'|]; cbn [filter].
  - destruct (beq _ M && st_eqb s' s); reflexivity.
  - rewrite andb_false_r. reflexivity.
Qed.

(** C130: the code that the client gets.  It is the handler's if no Error of the rpc packages is in the chain, or if
    E gives back Errors as they are and the handler's error is one. *)
Theorem C130_code_partial : forall c e, (first_cat e = None \/ keeps = true /\ is_Error e = true) ->
  code_of (Some (E keeps c e)) = code_of (Some e).
Proof.
  intros c e H. unfold E. destruct (keeps && is_Error e) eqn:K; [reflexivity|]. destruct H as [H|[-> H]]; [|rewrite H in K; discriminate].
  unfold code_of, seen, errCode. cbn. rewrite H. reflexivity.
Qed.
(** Otherwise the category is lost: the client is told Canceled, DeadlineExceeded or Internal. *)
Theorem C130_code_lost : forall c e, (keeps = false \/ is_Error e = false) ->
  code_of (Some (E keeps c e)) = (let '(d, n) := cause e in if d : bool then 4 else if n : bool then 1 else 13).
Proof.
  intros c e H. unfold E. replace (keeps && is_Error e) with false by (destruct H as [-> | ->]; [reflexivity|now rewrite andb_comm]).
  unfold code_of, seen, errCode. cbn. destruct (cause e). reflexivity.
Qed.
End C130.

(** C130: that the client gets the handler's code with the interceptor as without it: a handler that says NotFound, in an error that it
    wraps once. *)
Theorem C130_code_refuted : ~ (forall keeps i h r e, (New (Net := unit) (fun _ => None) (fun _ => true) DefaultConfig = Some i) ->
  h [] = ORet r (Some e) -> exists r' e', snd (Otel.UnaryServer keeps i [] [] [] [] h) = ORet r' (Some e') /\ code_of (Some e') = code_of (Some e)).
Proof.
  intros H. destruct (New (Net := unit) (fun _ => None) (fun _ => true) DefaultConfig) as [i|] eqn:N; [|discriminate].
  destruct (H false i (fun _ => ORet [] (Some (EWrap (ERpc 5 (EPlain false false))))) [] _ eq_refl eq_refl) as (r' & e' & A & B).
  unfold New, initMetrics in N. cbn in N. injection N as <-. cbn in A. injection A as <- <-. cbn in B. discriminate.
Qed.
(** The same if E gives Errors back as they are. *)
Theorem C130_code_keeping_refuted : ~ (forall i h r e, (New (Net := unit) (fun _ => None) (fun _ => true) DefaultConfig = Some i) ->
  h [] = ORet r (Some e) -> exists r' e', snd (Otel.UnaryServer true i [] [] [] [] h) = ORet r' (Some e') /\ code_of (Some e') = code_of (Some e)).
Proof.
  intros H. destruct (New (Net := unit) (fun _ => None) (fun _ => true) DefaultConfig) as [i|] eqn:N; [|discriminate].
  destruct (H i (fun _ => ORet [] (Some (EWrap (ERpc 5 (EPlain false false))))) [] _ eq_refl eq_refl) as (r' & e' & A & B).
  unfold New, initMetrics in N. cbn in N. injection N as <-. cbn in A. injection A as <- <-. cbn in B. discriminate.
Qed.

(** An interceptor, a call that fails and what is recorded of it. *)
Example C130_case : exists i, New (Net := unit) (fun _ => None) (fun _ => true) DefaultConfig = Some i /\
  let h := fun req => if list_eq_dec Z.eq_dec req [1] then ORet [7; 8] None else ORet [] (Some (ERpc 5 (EPlain false false))) in
  Otel.UnaryServer false i [97] [98] [99] [1] h =
    ([TSpan true [97; 47; 98; 47; 99]; TReqSize [97; 47; 98; 47; 99] 1; TCall true [1]; TDuration [97; 47; 98; 47; 99] SOk;
      TCount [97; 47; 98; 47; 99] SOk; TRespSize [97; 47; 98; 47; 99] 2; TEnd], ORet [7; 8] None) /\
  snd (Otel.UnaryServer false i [97] [98] [99] [2] h) = ORet [] (Some (ELang 2 (ERpc 5 (EPlain false false)))) /\
  code_of (Some (ERpc 5 (EPlain false false))) = 5 /\ code_of (Some (ELang 2 (ERpc 5 (EPlain false false)))) = 13.
Proof. eexists. split; [reflexivity|]. split; [reflexivity|]. repeat split; reflexivity. Qed.

Section C131.
Context {IP Net : Type} (ParseIP : bytes -> option IP) (ParseCIDR : bytes -> option Net) (Contains : Net -> IP -> bool).
Lemma beq_spec a b : beq a b = true <-> a = b.
Proof. unfold beq. destruct (list_eq_dec Z.eq_dec a b); split; congruence. Qed.
Lemma HasSuffix_spec s t : HasSuffix s t = true <-> exists p, s = p ++ t.
Proof.
  unfold HasSuffix, len, drop. rewrite andb_true_iff, Z.leb_le, beq_spec. split.
  - intros [H E]. exists (firstn (Z.to_nat (Z.of_nat (length s) - Z.of_nat (length t))) s). rewrite <- E at 2. symmetry. apply firstn_skipn.
  - intros [p ->]. rewrite app_length. split; [lia|]. replace (Z.to_nat _) with (length p) by lia.
    rewrite skipn_app, skipn_all, Nat.sub_diag. reflexivity.
Qed.
Lemma parseAll_spec l : forall r, parseAll ParseCIDR l = Some r -> forall n, In n r <-> exists c, In c l /\ ParseCIDR c = Some n.
Proof.
  induction l as [|c q IH]; intros r H n; cbn in H.
  - injection H as <-. split; [intros []|intros (c & [] & _)].
  - destruct (ParseCIDR c) as [m|] eqn:P; [|discriminate]. destruct (parseAll ParseCIDR q) as [r'|] eqn:Q; [|discriminate].
    injection H as <-. cbn. rewrite (IH _ eq_refl). split.
    + intros [<-|(d & D & E)]; [exists c; auto|exists d; auto].
    + intros (d & [<-|D] & E); [left; congruence|right; eauto].
Qed.
Lemma lookupKey_spec m : NoDup (map fst m) -> forall k w, lookupKey k m = Some w <-> In (k, w) m.
Proof.
  induction m as [|[a v] q IH]; intros ND k w; cbn; [split; [discriminate|intros []]|].
  inversion ND as [|x y N1 N2]; subst. destruct (beq a k) eqn:B.
  - apply beq_spec in B. subst a. split; [intros H; injection H as ->; auto|]. intros [H|H]; [congruence|].
    exfalso. apply N1. change k with (fst (k, w)). apply in_map, H.
  - rewrite IH by assumption. split; [auto|]. intros [H|H]; [|exact H]. injection H as -> _.
    assert (beq k k = true) by now apply beq_spec. congruence.
Qed.
Lemma existsb_nil {A} (f : A -> bool) l : (if len l =? 0 then false else existsb f l) = existsb f l.
Proof. destruct l; [reflexivity|]. unfold len. destruct (Z.eqb_spec (Z.of_nat (length (a :: l))) 0); [cbn in e; lia|reflexivity]. Qed.

(** C131: compiled rules match exactly the requests that they describe. *)
Theorem C131_matches : forall r c, NoDup (map fst (r_md r)) -> compile ParseCIDR (Some r) = Some (Some c) ->
  forall ip method md, ShouldTrace ParseIP Contains (Some c) ip method md = true <-> matches ParseIP ParseCIDR Contains r ip method md.
Proof.
  intros r c ND HC ip method md. cbn in HC. destruct (parseAll ParseCIDR (r_ranges r)) as [l|] eqn:P; [|discriminate]. injection HC as <-.
  unfold ShouldTrace, matches. rewrite !orb_true_iff.
  assert (A : matchesIP ParseIP Contains (mkRules (r_ranges r) (r_md r) (r_methods r) l) ip = true <-> rule_ip ParseIP ParseCIDR Contains r ip).
  { unfold matchesIP, rule_ip. cbn [r_cidrs].
    destruct (Z.eqb_spec (len l) 0) as [E|E].
    - assert (L0 : l = []) by (destruct l; [reflexivity|unfold len in E; cbn in E; lia]). split; [discriminate|].
      intros (a & q & n & _ & I1 & I2 & _). assert (IN : In n l) by (apply (parseAll_spec _ _ P); eauto). rewrite L0 in IN. destruct IN.
    - destruct (ParseIP ip) as [a|]; [|split; [discriminate|intros (? & ? & ? & H & _); discriminate]].
      rewrite existsb_exists. split.
      + intros (n & I & K). apply (parseAll_spec _ _ P) in I as (q & I & J). exists a, q, n. auto.
      + intros (b & q & n & H & I & J & K). injection H as <-. exists n. split; [apply (parseAll_spec _ _ P); eauto|exact K]. }
  assert (B : matchesMethod (Net := Net) (mkRules (r_ranges r) (r_md r) (r_methods r) l) method = true <-> rule_method r method).
  { unfold matchesMethod, rule_method. cbn [r_methods]. rewrite existsb_nil, existsb_exists. split.
    - intros (m & I & H). exists m. split; [exact I|]. apply orb_true_iff in H as [H|H]; [apply beq_spec in H; auto|].
      right. apply HasSuffix_spec in H as [p ->]. exists p. reflexivity.
    - intros (m & I & H). exists m. split; [exact I|]. apply orb_true_iff. destruct H as [->|[p ->]]; [left; now apply beq_spec|].
      right. apply HasSuffix_spec. exists p. reflexivity. }
  assert (C : matchesMetadata (Net := Net) (mkRules (r_ranges r) (r_md r) (r_methods r) l) md = true <-> rule_md r md).
  { unfold matchesMetadata, rule_md. cbn [r_md]. destruct (Z.eqb_spec (len (r_md r)) 0) as [E|E].
    - assert (L0 : r_md r = []) by (destruct (r_md r); [reflexivity|unfold len in E; cbn in E; lia]). split; [discriminate|].
      intros (k & v & w & _ & I & _). rewrite L0 in I. destruct I.
    - rewrite existsb_exists. split.
      + intros ([k v] & I & H). cbn in H. destruct (lookupKey k (r_md r)) as [w|] eqn:K; [|discriminate].
        exists k, v, w. split; [exact I|]. split; [apply (lookupKey_spec _ ND), K|]. apply orb_true_iff in H as [H|H]; apply beq_spec in H; auto.
      + intros (k & v & w & I & J & H). exists (k, v). split; [exact I|]. cbn. rewrite (proj2 (lookupKey_spec _ ND k w) J).
        apply orb_true_iff. destruct H; [left|right]; now apply beq_spec. }
  rewrite A, B, C. clear. split; [intros [[H|H]|H]|intros [H|[H|H]]]; auto.
Qed.
(** A configuration whose rules have a range that is none is refused. *)
Theorem C131_checked : forall ok cfg r, c_rules cfg = Some r -> (exists c, In c (r_ranges r) /\ ParseCIDR c = None) ->
  New ParseCIDR ok cfg = None.
Proof.
  intros ok cfg r HR (c & HI & HP). unfold New. rewrite HR. cbn.
  assert (N : parseAll ParseCIDR (r_ranges r) = None).
  { induction (r_ranges r) as [|d q IH]; [destruct HI|]. cbn. destruct HI as [->|HI]; [now rewrite HP|]. rewrite (IH HI). destruct (ParseCIDR d); reflexivity. }
  rewrite N. destruct (if c_metrics cfg then _ else _); reflexivity.
Qed.

(** C131: nothing asks the rules.  With rules the interceptors do what they do without, in every call. *)
Definition without (cfg : config (Net := Net)) : config (Net := Net) := mkCfg (c_tracing cfg) (c_metrics cfg) (c_sizes cfg) None.
Theorem C131_unused : forall ok cfg i, New ParseCIDR ok cfg = Some i -> exists j, New ParseCIDR ok (without cfg) = Some j /\
  forall keeps S pkg svc m method req h (stream : S) hs (streamer : unit -> out (option S)),
    UnaryServer keeps i pkg svc m req h = UnaryServer keeps j pkg svc m req h /\
    StreamServer keeps i pkg svc m stream hs = StreamServer keeps j pkg svc m stream hs /\
    UnaryClient keeps i method req h = UnaryClient keeps j method req h /\
    StreamClient keeps i method streamer = StreamClient keeps j method streamer.
Proof.
  intros ok [tr me si ru] i. unfold New, without, initMetrics. cbn [c_metrics c_sizes c_tracing c_rules].
  destruct (compile ParseCIDR ru) as [r|];
    [|intros H; exfalso; destruct me; [destruct (initSide ok 0 si) as [[s n]|]; [destruct (initSide ok n si) as [[c k]|]|]|]; discriminate].
  destruct me.
  - destruct (initSide ok 0 si) as [[s n]|]; [|discriminate]. destruct (initSide ok n si) as [[c k]|]; [|discriminate].
    intros H. injection H as <-. eexists. split; [reflexivity|]. intros. repeat split; reflexivity.
  - intros H. injection H as <-. eexists. split; [reflexivity|]. intros. repeat split; reflexivity.
Qed.
End C131.

(** C131: "If any rule matches, the request is traced": a rule for the method, and no span. *)
Theorem C131_refuted : ~ (forall cfg i r c req h, c_rules cfg = Some r -> New (Net := unit) (fun _ => None) (fun _ => true) cfg = Some i ->
  compile (fun _ => None) (Some r) = Some (Some c) ->
  ShouldTrace (IP := unit) (fun _ => None) (fun _ _ => false) (Some c) [] ([97] ++ [47] ++ [98] ++ [47] ++ [99]) [] = true ->
  exists mid, fst (UnaryServer false i [97] [98] [99] req h) = TSpan true ([97] ++ [47] ++ [98] ++ [47] ++ [99]) :: mid ++ [TEnd]).
Proof.
  intros H. specialize (H (mkCfg false false false (Some (mkRules [] [] [[99]] []))) _ _ _ [] (fun _ => ORet [] None) eq_refl eq_refl eq_refl eq_refl).
  destruct H as [mid H]. cbn in H. discriminate.
Qed.
(** Rules that match by method, in full and by its end, and by metadata, and not otherwise. *)
Example C131_case :
  let r := mkRules [[1]] [([107], [42])] [[99]] [] in
  compile (fun _ => Some tt) (Some r) = Some (Some (mkRules [[1]] [([107], [42])] [[99]] [tt])) /\
  let c := Some (mkRules [[1]] [([107], [42])] [[99]] [tt]) in
  let should := ShouldTrace (fun s => match s with [] => None | a :: _ => Some a end) (fun _ a => a =? 10) c in
  NoDup (map fst (r_md r)) /\ should [10] [] [] = true /\ should [11] [97; 47; 99] [] = true /\ should [] [97; 99] [] = false /\
  should [] [] [([107], [1; 2])] = true /\ should [] [] [([75], [1; 2])] = false.
Proof. cbn. repeat split; try reflexivity. repeat constructor. intros []. Qed.

Print Assumptions C130_unary.
Print Assumptions C130_stream.
Print Assumptions C130_span.
Print Assumptions C130_count.
Print Assumptions C130_sizes.
Print Assumptions C130_counter.
Print Assumptions C130_code_partial.
Print Assumptions C130_code_lost.
Print Assumptions C130_code_refuted.
Print Assumptions C130_code_keeping_refuted.
Print Assumptions C131_matches.
Print Assumptions C131_checked.
Print Assumptions C131_unused.
Print Assumptions C131_refuted.
