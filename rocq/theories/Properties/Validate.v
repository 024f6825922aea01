(** C63: the validation gate. *)
From Coq Require Import String.
From Verif.Model Require Import Base Any Registry ErrText Validate.
From Verif.Proofs Require Import BaseLemmas.
From Verif.Properties Require Import Registry.
From Coq Require Import Lia List.
Open Scope list_scope.
Open Scope Z_scope.

(** The validator registered last for a pattern. *)
Fixpoint last_for (pattern : bytes) (regs : list (bytes * validator)) : option validator :=
  match regs with
  | [] => None
  | (p, v) :: regs => match last_for pattern regs with Some v => Some v | None => if bytes_eqb pattern p then Some v else None end
  end.
(** A registry built by any sequence of registrations. *)
Definition built (reqs resps : list (bytes * validator)) : vregistry :=
  fold_left (fun r e => RegisterResponse r (fst e) (snd e)) resps
    (fold_left (fun r e => RegisterRequest r (fst e) (snd e)) reqs (mkV [] [])).
(** "pkg/service/method". *)
Definition pattern_of (pkg service method : bytes) : bytes := pkg ++ [47] ++ service ++ [47] ++ method.
Definition accepts (v : option validator) (p : bytes) : Prop := forall f, v = Some f -> f p = true.

Lemma built_req reqs resps : v_req (built reqs resps) = rev reqs.
Proof.
  unfold built. enough (G : forall r, v_req (fold_left (fun r e => RegisterResponse r (fst e) (snd e)) resps r) = v_req r).
  { rewrite G. clear G. enough (G : forall r, v_req (fold_left (fun r e => RegisterRequest r (fst e) (snd e)) reqs r) = rev reqs ++ v_req r) by (rewrite G; apply app_nil_r).
    induction reqs as [|[p v] l IH]; intros r; [reflexivity|]. cbn. rewrite IH. cbn. now rewrite <- app_assoc. }
  induction resps as [|[p v] l IH]; intros r; [reflexivity|]. cbn. rewrite IH. reflexivity.
Qed.
Lemma built_resp reqs resps : v_resp (built reqs resps) = rev resps.
Proof.
  unfold built. enough (G : forall r, v_resp (fold_left (fun r e => RegisterResponse r (fst e) (snd e)) resps r) = rev resps ++ v_resp r).
  { rewrite G. enough (G' : forall r, v_resp (fold_left (fun r e => RegisterRequest r (fst e) (snd e)) reqs r) = v_resp r) by (rewrite G'; apply app_nil_r).
    clear G. induction reqs as [|[p v] l IH]; intros r; [reflexivity|]. cbn. rewrite IH. reflexivity. }
  induction resps as [|[p v] l IH]; intros r; [reflexivity|]. cbn. rewrite IH. cbn. now rewrite <- app_assoc.
Qed.
Lemma find_app {A} k (l l' : list (bytes * A)) : reg_find k (l ++ l') = match reg_find k l with Some v => Some v | None => reg_find k l' end.
Proof. induction l as [|[k' v] l IH]; cbn; [reflexivity|]. destruct (bytes_eqb k k'); auto. Qed.
Lemma last_for_find p regs : reg_find p (rev regs) = last_for p regs.
Proof. induction regs as [|[p' v] l IH]; [reflexivity|]. cbn. rewrite find_app, IH. cbn. destruct (last_for p l); auto. Qed.

Lemma accepted_spec v p : accepted v p = true <-> accepts v p.
Proof. unfold accepted, accepts. destruct v as [f|]; split; intros H; try (intros ? X; injection X as <-); auto; discriminate. Qed.
Lemma accepted_spec_false v p : accepted v p = false <-> ~ accepts v p.
Proof. rewrite <- accepted_spec. destruct (accepted v p); intuition congruence. Qed.

(** ** Unary calls, server side *)
(** Whatever the handler does: it is called at most once, only with the request and only if
    the request's validator accepts it; a response comes back only if it is the handler's and
    its validator accepts it; and when both accept, the interceptor changes nothing. *)
Theorem C63_unary_server : forall reqs resps pkg service method req handler,
  let rq := last_for (pattern_of pkg service method) reqs in
  let rs := last_for (pattern_of pkg service method) resps in
  let out := UnaryServerInterceptor (built reqs resps) req pkg service method handler in
  (forall q, In q (fst out) -> q = req /\ accepts rq q) /\
  (accepts rq req -> fst out = [req]) /\
  (forall resp, snd out = Ok resp -> accepts rs resp /\ handler req = Ok resp /\ accepts rq req) /\
  (accepts rq req -> (forall resp, handler req = Ok resp -> accepts rs resp) -> snd out = handler req) /\
  (~ accepts rq req -> snd out = Err) /\
  (forall resp, handler req = Ok resp -> ~ accepts rs resp -> snd out = Err).
Proof.
  intros reqs resps pkg service method req handler rq rs out. subst out. unfold UnaryServerInterceptor, GetRequestValidator, GetResponseValidator.
  rewrite built_req, built_resp, !last_for_find. change (makeKey pkg service method) with (pattern_of pkg service method). fold rq rs.
  destruct (accepted rq req) eqn:E1.
  - apply accepted_spec in E1. cbn [negb]. destruct (handler req) as [resp| | |] eqn:EH; cbn [fst snd].
    + destruct (accepted rs resp) eqn:E2; cbn [negb fst snd].
      * apply accepted_spec in E2. split; [intros q [<-|[]]; auto|]. repeat split; auto; try (intros; congruence).
        all: intros; try (match goal with H : Ok _ = Ok _ |- _ => injection H as -> end); auto; try contradiction.
      * apply accepted_spec_false in E2. split; [intros q [<-|[]]; auto|]. repeat split; auto; try (intros; discriminate); try discriminate.
        intros _ X. exfalso. apply E2, X. reflexivity.
    + split; [intros q [<-|[]]; auto|]. repeat split; auto; try (intros; discriminate); try discriminate; try contradiction.
    + split; [intros q [<-|[]]; auto|]. repeat split; auto; try (intros; discriminate); try discriminate; try contradiction.
    + split; [intros q [<-|[]]; auto|]. repeat split; auto; try (intros; discriminate); try discriminate; try contradiction.
  - apply accepted_spec_false in E1. cbn [negb fst snd]. split; [intros q []|]. repeat split; auto; try (intros; discriminate); try discriminate; try contradiction.
Qed.

(** ** Unary calls, client side *)
Lemma parse_noslash s : forall cur, ~ In slash s -> parse_parts cur s = [cur ++ s].
Proof.
  induction s as [|c s IH]; intros cur H; cbn; [now rewrite app_nil_r|].
  destruct (Z.eqb_spec c slash) as [->|N]; [exfalso; apply H; now left|]. rewrite IH by (intros X; apply H; now right).
  now rewrite <- app_assoc.
Qed.
Lemma parse_cut s : forall cur t, ~ In slash s -> parse_parts cur (s ++ slash :: t) = (cur ++ s) :: parse_parts [] t.
Proof.
  induction s as [|c s IH]; intros cur t H; cbn.
  - now rewrite app_nil_r.
  - destruct (Z.eqb_spec c slash) as [->|N]; [exfalso; apply H; now left|]. rewrite IH by (intros X; apply H; now right). now rewrite <- app_assoc.
Qed.
Lemma parse_key pkg service call : ~ In slash pkg -> ~ In slash service -> ~ In slash call ->
  parseMethod (makeKey pkg service call) = (pkg, service, call).
Proof.
  intros H1 H2 H3. unfold parseMethod, makeKey. cbn [app]. rewrite parse_cut by auto. rewrite parse_cut by auto.
  rewrite parse_noslash by auto. reflexivity.
Qed.
(** For calls whose names contain no slash the client interceptor is the same gate: nothing
    rejected is sent, nothing rejected is returned.  Missing: names with a slash. *)
Theorem C63_unary_client_partial : forall reqs resps pkg service call req invoker,
  no_slash pkg -> no_slash service -> no_slash call ->
  let rq := last_for (pattern_of pkg service call) reqs in
  let rs := last_for (pattern_of pkg service call) resps in
  let out := UnaryClientInterceptor (built reqs resps) (pattern_of pkg service call) req invoker in
  (forall q, In q (fst out) -> q = req /\ accepts rq q) /\
  (accepts rq req -> fst out = [req]) /\
  (forall resp, snd out = Ok resp -> accepts rs resp /\ invoker req = Ok resp /\ accepts rq req) /\
  (accepts rq req -> (forall resp, invoker req = Ok resp -> accepts rs resp) -> snd out = invoker req) /\
  (~ accepts rq req -> snd out = Err) /\
  (forall resp, invoker req = Ok resp -> ~ accepts rs resp -> snd out = Err).
Proof.
  intros reqs resps pkg service call req invoker H1 H2 H3. unfold UnaryClientInterceptor.
  change (pattern_of pkg service call) with (makeKey pkg service call). rewrite parse_key by auto.
  apply C63_unary_server.
Qed.
(** With a slash in the package name the client's validator is registered under the very
    string the call uses, and is skipped: the rejected request is sent. *)
Theorem C63_unary_client_refuted : exists reqs pkg service call req invoker f,
  last_for (pattern_of pkg service call) reqs = Some f /\ f req = false /\
  UnaryClientInterceptor (built reqs []) (pattern_of pkg service call) req invoker = ([req], Ok [1]).
Proof.
  exists [(text "example.com/shop/Orders/Place"%string, fun _ => false)], (text "example.com/shop"%string), (text "Orders"%string), (text "Place"%string),
    [66], (fun _ => Ok [1]), (fun _ => false).
  vm_compute. auto.
Qed.

(** ** Streams *)
(** The handler sees only accepted payloads, only accepted payloads are sent, and what it
    sees is what came in, in order, with rejected payloads left out. *)
Inductive subseq {A} : list A -> list A -> Prop :=
| SubNil l : subseq [] l
| SubTake x l l' : subseq l l' -> subseq (x :: l) (x :: l')
| SubSkip x l l' : subseq l l' -> subseq l (x :: l').
Theorem C63_stream : forall reqs resps pkg service method inc sendok h,
  let rq := last_for (pattern_of pkg service method) reqs in
  let rs := last_for (pattern_of pkg service method) resps in
  let out := StreamServerInterceptor (built reqs resps) pkg service method inc sendok h in
  (forall p, In p (o_seen out) -> accepts rq p) /\ (forall p, In p (o_sent out) -> accepts rs p) /\
  subseq (o_seen out) inc.
Proof.
  intros reqs resps pkg service method inc sendok h rq rs out. subst out. unfold StreamServerInterceptor, GetRequestValidator, GetResponseValidator.
  rewrite built_req, built_resp, !last_for_find. change (makeKey pkg service method) with (pattern_of pkg service method). fold rq rs.
  generalize 0%nat. revert inc. induction h as [ok|p k IH|k IH]; intros inc n; cbn [validated].
  - cbn. repeat split; try intros p []. constructor.
  - destruct (accepted rs p) eqn:E; cbn [negb]; [|apply IH]. destruct (sendok n); [|apply IH].
    destruct (IH true inc (S n)) as (H1 & H2 & H3). cbn. split; [auto|]. split; [|auto]. intros q [<-|HI]; auto. now apply accepted_spec.
  - destruct inc as [|p inc]; [apply IH|]. destruct (accepted rq p) eqn:E; cbn [negb].
    + destruct (IH (Some p) inc n) as (H1 & H2 & H3). cbn. split; [|split; [auto|now constructor]]. intros q [<-|HI]; auto. now apply accepted_spec.
    + destruct (IH None inc n) as (H1 & H2 & H3). split; [auto|split; [auto|now constructor]].
Qed.
(** When every incoming payload and everything the handler would send on the bare stream is
    accepted, the interceptor changes nothing. *)
Fixpoint tried (inc : list bytes) (sendok : nat -> bool) (n : nat) (h : sproc) : list bytes :=
  match h with
  | SDone _ => []
  | SSend p k => p :: tried inc sendok (S n) (k (sendok n))
  | SRecv k => match inc with [] => tried [] sendok n (k None) | p :: inc => tried inc sendok n (k (Some p)) end
  end.
Theorem C63_stream_transparent : forall reqs resps pkg service method inc sendok h,
  (forall p, In p inc -> accepts (last_for (pattern_of pkg service method) reqs) p) ->
  (forall p, In p (tried inc sendok 0 h) -> accepts (last_for (pattern_of pkg service method) resps) p) ->
  StreamServerInterceptor (built reqs resps) pkg service method inc sendok h = bare inc sendok 0 h.
Proof.
  intros reqs resps pkg service method inc sendok h. unfold StreamServerInterceptor, GetRequestValidator, GetResponseValidator.
  rewrite built_req, built_resp, !last_for_find. change (makeKey pkg service method) with (pattern_of pkg service method).
  generalize (last_for (pattern_of pkg service method) reqs) (last_for (pattern_of pkg service method) resps). intros rq rs.
  generalize 0%nat. revert inc. induction h as [ok|p k IH|k IH]; intros inc n HI HT; cbn [validated bare tried] in *.
  - reflexivity.
  - assert (accepted rs p = true) as -> by (apply accepted_spec, HT; now left). cbn [negb].
    destruct (sendok n) eqn:E; rewrite IH; auto; intros q HQ; apply HT; now right.
  - destruct inc as [|p inc]; [apply IH; auto|].
    assert (accepted rq p = true) as -> by (apply accepted_spec, HI; now left). cbn [negb]. rewrite IH; auto. intros q HQ. apply HI. now right.
Qed.
Print Assumptions C63_unary_server.
Print Assumptions C63_unary_client_partial.
Print Assumptions C63_unary_client_refuted.
Print Assumptions C63_stream.
Print Assumptions C63_stream_transparent.

(** Non-vacuity: an echo handler behind a validator that rejects payloads starting with 0. *)
Definition no_zero : validator := fun p => match p with 0 :: _ => false | _ => true end.
Definition echo2 : sproc := SRecv (fun a => match a with None => SDone true | Some p => SSend p (fun _ => SRecv (fun b => match b with None => SDone true | Some q => SSend q (fun ok => SDone ok) end)) end).
Example demo_validate :
  let pt := pattern_of (text "p"%string) (text "s"%string) (text "m"%string) in
  let r := built [(pt, no_zero)] [(pt, no_zero)] in
  StreamServerInterceptor r (text "p"%string) (text "s"%string) (text "m"%string) [[1]; [0]; [2]] (fun _ => true) echo2 = mkOut [[1]] [[1]] true /\
  UnaryServerInterceptor r [5] (text "p"%string) (text "s"%string) (text "m"%string) (fun _ => Ok [0; 1]) = ([[5]], Err) /\
  UnaryServerInterceptor r [5] (text "p"%string) (text "s"%string) (text "m"%string) (fun _ => Ok [2]) = ([[5]], Ok [2]).
Proof. repeat split. Qed.
