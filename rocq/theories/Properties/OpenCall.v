(** C133: what a call carries to its handler, and what its opening tells the caller. *)
From Coq Require Import String.
From Verif.Model Require Import Base Any Registry Metadata ErrText Target Idl OpenCall.
From Verif.Proofs Require Import BaseLemmas.
From Verif.Spec Require Import OpenCall.
From Verif.Properties Require Import Registry Target Metadata.
From Coq Require Import Lia List Permutation Bool.
Import ListNotations.
Open Scope list_scope. Open Scope Z_scope.

(** A call, from the client's Open to the answer: the Open is sent at [t0] and its handler's
    deadline is set at [t1]. *)
Section Call.
Variable H : Type.
Variable ToLower : bytes -> bytes.
Hypothesis L_idem : forall s, ToLower (ToLower s) = ToLower s.
Variable order : MD -> MD.
Hypothesis order_perm : forall m, Permutation m (order m).

Record call := mkCall {
  c_id : Z; c_pkg : bytes; c_svc : bytes; c_meth : bytes; c_ty : rpcType; c_packing : bool;
  c_deadline : option Z; c_opts : option MD; c_ctx : option MD; c_creds : MD;
  c_t0 : Z; c_t1 : Z; c_parent : option Z; c_dr1 : bool; c_dr2 : bool }.
Definition sent_open (c : call) : openMsg :=
  open_msg order (c_id c) (c_pkg c) (c_svc c) (c_meth c) (c_ty c) (c_packing c) (c_deadline c)
    (call_md ToLower (c_opts c) (c_ctx c) (c_creds c)) (c_t0 c).
Definition served (s : srvState H) (c : call) : srvState H * ackMsg * option (srvSession H) :=
  handleOpen s (sent_open c) (c_dr1 c) (c_dr2 c) (c_parent c) (c_t1 c).
Definition session (s : srvState H) (c : call) : option (srvSession H) := snd (served s c).
Definition outcome (s : srvState H) (c : call) : opened := client_opened ToLower (snd (fst (served s c))).

Lemma session_inv s c x : session s c = Some x ->
  c_dr1 c = false /\ c_dr2 c = false /\
  Lookup (sv_registry s) (c_pkg c) (c_svc c) (c_meth c) = Some (c_ty c, ss_handler x) /\
  x = mkSess (sv_next s) (c_ty c) (ss_handler x) (om_md (sent_open c)) (c_pkg c) (c_svc c) (c_meth c)
        (if om_deadline (sent_open c) >? 0
         then with_deadline (c_parent c) (c_t1 c + wrapI64 (om_deadline (sent_open c) * msec)) else c_parent c) /\
  snd (fst (served s c)) = open_ack (c_id c) (sv_next s) ErrNone []
     (if (sv_next s =? 1) && c_packing c && sv_allow s then true else sv_packing s).
Proof.
  unfold session, served, handleOpen. cbn [sent_open open_msg om_id om_pkg om_svc om_call om_type om_packing].
  destruct (c_dr1 c); [discriminate|]. destruct (Lookup _ _ _ _) as [[ty h]|]; [|discriminate].
  destruct (rpcType_eqb ty (c_ty c)) eqn:E; [|discriminate]. cbn [negb]. destruct (c_dr2 c); [discriminate|].
  cbn [snd fst]. intros X. injection X as <-. cbn [ss_handler].
  assert (ty = c_ty c) as -> by (destruct ty, (c_ty c); cbn in E; congruence). auto 10.
Qed.

(** The handler that runs is one registered under the call's name, for the call's kind, and it
    is told that name. *)
Theorem C133_handler : forall s c x, session s c = Some x ->
  Lookup (sv_registry s) (c_pkg c) (c_svc c) (c_meth c) = Some (c_ty c, ss_handler x) /\
  (ss_pkg x, ss_svc x, ss_call x, ss_type x) = (c_pkg c, c_svc c, c_meth c, c_ty c).
Proof.
  intros s c x X. apply session_inv in X. destruct X as (_ & _ & L & -> & _). auto.
Qed.
(** Every call for which there is a handler of its kind gets one, on a server that is not
    draining; no other call does. *)
Theorem C133_served : forall s c, (exists x, session s c = Some x) <->
  c_dr1 c = false /\ c_dr2 c = false /\ exists h, Lookup (sv_registry s) (c_pkg c) (c_svc c) (c_meth c) = Some (c_ty c, h).
Proof.
  intros s c. split.
  - intros (x & X). apply session_inv in X. destruct X as (A & B & L & _). eauto.
  - intros (A & B & h & L). unfold session, served, handleOpen.
    cbn [sent_open open_msg om_id om_pkg om_svc om_call om_type om_packing]. rewrite A, B, L.
    replace (rpcType_eqb (c_ty c) (c_ty c)) with true by (now destruct (c_ty c)). cbn. eauto.
Qed.

(** *** Deadlines *)
Lemma ms_bounds d : 0 <= d -> d - msec < Milliseconds d * msec <= d /\ 0 <= Milliseconds d.
Proof.
  intros Hd. unfold Milliseconds. rewrite Z.quot_div_nonneg by (unfold msec; lia).
  pose proof (Z.div_mod d msec ltac:(unfold msec; lia)). pose proof (Z.mod_pos_bound d msec ltac:(unfold msec; lia)).
  pose proof (Z.div_pos d msec Hd ltac:(unfold msec; lia)). lia.
Qed.
Lemma wrap_small x : minI64 <= x <= maxI64 -> wrapI64 x = x.
Proof.
  unfold minI64, maxI64, wrapI64. change (2 ^ 64) with (2 ^ 63 + 2 ^ 63). generalize (Z.pow_pos_nonneg 2 63 ltac:(lia) ltac:(lia)).
  generalize (2 ^ 63). intros b Hb Hx. rewrite Z.mod_small; lia.
Qed.
(** The handler of a call with at least a millisecond left has the caller's deadline, moved by
    the transit, or an earlier one of the server's connection. *)
Theorem C133_deadline : forall s c x d, session s c = Some x -> c_deadline c = Some d ->
  c_t0 c + 1000000 <= d <= c_t0 c + maxI64 ->
  exists e, kept_deadline d (c_t1 c - c_t0 c) e /\
    ss_deadline x = Some (match c_parent c with Some p => Z.min p e | None => e end).
Proof.
  intros s c x d X D B. apply session_inv in X. destruct X as (_ & _ & _ & -> & _). cbn [ss_deadline].
  unfold sent_open, open_msg. cbn [om_deadline]. rewrite D.
  assert (U : Until (c_t0 c) d = d - c_t0 c).
  { unfold Until. rewrite Z.min_r by lia. apply Z.max_r. unfold minI64. assert (0 <= 2 ^ 63) by (apply Z.pow_nonneg; lia). lia. }
  cbn zeta. rewrite U. set (u := d - c_t0 c). destruct (ms_bounds u ltac:(lia)) as [M M0].
  assert (P : 1 <= Milliseconds u).
  { unfold Milliseconds. rewrite Z.quot_div_nonneg by (unfold msec; lia). apply Z.div_le_lower_bound; unfold msec; lia. }
  replace (Milliseconds u >? 0) with true by (symmetry; apply Z.gtb_lt; lia).
  replace (Milliseconds u >? 0) with true by (symmetry; apply Z.gtb_lt; lia).
  rewrite wrap_small by (unfold minI64 in *; assert (0 <= 2 ^ 63) by (apply Z.pow_nonneg; lia); unfold msec in *; lia).
  exists (c_t1 c + Milliseconds u * msec). split.
  - unfold kept_deadline, msec in *. lia.
  - unfold with_deadline. now destruct (c_parent c).
Qed.
(** A call without a deadline leaves the handler that of the server's connection. *)
Theorem C133_no_deadline : forall s c x, session s c = Some x -> c_deadline c = None -> ss_deadline x = c_parent c.
Proof.
  intros s c x X D. apply session_inv in X. destruct X as (_ & _ & _ & -> & _). cbn [ss_deadline].
  unfold sent_open, open_msg. cbn [om_deadline]. rewrite D. reflexivity.
Qed.
(** So does a call with less than a millisecond left: its handler runs without the deadline. *)
Theorem C133_deadline_lost : forall s c x d, session s c = Some x -> c_deadline c = Some d ->
  c_t0 c - maxI64 <= d < c_t0 c + 1000000 -> ss_deadline x = c_parent c.
Proof.
  intros s c x d X D B. apply session_inv in X. destruct X as (_ & _ & _ & -> & _). cbn [ss_deadline].
  unfold sent_open, open_msg. cbn [om_deadline]. rewrite D. cbn zeta.
  assert (P : Milliseconds (Until (c_t0 c) d) <= 0).
  { assert (U : Until (c_t0 c) d < msec).
    { unfold Until. apply Z.max_lub_lt; [unfold minI64, msec; assert (0 <= 2 ^ 63) by (apply Z.pow_nonneg; lia); lia|].
      unfold msec. lia. }
    unfold Milliseconds. destruct (Z_lt_le_dec (Until (c_t0 c) d) 0) as [N|N].
    - rewrite <- (Z.opp_involutive (Until (c_t0 c) d)). rewrite Z.quot_opp_l by (unfold msec; lia).
      pose proof (Z.quot_pos (- Until (c_t0 c) d) msec ltac:(lia) ltac:(unfold msec; lia)). lia.
    - rewrite Z.quot_small by lia. lia. }
  replace (Milliseconds (Until (c_t0 c) d) >? 0) with false; [reflexivity|]. symmetry. rewrite Z.gtb_ltb. apply Z.ltb_ge. lia.
Qed.

(** *** Headers *)
(** Metadata made by the API (C59): lower-case, distinct keys. *)
Notation made := (lowered ToLower).
Lemma fold_pairs (f : bytes -> bool) (l : list (bytes * bytes)) : forall x,
  fold_left (fun x p => if f (fst p) then Some (snd p) else x) l x =
  match fold_left (fun x p => if f (fst p) then Some (snd p) else x) l None with Some v => Some v | None => x end.
Proof.
  induction l as [|p l IH]; intros x; [reflexivity|]. cbn [fold_left]. rewrite IH.
  rewrite (IH (if f (fst p) then _ else None)). destruct (fold_left _ l None); [reflexivity|]. now destruct (f (fst p)).
Qed.
Lemma last_as l k : last_value ToLower l k = fold_left (fun x p => if sameb ToLower k (fst p) then Some (snd p) else x) l None.
Proof.
  unfold last_value. generalize (@None bytes). induction l as [|p l IH]; intros x; [reflexivity|]. cbn [fold_left]. rewrite IH. f_equal.
  unfold sameb. destruct (list_eq_dec Z.eq_dec _ _); reflexivity.
Qed.
Lemma set_all creds : forall m k,
  Get ToLower (fold_left (fun m e => Set_ ToLower m (fst e) (snd e)) creds m) k =
  match last_value ToLower creds k with Some v => Some v | None => Get ToLower m k end.
Proof.
  intros m k. rewrite last_as, <- (fold_pairs (sameb ToLower k)). revert m. induction creds as [|e creds IH]; intros m; [reflexivity|].
  cbn [fold_left]. rewrite IH. f_equal. unfold Metadata.Get, Metadata.Set_. rewrite find_put, sameb_eqb. reflexivity.
Qed.
Lemma set_all_made creds : forall m, made m -> made (fold_left (fun m e => Set_ ToLower m (fst e) (snd e)) creds m).
Proof. induction creds as [|e creds IH]; intros m Hm; [auto|]. cbn [fold_left]. apply IH. now apply put_lowered. Qed.
Lemma last_made m k : made m -> last_value ToLower m k = Get ToLower m k.
Proof.
  intros [HF ND]. rewrite last_as. unfold Metadata.Get. induction m as [|[k0 v] m IH]; [reflexivity|].
  cbn [fold_left fst snd reg_find]. inversion ND as [|? ? NI ND']; subst. inversion HF as [|? ? E0 HF']; subst. cbn [fst] in *.
  rewrite (fold_pairs (sameb ToLower k)). specialize (IH HF' ND'). rewrite IH.
  rewrite <- sameb_eqb, E0. destruct (bytes_eqb (ToLower k) k0) eqn:E.
  - apply beq_spec in E. rewrite E. now rewrite Verif.Properties.Metadata.find_none.
  - destruct (reg_find (ToLower k) m); reflexivity.
Qed.
Lemma md_made c : (forall m, c_opts c = Some m \/ c_ctx c = Some m -> made m) ->
  forall m, call_md ToLower (c_opts c) (c_ctx c) (c_creds c) = Some m -> made m.
Proof.
  intros A m E. unfold call_md in E.
  assert (B : forall m0, match c_opts c with Some m => Some m | None => c_ctx c end = Some m0 -> made m0).
  { intros m0. destruct (c_opts c); intros X; [injection X as <-|]; auto. }
  destruct (c_creds c) as [|e cr] eqn:EC; [auto|]. injection E as <-.
  apply (set_all_made (e :: cr)). destruct (match c_opts c with Some m => Some m | None => c_ctx c end) as [m0|] eqn:E0; [auto|].
  split; constructor.
Qed.
Lemma md_get c k : (forall m, c_opts c = Some m \/ c_ctx c = Some m -> made m) ->
  match call_md ToLower (c_opts c) (c_ctx c) (c_creds c) with Some m => Get ToLower m k | None => None end =
  header ToLower (c_opts c) (c_ctx c) (c_creds c) k.
Proof.
  intros A. unfold call_md, header.
  assert (B : match match c_opts c with Some m => Some m | None => c_ctx c end with Some m => Get ToLower m k | None => None end =
    match c_opts c, c_ctx c with Some m, _ | None, Some m => last_value ToLower m k | None, None => None end).
  { destruct (c_opts c) as [m|]; [rewrite last_made; auto|]. destruct (c_ctx c) as [m|]; [rewrite last_made; auto|reflexivity]. }
  transitivity (match last_value ToLower (c_creds c) k with Some v => Some v | None =>
    match match c_opts c with Some m => Some m | None => c_ctx c end with Some m => Get ToLower m k | None => None end end).
  - clear B. destruct (c_creds c) as [|e cr] eqn:EC; [reflexivity|].
    rewrite (set_all (e :: cr)). destruct (last_value ToLower (e :: cr) k); [reflexivity|].
    destruct (match c_opts c with Some m => Some m | None => c_ctx c end); reflexivity.
  - destruct (last_value ToLower (c_creds c) k); [reflexivity|exact B].
Qed.
Lemma wire_made (m : MD) l : made m -> Permutation m l -> NoDup (map fst l) /\
  forall k v, In (k, v) l <-> (ToLower k = k /\ Get ToLower m k = Some v).
Proof.
  intros [HF ND] P. split; [eapply Permutation_NoDup; [apply Permutation_map; eauto|auto]|]. intros k v. split.
  - intros I. assert (I' : In (k, v) m) by (eapply Permutation_in; [apply Permutation_sym; eauto|auto]).
    assert (E : ToLower k = k) by (rewrite Forall_forall in HF; exact (HF _ I')).
    split; [auto|]. unfold Metadata.Get. rewrite E. now apply find_nodup.
  - intros [E G]. unfold Metadata.Get in G. rewrite E in G. eapply Permutation_in; [eauto|].
    clear -G. induction m as [|[k0 v0] m IH]; [discriminate|]. cbn in G. destruct (bytes_eqb k k0) eqn:E.
    + apply beq_spec in E. subst. injection G as ->. now left.
    + right. auto.
Qed.
(** The function of a request-response method and the interceptors of every kind of method get
    exactly the headers of the call, each once and under its lower-case name. *)
Theorem C133_metadata : forall s c x l, session s c = Some x ->
  (forall m, c_opts c = Some m \/ c_ctx c = Some m -> made m) ->
  handler_md x = Some l \/ interceptor_md x = l ->
  NoDup (map fst l) /\
  forall k v, In (k, v) l <-> (ToLower k = k /\ header ToLower (c_opts c) (c_ctx c) (c_creds c) k = Some v).
Proof.
  intros s c x l X A L.
  assert (E : l = om_md (sent_open c)).
  { apply session_inv in X. destruct X as (_ & _ & _ & X & _). rewrite X in L. unfold handler_md, interceptor_md in L.
    cbn [ss_type ss_md] in L. destruct L as [L|L]; [|now rewrite <- L]. destruct (c_ty c); congruence. }
  subst l. unfold sent_open, open_msg. cbn [om_md]. pose proof (md_made c A) as M. pose proof (fun k => md_get c k A) as G.
  destruct (call_md ToLower (c_opts c) (c_ctx c) (c_creds c)) as [m|].
  - destruct (wire_made m (ToMsgs (order m)) (M m eq_refl) (order_perm m)) as [N I]. split; [exact N|].
    intros k v. rewrite I, G. reflexivity.
  - split; [constructor|]. intros k v. rewrite <- G. cbn. split; [tauto|]. intros [_ F]. discriminate.
Qed.
(** The function of a request-response method always gets a list. *)
Theorem C133_sync_metadata : forall s c x, session s c = Some x -> c_ty c = RTSync -> handler_md x = Some (interceptor_md x).
Proof.
  intros s c x X T. apply session_inv in X. destruct X as (_ & _ & _ & -> & _). unfold handler_md. cbn. now rewrite T.
Qed.
(** The function of a stream gets none of it, whatever the caller sends. *)
Theorem C133_stream_metadata_lost : forall s c x, session s c = Some x -> c_ty c <> RTSync -> handler_md x = None.
Proof.
  intros s c x X T. apply session_inv in X. destruct X as (_ & _ & _ & -> & _). unfold handler_md. cbn.
  destruct (c_ty c); congruence.
Qed.

(** *** The answer *)
(** While fewer than 2^32 calls have been served, the caller has a session exactly when the
    server has one, with the same number. *)
Theorem C133_answer_partial : forall s c, sv_next s <> 0 -> forall id,
  (exists md, outcome s c = Session id md) <-> (exists x, session s c = Some x /\ ss_id x = id).
Proof.
  intros s c N id. unfold outcome. destruct (session s c) as [x|] eqn:X.
  - apply session_inv in X. destruct X as (_ & _ & _ & X & A). rewrite A. unfold client_opened, open_ack. cbn.
    apply Z.eqb_neq in N. rewrite N. cbn. split.
    + intros (md & E). injection E as <- _. exists x. rewrite X. auto.
    + intros (y & E & <-). injection E as <-. rewrite X. cbn. eauto.
  - split; [|intros (y & E & _); discriminate]. intros (md & E). exfalso. revert X E.
    unfold session, served, handleOpen. cbn [sent_open open_msg om_id om_pkg om_svc om_call om_type om_packing].
    destruct (c_dr1 c); [discriminate|]. destruct (Lookup _ _ _ _) as [[ty h]|]; [|discriminate].
    destruct (rpcType_eqb ty (c_ty c)); [|discriminate]. cbn [negb]. destruct (c_dr2 c); discriminate.
Qed.
(** Every call the server turns down ends with the same error, whatever the reason. *)
Theorem C133_rejected : forall s c, session s c = None -> outcome s c = OpenErr ErrUnavailable rejected_text.
Proof.
  intros s c. unfold outcome, session, served, handleOpen. cbn [sent_open open_msg om_id om_pkg om_svc om_call om_type om_packing].
  destruct (c_dr1 c); [reflexivity|]. destruct (Lookup _ _ _ _) as [[ty h]|]; [|reflexivity].
  destruct (rpcType_eqb ty (c_ty c)); [|reflexivity]. cbn [negb]. destruct (c_dr2 c); [reflexivity|discriminate].
Qed.
(** The metadata of the answer is nil for every call. *)
Theorem C133_no_response_metadata : forall s c id md, outcome s c = Session id md -> md = None.
Proof.
  intros s c id md. unfold outcome, served, handleOpen. cbn [sent_open open_msg om_id om_pkg om_svc om_call om_type om_packing].
  destruct (c_dr1 c); [discriminate|]. destruct (Lookup _ _ _ _) as [[ty h]|]; [|discriminate].
  destruct (rpcType_eqb ty (c_ty c)); [|discriminate]. cbn [negb]. destruct (c_dr2 c); [discriminate|].
  unfold client_opened, open_ack. cbn. destruct (negb _); [|discriminate]. intros E. injection E as _ <-. reflexivity.
Qed.
(** The numbers of the sessions: the calls of a connection in the order the server takes them. *)
Fixpoint serve_all (s : srvState H) (cs : list call) : srvState H :=
  match cs with [] => s | c :: cs => serve_all (fst (fst (served s c))) cs end.
Definition taken (s : srvState H) (c : call) : bool := match session s c with Some _ => true | None => false end.
Lemma registry_kept s c : sv_registry (fst (fst (served s c))) = sv_registry s /\
  sv_next (fst (fst (served s c))) = if taken s c then (sv_next s + 1) mod 2 ^ 32 else sv_next s.
Proof.
  unfold taken, session, served, handleOpen. cbn [sent_open open_msg om_id om_pkg om_svc om_call om_type om_packing].
  destruct (c_dr1 c); [auto|]. destruct (Lookup _ _ _ _) as [[ty h]|]; [|auto].
  destruct (rpcType_eqb ty (c_ty c)); [|auto]. cbn [negb]. destruct (c_dr2 c); auto.
Qed.
Lemma taken_registry s s' c : sv_registry s = sv_registry s' -> taken s c = taken s' c.
Proof.
  intros E. unfold taken, session, served, handleOpen. cbn [sent_open open_msg om_id om_pkg om_svc om_call om_type om_packing].
  rewrite E. destruct (c_dr1 c); [auto|]. destruct (Lookup _ _ _ _) as [[ty h]|]; [|auto].
  destruct (rpcType_eqb ty (c_ty c)); [|auto]. cbn [negb]. destruct (c_dr2 c); auto.
Qed.
(** The n-th session of a connection has number n modulo 2^32. *)
Theorem C133_numbers : forall s cs, sv_next s = 1 ->
  sv_next (serve_all s cs) = (1 + len (filter (taken s) cs)) mod 2 ^ 32.
Proof.
  intros s cs N. assert (G : forall cs s0, sv_registry s0 = sv_registry s -> 0 <= sv_next s0 < 2 ^ 32 ->
    sv_next (serve_all s0 cs) = (sv_next s0 + len (filter (taken s) cs)) mod 2 ^ 32).
  { clear. generalize (Z.pow_pos_nonneg 2 32 ltac:(lia) ltac:(lia)). 
    pose proof registry_kept as RK. revert RK. generalize (2 ^ 32). intros b RK Hb.
    induction cs as [|c cs IH]; intros s0 E B.
    - cbn. rewrite Z.add_0_r. now rewrite Z.mod_small.
    - cbn [serve_all filter]. destruct (RK s0 c) as [R1 R2]. rewrite (taken_registry s0 s c E) in R2.
      rewrite IH; [|congruence|rewrite R2; destruct (taken s c); [apply Z.mod_pos_bound; lia|lia]]. rewrite R2.
      destruct (taken s c); [|reflexivity]. rewrite Z.add_mod_idemp_l by lia. f_equal. unfold len. cbn [length]. lia. }
  rewrite G; [now rewrite N|reflexivity|]. rewrite N. split; [lia|reflexivity].
Qed.
(** A session with number 0 is an error at the caller, and its handler runs. *)
Theorem C133_answer_lost : forall s c x, sv_next s = 0 -> session s c = Some x ->
  outcome s c = OpenErr ErrUnavailable rejected_text.
Proof.
  intros s c x N X. apply session_inv in X. destruct X as (_ & _ & _ & _ & A). unfold outcome. rewrite A, N. reflexivity.
Qed.
Lemma serve_all_registry cs : forall s, sv_registry (serve_all s cs) = sv_registry s.
Proof.
  induction cs as [|c cs IH]; intros s; [reflexivity|]. cbn [serve_all]. rewrite IH. apply (proj1 (registry_kept s c)).
Qed.
Lemma filter_repeat (f : call -> bool) c n : f c = true -> filter f (repeat c n) = repeat c n.
Proof. intros F. induction n as [|n IH]; [reflexivity|]. cbn. now rewrite F, IH. Qed.
Lemma wrapped s c : sv_next s = 1 -> taken s c = true -> sv_next (serve_all s (repeat c (Z.to_nat (2 ^ 32 - 1)))) = 0.
Proof.
  intros N T. rewrite C133_numbers by auto. rewrite filter_repeat by auto. unfold len. rewrite repeat_length.
  rewrite Z2Nat.id by (apply Z.lt_le_incl; reflexivity). reflexivity.
Qed.
End Call.

(** *** What does not hold *)
Definition ex_reg : registry (rpcType * nat) :=
  [(makeKey (lit "pkg") (lit "Svc") (lit "Say"), (RTSync, 1%nat));
   (makeKey (lit "pkg") (lit "Svc") (lit "Chat"), (RTBiDir, 2%nat))].
Definition ex_srv : srvState nat := mkSrv ex_reg 1 true false.
Definition ex_call (meth : bytes) (ty : rpcType) (left : Z) : call :=
  mkCall 7 (lit "pkg") (lit "Svc") meth ty false (Some (5000000000 + left))
    (Some [(lit "user", lit "ann")]) None [(lit "Authorization", lit "t")]
    5000000000 5020000000 None false false.
Definition ex_order (m : MD) : MD := rev m.
Notation ex_session := (session nat ascii_lower ex_order).
Notation ex_outcome := (outcome nat ascii_lower ex_order).

Example C133_case :
  (exists x, ex_session ex_srv (ex_call (lit "Say") RTSync 2500000) = Some x /\
     ss_deadline x = Some 5022000000 /\ ss_handler x = 1%nat /\
     handler_md x = Some [(lit "user", lit "ann"); (lit "authorization", lit "t")]) /\
  ex_outcome ex_srv (ex_call (lit "Say") RTSync 2500000) = Session 1 None /\
  ex_outcome ex_srv (ex_call (lit "Chat") RTSync 2500000) = OpenErr ErrUnavailable rejected_text /\
  lowered ascii_lower [(lit "user", lit "ann")].
Proof.
  split; [eexists; split; [vm_compute; reflexivity|]; split; [reflexivity|]; split; reflexivity|].
  split; [vm_compute; reflexivity|]. split; [vm_compute; reflexivity|].
  unfold lowered. split; [apply Forall_cons; [reflexivity|apply Forall_nil]|]. apply NoDup_cons; [intros []|apply NoDup_nil].
Qed.

(** Not every handler of a call with a deadline has a deadline. *)
Theorem C133_deadline_refuted : ~ (forall (s : srvState nat) c x d, ex_session s c = Some x ->
  c_deadline c = Some d -> c_t0 c < d -> ss_deadline x <> None).
Proof.
  intros A. apply (A ex_srv (ex_call (lit "Say") RTSync 900000) _ _ eq_refl eq_refl); [vm_compute; reflexivity|reflexivity].
Qed.
(** Not every handler gets the headers of its call. *)
Theorem C133_metadata_refuted : ~ (forall (s : srvState nat) c x, ex_session s c = Some x ->
  exists l, handler_md x = Some l).
Proof.
  intros A. destruct (A ex_srv (ex_call (lit "Chat") RTBiDir 2500000) _ eq_refl) as (l & E). vm_compute in E. discriminate.
Qed.
(** The caller is not told why the server turned its call down: a missing method, a method of
    another kind and a server that is going away look the same. *)
Theorem C133_reason_refuted : ~ (forall (s : srvState nat) c, ex_session s c = None ->
  outcome nat ascii_lower ex_order s c = 
    OpenErr (ak_code (snd (fst (served nat ascii_lower ex_order s c)))) (ak_error (snd (fst (served nat ascii_lower ex_order s c))))).
Proof.
  intros A. specialize (A ex_srv (ex_call (lit "None") RTSync 2500000) eq_refl). vm_compute in A. discriminate.
Qed.
(** The 2^32-th session of a connection runs on the server and is an error at the caller. *)
Theorem C133_answer_refuted : ~ (forall cs c, let s := serve_all nat ascii_lower ex_order ex_srv cs in
  (exists id md, ex_outcome s c = Session id md) <-> (exists x, ex_session s c = Some x)).
Proof.
  intros A. set (c := ex_call (lit "Say") RTSync 2500000).
  specialize (A (repeat c (Z.to_nat (2 ^ 32 - 1))) c). cbv zeta in A.
  pose proof (wrapped nat ascii_lower ex_order ex_srv c eq_refl eq_refl) as W.
  pose proof (serve_all_registry nat ascii_lower ex_order (repeat c (Z.to_nat (2 ^ 32 - 1))) ex_srv) as R.
  revert A W R. generalize (serve_all nat ascii_lower ex_order ex_srv (repeat c (Z.to_nat (2 ^ 32 - 1)))). intros s A W R.
  assert (X : exists x, ex_session s c = Some x).
  { apply C133_served. rewrite R. split; [reflexivity|]. split; [reflexivity|]. exists 1%nat. reflexivity. }
  destruct X as (x & X). destruct A as [_ B]. destruct (B (ex_intro _ x X)) as (id & md & E).
  rewrite (C133_answer_lost nat ascii_lower ex_order s c x W X) in E. discriminate.
Qed.
(** A peer that sends a deadline of 2^63 milliseconds / 10^6 and more sets one in the past. *)
Theorem C133_overflow_refuted : ~ (forall (s : srvState nat) o now s' a x, om_deadline o < 2 ^ 64 -> 0 < om_deadline o ->
  handleOpen s o false false None now = (s', a, Some x) -> exists d, ss_deadline x = Some d /\ now < d).
Proof.
  intros A. destruct (A ex_srv (mkOpen 7 (lit "pkg") (lit "Svc") (lit "Say") RTSync false (2 ^ 63 / 1000000 + 1) []) 0 _ _ _
    ltac:(reflexivity) ltac:(reflexivity) eq_refl) as (d & E & L). vm_compute in E. injection E as <-. revert L. vm_compute. discriminate.
Qed.

Print Assumptions C133_handler.
Print Assumptions C133_served.
Print Assumptions C133_deadline.
Print Assumptions C133_no_deadline.
Print Assumptions C133_deadline_lost.
Print Assumptions C133_metadata.
Print Assumptions C133_sync_metadata.
Print Assumptions C133_stream_metadata_lost.
Print Assumptions C133_answer_partial.
Print Assumptions C133_rejected.
Print Assumptions C133_no_response_metadata.
Print Assumptions C133_numbers.
Print Assumptions C133_answer_lost.
Print Assumptions C133_deadline_refuted.
Print Assumptions C133_metadata_refuted.
Print Assumptions C133_reason_refuted.
Print Assumptions C133_answer_refuted.
Print Assumptions C133_overflow_refuted.
