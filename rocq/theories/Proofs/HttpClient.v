(** Invariants of the HTTP client transport. *)
From Coq Require Import ZArith List Bool Lia.
Import ListNotations.
From Verif.Model Require Import Base HttpClient.
From Verif.Spec Require Import HttpClient.
Local Open Scope nat_scope.

Definition okPc (c : call) (p : pc) : bool :=
  match c, p with
  | Connect, (NStart | NBuild | NWait _ | NSel _ _ | NCtx | NErr2 | NErr | NGot _ | Done _) => true
  | Write _, (WStart | WPipe _ | WLock _ | WIn _ _ _ | Done _) => true
  | Read, (RStart | RIn _ | Done _) => true
  | Close, (CStart | Done _) => true
  | _, _ => false
  end.
Definition pcPipe (p : pc) : option nat := match p with WPipe k | WLock k | WIn k _ _ => Some k | _ => None end.
Definition pcReq (p : pc) : option nat := match p with NWait q | NSel q _ | NGot q | RIn q => Some q | _ => None end.

(** ** The fields *)
Record Ctl (s : st) : Prop := {
  g_cancel : c_cancel s = c_pipe s;
  g_pipe : forall k, c_pipe s = Some k -> k < c_np s;
  g_open : forall k, p_open (c_pipes s k) = true -> c_pipe s = Some k;
  g_live : forall k, c_live s k = true -> c_pipe s = Some k;
  g_closed : c_closed s = true -> c_pipe s = None;
  g_resp : forall q, c_resp s = Some q -> q < c_nq s;
  g_conn : c_connected s = true -> c_resp s <> None;
  g_th0 : forall t, c_nt s <= t -> c_thread s t = mkT Read (Done RFail);
  g_call : forall t, okPc (t_call (c_thread s t)) (t_pc (c_thread s t)) = true;
  g_pp : forall t k, pcPipe (t_pc (c_thread s t)) = Some k -> k < c_np s;
  g_pq : forall t q, pcReq (t_pc (c_thread s t)) = Some q -> q < c_nq s;
  g_rp : forall q k, r_pipe (c_reqs s q) = Some k -> k < c_np s;
  g_rc : forall q, q < c_nq s -> r_ctx (c_reqs s q) < c_np s;
  g_ctx : c_ctx s < c_np s \/ c_np s = 0;
  g_nctx : forall t, t_call (c_thread s t) = Connect -> t_pc (c_thread s t) <> NStart -> (forall r, t_pc (c_thread s t) <> Done r) -> 0 < c_np s;
  g_nq : forall q, c_nq s <= q -> r_pipe (c_reqs s q) = None }.

Lemma upd_same {A} (f : nat -> A) k a : upd f k a k = a.
Proof. unfold upd. now rewrite Nat.eqb_refl. Qed.
Lemma upd_other {A} (f : nat -> A) k a i : i <> k -> upd f k a i = f i.
Proof. unfold upd. intros D. destruct (Nat.eqb_spec i k); [contradiction|reflexivity]. Qed.
Lemma ctl_init : Ctl init.
Proof. constructor; cbn; intros; try discriminate; try reflexivity; auto; lia. Qed.
Ltac cases H :=
  repeat match type of H with
         | context [match ?x with _ => _ end] => destruct x eqn:?; try discriminate H
         end.
Ltac up := repeat match goal with
  | H : context [upd _ ?k _ ?i] |- _ => unfold upd in H; destruct (Nat.eqb_spec i k); subst
  | |- context [upd _ ?k _ ?i] => unfold upd; destruct (Nat.eqb_spec i k); subst
  end.

(** One call moves and nothing else. *)
Lemma ctl_to s t p : Ctl s -> t < c_nt s -> okPc (t_call (c_thread s t)) p = true ->
  (forall k, pcPipe p = Some k -> k < c_np s) -> (forall q, pcReq p = Some q -> q < c_nq s) ->
  (t_call (c_thread s t) = Connect -> p <> NStart -> (forall r, p <> Done r) -> 0 < c_np s) -> Ctl (to t p s).
Proof.
  intros [A B C D E F G H I J K L M N O P] LT OK PP PQ PN. constructor; cbn; auto.
  - intros u U. rewrite upd_other by lia. auto.
  - intros u. up; cbn; auto.
  - intros u k. up; cbn; [apply PP|apply J].
  - intros u q. up; cbn; [apply PQ|apply K].
  - intros u. up; cbn; [exact PN|apply O].
Qed.
Lemma ctl_cleanup s : Ctl s -> Ctl (cleanup s).
Proof.
  intros [A B C D E F G H I J K L M N O P]. constructor; cbn; auto; try discriminate.
  - intros k Q. destruct (c_pipe s) as [x|] eqn:X; [|apply C in Q; congruence]. unfold upd in Q. destruct (k =? x) eqn:NE; [discriminate Q|]. apply Nat.eqb_neq in NE. apply C in Q. congruence.
  - intros k Q. rewrite A in Q. destruct (c_pipe s) as [x|] eqn:X; [|apply D in Q; congruence]. unfold upd in Q. destruct (k =? x) eqn:NE; [discriminate Q|]. apply Nat.eqb_neq in NE. apply D in Q. congruence.
  - intros q k. destruct (c_resp s) as [x|]; [|apply L]. up; cbn; apply L.
  - intros q LQ. destruct (c_resp s) as [x|]; [|auto]. up; cbn; auto.
  - intros q LQ. destruct (c_resp s) as [x|]; [|auto]. up; cbn; auto.
Qed.
Lemma ctl_fresh s : Ctl s -> c_pipe s = None -> c_closed s = false -> Ctl (fresh s).
Proof.
  intros [A B C D E F G H I J K L M N O P] PN CL. constructor; cbn; auto.
  - intros k Q. injection Q as <-. lia.
  - intros k Q. up; [reflexivity|]. apply C in Q. congruence.
  - intros k Q. up; [reflexivity|]. apply D in Q. congruence.
  - congruence.
  - intros t k Q. apply J in Q. lia.
  - intros q k Q. apply L in Q. lia.
  - intros q Q. apply M in Q. lia.
  - lia.
Qed.
Lemma ctl_launch s : Ctl s -> 0 < c_np s -> Ctl (launch s).
Proof.
  intros [A B C D E F G H I J K L M N O P] NP. constructor; cbn; auto.
  - intros q Q. apply F in Q. lia.
  - intros t q Q. apply K in Q. lia.
  - intros q k. up; cbn; [apply B|apply L].
  - intros q Q. up; cbn; [lia|]. apply M. lia.
  - intros q Q. rewrite upd_other by lia. apply P. lia.
Qed.
Lemma ctl_got s q : Ctl s -> q < c_nq s -> Ctl (got q s).
Proof.
  intros [A B C D E F G H I J K L M N O P] Q. constructor; cbn; auto.
  - intros x X. injection X as <-. exact Q.
  - discriminate.
Qed.
Lemma ctl_req s q r : Ctl s -> r_pipe r = r_pipe (c_reqs s q) -> r_ctx r = r_ctx (c_reqs s q) -> Ctl (withReq q r s).
Proof.
  intros [A B C D E F G H I J K L M N O P] Q1 Q2. constructor; cbn; auto.
  - intros x k. up; [rewrite Q1|]; apply L.
  - intros x. up; [rewrite Q2|]; apply M.
  - intros x LX. up; [rewrite Q1|]; auto.
Qed.
Lemma ctl_wpipe s k p : Ctl s -> (p_open p = true -> p_open (c_pipes s k) = true) -> Ctl (withPipe k p s).
Proof.
  intros [A B C D E F G H I J K L M N O P] Q. constructor; cbn; auto.
  intros x X. up; auto.
Qed.
Lemma ctl_panic s : Ctl s -> Ctl (panic s).
Proof. intros [A B C D E F G H I J K L M N O P]. now constructor. Qed.
Lemma ctl_shutdown s : Ctl s -> Ctl (shutdown s).
Proof.
  intros I. pose proof (ctl_cleanup s I) as [A B C D E F G H I' J K L M N O P]. constructor; try assumption. intros _. reflexivity.
Qed.
Lemma pc_lt s t : Ctl s -> (forall r, t_pc (c_thread s t) <> Done r) -> t < c_nt s.
Proof. intros I N. destruct (Nat.lt_ge_cases t (c_nt s)) as [L|L]; [exact L|]. exfalso. apply (N RFail). now rewrite (g_th0 s I t L). Qed.
Ltac okof s I t := let O := fresh "O" in pose proof (g_call s I t) as O; repeat match goal with P : t_pc (c_thread s t) = _ |- _ => rewrite P in O end.
Ltac ppof s I t := let O := fresh "PP" in pose proof (g_pp s I t) as O; let O2 := fresh "PQ" in pose proof (g_pq s I t) as O2; repeat match goal with P : t_pc (c_thread s t) = _ |- _ => rewrite P in O, O2 end.
Ltac mv CT := apply ctl_to; [auto|cbn; auto|cbn; rewrite CT; reflexivity|cbn; try discriminate; auto|cbn; try discriminate; auto|
   first [cbn; rewrite CT; discriminate | intros _ _ _; cbn; (assumption || lia) | let X := fresh in intros _ _ X; exfalso; exact (X _ eq_refl)]].
Lemma step_ctl s e s' : Ctl s -> step s e = Some s' -> Ctl s'.
Proof.
  intros I H. unfold step in H. destruct (c_panic s) eqn:PA; [discriminate|]. destruct e as [c|t|t|t|t q k|q ok|q|q|k|t ok].
  - injection H as <-. destruct I as [A B C D E F G H I J K L M N O P]. constructor; cbn; auto.
    + intros t LT. rewrite upd_other by lia. apply H. lia.
    + intros t. up; cbn; [destruct c; reflexivity|auto].
    + intros t k. up; cbn; [destruct c; discriminate|apply J].
    + intros t q. up; cbn; [destruct c; discriminate|apply K].
    + intros t. up; cbn; [|apply O]. intros -> X. now elim X.
  - destruct (t <? c_nt s) eqn:L; [|discriminate]. apply Nat.ltb_lt in L. unfold stepT in H. okof s I t.
    assert (NP : t_call (c_thread s t) = Connect -> t_pc (c_thread s t) <> NStart -> (forall r, t_pc (c_thread s t) <> Done r) -> 0 < c_np s) by apply (g_nctx s I).
    ppof s I t.
    destruct (t_pc (c_thread s t)) as [| |q|q c| | | |q| |p|p|p n once| |q| |r] eqn:P; cbn [pcPipe pcReq] in *; try discriminate H;
      destruct (t_call (c_thread s t)) eqn:CT; try discriminate O; try specialize (NP eq_refl ltac:(discriminate) ltac:(discriminate)).
    + injection H as <-. destruct (c_closed s) eqn:CL; mv CT. apply ctl_fresh; [now apply ctl_cleanup|reflexivity|exact CL].
    + injection H as <-. mv CT; [now apply ctl_launch|]. intros q Q. injection Q as <-. lia.
    + injection H as <-. mv CT.
    + injection H as <-. mv CT. now apply ctl_cleanup.
    + injection H as <-. mv CT.
    + injection H as <-. mv CT. now apply ctl_cleanup.
    + injection H as <-. mv CT. apply ctl_got; auto.
    + cases H; injection H as <-; try (apply ctl_panic; exact I); mv CT. intros k Q. injection Q as <-. now apply (g_pipe s I).
    + injection H as <-. destruct (p_open (c_pipes s p)); mv CT.
    + cases H. injection H as <-. mv CT. apply ctl_wpipe; auto.
    + cases H; injection H as <-; mv CT; apply ctl_wpipe; auto; cbn; congruence.
    + cases H; injection H as <-; try (apply ctl_panic; exact I); mv CT. intros k Q. injection Q as <-. now apply (g_resp s I).
    + cases H; injection H as <-. mv CT.
    + injection H as <-. destruct (c_closed s); mv CT. now apply ctl_shutdown.
  - assert (LT := pc_lt s t I). okof s I t. pose proof (g_nctx s I t) as NP. destruct (t_pc (c_thread s t)) eqn:P; try discriminate H. destruct (t_call (c_thread s t)) eqn:CT; try discriminate O.
    cases H. injection H as <-. specialize (NP eq_refl ltac:(discriminate) ltac:(discriminate)). specialize (LT ltac:(discriminate)). mv CT.
  - assert (LT := pc_lt s t I). okof s I t. ppof s I t. pose proof (g_nctx s I t) as NP.
    destruct (t_pc (c_thread s t)) eqn:P; try discriminate H. destruct (t_call (c_thread s t)) eqn:CT; try discriminate O.
    cbn [pcPipe pcReq] in *. specialize (NP eq_refl ltac:(discriminate) ltac:(discriminate)). specialize (LT ltac:(discriminate)).
    destruct (r_state (c_reqs s q)); try discriminate H; injection H as <-; mv CT. apply ctl_req; auto.
  - assert (LT := pc_lt s t I). okof s I t. ppof s I t. destruct (t_pc (c_thread s t)) eqn:P; try discriminate H. destruct (t_call (c_thread s t)) eqn:CT; try discriminate O.
    cbn [pcPipe pcReq] in *. specialize (LT ltac:(discriminate)). cases H. injection H as <-. mv CT.
    apply ctl_req; [apply ctl_wpipe; auto|cbn; congruence|reflexivity].
  - cases H; injection H as <-; apply ctl_req; auto.
  - cases H; injection H as <-; apply ctl_req; auto.
  - destruct (q <? c_nq s); [|discriminate]. destruct (r_pipe (c_reqs s q)); injection H as <-; [apply ctl_wpipe; [exact I|discriminate]|now apply ctl_panic].
  - cases H. injection H as <-. destruct I as [A B C D E F G H I J K L M N O P]. constructor; cbn; auto. intros x X. up; [discriminate|]. auto.
  - assert (LT := pc_lt s t I). okof s I t. destruct (t_pc (c_thread s t)) eqn:P; try discriminate H. destruct (t_call (c_thread s t)) eqn:CT; try discriminate O.
    specialize (LT ltac:(discriminate)). cases H; injection H as <-; mv CT.
Qed.
Lemma run_ctl s es s' : Ctl s -> run s es = Some s' -> Ctl s'.
Proof.
  revert s. induction es as [|e es IH]; intros s I H; cbn [run] in H; [now injection H as <-|].
  destruct (step s e) as [m|] eqn:E; [|discriminate]. exact (IH m (step_ctl _ _ _ I E) H).
Qed.
