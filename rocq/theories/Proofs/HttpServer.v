(** Invariants of the HTTP server transport. *)
From Coq Require Import ZArith List Bool Lia.
Import ListNotations.
From Verif.Model Require Import Base HttpServer.
From Verif.Spec Require Import HttpServer.
Local Open Scope nat_scope.

Definition okPc (c : call) (p : pc) : bool :=
  match c, p with
  | Write _, (WStart | WIn _ | WFlush | Done _) => true
  | Read, (RStart | RIn | Done _) => true
  | Close, (CStart | CIn | Done _) => true
  | Handle, (HServe | CStart | CIn | Done _) => true
  | _, _ => false
  end.
Definition writes (p : pc) : bool := match p with WIn _ | WFlush => true | _ => false end.
Definition holds (p : pc) : bool := match p with WIn _ | WFlush | CIn => true | _ => false end.
Definition closes (c : call) : bool := match c with Close | Handle => true | _ => false end.

Record Inv (s : st) : Prop := {
  h_mu : forall t, holds (t_pc (s_thread s t)) = true -> s_mu s = Some t;
  h_th0 : forall t, s_nt s <= t -> s_thread s t = mkT Handle HServe;
  h_call : forall t, okPc (t_call (s_thread s t)) (t_pc (s_thread s t)) = true;
  h_body : s_body s = parts s (s_log s);
  h_nodup : NoDup (map fst (s_log s));
  h_log : forall t n, In (t, n) (s_log s) -> t < s_nt s /\ (exists p, t_call (s_thread s t) = Write p /\ n <= length p) /\
            t_pc (s_thread s t) <> WStart /\ t_pc (s_thread s t) <> Done RClosed;
  h_in : forall t n, t_pc (s_thread s t) = WIn n -> exists l, s_log s = l ++ [(t, n)];
  h_fl : forall t p, t_call (s_thread s t) = Write p -> t_pc (s_thread s t) = WFlush \/ t_pc (s_thread s t) = Done ROk -> In (t, length p) (s_log s);
  h_flush : exists k, k <= length (s_log s) /\ s_flushed s = length (parts s (firstn k (s_log s))) /\
            (forall t p, t_call (s_thread s t) = Write p -> t_pc (s_thread s t) = Done ROk -> In t (map fst (firstn k (s_log s)))) /\
            (forall t n, t_pc (s_thread s t) = WIn n -> k < length (s_log s));
  h_shut : s_closed s = true -> forall t, writes (t_pc (s_thread s t)) = false;
  h_cin : forall t, t_pc (s_thread s t) = CIn -> s_closed s = true;
  h_done : forall t r, t_pc (s_thread s t) = Done r -> closes (t_call (s_thread s t)) = true -> s_closed s = true /\ r = s_cerr s /\ forall u, t_pc (s_thread s u) <> CIn;
  h_first : t_call (s_thread s 0) = Handle /\ 0 < s_nt s /\ forall t, t < s_nt s -> t_call (s_thread s t) = Handle -> t = 0 }.

Lemma inv_init : Inv init.
Proof.
  constructor; cbn; try (intros; (discriminate || contradiction || reflexivity)); try reflexivity.
  - constructor.
  - exists 0. split; [lia|]. split; [reflexivity|]. split; discriminate.
  - split; [reflexivity|]. split; [lia|]. intros. lia.
Qed.
Lemma parts_ext s s' l : (forall t n, In (t, n) l -> t_call (s_thread s' t) = t_call (s_thread s t)) -> parts s' l = parts s l.
Proof.
  unfold parts, data. intros E. f_equal. apply map_ext_in. intros [t n] I. cbn. now rewrite (E t n I).
Qed.
Lemma parts_app s a b : parts s (a ++ b) = parts s a ++ parts s b.
Proof. unfold parts. now rewrite map_app, concat_app. Qed.
Lemma count_last n l t m : count n (l ++ [(t, m)]) = l ++ [(t, n)].
Proof. unfold count. rewrite rev_app_distr. cbn. now rewrite rev_involutive. Qed.
Lemma firstn_in {A} k (l : list A) x : In x (firstn k l) -> In x l.
Proof. revert l. induction k; intros [|a l]; cbn; try contradiction. intros [->|H]; auto. Qed.
Lemma firstn_step {A} (d : list A) n k : n <= length d -> firstn n d ++ firstn k (skipn n d) = firstn (n + length (firstn k (skipn n d))) d.
Proof.
  intros L. revert n L. induction d as [|a d IH]; intros n L; [now rewrite skipn_nil, firstn_nil, !firstn_nil|].
  destruct n; cbn.
  - destruct k; [reflexivity|]. cbn. f_equal. symmetry. clear. revert k. induction d; intros [|k]; cbn; auto. now rewrite IHd.
  - f_equal. apply IH. cbn in L. lia.
Qed.
(** A step of the call t that does not touch what was written, nor the lock. *)
Lemma inv_move s t p : Inv s -> t < s_nt s -> okPc (t_call (s_thread s t)) p = true -> holds p = false -> holds (t_pc (s_thread s t)) = false ->
  p <> WStart -> (p = Done ROk -> exists q, t_call (s_thread s t) = q /\ match q with Write _ => False | _ => True end) ->
  (p = Done RClosed -> t_pc (s_thread s t) = WStart \/ forall b, t_call (s_thread s t) <> Write b) ->
  (forall r, p = Done r -> closes (t_call (s_thread s t)) = true -> s_closed s = true /\ r = s_cerr s /\ s_mu s = None) -> Inv (to t p s).
Proof.
  intros I L OK HP HT N1 N2 N3 N4.
  assert (TC : forall u, t_call (s_thread (to t p s) u) = t_call (s_thread s u)) by (intros u; cbn; destruct (Nat.eqb_spec u t) as [->|]; reflexivity).
  assert (TP : t_pc (s_thread (to t p s) t) = p) by (cbn; now rewrite Nat.eqb_refl).
  assert (TO : forall u, u <> t -> t_pc (s_thread (to t p s) u) = t_pc (s_thread s u)) by (intros u D; cbn; destruct (Nat.eqb_spec u t); [contradiction|reflexivity]).
  destruct I as [M T0 C B ND LG IN FL FS SH CI DN FI].
  constructor.
  - intros u H. destruct (Nat.eq_dec u t) as [->|D]; [rewrite TP in H; congruence|]. rewrite (TO u D) in H. exact (M u H).
  - intros u H. cbn in H |- *. destruct (Nat.eqb_spec u t); [lia|exact (T0 u H)].
  - intros u. rewrite TC. destruct (Nat.eq_dec u t) as [->|D]; [now rewrite TP|rewrite (TO u D); apply C].
  - rewrite (parts_ext s); [exact B|intros; apply TC].
  - exact ND.
  - intros u n H. rewrite TC. destruct (LG u n H) as (A1 & A2 & A3 & A4). split; [exact A1|]. split; [exact A2|].
    destruct (Nat.eq_dec u t) as [->|D]; [|rewrite (TO u D); auto]. rewrite TP. split; [exact N1|]. intros E. destruct (N3 E) as [Q|Q2]; [contradiction|].
    destruct A2 as (b & A2 & _). exact (Q2 b A2).
  - intros u n H. destruct (Nat.eq_dec u t) as [->|D]; [rewrite TP in H; subst p; discriminate|]. rewrite (TO u D) in H. exact (IN u n H).
  - intros u b E H. rewrite TC in E. destruct (Nat.eq_dec u t) as [->|D]; [|rewrite (TO u D) in H; exact (FL u b E H)]. rewrite TP in H. destruct H as [H|H]; [subst p; discriminate|].
    destruct (N2 H) as (q & Q & F). rewrite E in Q. subst q. contradiction.
  - destruct FS as (k & K1 & K2 & K3 & K4). exists k. split; [exact K1|]. split; [rewrite (parts_ext s); [exact K2|intros; apply TC]|]. split.
    2: { intros u n H. destruct (Nat.eq_dec u t) as [->|D]; [rewrite TP in H; subst p; discriminate|]. rewrite (TO u D) in H. exact (K4 u n H). }
    intros u b E H. rewrite TC in E. destruct (Nat.eq_dec u t) as [->|D]; [|rewrite (TO u D) in H; exact (K3 u b E H)]. rewrite TP in H.
    destruct (N2 H) as (q & Q & F). rewrite E in Q. subst q. contradiction.
  - intros H u. destruct (Nat.eq_dec u t) as [->|D]; [|rewrite (TO u D); exact (SH H u)]. rewrite TP. destruct p; try reflexivity; discriminate HP.
  - intros u H. destruct (Nat.eq_dec u t) as [->|D]; [rewrite TP in H; subst p; discriminate|]. rewrite (TO u D) in H. exact (CI u H).
  - intros u r H E. rewrite TC in E. assert (NC : forall v, t_pc (s_thread s v) <> CIn -> t_pc (s_thread (to t p s) v) <> CIn).
    { intros v. destruct (Nat.eq_dec v t) as [->|D]; [rewrite TP; intros _ Q; subst p; discriminate|now rewrite (TO v D)]. }
    destruct (Nat.eq_dec u t) as [->|D].
    + rewrite TP in H. destruct (N4 r H E) as (A1 & A2 & A3). split; [exact A1|]. split; [exact A2|]. intros v. apply NC. intros Q.
      pose proof (M v ltac:(now rewrite Q)). congruence.
    + rewrite (TO u D) in H. destruct (DN u r H E) as (A1 & A2 & A3). split; [exact A1|]. split; [exact A2|]. intros v. apply NC, A3.
  - rewrite TC. destruct FI as (F1 & F2 & F3). split; [exact F1|]. split; [exact F2|]. intros u LU. rewrite TC. now apply F3.
Qed.

Ltac sets t p s TC TP TO :=
  match goal with |- Inv ?x =>
    assert (TC : forall u, t_call (s_thread x u) = t_call (s_thread s u)) by (intros u; cbn; destruct (Nat.eqb_spec u t) as [->|]; reflexivity);
    assert (TP : t_pc (s_thread x t) = p) by (cbn; now rewrite Nat.eqb_refl);
    assert (TO : forall u, u <> t -> t_pc (s_thread x u) = t_pc (s_thread s u)) by (let u := fresh in let D := fresh in intros u D; cbn; destruct (Nat.eqb_spec u t); [contradiction|reflexivity])
  end.
Lemma NoDup_snoc {A} (l : list A) x : NoDup l -> ~ In x l -> NoDup (l ++ [x]).
Proof.
  induction 1 as [|a l N ND IH]; intros NI; cbn; [repeat constructor; auto|]. constructor.
  - rewrite in_app_iff. cbn. intros [H|[->|[]]]; [contradiction|]. apply NI. now left.
  - apply IH. intros H. apply NI. now right.
Qed.
(** The call t gets the lock and begins to write. *)
Lemma inv_begin s t b : Inv s -> t < s_nt s -> t_call (s_thread s t) = Write b -> t_pc (s_thread s t) = WStart -> s_mu s = None -> s_closed s = false ->
  Inv (to t (WIn 0) (withMu (Some t) (withBody (s_body s) (s_flushed s) (s_log s ++ [(t, 0)]) s))).
Proof.
  intros I L CT PT MU CL. sets t (WIn 0) s TC TP TO.
  destruct I as [M T0 C B ND LG IN FL FS SH CI DN FI].
  assert (NT : forall u, holds (t_pc (s_thread s u)) = false) by (intros u; destruct (holds _) eqn:E; [pose proof (M u E); congruence|reflexivity]).
  assert (NL : forall n, ~ In (t, n) (s_log s)) by (intros n Q; destruct (LG t n Q) as (_ & _ & Q2 & _); contradiction).
  assert (LE : s_log (to t (WIn 0) (withMu (Some t) (withBody (s_body s) (s_flushed s) (s_log s ++ [(t, 0)]) s))) = s_log s ++ [(t, 0)]) by reflexivity.
  constructor; rewrite ?LE.
  - intros u H. destruct (Nat.eq_dec u t) as [->|D]; [reflexivity|]. rewrite (TO u D), (NT u) in H. discriminate.
  - intros u H. cbn in H |- *. destruct (Nat.eqb_spec u t); [lia|exact (T0 u H)].
  - intros u. rewrite TC. destruct (Nat.eq_dec u t) as [->|D]; [now rewrite TP, CT|rewrite (TO u D); apply C].
  - rewrite (parts_ext s); [|intros; apply TC]. rewrite parts_app. cbn. rewrite app_nil_r. exact B.
  - rewrite map_app. cbn. apply NoDup_snoc; [exact ND|]. intros Q. apply in_map_iff in Q. destruct Q as ([v n] & E & Q). cbn in E. subst v. exact (NL n Q).
  - intros u n H. rewrite TC. apply in_app_iff in H. destruct H as [H|[H|[]]].
    + destruct (LG u n H) as (A1 & A2 & A3 & A4). destruct (Nat.eq_dec u t) as [->|D]; [exfalso; exact (NL n H)|]. rewrite (TO u D). auto.
    + injection H as <- <-. split; [exact L|]. split; [exists b; split; [exact CT|lia]|]. rewrite TP. split; discriminate.
  - intros u n H. destruct (Nat.eq_dec u t) as [->|D]; [rewrite TP in H; injection H as <-; eauto|]. rewrite (TO u D) in H. specialize (NT u). rewrite H in NT. discriminate.
  - intros u p E H. rewrite TC in E. destruct (Nat.eq_dec u t) as [->|D]; [rewrite TP in H; destruct H; discriminate|]. rewrite (TO u D) in H. apply in_app_iff. left. exact (FL u p E H).
  - destruct FS as (k & K1 & K2 & K3 & K4). exists k. rewrite app_length. split; [lia|]. rewrite firstn_app. replace (k - length (s_log s)) with 0 by lia. cbn [firstn]. rewrite app_nil_r.
    split; [rewrite (parts_ext s); [exact K2|intros; apply TC]|]. split; [|intros; cbn; lia].
    intros u p E H. rewrite TC in E. destruct (Nat.eq_dec u t) as [->|D]; [rewrite TP in H; discriminate|]. rewrite (TO u D) in H. exact (K3 u p E H).
  - intros H. change (s_closed s = true) in H. congruence.
  - intros u H. destruct (Nat.eq_dec u t) as [->|D]; [rewrite TP in H; discriminate|]. rewrite (TO u D) in H. exact (CI u H).
  - intros u r H E. rewrite TC in E. destruct (Nat.eq_dec u t) as [->|D]; [rewrite CT in E; discriminate|]. rewrite (TO u D) in H. destruct (DN u r H E) as (A1 & _). congruence.
  - rewrite TC. destruct FI as (F1 & F2 & F3). split; [exact F1|]. split; [exact F2|]. intros u LU. rewrite TC. now apply F3.
Qed.
(** The ResponseWriter takes more bytes of the call t. *)
Lemma inv_put s t n k : Inv s -> t < s_nt s -> t_pc (s_thread s t) = WIn n ->
  let chunk := firstn k (skipn n (payload (t_call (s_thread s t)))) in
  Inv (to t (WIn (n + length chunk)) (withBody (s_body s ++ chunk) (s_flushed s) (count (n + length chunk) (s_log s)) s)).
Proof.
  intros I L PT chunk. sets t (WIn (n + length chunk)) s TC TP TO. pose proof (h_mu s I t ltac:(now rewrite PT)) as MU.
  destruct I as [M T0 C B ND LG IN FL FS SH CI DN FI].
  destruct (IN t n PT) as (l & LE). destruct (LG t n ltac:(rewrite LE; apply in_app_iff; right; now left)) as (_ & (b & CT & LB) & _).
  rewrite LE, count_last in *.
  assert (LE2 : forall x, s_log (to t x (withBody (s_body s ++ chunk) (s_flushed s) (l ++ [(t, n + length chunk)]) s)) = l ++ [(t, n + length chunk)]) by reflexivity.
  assert (DT : payload (t_call (s_thread s t)) = b) by (now rewrite CT).
  assert (SP : firstn n b ++ chunk = firstn (n + length chunk) b) by (unfold chunk; rewrite DT; now apply firstn_step).
  assert (LC : n + length chunk <= length b).
  { assert (Q : length chunk <= length (skipn n b)) by (unfold chunk; rewrite DT, firstn_length; lia). rewrite skipn_length in Q. lia. }
  assert (ONLY : forall u, u <> t -> holds (t_pc (s_thread s u)) = false).
  { intros u D. destruct (holds (t_pc (s_thread s u))) eqn:E; [|reflexivity]. pose proof (M u E). congruence. }
  assert (NL : forall m, ~ In (t, m) l).
  { intros m Q. rewrite map_app in ND. cbn in ND. apply NoDup_remove_2 in ND. apply ND. rewrite app_nil_r. apply in_map_iff. exists (t, m). auto. }
  constructor; rewrite ?LE2.
  - intros u H. destruct (Nat.eq_dec u t) as [->|D]; [exact MU|]. rewrite (TO u D), (ONLY u D) in H. discriminate.
  - intros u H. cbn in H |- *. destruct (Nat.eqb_spec u t); [lia|exact (T0 u H)].
  - intros u. rewrite TC. destruct (Nat.eq_dec u t) as [->|D]; [now rewrite TP, CT|rewrite (TO u D); apply C].
  - rewrite (parts_ext s); [|intros; apply TC]. change (s_body s ++ chunk = parts s (l ++ [(t, n + length chunk)])). rewrite B, !parts_app, <- app_assoc. f_equal.
    unfold parts, data. cbn [map concat fst snd]. rewrite !app_nil_r, DT. exact SP.
  - rewrite map_app in *. exact ND.
  - intros u m H. rewrite TC. apply in_app_iff in H. destruct H as [H|[H|[]]].
    + destruct (LG u m ltac:(apply in_app_iff; now left)) as (A1 & A2 & A3 & A4). destruct (Nat.eq_dec u t) as [->|D]; [exfalso; exact (NL m H)|]. rewrite (TO u D). auto.
    + injection H as <- <-. split; [exact L|]. split; [exists b; auto|]. rewrite TP. split; discriminate.
  - intros u m H. destruct (Nat.eq_dec u t) as [->|D]; [rewrite TP in H; injection H as <-; eauto|]. rewrite (TO u D) in H. specialize (ONLY u D). rewrite H in ONLY. discriminate.
  - intros u p E H. rewrite TC in E. destruct (Nat.eq_dec u t) as [->|D]; [rewrite TP in H; destruct H; discriminate|]. rewrite (TO u D) in H.
    pose proof (FL u p E H) as Q. apply in_app_iff in Q. apply in_app_iff. destruct Q as [Q|[Q|[]]]; [now left|]. injection Q as Q _. congruence.
  - destruct FS as (j & K1 & K2 & K3 & K4). pose proof (K4 t n PT) as K5. rewrite app_length in K5. cbn in K5. exists j.
    assert (FE : forall m, firstn j (l ++ [(t, m)]) = firstn j l) by (intros m; rewrite firstn_app; replace (j - length l) with 0 by lia; cbn [firstn]; apply app_nil_r).
    rewrite FE in *. rewrite app_length. split; [cbn; lia|]. split; [rewrite (parts_ext s); [exact K2|intros; apply TC]|]. split; [|intros; cbn; lia].
    intros u p E H. rewrite TC in E. destruct (Nat.eq_dec u t) as [->|D]; [rewrite TP in H; discriminate|]. rewrite (TO u D) in H. exact (K3 u p E H).
  - intros H u. change (s_closed s = true) in H. pose proof (SH H t) as Q. rewrite PT in Q. discriminate.
  - intros u H. destruct (Nat.eq_dec u t) as [->|D]; [rewrite TP in H; discriminate|]. rewrite (TO u D) in H. exact (CI u H).
  - intros u r H E. rewrite TC in E. destruct (Nat.eq_dec u t) as [->|D]; [rewrite CT in E; discriminate|]. rewrite (TO u D) in H. destruct (DN u r H E) as (A1 & A2 & A3).
    split; [exact A1|]. split; [exact A2|]. intros v Q. destruct (Nat.eq_dec v t) as [->|D2]; [rewrite TP in Q; discriminate|]. rewrite (TO v D2) in Q. exact (A3 v Q).
  - rewrite TC. destruct FI as (F1 & F2 & F3). split; [exact F1|]. split; [exact F2|]. intros u LU. rewrite TC. now apply F3.
Qed.
(** All was taken; then Flush and return, or the ResponseWriter fails. *)
Lemma inv_rest s t n b p m f : Inv s -> t < s_nt s -> t_call (s_thread s t) = Write b ->
  (t_pc (s_thread s t) = WIn n /\ (p = WFlush /\ m = s_mu s /\ f = s_flushed s /\ length b <= n \/ p = Done RFail /\ m = None /\ f = s_flushed s) \/
   t_pc (s_thread s t) = WFlush /\ p = Done ROk /\ m = None /\ f = length (s_body s)) ->
  Inv (to t p (withMu m (withBody (s_body s) f (s_log s) s))).
Proof.
  intros I L CT ALT. sets t p s TC TP TO.
  assert (HT : holds (t_pc (s_thread s t)) = true) by (destruct ALT as [[-> _]|[-> _]]; reflexivity). pose proof (h_mu s I t HT) as MU.
  destruct I as [M T0 C B ND LG IN FL FS SH CI DN FI].
  assert (ONLY : forall u, u <> t -> holds (t_pc (s_thread s u)) = false).
  { intros u D. destruct (holds (t_pc (s_thread s u))) eqn:E; [|reflexivity]. pose proof (M u E). congruence. }
  assert (NS : s_closed s = false). { destruct (s_closed s) eqn:E; [|reflexivity]. pose proof (SH eq_refl t) as Q. destruct ALT as [[A _]|[A _]]; rewrite A in Q; discriminate. }
  assert (PP : p = WFlush \/ p = Done RFail \/ p = Done ROk) by (destruct ALT as [[_ [[A _]|[A _]]]|(_ & A & _)]; auto).
  assert (TL : p <> Done RFail -> In (t, length b) (s_log s)).
  { intros N. destruct ALT as [[A [(_ & _ & _ & Q)|(Q & _)]]|(A & _)]; [|contradiction|exact (FL t b CT (or_introl A))].
    destruct (IN t n A) as (l & E). assert (IL : In (t, n) (s_log s)) by (rewrite E; apply in_app_iff; right; now left).
    destruct (LG t n IL) as (_ & (b' & E2 & LB) & _). assert (b' = b) by congruence. subst b'. replace (length b) with n by lia. exact IL. }
  constructor; change (s_log (to t p (withMu m (withBody (s_body s) f (s_log s) s)))) with (s_log s).
  - intros u H. destruct (Nat.eq_dec u t) as [->|D]; [|rewrite (TO u D), (ONLY u D) in H; discriminate]. rewrite TP in H.
    destruct ALT as [[_ [(A & A2 & _)|(A & _)]]|(_ & A & _)]; subst p; try discriminate H. cbn. congruence.
  - intros u H. cbn in H |- *. destruct (Nat.eqb_spec u t); [lia|exact (T0 u H)].
  - intros u. rewrite TC. destruct (Nat.eq_dec u t) as [->|D]; [|rewrite (TO u D); apply C]. rewrite TP, CT. destruct PP as [-> | [-> | ->]]; reflexivity.
  - rewrite (parts_ext s); [exact B|intros; apply TC].
  - exact ND.
  - intros u k H. rewrite TC. destruct (LG u k H) as (A1 & A2 & A3 & A4). split; [exact A1|]. split; [exact A2|].
    destruct (Nat.eq_dec u t) as [->|D]; [|rewrite (TO u D); auto]. rewrite TP. destruct PP as [-> | [-> | ->]]; split; discriminate.
  - intros u k H. destruct (Nat.eq_dec u t) as [->|D]; [rewrite TP in H; destruct PP as [-> | [-> | ->]]; discriminate|]. rewrite (TO u D) in H. exact (IN u k H).
  - intros u q E H. rewrite TC in E. destruct (Nat.eq_dec u t) as [->|D]; [|rewrite (TO u D) in H; exact (FL u q E H)].
    assert (q = b) by congruence. subst q. apply TL. rewrite TP in H. destruct H; congruence.
  - destruct ALT as [[A ALT]|(A & A2 & A3 & A4)].
    + destruct FS as (k & K1 & K2 & K3 & K4). exists k. split; [exact K1|]. split; [rewrite (parts_ext s); [cbn; destruct ALT as [(_ & _ & -> & _)|(_ & _ & ->)]; exact K2|intros; apply TC]|]. split.
      * intros u q E H. rewrite TC in E. destruct (Nat.eq_dec u t) as [->|D]; [|rewrite (TO u D) in H; exact (K3 u q E H)]. rewrite TP in H. destruct ALT as [(Q & _)|(Q & _)]; congruence.
      * intros u k' H. destruct (Nat.eq_dec u t) as [->|D]; [rewrite TP in H; destruct PP as [-> | [-> | ->]]; discriminate|]. rewrite (TO u D) in H. exact (K4 u k' H).
    + exists (length (s_log s)). rewrite firstn_all. split; [lia|]. split; [rewrite (parts_ext s); [cbn; now rewrite A4, B|intros; apply TC]|]. split.
      * intros u q E H. rewrite TC in E. apply in_map_iff. exists (u, length q). split; [reflexivity|]. destruct (Nat.eq_dec u t) as [->|D]; [|rewrite (TO u D) in H; exact (FL u q E (or_intror H))].
        assert (q = b) by congruence. subst q. apply TL. congruence.
      * intros u k' H. destruct (Nat.eq_dec u t) as [->|D]; [rewrite TP in H; destruct PP as [-> | [-> | ->]]; discriminate|]. rewrite (TO u D) in H. specialize (ONLY u D). rewrite H in ONLY. discriminate.
  - intros H. change (s_closed s = true) in H. congruence.
  - intros u H. destruct (Nat.eq_dec u t) as [->|D]; [rewrite TP in H; destruct PP as [-> | [-> | ->]]; discriminate|]. rewrite (TO u D) in H. exact (CI u H).
  - intros u r H E. rewrite TC in E. destruct (Nat.eq_dec u t) as [->|D]; [rewrite CT in E; discriminate|]. rewrite (TO u D) in H. destruct (DN u r H E) as (A1 & _). congruence.
  - rewrite TC. destruct FI as (F1 & F2 & F3). split; [exact F1|]. split; [exact F2|]. intros u LU. rewrite TC. now apply F3.
Qed.
(** Close: it sets closed, then the body is closed. *)
Lemma inv_shut s t : Inv s -> t < s_nt s -> closes (t_call (s_thread s t)) = true -> t_pc (s_thread s t) = CStart -> s_mu s = None -> s_closed s = false ->
  Inv (to t CIn (withMu (Some t) (withClosed true ROk s))).
Proof.
  intros I L CT PT MU CL. sets t CIn s TC TP TO. destruct I as [M T0 C B ND LG IN FL FS SH CI DN FI].
  assert (NT : forall u, holds (t_pc (s_thread s u)) = false) by (intros u; destruct (holds _) eqn:E; [pose proof (M u E); congruence|reflexivity]).
  constructor; change (s_log (to t CIn (withMu (Some t) (withClosed true ROk s)))) with (s_log s).
  - intros u H. destruct (Nat.eq_dec u t) as [->|D]; [reflexivity|]. rewrite (TO u D), (NT u) in H. discriminate.
  - intros u H. cbn in H |- *. destruct (Nat.eqb_spec u t); [lia|exact (T0 u H)].
  - intros u. rewrite TC. destruct (Nat.eq_dec u t) as [->|D]; [|rewrite (TO u D); apply C]. rewrite TP. destruct (t_call (s_thread s t)); try discriminate CT; reflexivity.
  - rewrite (parts_ext s); [exact B|intros; apply TC].
  - exact ND.
  - intros u k H. rewrite TC. destruct (LG u k H) as (A1 & A2 & A3 & A4). split; [exact A1|]. split; [exact A2|].
    destruct (Nat.eq_dec u t) as [->|D]; [|rewrite (TO u D); auto]. rewrite TP. split; discriminate.
  - intros u k H. destruct (Nat.eq_dec u t) as [->|D]; [rewrite TP in H; discriminate|]. rewrite (TO u D) in H. exact (IN u k H).
  - intros u q E H. rewrite TC in E. destruct (Nat.eq_dec u t) as [->|D]; [rewrite TP in H; destruct H; discriminate|]. rewrite (TO u D) in H. exact (FL u q E H).
  - destruct FS as (k & K1 & K2 & K3 & K4). exists k. split; [exact K1|]. split; [rewrite (parts_ext s); [exact K2|intros; apply TC]|]. split.
    + intros u q E H. rewrite TC in E. destruct (Nat.eq_dec u t) as [->|D]; [rewrite TP in H; discriminate|]. rewrite (TO u D) in H. exact (K3 u q E H).
    + intros u k' H. destruct (Nat.eq_dec u t) as [->|D]; [rewrite TP in H; discriminate|]. rewrite (TO u D) in H. exact (K4 u k' H).
  - intros _ u. destruct (Nat.eq_dec u t) as [->|D]; [now rewrite TP|]. rewrite (TO u D). specialize (NT u). destruct (t_pc (s_thread s u)); (reflexivity || discriminate NT).
  - reflexivity.
  - intros u r H E. rewrite TC in E. destruct (Nat.eq_dec u t) as [->|D]; [rewrite TP in H; discriminate|]. rewrite (TO u D) in H. destruct (DN u r H E) as (A1 & _). congruence.
  - rewrite TC. destruct FI as (F1 & F2 & F3). split; [exact F1|]. split; [exact F2|]. intros u LU. rewrite TC. now apply F3.
Qed.
Lemma inv_closed s t r : Inv s -> t < s_nt s -> t_pc (s_thread s t) = CIn -> Inv (to t (Done r) (withMu None (withClosed true r s))).
Proof.
  intros I L PT. sets t (Done r) s TC TP TO. pose proof (h_mu s I t ltac:(now rewrite PT)) as MU. destruct I as [M T0 C B ND LG IN FL FS SH CI DN FI].
  assert (ONLY : forall u, u <> t -> holds (t_pc (s_thread s u)) = false).
  { intros u D. destruct (holds (t_pc (s_thread s u))) eqn:E; [|reflexivity]. pose proof (M u E). congruence. }
  assert (NW : forall p, t_call (s_thread s t) <> Write p) by (intros p E; specialize (C t); rewrite E, PT in C; discriminate).
  pose proof (CI t PT) as CL.
  constructor; change (s_log (to t (Done r) (withMu None (withClosed true r s)))) with (s_log s).
  - intros u H. destruct (Nat.eq_dec u t) as [->|D]; [rewrite TP in H; discriminate|]. rewrite (TO u D), (ONLY u D) in H. discriminate.
  - intros u H. cbn in H |- *. destruct (Nat.eqb_spec u t); [lia|exact (T0 u H)].
  - intros u. rewrite TC. destruct (Nat.eq_dec u t) as [->|D]; [|rewrite (TO u D); apply C]. rewrite TP. destruct (t_call (s_thread s t)); reflexivity.
  - rewrite (parts_ext s); [exact B|intros; apply TC].
  - exact ND.
  - intros u k H. rewrite TC. destruct (LG u k H) as (A1 & A2 & A3 & A4). split; [exact A1|]. split; [exact A2|].
    destruct (Nat.eq_dec u t) as [->|D]; [|rewrite (TO u D); auto]. destruct A2 as (q & A2 & _). now apply NW in A2.
  - intros u k H. destruct (Nat.eq_dec u t) as [->|D]; [rewrite TP in H; discriminate|]. rewrite (TO u D) in H. exact (IN u k H).
  - intros u q E H. rewrite TC in E. destruct (Nat.eq_dec u t) as [->|D]; [now apply NW in E|]. rewrite (TO u D) in H. exact (FL u q E H).
  - destruct FS as (k & K1 & K2 & K3 & K4). exists k. split; [exact K1|]. split; [rewrite (parts_ext s); [exact K2|intros; apply TC]|]. split.
    + intros u q E H. rewrite TC in E. destruct (Nat.eq_dec u t) as [->|D]; [now apply NW in E|]. rewrite (TO u D) in H. exact (K3 u q E H).
    + intros u k' H. destruct (Nat.eq_dec u t) as [->|D]; [rewrite TP in H; discriminate|]. rewrite (TO u D) in H. exact (K4 u k' H).
  - intros _ u. destruct (Nat.eq_dec u t) as [->|D]; [now rewrite TP|]. rewrite (TO u D). exact (SH CL u).
  - reflexivity.
  - intros u r' H E. rewrite TC in E. assert (NC : forall v, t_pc (s_thread (to t (Done r) (withMu None (withClosed true r s))) v) <> CIn).
    { intros v Q. destruct (Nat.eq_dec v t) as [->|D]; [rewrite TP in Q; discriminate|]. rewrite (TO v D) in Q. specialize (ONLY v D). rewrite Q in ONLY. discriminate. }
    split; [reflexivity|]. split; [|exact NC]. destruct (Nat.eq_dec u t) as [->|D]; [rewrite TP in H; cbn; congruence|]. rewrite (TO u D) in H. destruct (DN u r' H E) as (_ & _ & A3). now apply A3 in PT.
  - rewrite TC. destruct FI as (F1 & F2 & F3). split; [exact F1|]. split; [exact F2|]. intros u LU. rewrite TC. now apply F3.
Qed.
Lemma inv_call s c : Inv s -> c <> Handle ->
  Inv (mkSt (s_mu s) (s_closed s) (s_cerr s) (s_body s) (s_flushed s) (s_log s) (S (s_nt s)) (fun u => if u =? s_nt s then mkT c (start c) else s_thread s u)).
Proof.
  intros I NH. destruct I as [M T0 C B ND LG IN FL FS SH CI DN FI]. set (x := mkSt _ _ _ _ _ _ _ _).
  assert (TN : s_thread x (s_nt s) = mkT c (start c)) by (cbn; now rewrite Nat.eqb_refl).
  assert (TO : forall u, u <> s_nt s -> s_thread x u = s_thread s u) by (intros u D; cbn; destruct (Nat.eqb_spec u (s_nt s)); [contradiction|reflexivity]).
  assert (SC : holds (start c) = false /\ start c <> CIn /\ (forall r, start c <> Done r) /\ start c <> WFlush /\ (forall n, start c <> WIn n) /\ writes (start c) = false /\ okPc c (start c) = true)
    by (destruct c; repeat split; (reflexivity || discriminate)).
  destruct SC as (S1 & S2 & S3 & S4 & S5 & S6 & S7).
  assert (PX : forall l, (forall t n, In (t, n) l -> In (t, n) (s_log s)) -> parts x l = parts s l).
  { intros l Q. apply parts_ext. intros t n H. destruct (LG t n (Q t n H)) as (A & _). rewrite (TO t) by lia. reflexivity. }
  constructor.
  - intros u H. destruct (Nat.eq_dec u (s_nt s)) as [->|D]; [rewrite TN in H; cbn in H; congruence|]. rewrite (TO u D) in H. exact (M u H).
  - intros u H. change (S (s_nt s) <= u) in H. rewrite (TO u) by lia. apply T0. lia.
  - intros u. destruct (Nat.eq_dec u (s_nt s)) as [->|D]; [rewrite TN; exact S7|rewrite (TO u D); apply C].
  - change (s_body s = parts x (s_log s)). rewrite PX; auto.
  - exact ND.
  - intros u n H. destruct (LG u n H) as (A & B1). change (u < S (s_nt s) /\ (exists p, t_call (s_thread x u) = Write p /\ n <= length p) /\ t_pc (s_thread x u) <> WStart /\ t_pc (s_thread x u) <> Done RClosed).
    rewrite (TO u) by lia. split; [lia|exact B1].
  - intros u n H. destruct (Nat.eq_dec u (s_nt s)) as [->|D]; [rewrite TN in H; now apply S5 in H|]. rewrite (TO u D) in H. exact (IN u n H).
  - intros u p E H. destruct (Nat.eq_dec u (s_nt s)) as [->|D]; [rewrite TN in H; cbn in H; destruct H as [H|H]; [contradiction|now apply S3 in H]|]. rewrite (TO u D) in *. exact (FL u p E H).
  - destruct FS as (k & K1 & K2 & K3 & K4). exists k. split; [exact K1|]. split; [cbn [s_log x]; rewrite PX; [exact K2|intros t n; apply firstn_in]|]. split.
    + intros u p E H. destruct (Nat.eq_dec u (s_nt s)) as [->|D]; [rewrite TN in H; now apply S3 in H|]. rewrite (TO u D) in *. exact (K3 u p E H).
    + intros u n H. destruct (Nat.eq_dec u (s_nt s)) as [->|D]; [rewrite TN in H; now apply S5 in H|]. rewrite (TO u D) in *. exact (K4 u n H).
  - intros H u. destruct (Nat.eq_dec u (s_nt s)) as [->|D]; [rewrite TN; exact S6|]. rewrite (TO u D). exact (SH H u).
  - intros u H. destruct (Nat.eq_dec u (s_nt s)) as [->|D]; [rewrite TN in H; contradiction|]. rewrite (TO u D) in H. exact (CI u H).
  - intros u r H E. destruct (Nat.eq_dec u (s_nt s)) as [->|D]; [rewrite TN in H; now apply S3 in H|]. rewrite (TO u D) in *. destruct (DN u r H E) as (A1 & A2 & A3).
    split; [exact A1|]. split; [exact A2|]. intros v Q. destruct (Nat.eq_dec v (s_nt s)) as [->|D2]; [rewrite TN in Q; contradiction|]. rewrite (TO v D2) in Q. exact (A3 v Q).
  - destruct FI as (F1 & F2 & F3). rewrite (TO 0) by lia. split; [exact F1|]. split; [cbn; lia|]. intros u LU E. change (u < S (s_nt s)) in LU.
    destruct (Nat.eq_dec u (s_nt s)) as [->|D]; [rewrite TN in E; contradiction|]. rewrite (TO u D) in E. apply F3; [lia|exact E].
Qed.
Ltac cases H :=
  repeat match type of H with
         | context [match ?x with _ => _ end] => destruct x eqn:?; try discriminate H
         end.
Ltac okof s I t := let O := fresh "O" in pose proof (h_call s I t) as O; repeat match goal with P : t_pc (s_thread s t) = _ |- _ => rewrite P in O end.
Ltac mv s I t :=
  apply inv_move; [exact I|assumption|okof s I t; destruct (t_call (s_thread s t)); (reflexivity || discriminate)|reflexivity|
    match goal with P : t_pc (s_thread s t) = _ |- _ => rewrite P; reflexivity end|discriminate| | | ].
Lemma step_inv s e s' : Inv s -> step s e = Some s' -> Inv s'.
Proof.
  intros I H. unfold step in H. destruct e as [c|t|t k|t|t ok|t ok|t].
  - assert (NH : c <> Handle) by (intros ->; discriminate H). destruct c; try contradiction; injection H as <-; apply inv_call; (exact I || discriminate).
  - destruct (t <? s_nt s) eqn:L; [|discriminate]. apply Nat.ltb_lt in L. unfold stepT in H. okof s I t.
    destruct (t_pc (s_thread s t)) as [|n| | | | | | |r] eqn:P; try (destruct (s_mu s); discriminate H).
    + destruct (s_mu s) eqn:MU; [discriminate|]. destruct (t_call (s_thread s t)) as [b| | |] eqn:CT; try discriminate O. destruct (s_closed s) eqn:CL; injection H as <-.
      * mv s I t; [discriminate|intros _; left; exact P|rewrite CT; discriminate].
      * exact (inv_begin s t b I L CT P MU CL).
    + destruct (length (payload (t_call (s_thread s t))) <=? n) eqn:LE; [|destruct (s_mu s); discriminate H]. apply Nat.leb_le in LE.
      destruct (t_call (s_thread s t)) as [b| | |] eqn:CT; try discriminate O. cbn in LE.
      assert (E : s' = to t WFlush (withMu (s_mu s) (withBody (s_body s) (s_flushed s) (s_log s) s))) by (assert (H' : Some (to t WFlush s) = Some s') by (destruct (s_mu s); exact H); injection H' as <-; reflexivity).
      rewrite E. apply (inv_rest s t n b); auto. left. split; [exact P|]. left. auto.
    + destruct (t_call (s_thread s t)) as [b| | |] eqn:CT; try discriminate O.
      assert (E : s' = to t (Done ROk) (withMu None (withBody (s_body s) (length (s_body s)) (s_log s) s))) by (assert (H' : Some (to t (Done ROk) (withMu None (withBody (s_body s) (length (s_body s)) (s_log s) s))) = Some s') by (destruct (s_mu s); exact H); injection H' as <-; reflexivity).
      rewrite E. apply (inv_rest s t 0 b); auto.
    + destruct (s_mu s) eqn:MU; [discriminate|]. destruct (t_call (s_thread s t)) eqn:CT; try discriminate O. injection H as <-.
      destruct (s_closed s); (mv s I t; [discriminate| |rewrite CT; discriminate]); [right; rewrite CT; discriminate|discriminate].
    + destruct (s_mu s) eqn:MU; [discriminate|]. assert (CC : closes (t_call (s_thread s t)) = true) by (destruct (t_call (s_thread s t)); try discriminate O; reflexivity).
      destruct (s_closed s) eqn:CL; injection H as <-.
      * assert (NW : forall b, t_call (s_thread s t) <> Write b) by (intros b E; rewrite E in CC; discriminate).
        apply inv_move; auto; try discriminate.
        -- destruct (t_call (s_thread s t)); try discriminate O; reflexivity.
        -- now rewrite P.
        -- intros _. exists (t_call (s_thread s t)). split; [reflexivity|]. destruct (t_call (s_thread s t)) eqn:E; auto. now apply (NW p).
        -- intros r E _. injection E as <-. auto.
      * apply inv_shut; auto.
  - destruct (t <? s_nt s) eqn:L; [|discriminate]. apply Nat.ltb_lt in L. destruct (t_pc (s_thread s t)) eqn:P; try discriminate H. injection H as <-. exact (inv_put s t n k I L P).
  - destruct (t <? s_nt s) eqn:L; [|discriminate]. apply Nat.ltb_lt in L. okof s I t. destruct (t_pc (s_thread s t)) eqn:P; try discriminate H. injection H as <-.
    destruct (t_call (s_thread s t)) as [b| | |] eqn:CT; try discriminate O.
    change (Inv (to t (Done RFail) (withMu None (withBody (s_body s) (s_flushed s) (s_log s) s)))). apply (inv_rest s t n b); auto. left. split; [exact P|]. right. auto.
  - destruct (t <? s_nt s) eqn:L; [|discriminate]. apply Nat.ltb_lt in L. okof s I t. destruct (t_pc (s_thread s t)) eqn:P; try discriminate H. injection H as <-.
    destruct (t_call (s_thread s t)) eqn:CT; try discriminate O. mv s I t; [intros _; exists Read; split; [exact CT|exact Logic.I]|destruct ok; discriminate|rewrite CT; discriminate].
  - destruct (t <? s_nt s) eqn:L; [|discriminate]. apply Nat.ltb_lt in L. destruct (t_pc (s_thread s t)) eqn:P; try discriminate H. injection H as <-. exact (inv_closed s t _ I L P).
  - destruct (t <? s_nt s) eqn:L; [|discriminate]. apply Nat.ltb_lt in L. okof s I t. destruct (t_pc (s_thread s t)) eqn:P; try discriminate H. injection H as <-.
    destruct (t_call (s_thread s t)) eqn:CT; try discriminate O. mv s I t; discriminate.
Qed.
Lemma run_inv s es s' : Inv s -> run s es = Some s' -> Inv s'.
Proof.
  revert s. induction es as [|e es IH]; intros s I H; cbn [run] in H; [now injection H as <-|].
  destruct (step s e) as [m|] eqn:E; [|discriminate]. exact (IH m (step_inv _ _ _ I E) H).
Qed.
Lemma after_inv es s : after es s -> Inv s.
Proof. apply run_inv, inv_init. Qed.

(** ** What a step changes *)
Lemma step_calls s e s' t : step s e = Some s' -> t < s_nt s -> t_call (s_thread s' t) = t_call (s_thread s t) /\ s_nt s <= s_nt s'.
Proof.
  intros H L. unfold step, stepT in H. destruct e; cases H; injection H as <-; cbn; (split; [|lia]); try reflexivity;
    match goal with |- context [?a =? ?b] => destruct (Nat.eqb_spec a b) as [->|]; try lia; reflexivity end.
Qed.
Lemma step_grows s e s' : step s e = Some s' -> exists tl, s_body s' = s_body s ++ tl.
Proof.
  intros H. unfold step, stepT in H. destruct e; cases H; injection H as <-; cbn; try (exists []; now rewrite app_nil_r). eexists. reflexivity.
Qed.
Definition unborn (p : pc) : bool := match p with WStart | RStart | Done RClosed => true | _ => false end.
Lemma step_shut s e s' : Inv s -> s_closed s = true -> step s e = Some s' ->
  s_closed s' = true /\ s_body s' = s_body s /\ s_flushed s' = s_flushed s /\
  (forall t, t < s_nt s -> closes (t_call (s_thread s t)) = false -> unborn (t_pc (s_thread s t)) = true -> unborn (t_pc (s_thread s' t)) = true).
Proof.
  intros I CL H. pose proof (h_shut s I CL) as SH. unfold step, stepT in H. rewrite ?CL in H.
  destruct e as [c|t|t k|t|t ok|t ok|t].
  - destruct c; try discriminate H; injection H as <-; cbn; (split; [(exact CL || reflexivity)|split; [reflexivity|split; [reflexivity|]]]); intros t L _ U;
      (destruct (Nat.eqb_spec t (s_nt s)); [lia|exact U]).
  - destruct (t <? s_nt s) eqn:L; [|discriminate]. specialize (SH t). okof s I t. cases H; try discriminate SH; injection H as <-; cbn;
      (split; [(exact CL || reflexivity)|split; [reflexivity|split; [reflexivity|]]]); intros u _ C U; (destruct (Nat.eqb_spec u t) as [->|]; [cbn|exact U]); try reflexivity;
      destruct (t_call (s_thread s t)); (discriminate C || discriminate O).
  - destruct (t <? s_nt s); [|discriminate]. specialize (SH t). cases H. discriminate SH.
  - destruct (t <? s_nt s); [|discriminate]. specialize (SH t). cases H. discriminate SH.
  - destruct (t <? s_nt s); [|discriminate]. destruct (t_pc (s_thread s t)) eqn:P; try discriminate H. injection H as <-. cbn.
    (split; [(exact CL || reflexivity)|split; [reflexivity|split; [reflexivity|]]]); intros u _ C U; (destruct (Nat.eqb_spec u t) as [->|]; [cbn|exact U]). rewrite P in U. discriminate.
  - destruct (t <? s_nt s); [|discriminate]. destruct (t_pc (s_thread s t)) eqn:P; try discriminate H. injection H as <-. cbn.
    (split; [reflexivity|split; [reflexivity|split; [reflexivity|]]]); intros u _ C U; (destruct (Nat.eqb_spec u t) as [->|]; [cbn|exact U]). rewrite P in U. discriminate.
  - destruct (t <? s_nt s); [|discriminate]. destruct (t_pc (s_thread s t)) eqn:P; try discriminate H. injection H as <-. cbn.
    (split; [(exact CL || reflexivity)|split; [reflexivity|split; [reflexivity|]]]); intros u _ C U; (destruct (Nat.eqb_spec u t) as [->|]; [cbn|exact U]). rewrite P in U. discriminate.
Qed.
Record Later (s0 s : st) : Prop := {
  l_closed : s_closed s = true; l_body : s_body s = s_body s0; l_flushed : s_flushed s = s_flushed s0; l_nt : s_nt s0 <= s_nt s;
  l_call : forall t, t < s_nt s0 -> t_call (s_thread s t) = t_call (s_thread s0 t);
  l_new : forall t, t < s_nt s -> closes (t_call (s_thread s t)) = false -> s_nt s0 <= t \/ unborn (t_pc (s_thread s0 t)) = true -> unborn (t_pc (s_thread s t)) = true }.
Lemma later_refl s : s_closed s = true -> Later s s.
Proof. intros C. constructor; auto. intros t L _ [Q|Q]; [lia|exact Q]. Qed.
Lemma step_new s e s' t : step s e = Some s' -> s_nt s <= t -> t < s_nt s' -> closes (t_call (s_thread s' t)) = false -> unborn (t_pc (s_thread s' t)) = true.
Proof.
  intros H L1 L2. unfold step, stepT in H. destruct e; cases H; injection H as <-; cbn in *; try lia;
    destruct (Nat.eqb_spec t (s_nt s)); try lia; cbn; (reflexivity || discriminate).
Qed.
Lemma step_later s0 s e s' : Inv s -> Later s0 s -> step s e = Some s' -> Later s0 s'.
Proof.
  intros I [C B F N K W] H. destruct (step_shut _ _ _ I C H) as (C' & B' & F' & W').
  constructor; try congruence.
  - destruct (Nat.eq_dec (s_nt s) 0) as [Z|Z]; [destruct (h_first s I) as (_ & Q & _); lia|]. destruct (step_calls _ _ _ 0 H ltac:(lia)). lia.
  - intros t L. rewrite (proj1 (step_calls _ _ _ t H ltac:(lia))). exact (K t L).
  - intros t L CC D. destruct (Nat.lt_ge_cases t (s_nt s)) as [LT|LT].
    + rewrite (proj1 (step_calls _ _ _ t H LT)) in CC. exact (W' t LT CC (W t LT CC D)).
    + exact (step_new _ _ _ t H LT L CC).
Qed.
Lemma run_later s0 s es s' : Inv s -> Later s0 s -> run s es = Some s' -> Later s0 s'.
Proof.
  revert s. induction es as [|e es IH]; intros s I L H; cbn [run] in H; [now injection H as <-|].
  destruct (step s e) as [m|] eqn:E; [|discriminate]. exact (IH m (step_inv _ _ _ I E) (step_later _ _ _ _ I L E) H).
Qed.

(** ** Where the handler ends *)
Definition inner (e : event) : bool := match e with EStep _ | EFail _ | EClosed _ _ => true | _ => false end.
Lemma stepT_lt s t s' : t < s_nt s -> stepT t (s_thread s t) s = Some s' -> step s (EStep t) = Some s'.
Proof. intros L H. cbn [step]. apply Nat.ltb_lt in L. now rewrite L. Qed.
Lemma free s : Inv s -> (forall t, s_mu s = Some t -> t < s_nt s /\ holds (t_pc (s_thread s t)) = true) ->
  exists es s', forallb inner es = true /\ run s es = Some s' /\ s_mu s' = None /\ s_nt s' = s_nt s /\
    t_call (s_thread s' 0) = t_call (s_thread s 0) /\
    (t_pc (s_thread s' 0) = t_pc (s_thread s 0) \/ exists r, t_pc (s_thread s' 0) = Done r).
Proof.
  intros I HM. destruct (s_mu s) as [t|] eqn:MU.
  2: { exists [], s. repeat split; auto. }
  destruct (HM t eq_refl) as [L H]. apply Nat.ltb_lt in L. destruct (t_pc (s_thread s t)) as [|n| | | | | | |r] eqn:P; try discriminate H.
  - exists [EFail t]. eexists. split; [reflexivity|]. cbn [run step]. rewrite L, P. split; [reflexivity|]. cbn. split; [reflexivity|]. split; [reflexivity|].
    destruct t; [|auto]. cbn. split; [reflexivity|]. right. eexists. reflexivity.
  - exists [EStep t]. eexists. split; [reflexivity|]. cbn [run step]. rewrite L. unfold stepT. rewrite P. split; [destruct (s_mu s); reflexivity|]. cbn. split; [reflexivity|]. split; [reflexivity|].
    destruct t; [|auto]. cbn. split; [reflexivity|]. right. eexists. reflexivity.
  - exists [EClosed t true]. eexists. split; [reflexivity|]. cbn [run step]. rewrite L, P. split; [reflexivity|]. cbn. split; [reflexivity|]. split; [reflexivity|].
    destruct t; [|auto]. cbn. split; [reflexivity|]. right. eexists. reflexivity.
Qed.
(** Who has the lock is at a place that has it. *)
Definition Held (s : st) : Prop := forall t, s_mu s = Some t -> t < s_nt s /\ holds (t_pc (s_thread s t)) = true.
Ltac notheld s B := try (match goal with P : t_pc (s_thread s ?t) = _ |- _ => rewrite P in B; discriminate B end).
Lemma step_held s e s' : Inv s -> Held s -> step s e = Some s' -> Held s'.
Proof.
  intros I HM H u MU'. unfold step, stepT in H. destruct e; cases H; injection H as <-; cbn in MU' |- *; try discriminate MU'.
  all: try (destruct (HM u MU') as [A B]; split; [lia|]; match goal with |- context [?a =? ?b] => destruct (Nat.eqb_spec a b) as [->|]; [try lia; notheld s B|exact B] end).
  all: try reflexivity.
  all: try (injection MU' as <-; match goal with P : (_ <? _) = true |- _ => apply Nat.ltb_lt in P end; split; [assumption|]; rewrite Nat.eqb_refl; reflexivity).
  all: congruence.
Qed.
Lemma after_held es s : after es s -> Held s.
Proof.
  assert (G : forall es s0, Inv s0 -> Held s0 -> run s0 es = Some s -> Held s).
  { clear. induction es as [|e es IH]; intros s0 I H R; cbn [run] in R; [now injection R as <-|].
    destruct (step s0 e) as [m|] eqn:E; [|discriminate]. exact (IH m (step_inv _ _ _ I E) (step_held _ _ _ I H E) R). }
  apply G; [exact inv_init|]. intros t. discriminate.
Qed.
Lemma run_app s a b s1 : run s a = Some s1 -> run s (a ++ b) = run s1 b.
Proof. revert s. induction a as [|e a IH]; intros s; cbn; [now injection 1 as <-|]. destruct (step s e); [apply IH|discriminate]. Qed.
Lemma ends es s : after es s -> t_pc (s_thread s 0) <> HServe -> exists es' s', forallb inner es' = true /\ run s es' = Some s' /\ handler_returned s'.
Proof.
  intros A NS. pose proof (after_inv _ _ A) as I. pose proof (h_first s I) as (C0 & L0 & _).
  destruct (free s I (after_held _ _ A)) as (e1 & s1 & N1 & R1 & M1 & NT & C1 & P1).
  pose proof (run_inv _ _ _ I R1) as I1. rewrite C0 in C1.
  assert (D : t_pc (s_thread s1 0) = CStart \/ exists r, t_pc (s_thread s1 0) = Done r).
  { destruct P1 as [P1|P1]; [|auto]. pose proof (h_call s1 I1 0) as O. rewrite C1 in O. pose proof (h_mu s1 I1 0) as HM. rewrite M1 in HM.
    destruct (t_pc (s_thread s1 0)) eqn:Q; try discriminate O; try (discriminate (HM eq_refl)); eauto. now elim NS. }
  destruct D as [D|[r D]].
  2: { exists e1, s1. split; [exact N1|]. split; [exact R1|]. exists r. split; [split; [lia|exact C1]|exact D]. }
  assert (L1 : (0 <? s_nt s1) = true) by (apply Nat.ltb_lt; lia).
  destruct (s_closed s1) eqn:CL.
  - exists (e1 ++ [EStep 0]). eexists. split; [rewrite forallb_app, N1; reflexivity|]. rewrite (run_app _ _ _ _ R1). cbn [run step]. rewrite L1. unfold stepT. rewrite D, M1, CL.
    split; [reflexivity|]. exists (s_cerr s1). split; [split; [cbn; lia|exact C1]|reflexivity].
  - exists (e1 ++ [EStep 0; EClosed 0 true]). eexists. split; [rewrite forallb_app, N1; reflexivity|]. rewrite (run_app _ _ _ _ R1). cbn [run step]. rewrite L1. unfold stepT. rewrite D, M1, CL.
    cbn [to withMu withClosed s_nt s_thread t_pc Nat.eqb t_call]. rewrite L1. split; [reflexivity|]. exists ROk. split; [split; [cbn; lia|exact C1]|reflexivity].
Qed.

(** ** A Write that is not taken holds up Close *)
Definition touches (u : nat) (e : event) : bool := match e with EPut t _ => t =? u | EFail t => t =? u | _ => false end.
Definition Stuck (u t : nat) (s : st) : Prop :=
  s_mu s = Some u /\ u < s_nt s /\ t < s_nt s /\ (exists n p, t_call (s_thread s u) = Write p /\ t_pc (s_thread s u) = WIn n /\ n < length p) /\ t_pc (s_thread s t) = CStart.
Lemma step_stuck u t s e s' : Inv s -> Stuck u t s -> touches u e = false -> step s e = Some s' -> Stuck u t s'.
Proof.
  intros I (MU & LU & LT & (n & p & C & P & LN) & Q) T H.
  assert (UT : u <> t) by congruence.
  assert (ON : forall v, holds (t_pc (s_thread s v)) = true -> v = u) by (intros v HV; apply (h_mu s I) in HV; congruence).
  assert (G : forall v q, v <> u -> v <> t -> Stuck u t (to v q s)).
  { intros v q D1 D2. split; [exact MU|]. cbn. split; [lia|]. split; [lia|]. destruct (Nat.eqb_spec u v); [congruence|]. destruct (Nat.eqb_spec t v); [congruence|]. eauto 6. }
  unfold step, stepT in H. destruct e as [c|v|v k|v|v ok|v ok|v]; cbn [touches] in T.
  - destruct c; try discriminate H; injection H as <-; (split; [exact MU|]); cbn; (split; [lia|]); (split; [lia|]);
      (destruct (Nat.eqb_spec u (s_nt s)); [lia|]); (destruct (Nat.eqb_spec t (s_nt s)); [lia|]); eauto 6.
  - destruct (v <? s_nt s); [|discriminate]. rewrite MU in H.
    destruct (Nat.eq_dec v u) as [->|D1]; [rewrite P, C in H; cbn [payload] in H; destruct (Nat.leb_spec (length p) n); [lia|discriminate]|].
    destruct (t_pc (s_thread s v)) eqn:PV; try discriminate H; elim D1; apply ON; now rewrite PV.
  - destruct (v <? s_nt s); [|discriminate]. destruct (t_pc (s_thread s v)) eqn:PV; try discriminate H. apply Nat.eqb_neq in T. elim T; apply ON; now rewrite PV.
  - destruct (v <? s_nt s); [|discriminate]. destruct (t_pc (s_thread s v)) eqn:PV; try discriminate H. apply Nat.eqb_neq in T. elim T; apply ON; now rewrite PV.
  - destruct (v <? s_nt s); [|discriminate]. destruct (t_pc (s_thread s v)) eqn:PV; try discriminate H. injection H as <-. apply G; congruence.
  - destruct (v <? s_nt s); [|discriminate]. destruct (t_pc (s_thread s v)) eqn:PV; try discriminate H. assert (v = u) by (apply ON; now rewrite PV). congruence.
  - destruct (v <? s_nt s); [|discriminate]. destruct (t_pc (s_thread s v)) eqn:PV; try discriminate H. injection H as <-. apply G; congruence.
Qed.
Lemma run_stuck u t s es s' : Inv s -> Stuck u t s -> forallb (fun e => negb (touches u e)) es = true -> run s es = Some s' -> Stuck u t s'.
Proof.
  revert s. induction es as [|e es IH]; intros s I S F H; cbn [run forallb] in *; [now injection H as <-|].
  apply andb_true_iff in F. destruct F as [F1 F2]. apply negb_true_iff in F1.
  destruct (step s e) as [m|] eqn:E; [|discriminate]. exact (IH m (step_inv _ _ _ I E) (step_stuck _ _ _ _ _ I S F1 E) F2 H).
Qed.

(** ** The order *)
Lemma inv_made s : Inv s -> made_of s (s_body s) (s_log s).
Proof.
  intros I. split; [exact (h_body s I)|]. split; [exact (h_nodup s I)|]. split; [|split].
  - intros t n H. destruct (h_log s I t n H) as (L & (p & C & N) & _). exists p. repeat split; auto.
  - intros t p ((L & C) & D). apply (h_fl s I t p C). auto.
  - intros t p ((L & C) & D) H. apply in_map_iff in H. destruct H as ((t' & n) & E & H). cbn in E. subst t'. now destruct (h_log s I t n H) as (_ & _ & _ & Q).
Qed.
Lemma step_log s e s' : Inv s -> step s e = Some s' -> exists tl, map fst (s_log s') = map fst (s_log s) ++ tl.
Proof.
  intros I H. unfold step, stepT in H. destruct e; cases H; injection H as <-; cbn; try (exists []; now rewrite app_nil_r).
  - rewrite map_app. eexists. reflexivity.
  - match goal with P : t_pc _ = WIn _ |- _ => destruct (h_in s I _ _ P) as (l & E) end. rewrite E, count_last, !map_app. exists []. now rewrite app_nil_r.
Qed.
Lemma run_log s es s' : Inv s -> run s es = Some s' -> exists tl, map fst (s_log s') = map fst (s_log s) ++ tl.
Proof.
  revert s. induction es as [|e es IH]; intros s I H; cbn [run] in H; [injection H as <-; exists []; now rewrite app_nil_r|].
  destruct (step s e) as [m|] eqn:E; [|discriminate]. destruct (step_log _ _ _ I E) as (a & A). destruct (IH m (step_inv _ _ _ I E) H) as (b & B).
  exists (a ++ b). now rewrite B, A, app_assoc.
Qed.
Lemma run_grows s es s' : run s es = Some s' -> exists tl, s_body s' = s_body s ++ tl.
Proof.
  revert s. induction es as [|e es IH]; intros s H; cbn [run] in H; [injection H as <-; exists []; now rewrite app_nil_r|].
  destruct (step s e) as [m|] eqn:E; [|discriminate]. destruct (step_grows _ _ _ E) as (a & A). destruct (IH m H) as (b & B).
  exists (a ++ b). now rewrite B, A, app_assoc.
Qed.
