(** What went into the requests. *)
From Coq Require Import ZArith List Bool Lia.
Import ListNotations.
From Verif.Model Require Import Base HttpClient.
From Verif.Spec Require Import HttpClient.
From Verif.Proofs Require Import HttpClient.
Local Open Scope nat_scope.

Definition logged (p : pc) (k : nat) : Prop := match p with WIn k' _ _ => k' = k | Done ROk | Done RFail => True | _ => False end.
Definition plain (p : pc) : bool := match p with WIn _ _ _ | Done _ => false | _ => true end.
Record Dat (s : st) : Prop := {
  d_new : forall k, c_np s <= k -> p_log (c_pipes s k) = [] /\ p_wire (c_pipes s k) = [] /\ p_wr (c_pipes s k) = None;
  d_wr : forall t k n b, t_pc (c_thread s t) = WIn k n b -> p_wr (c_pipes s k) = Some t;
  d_in : forall t k n b, t_pc (c_thread s t) = WIn k n b -> exists l, p_log (c_pipes s k) = l ++ [(t, n)];
  d_once : forall t k n, t_pc (c_thread s t) = WIn k n true -> exists q, q < c_nq s /\ r_pipe (c_reqs s q) = Some k;
  d_log : forall t n k, In (t, n) (p_log (c_pipes s k)) -> t < c_nt s /\ (exists d, t_call (c_thread s t) = Write d /\ n <= length d) /\ logged (t_pc (c_thread s t)) k;
  d_nodup : forall k, NoDup (map fst (p_log (c_pipes s k)));
  d_disj : forall t k k', In t (map fst (p_log (c_pipes s k))) -> In t (map fst (p_log (c_pipes s k'))) -> k = k';
  d_body : forall k, p_wire (c_pipes s k) = parts s (p_log (c_pipes s k));
  d_ok : forall t d, t_call (c_thread s t) = Write d -> t_pc (c_thread s t) = Done ROk ->
           exists k q, In (t, length d) (p_log (c_pipes s k)) /\ q < c_nq s /\ r_pipe (c_reqs s q) = Some k }.
Lemma dat_init : Dat init.
Proof. constructor; cbn; intros; try discriminate; try contradiction; auto. constructor. Qed.
Lemma parts_ext s s' l : (forall t n, In (t, n) l -> t_call (c_thread s' t) = t_call (c_thread s t)) -> parts s' l = parts s l.
Proof. unfold parts, data. intros E. f_equal. apply map_ext_in. intros [t n] I. cbn. now rewrite (E t n I). Qed.
Lemma parts_app s a b : parts s (a ++ b) = parts s a ++ parts s b.
Proof. unfold parts. now rewrite map_app, concat_app. Qed.
Lemma count_last n l t m : count n (l ++ [(t, m)]) = l ++ [(t, n)].
Proof. unfold count. rewrite rev_app_distr. cbn. now rewrite rev_involutive. Qed.
Lemma firstn_step {A} (d : list A) n k : n <= length d -> firstn n d ++ firstn k (skipn n d) = firstn (n + length (firstn k (skipn n d))) d.
Proof.
  intros L. revert n L. induction d as [|a d IH]; intros n L; [now rewrite skipn_nil, firstn_nil, !firstn_nil|].
  destruct n; cbn.
  - destruct k; [reflexivity|]. cbn. f_equal. symmetry. clear. revert k. induction d; intros [|k]; cbn; auto. now rewrite IHd.
  - f_equal. apply IH. cbn in L. lia.
Qed.
Lemma in_fst {A B} (x : A) (l : list (A * B)) : In x (map fst l) <-> exists y, In (x, y) l.
Proof.
  rewrite in_map_iff. split; [intros ((a & b) & <- & I); eauto|]. intros (y & I). exists (x, y). auto.
Qed.

(** Nothing is written, and the calls that moved are not in the log. *)
Definition sameLog (a b : pipe) : Prop := p_log a = p_log b /\ p_wire a = p_wire b /\ p_wr a = p_wr b.
Lemma dat_frame s s' : Dat s -> c_np s <= c_np s' -> (forall k, sameLog (c_pipes s' k) (c_pipes s k)) ->
  c_nq s <= c_nq s' -> (forall q, q < c_nq s -> r_pipe (c_reqs s' q) = r_pipe (c_reqs s q)) -> c_nt s <= c_nt s' ->
  (forall t, c_thread s' t = c_thread s t \/
     ((t < c_nt s -> t_call (c_thread s' t) = t_call (c_thread s t) /\ plain (t_pc (c_thread s t)) = true) /\
      (forall k n b, t_pc (c_thread s' t) <> WIn k n b) /\ (t_pc (c_thread s' t) = Done ROk -> forall d, t_call (c_thread s' t) <> Write d))) -> Dat s'.
Proof.
  intros [D1 D2 D3 D4 D5 D6 D7 D8 D9] NP PL NQ RQ NT TH.
  assert (LG : forall k, p_log (c_pipes s' k) = p_log (c_pipes s k)) by (intros k; apply PL).
  assert (WR : forall k, p_wr (c_pipes s' k) = p_wr (c_pipes s k)) by (intros k; apply PL).
  assert (WI : forall t k n b, t_pc (c_thread s' t) = WIn k n b -> t_pc (c_thread s t) = WIn k n b).
  { intros t k n b H. destruct (TH t) as [E|(_ & N & _)]; [now rewrite E in H|]. now apply N in H. }
  assert (LK : forall t n k, In (t, n) (p_log (c_pipes s k)) -> c_thread s' t = c_thread s t).
  { intros t n k H. destruct (D5 t n k H) as (L & _ & LO). destruct (TH t) as [E|(E & _ & _)]; [exact E|]. destruct (E L) as [_ PT].
    destruct (t_pc (c_thread s t)); try discriminate PT; contradiction. }
  constructor.
  - intros k L. destruct (PL k) as (-> & -> & ->). apply D1. lia.
  - intros t k n b H. rewrite WR. eauto.
  - intros t k n b H. rewrite LG. eauto.
  - intros t k n H. apply WI in H. destruct (D4 _ _ _ H) as (q & L & Q). exists q. rewrite RQ by exact L. split; [lia|exact Q].
  - intros t n k H. rewrite LG in H. rewrite (LK t n k H). destruct (D5 t n k H) as (L & R). split; [lia|exact R].
  - intros k. rewrite LG. apply D6.
  - intros t k k'. rewrite !LG. apply D7.
  - intros k. destruct (PL k) as (-> & -> & _). rewrite D8. symmetry. apply parts_ext. intros t n H. now rewrite (LK t n k H).
  - intros t d C P. destruct (TH t) as [E|(_ & _ & N)]; [|now elim (N P d)]. rewrite E in C, P. destruct (D9 t d C P) as (k & q & I & L & R).
    exists k, q. rewrite LG, RQ by exact L. repeat split; auto. lia.
Qed.
Lemma dat_lock s t k d : Dat s -> t < c_nt s -> k < c_np s -> t_call (c_thread s t) = Write d -> t_pc (c_thread s t) = WLock k -> p_wr (c_pipes s k) = None ->
  Dat (to t (WIn k 0 false) (withPipe k (mkPipe (p_open (c_pipes s k)) (Some t) (p_wire (c_pipes s k)) (p_log (c_pipes s k) ++ [(t, 0)])) s)).
Proof.
  intros I L LK C P W. set (s' := to _ _ _).
  assert (TC : forall u, t_call (c_thread s' u) = t_call (c_thread s u)) by (intros u; cbn; up; reflexivity).
  assert (TP : t_pc (c_thread s' t) = WIn k 0 false) by (cbn; now rewrite upd_same).
  assert (TO : forall u, u <> t -> c_thread s' u = c_thread s u) by (intros u D; cbn; now rewrite upd_other).
  assert (PK : p_log (c_pipes s' k) = p_log (c_pipes s k) ++ [(t, 0)] /\ p_wire (c_pipes s' k) = p_wire (c_pipes s k) /\ p_wr (c_pipes s' k) = Some t) by (cbn; rewrite upd_same; auto).
  assert (PO : forall j, j <> k -> c_pipes s' j = c_pipes s j) by (intros j D; cbn; now rewrite upd_other).
  destruct PK as (PK1 & PK2 & PK3). destruct I as [D1 D2 D3 D4 D5 D6 D7 D8 D9].
  assert (NT : forall j n, ~ In (t, n) (p_log (c_pipes s j))) by (intros j n H; destruct (D5 t n j H) as (_ & _ & Q); rewrite P in Q; exact Q).
  assert (NW : forall u n b, t_pc (c_thread s u) <> WIn k n b) by (intros u n b H; apply D2 in H; congruence).
  constructor.
  - intros j H. change (c_np s <= j) in H. rewrite PO by lia. apply D1. lia.
  - intros u j n b H. destruct (Nat.eq_dec u t) as [->|D].
    + rewrite TP in H. injection H as <- <- <-. exact PK3.
    + rewrite (TO u D) in H. destruct (Nat.eq_dec j k) as [->|DJ]; [now apply NW in H|]. rewrite (PO j DJ). eauto.
  - intros u j n b H. destruct (Nat.eq_dec u t) as [->|D].
    + rewrite TP in H. injection H as <- <- <-. rewrite PK1. eauto.
    + rewrite (TO u D) in H. destruct (Nat.eq_dec j k) as [->|DJ]; [now apply NW in H|]. rewrite (PO j DJ). eauto.
  - intros u j n H. destruct (Nat.eq_dec u t) as [->|D]; [rewrite TP in H; discriminate|]. rewrite (TO u D) in H. exact (D4 _ _ _ H).
  - intros u n j H. destruct (Nat.eq_dec j k) as [->|DJ].
    + rewrite PK1 in H. apply in_app_or in H. destruct H as [H|[H|[]]].
      * assert (u <> t) by (intros ->; now apply NT in H). rewrite (TO u) by assumption. exact (D5 _ _ _ H).
      * injection H as <- <-. split; [exact L|]. rewrite TC, TP. split; [exists d; split; [exact C|lia]|reflexivity].
    + rewrite (PO j DJ) in H. assert (u <> t) by (intros ->; now apply NT in H). rewrite (TO u) by assumption. exact (D5 _ _ _ H).
  - intros j. destruct (Nat.eq_dec j k) as [->|DJ]; [|rewrite (PO j DJ); apply D6]. rewrite PK1, map_app. cbn.
    clear - NT D6. specialize (D6 k). specialize (NT k).
    induction (p_log (c_pipes s k)) as [|[a b] l IH]; cbn; [constructor; [intros []|constructor]|]. inversion D6; subst. constructor.
    + intros Q. apply in_app_or in Q. destruct Q as [Q|[Q|[]]]; [contradiction|]. subst a. apply (NT b). now left.
    + apply IH; [assumption|]. intros n Q. apply (NT n). now right.
  - intros u j j' H H'. destruct (Nat.eq_dec j k) as [->|DJ], (Nat.eq_dec j' k) as [->|DJ']; auto.
    + rewrite PK1, map_app in H. apply in_app_or in H. rewrite (PO j' DJ') in H'. destruct H as [H|[H|[]]]; [exact (D7 u k j' H H')|]. cbn in H. subst u. apply in_fst in H'. destruct H' as (n & H'). now apply NT in H'.
    + rewrite PK1, map_app in H'. apply in_app_or in H'. rewrite (PO j DJ) in H. destruct H' as [H'|[H'|[]]]; [exact (D7 u j k H H')|]. cbn in H'. subst u. apply in_fst in H. destruct H as (n & H). now apply NT in H.
    + rewrite PO in H, H' by assumption. exact (D7 u j j' H H').
  - intros j. rewrite (parts_ext s s') by (intros; apply TC). destruct (Nat.eq_dec j k) as [->|DJ]; [|rewrite (PO j DJ); apply D8]. rewrite PK1, PK2, parts_app, D8. cbn. now rewrite app_nil_r.
  - intros u e CU PU. destruct (Nat.eq_dec u t) as [->|D]; [rewrite TP in PU; discriminate|]. rewrite (TO u D) in CU, PU. destruct (D9 u e CU PU) as (j & q & H & Q).
    exists j, q. split; [|exact Q]. destruct (Nat.eq_dec j k) as [->|DJ]; [rewrite PK1; apply in_or_app; auto|now rewrite (PO j DJ)].
Qed.
Lemma dat_end s t k n b d r : Dat s -> t < c_nt s -> t_call (c_thread s t) = Write d -> t_pc (c_thread s t) = WIn k n b ->
  (r = ROk /\ b = true /\ length d <= n) \/ r = RFail ->
  Dat (to t (Done r) (withPipe k (mkPipe (p_open (c_pipes s k)) None (p_wire (c_pipes s k)) (p_log (c_pipes s k))) s)).
Proof.
  intros I L C P RR. set (s' := to _ _ _).
  assert (TC : forall u, t_call (c_thread s' u) = t_call (c_thread s u)) by (intros u; cbn; up; reflexivity).
  assert (TP : t_pc (c_thread s' t) = Done r) by (cbn; now rewrite upd_same).
  assert (TO : forall u, u <> t -> c_thread s' u = c_thread s u) by (intros u D; cbn; now rewrite upd_other).
  assert (LG : forall j, p_log (c_pipes s' j) = p_log (c_pipes s j) /\ p_wire (c_pipes s' j) = p_wire (c_pipes s j)) by (intros j; cbn; up; auto).
  assert (PO : forall j, j <> k -> c_pipes s' j = c_pipes s j) by (intros j D; cbn; now rewrite upd_other).
  destruct I as [D1 D2 D3 D4 D5 D6 D7 D8 D9].
  assert (NW : forall u m c, u <> t -> t_pc (c_thread s u) <> WIn k m c) by (intros u m c D H; apply D2 in H; apply D2 in P; congruence).
  constructor.
  - intros j H. cbn in H. destruct (LG j) as [-> ->]. destruct (D1 j H) as (A1 & A2 & A3). repeat split; auto. cbn. up; auto.
  - intros u j m c H. destruct (Nat.eq_dec u t) as [->|D]; [rewrite TP in H; discriminate|]. rewrite (TO u D) in H.
    destruct (Nat.eq_dec j k) as [->|DJ]; [now apply NW in H|]. rewrite (PO j DJ). eauto.
  - intros u j m c H. destruct (Nat.eq_dec u t) as [->|D]; [rewrite TP in H; discriminate|]. rewrite (TO u D) in H. destruct (LG j) as [-> _]. eauto.
  - intros u j m H. destruct (Nat.eq_dec u t) as [->|D]; [rewrite TP in H; discriminate|]. rewrite (TO u D) in H. exact (D4 _ _ _ H).
  - intros u m j H. destruct (LG j) as [E _]. rewrite E in H. destruct (D5 u m j H) as (A1 & A2 & A3). split; [exact A1|]. rewrite TC. split; [exact A2|].
    destruct (Nat.eq_dec u t) as [->|D]; [rewrite TP; destruct RR as [(-> & _)| ->]; exact Logic.I|]. now rewrite (TO u D).
  - intros j. destruct (LG j) as [-> _]. apply D6.
  - intros u j j'. destruct (LG j) as [-> _], (LG j') as [-> _]. apply D7.
  - intros j. rewrite (parts_ext s s') by (intros; apply TC). destruct (LG j) as [-> ->]. apply D8.
  - intros u e CU PU. rewrite TC in CU. destruct (Nat.eq_dec u t) as [->|D].
    + rewrite TP in PU. injection PU as ->. destruct RR as [(_ & -> & LE)|RR]; [|discriminate]. rewrite C in CU. injection CU as ->.
      destruct (D4 _ _ _ P) as (q & Q1 & Q2). destruct (D3 _ _ _ _ P) as (l & E). exists k, q. destruct (LG k) as [-> _]. split; [|split; [exact Q1|exact Q2]].
      assert (H : In (t, n) (p_log (c_pipes s k))) by (rewrite E; apply in_or_app; right; now left).
      destruct (D5 _ _ _ H) as (_ & (e' & E1 & E2) & _). rewrite C in E1. injection E1 as <-. now replace (length e) with n by lia.
    + rewrite (TO u D) in PU. destruct (D9 u e CU PU) as (j & q & H & Q). exists j, q. destruct (LG j) as [-> _]. split; [exact H|exact Q].
Qed.
Lemma dat_take s t q k n b d m r : Dat s -> t < c_nt s -> t_call (c_thread s t) = Write d -> t_pc (c_thread s t) = WIn k n b -> q < c_nq s -> r_pipe (c_reqs s q) = Some k -> r_pipe r = Some k ->
  let chunk := firstn m (skipn n d) in
  Dat (to t (WIn k (n + length chunk) true) (withReq q r
     (withPipe k (mkPipe (p_open (c_pipes s k)) (p_wr (c_pipes s k)) (p_wire (c_pipes s k) ++ chunk) (count (n + length chunk) (p_log (c_pipes s k)))) s))).
Proof.
  intros I L C P LQ RQ RP chunk. set (n' := n + length chunk). set (s' := to _ _ _).
  assert (TC : forall u, t_call (c_thread s' u) = t_call (c_thread s u)) by (intros u; cbn; up; reflexivity).
  assert (TP : t_pc (c_thread s' t) = WIn k n' true) by (cbn; now rewrite upd_same).
  assert (TO : forall u, u <> t -> c_thread s' u = c_thread s u) by (intros u D; cbn; now rewrite upd_other).
  assert (RE : forall x, r_pipe (c_reqs s' x) = r_pipe (c_reqs s x)) by (intros x; cbn; up; congruence).
  destruct (d_in s I _ _ _ _ P) as (l & LE).
  assert (PK : p_log (c_pipes s' k) = l ++ [(t, n')] /\ p_wire (c_pipes s' k) = p_wire (c_pipes s k) ++ chunk) by (cbn; rewrite upd_same; cbn; now rewrite LE, count_last).
  assert (WR : forall j, p_wr (c_pipes s' j) = p_wr (c_pipes s j)) by (intros j; cbn; up; reflexivity).
  assert (PO : forall j, j <> k -> c_pipes s' j = c_pipes s j) by (intros j D; cbn; now rewrite upd_other).
  assert (MF : forall j, map fst (p_log (c_pipes s' j)) = map fst (p_log (c_pipes s j))).
  { intros j. destruct (Nat.eq_dec j k) as [->|D]; [|now rewrite (PO j D)]. destruct PK as [-> _]. now rewrite LE, !map_app. }
  destruct PK as (PK1 & PK2). destruct I as [D1 D2 D3 D4 D5 D6 D7 D8 D9].
  assert (LN : n <= length d).
  { assert (H : In (t, n) (p_log (c_pipes s k))) by (rewrite LE; apply in_or_app; right; now left). destruct (D5 _ _ _ H) as (_ & (e' & E1 & E2) & _). congruence. }
  assert (NT : forall x, ~ In (t, x) l).
  { intros x H. pose proof (D6 k) as N. rewrite LE, map_app in N. cbn in N. apply NoDup_remove_2 in N. apply N. rewrite app_nil_r. apply in_fst. eauto. }
  assert (KN : k < c_np s) by (destruct (Nat.lt_ge_cases k (c_np s)) as [X|X]; [exact X|]; destruct (D1 k X) as (E & _); rewrite E in LE; destruct l; discriminate LE).
  constructor.
  - intros j H. change (c_np s <= j) in H. rewrite PO by lia. apply D1. lia.
  - intros u j m' c H. rewrite WR. destruct (Nat.eq_dec u t) as [->|D]; [rewrite TP in H; injection H as <- <- <-; eauto|]. rewrite (TO u D) in H. eauto.
  - intros u j m' c H. destruct (Nat.eq_dec u t) as [->|D]; [rewrite TP in H; injection H as <- <- <-; rewrite PK1; eauto|]. rewrite (TO u D) in H.
    destruct (Nat.eq_dec j k) as [->|DJ]; [apply D2 in H; apply D2 in P; congruence|]. rewrite (PO j DJ). eauto.
  - intros u j m' H. destruct (Nat.eq_dec u t) as [->|D].
    + rewrite TP in H. injection H as <- _. exists q. rewrite RE. auto.
    + rewrite (TO u D) in H. destruct (D4 _ _ _ H) as (x & X1 & X2). exists x. rewrite RE. auto.
  - intros u m' j H. destruct (Nat.eq_dec j k) as [->|DJ].
    + rewrite PK1 in H. apply in_app_or in H. destruct H as [H|[H|[]]].
      * assert (u <> t) by (intros ->; now apply NT in H). rewrite (TO u) by assumption. apply D5. rewrite LE. apply in_or_app. auto.
      * injection H as <- <-. split; [exact L|]. rewrite TC, TP. split; [|reflexivity]. exists d. split; [exact C|]. unfold n', chunk. rewrite firstn_length, skipn_length. lia.
    + rewrite (PO j DJ) in H. assert (u <> t).
      { intros ->. apply DJ. apply (D7 t j k); apply in_fst; [eauto|]. exists n. rewrite LE. apply in_or_app. right. now left. }
      rewrite (TO u) by assumption. exact (D5 _ _ _ H).
  - intros j. rewrite MF. apply D6.
  - intros u j j'. rewrite !MF. apply D7.
  - intros j. rewrite (parts_ext s s') by (intros; apply TC). destruct (Nat.eq_dec j k) as [->|DJ]; [|rewrite (PO j DJ); apply D8].
    rewrite PK1, PK2, D8, LE, !parts_app, <- app_assoc. f_equal. unfold parts, data. cbn. rewrite C. cbn. rewrite !app_nil_r. apply firstn_step. exact LN.
  - intros u e CU PU. rewrite TC in CU. destruct (Nat.eq_dec u t) as [->|D]; [rewrite TP in PU; discriminate|]. rewrite (TO u D) in PU. destruct (D9 u e CU PU) as (j & x & H & Q1 & Q2).
    exists j, x. rewrite RE. split; [|auto]. destruct (Nat.eq_dec j k) as [->|DJ]; [|now rewrite (PO j DJ)]. rewrite PK1. rewrite LE in H. apply in_app_or in H. apply in_or_app.
    destruct H as [H|[H|[]]]; [auto|]. injection H as <- _. contradiction.
Qed.
Lemma shut_same p : sameLog (shut p) p.
Proof. repeat split. Qed.
Lemma same_refl p : sameLog p p.
Proof. repeat split. Qed.
Lemma cleanup_same s k : sameLog (c_pipes (cleanup s) k) (c_pipes s k).
Proof. cbn. destruct (c_pipe s); [|apply same_refl]. up; [apply shut_same|apply same_refl]. Qed.
Lemma cleanup_req s q : r_pipe (c_reqs (cleanup s) q) = r_pipe (c_reqs s q).
Proof. cbn. destruct (c_resp s); [|reflexivity]. up; reflexivity. Qed.
Definition Inv s := Ctl s /\ Dat s.
Ltac moved t := intros u; cbn; destruct (Nat.eq_dec u t) as [->|NE]; [right; rewrite upd_same; cbn|left; now rewrite upd_other].
Ltac frame D t := apply (dat_frame _ _ D); cbn; auto; try (intros; apply same_refl); try (intros; apply cleanup_same); try (intros; apply cleanup_req); try (moved t).
Lemma step_dat s e s' : Ctl s -> Dat s -> step s e = Some s' -> Dat s'.
Proof.
  intros I D H. unfold step in H. destruct (c_panic s) eqn:PA; [discriminate|]. destruct e as [c|t|t|t|t q k|q ok|q|q|k|t ok].
  - injection H as <-. frame D (c_nt s). split; [lia|]. split; [destruct c; discriminate|]. destruct c; discriminate.
  - destruct (t <? c_nt s) eqn:L; [|discriminate]. apply Nat.ltb_lt in L. unfold stepT in H. okof s I t. ppof s I t.
    destruct (t_pc (c_thread s t)) as [| |q|q c| | | |q| |p|p|p n once| |q| |r] eqn:P; cbn [pcPipe pcReq] in *; try discriminate H;
      destruct (t_call (c_thread s t)) eqn:CT; try discriminate O.
    + injection H as <-. destruct (c_closed s) eqn:CL; frame D t.
      * split; [intros _; rewrite P; auto|]. split; discriminate.
      * intros k. unfold upd at 1. destruct (Nat.eqb_spec k (c_np s)) as [->|NE]; [|apply (cleanup_same s k)].
        unfold sameLog. destruct (d_new s D (c_np s) (le_n _)) as (-> & -> & ->). repeat split.
      * split; [intros _; rewrite P; auto|]. split; discriminate.
    + injection H as <-. frame D t.
      * intros q LQ. rewrite upd_other by lia. reflexivity.
      * split; [intros _; rewrite P; auto|]. split; discriminate.
    + injection H as <-. frame D t. split; [intros _; rewrite P; auto|]. split; discriminate.
    + injection H as <-. frame D t. split; [intros _; rewrite P; auto|]. split; discriminate.
    + injection H as <-. frame D t. split; [intros _; rewrite P; auto|]. split; [discriminate|rewrite CT; discriminate].
    + injection H as <-. frame D t. split; [intros _; rewrite P; auto|]. split; discriminate.
    + injection H as <-. frame D t. split; [intros _; rewrite P; auto|]. split; [discriminate|rewrite CT; discriminate].
    + cases H; injection H as <-; try (apply (dat_frame _ _ D); cbn; auto; intros; apply same_refl); frame D t; (split; [intros _; rewrite P; auto|]); split; discriminate.
    + injection H as <-. frame D t. split; [intros _; rewrite P; auto|]. destruct (p_open (c_pipes s p)); split; discriminate.
    + cases H. injection H as <-. apply (dat_lock s t p p0); auto.
    + cbn [payload] in H. destruct (once && (length p0 <=? n)) eqn:E.
      * apply andb_true_iff in E. destruct E as [E1 E2]. apply Nat.leb_le in E2. injection H as <-. apply (dat_end s t p n once p0); auto.
      * destruct (p_open (c_pipes s p)) eqn:PO; [discriminate|]. injection H as <-. rewrite <- PO. apply (dat_end s t p n once p0); auto.
    + cases H; injection H as <-; try (apply (dat_frame _ _ D); cbn; auto; intros; apply same_refl); frame D t; (split; [intros _; rewrite P; auto|]); split; discriminate.
    + cases H; injection H as <-. frame D t. split; [intros _; rewrite P; auto|]. split; discriminate.
    + injection H as <-. destruct (c_closed s); frame D t.
      * split; [intros _; rewrite P; auto|]. split; [discriminate|rewrite CT; discriminate].
      * split; [intros _; rewrite P; auto|]. split; [discriminate|rewrite CT; discriminate].
  - okof s I t. destruct (t_pc (c_thread s t)) eqn:P; try discriminate H. cases H. injection H as <-. frame D t. split; [intros _; rewrite P; auto|]. split; discriminate.
  - okof s I t. destruct (t_pc (c_thread s t)) eqn:P; try discriminate H. destruct (r_state (c_reqs s q)); try discriminate H; injection H as <-; frame D t;
      try (split; [intros _; rewrite P; auto|]; split; discriminate).
    intros x _. up; reflexivity.
  - assert (LT := pc_lt s t I). okof s I t. destruct (t_pc (c_thread s t)) eqn:P; try discriminate H. destruct (t_call (c_thread s t)) eqn:CT; try discriminate O.
    specialize (LT ltac:(discriminate)). destruct (r_pipe (c_reqs s q)) as [p'|] eqn:RP; [|discriminate]. cbn [payload] in H.
    destruct ((q <? c_nq s) && (p' =? p) && p_open (c_pipes s p) && (negb once || (n <? length p0))) eqn:B; [|discriminate].
    apply andb_true_iff in B. destruct B as [B _]. apply andb_true_iff in B. destruct B as [B _]. apply andb_true_iff in B. destruct B as [B1 B2].
    apply Nat.ltb_lt in B1. apply Nat.eqb_eq in B2. subst p'. injection H as <-. apply (dat_take s t q p n once p0 k); auto.
  - cases H; injection H as <-; (apply (dat_frame _ _ D); cbn; auto; [intros; apply same_refl|intros x _; up; reflexivity]).
  - cases H; injection H as <-; (apply (dat_frame _ _ D); cbn; auto; [intros; apply same_refl|intros x _; up; reflexivity]).
  - destruct (q <? c_nq s); [|discriminate]. destruct (r_pipe (c_reqs s q)); injection H as <-; apply (dat_frame _ _ D); cbn; auto; intros; try apply same_refl.
    up; [apply shut_same|apply same_refl].
  - cases H. injection H as <-. apply (dat_frame _ _ D); cbn; auto; intros; apply same_refl.
  - okof s I t. destruct (t_pc (c_thread s t)) eqn:P; try discriminate H. destruct (t_call (c_thread s t)) eqn:CT; try discriminate O. cases H; injection H as <-; frame D t;
      (split; [intros _; rewrite P; auto|]; split; [discriminate|rewrite CT; discriminate]).
Qed.
Lemma step_inv s e s' : Inv s -> step s e = Some s' -> Inv s'.
Proof. intros [I D] H. split; [exact (step_ctl _ _ _ I H)|exact (step_dat _ _ _ I D H)]. Qed.
Lemma run_inv s es s' : Inv s -> run s es = Some s' -> Inv s'.
Proof.
  revert s. induction es as [|e es IH]; intros s I H; cbn [run] in H; [now injection H as <-|].
  destruct (step s e) as [m|] eqn:E; [|discriminate]. exact (IH m (step_inv _ _ _ I E) H).
Qed.
Lemma after_inv es s : after es s -> Inv s.
Proof. apply run_inv. split; [exact ctl_init|exact dat_init]. Qed.
