(** C49, C50: fairness of the balancers and pickers. *)
From Verif.Model Require Import Base Balancer.
From Verif.Proofs Require Import BaseLemmas.
From Coq Require Import Lia.

Section Fair.
Variable A : Type.
Variable eq_dec : forall a b : A, {a = b} + {a <> b}.

(** n consecutive picks with an unchanged list: the counter afterwards and the picks. *)
Fixpoint picks (pick : Z -> list A -> Z * res A) (n : nat) (c : Z) (l : list A) : Z * list (res A) :=
  match n with
  | O => (c, [])
  | S n => let '(c, r) := pick c l in let '(c, rs) := picks pick n c l in (c, r :: rs)
  end.
(** How often x was picked. *)
Definition times (x : A) (rs : list (res A)) : Z :=
  len (filter (fun r => match r with Ok y => if eq_dec x y then true else false | _ => false end) rs).

(** Counting the positions of a window that satisfy a test. *)
Fixpoint cnt (f : Z -> bool) (a : Z) (w : nat) : Z :=
  match w with O => 0 | S w => (if f a then 1 else 0) + cnt f (a + 1) w end.

Lemma len_cons {B} (x : B) l : len (x :: l) = 1 + len l.
Proof. unfold len. cbn [length]. lia. Qed.
Lemma times_cons x r rs : times x (r :: rs) =
  (if match r with Ok y => if eq_dec x y then true else false | _ => false end then 1 else 0) + times x rs.
Proof. unfold times. cbn [filter]. destruct (match r with Ok y => _ | _ => _ end); rewrite ?len_cons; lia. Qed.

(** The picks of a picker that selects position [pos counter]. *)
Lemma times_picks (pick : Z -> list A -> Z * res A) (pos : Z -> res A) l x :
  (forall c, 0 <= c < 2 ^ 64 - 1 -> pick c l = (c + 1, pos c)) ->
  forall w c, 0 <= c -> c + Z.of_nat w <= 2 ^ 64 - 1 ->
  times x (snd (picks pick w c l)) = cnt (fun c => match pos c with Ok y => if eq_dec x y then true else false | _ => false end) c w
  /\ Forall (fun r => exists c, 0 <= c /\ r = pos c) (snd (picks pick w c l)).
Proof.
  intros HP. induction w as [|w IH]; intros c H0 H1; cbn [picks cnt]; [split; [reflexivity|constructor]|].
  rewrite HP by lia. specialize (IH (c + 1) ltac:(lia) ltac:(lia)).
  destruct (picks pick w (c + 1) l) as [c' rs]. cbn [snd] in *. destruct IH as [I1 I2].
  rewrite times_cons, I1. split; [lia|]. constructor; eauto.
Qed.

Lemma cnt_ext f g a w : (forall x, a <= x < a + Z.of_nat w -> f x = g x) -> cnt f a w = cnt g a w.
Proof.
  revert a. induction w as [|w IH]; intros a H; cbn; auto. rewrite H by lia. rewrite IH; auto. intros x Hx. apply H. lia.
Qed.
(** Residues in a window. *)
Definition D (n j x : Z) : Z := (x + n - 1 - j) / n.
Lemma D_step n j x : 0 < n -> 0 <= j < n -> 0 <= x -> D n j (x + 1) = D n j x + (if x mod n =? j then 1 else 0).
Proof.
  intros HN HJ HX. unfold D. pose proof (Z.div_mod x n ltac:(lia)) as E. pose proof (Z.mod_pos_bound x n HN) as B.
  set (q := x / n) in *. set (r := x mod n) in *.
  destruct (Z.eqb_spec r j).
  - replace (x + 1 + n - 1 - j) with ((q + 1) * n) by nia. replace (x + n - 1 - j) with (n - 1 + q * n) by nia.
    rewrite Z.div_mul, Z.div_add, (Z.div_small (n - 1)) by lia. lia.
  - destruct (Z.lt_ge_cases r j).
    + replace (x + 1 + n - 1 - j) with (r + n - j + q * n) by nia. replace (x + n - 1 - j) with (r + n - 1 - j + q * n) by nia.
      rewrite !Z.div_add, !Z.div_small by lia. lia.
    + replace (x + 1 + n - 1 - j) with (r - j + (q + 1) * n) by nia. replace (x + n - 1 - j) with (r - j - 1 + (q + 1) * n) by nia.
      rewrite !Z.div_add, !Z.div_small by lia. lia.
Qed.
Lemma cnt_mod n j w : 0 < n -> 0 <= j < n -> forall a, 0 <= a ->
  cnt (fun x => x mod n =? j) a w = D n j (a + Z.of_nat w) - D n j a.
Proof.
  intros HN HJ. induction w as [|w IH]; intros a HA; cbn [cnt].
  - replace (a + Z.of_nat 0) with a by lia. lia.
  - rewrite IH by lia. rewrite D_step by lia. replace (a + 1 + Z.of_nat w) with (a + Z.of_nat (S w)) by lia. lia.
Qed.
Lemma D_close n j k x : 0 < n -> 0 <= j < n -> 0 <= k < n -> j <= k -> 0 <= D n j x - D n k x <= 1.
Proof.
  intros HN HJ HK H. unfold D.
  assert ((x + n - 1 - k) / n <= (x + n - 1 - j) / n) by (apply Z.div_le_mono; lia).
  assert ((x + n - 1 - j) / n <= (x + n - 1 - k + 1 * n) / n) by (apply Z.div_le_mono; lia).
  rewrite Z.div_add in H1 by lia. lia.
Qed.
Lemma cnt_mod_close n j k w a : 0 < n -> 0 <= j < n -> 0 <= k < n -> 0 <= a ->
  Z.abs (cnt (fun x => x mod n =? j) a w - cnt (fun x => x mod n =? k) a w) <= 1.
Proof.
  intros HN HJ HK HA. rewrite !cnt_mod by auto.
  destruct (Z.le_ge_cases j k).
  - pose proof (D_close n j k a HN HJ HK H). pose proof (D_close n j k (a + Z.of_nat w) HN HJ HK H). lia.
  - pose proof (D_close n k j a HN HK HJ H). pose proof (D_close n k j (a + Z.of_nat w) HN HK HJ H). lia.
Qed.

(** Positions in a list without duplicates. *)
Lemma index_test l x j : NoDup l -> index l j = Ok x -> forall i, 0 <= i < len l ->
  match index l i with Ok y => if eq_dec x y then true else false | _ => false end = (i =? j).
Proof.
  intros ND HJ i HI. destruct (index_ok_ex l i HI) as (y & E). rewrite E.
  apply index_inv in HJ. apply index_inv in E. destruct HJ as [J1 J2], E as [E1 E2].
  destruct (eq_dec x y) as [->|N].
  - symmetry. apply Z.eqb_eq. rewrite <- E2 in J2. apply (proj1 (NoDup_nth_error l) ND) in J2; [lia|].
    apply nth_error_Some. congruence.
  - symmetry. apply Z.eqb_neq. intros ->. congruence.
Qed.
Lemma In_index l (x : A) : In x l -> exists j, 0 <= j < len l /\ index l j = Ok x.
Proof.
  intros H. apply In_nth_error in H. destruct H as [n H]. assert (HL : (n < length l)%nat) by (apply nth_error_Some; congruence).
  exists (Z.of_nat n). split; [unfold len; lia|]. apply index_nth_error; [unfold len; lia|]. now rewrite Nat2Z.id.
Qed.

Lemma rr_fair pick l off :
  (forall c, 0 <= c < 2 ^ 64 - 1 -> pick c l = (c + 1, index l ((c + off) mod len l))) -> 0 <= off -> l <> [] -> NoDup l ->
  forall w c, 0 <= c -> c + Z.of_nat w <= 2 ^ 64 - 1 ->
  Forall (fun r => exists x, r = Ok x /\ In x l) (snd (picks pick w c l)) /\
  forall x y, In x l -> In y l -> Z.abs (times x (snd (picks pick w c l)) - times y (snd (picks pick w c l))) <= 1.
Proof.
  intros HP HO HN ND w c H0 H1.
  assert (LP : 0 < len l) by (destruct l; [congruence|rewrite len_cons; unfold len; lia]).
  split.
  - destruct l as [|x0 l0] eqn:EL; [congruence|]. rewrite <- EL in *.
    destruct (times_picks pick _ l x0 HP w c H0 H1) as [_ F]. eapply Forall_impl; [|exact F].
    intros r (c' & _ & ->). destruct (index_ok_ex l ((c' + off) mod len l)) as (y & E); [apply Z.mod_pos_bound; lia|].
    exists y. split; auto. apply index_inv in E. eapply nth_error_In. apply E.
  - intros x y Hx Hy. destruct (In_index l x Hx) as (jx & Jx & Ex), (In_index l y Hy) as (jy & Jy & Ey).
    assert (T : forall z j, 0 <= j < len l -> index l j = Ok z ->
      times z (snd (picks pick w c l)) = cnt (fun i => i mod len l =? j) (c + off) w).
    { intros z j Hj Ez. destruct (times_picks pick _ l z HP w c H0 H1) as [E _]. rewrite E. clear E.
      assert (SH : forall w a, cnt (fun i => i mod len l =? j) (a + off) w = cnt (fun i => (i + off) mod len l =? j) a w).
      { induction w0 as [|w0 IH]; intros a; cbn [cnt]; auto. rewrite <- IH. do 2 f_equal. lia. }
      rewrite SH. apply cnt_ext. intros i _. apply index_test; auto. apply Z.mod_pos_bound. lia. }
    rewrite (T x jx), (T y jy) by auto. apply cnt_mod_close; auto; lia.
Qed.

(** C49: over any window of picks from an unchanged list, every pick is a member of the
    list and the members are picked equally often, up to one (while the 64-bit counter
    does not wrap around). *)
Theorem C49_round_robin_balancer : forall l w c, l <> [] -> NoDup l -> 0 <= c -> c + Z.of_nat w < 2 ^ 64 ->
  let rs := snd (picks (RoundRobin_Pick A) w c l) in
  Forall (fun r => exists x, r = Ok x /\ In x l) rs /\
  forall x y, In x l -> In y l -> Z.abs (times x rs - times y rs) <= 1.
Proof.
  intros l w c HN ND H0 H1. apply (rr_fair _ l 0); auto; try lia.
  intros c' H. unfold RoundRobin_Pick, Add1. destruct l; [congruence|]. cbn zeta.
  rewrite (Z.mod_small (c' + 1)) by lia. rewrite (Z.mod_small (c' + 1 - 1)) by lia. do 2 f_equal. f_equal. lia.
Qed.
Theorem C49_round_robin_picker : forall l w c, l <> [] -> NoDup l -> 0 <= c -> c + Z.of_nat w < 2 ^ 64 ->
  let rs := snd (picks (RRPicker_Pick A) w c l) in
  Forall (fun r => exists x, r = Ok x /\ In x l) rs /\
  forall x y, In x l -> In y l -> Z.abs (times x rs - times y rs) <= 1.
Proof.
  intros l w c HN ND H0 H1. apply (rr_fair _ l 1); auto; try lia.
  intros c' H. unfold RRPicker_Pick, Add1. destruct l; [congruence|]. cbn zeta.
  rewrite (Z.mod_small (c' + 1)) by lia. reflexivity.
Qed.
(** Members only, whatever the counter; the first element for the first-pickers; and no
    panic for a list that is not empty. *)
Theorem C49_members : forall l c, l <> [] -> 0 <= c < 2 ^ 64 ->
  (exists x, snd (RoundRobin_Pick A c l) = Ok x /\ In x l) /\
  (exists x, snd (RRPicker_Pick A c l) = Ok x /\ In x l) /\
  (exists x, snd (Random_Pick A c l) = Ok x /\ In x l) /\
  (exists x, PickFirst_Pick A l = Ok x /\ nth_error l 0 = Some x).
Proof.
  intros l c HN HC.
  assert (G : forall i, exists x, index l (i mod len l) = Ok x /\ In x l).
  { intros i. assert (LP : 0 < len l) by (destruct l; [congruence|rewrite len_cons; unfold len; lia]).
    destruct (index_ok_ex l (i mod len l)) as (y & E); [apply Z.mod_pos_bound; lia|]. exists y. split; auto.
    apply index_inv in E. eapply nth_error_In. apply E. }
  destruct l as [|x0 l]; [congruence|]. split; [apply G|]. split; [apply G|]. split.
  - unfold Random_Pick. destruct l; [exists x0; cbn; auto|]. apply G.
  - exists x0. auto.
Qed.
Theorem C49_empty : forall c, snd (RoundRobin_Pick A c []) = Err /\ snd (RRPicker_Pick A c []) = Err /\
  snd (Random_Pick A c []) = Err /\ PickFirst_Pick A [] = Err.
Proof. intros. repeat split. Qed.

(** *** C50 *)
Section Weights.
Variable weight : A -> Z.
Hypothesis weight_u32 : forall x, 0 <= weight x < 2 ^ 32.
(** A weight of 0 counts as 1 (as documented). *)
Definition share (x : A) : Z := if weight x =? 0 then 1 else weight x.
Fixpoint shares (l : list A) : Z := match l with [] => 0 | x :: l => share x + shares l end.

Lemma share_pos x : 0 < share x.
Proof. unfold share. destruct (Z.eqb_spec (weight x) 0); specialize (weight_u32 x); lia. Qed.
Lemma shares_nonneg l : 0 <= shares l.
Proof. induction l; cbn; [lia|]. pose proof (share_pos a). lia. Qed.
Lemma totalWeight_shares l : shares l < 2 ^ 64 -> totalWeight A weight l = shares l.
Proof.
  intros H. unfold totalWeight.
  assert (G : forall t, 0 <= t -> t + shares l < 2 ^ 64 -> fold_left (fun t x => (t + eff_weight A weight x) mod 2 ^ 64) l t = t + shares l);
    [|apply G; lia].
  clear H. induction l as [|x l IH]; intros t Ht H; cbn [fold_left shares] in *; [lia|].
  pose proof (share_pos x). pose proof (shares_nonneg l). change (eff_weight A weight x) with (share x).
  rewrite Z.mod_small by lia. rewrite IH by lia. lia.
Qed.

(** The window of a full cycle sees every position once. *)
Lemma cnt_last f a w : cnt f a (S w) = cnt f a w + (if f (a + Z.of_nat w) then 1 else 0).
Proof.
  revert a. induction w as [|w IH]; intros a; cbn [cnt]; [replace (a + Z.of_nat 0) with a by lia; lia|].
  specialize (IH (a + 1)). cbn [cnt] in IH. replace (a + Z.of_nat (S w)) with (a + 1 + Z.of_nat w) by lia. lia.
Qed.
Lemma cnt_cycle f n a : 0 < n -> 0 <= a -> cnt (fun x => f (x mod n)) a (Z.to_nat n) = cnt f 0 (Z.to_nat n).
Proof.
  intros HN HA. pattern a. apply natlike_ind; auto.
  - apply cnt_ext. intros x Hx. now rewrite Z.mod_small by lia.
  - intros b Hb IH. rewrite <- IH. clear IH. unfold Z.succ.
    set (g := fun x => f (x mod n)).
    assert (E : cnt g b (S (Z.to_nat n)) = (if g b then 1 else 0) + cnt g (b + 1) (Z.to_nat n)) by reflexivity.
    rewrite cnt_last in E. assert (g (b + Z.of_nat (Z.to_nat n)) = g b).
    { unfold g. rewrite Z2Nat.id by lia. replace (b + n) with (b + 1 * n) by lia. now rewrite Z.mod_add by lia. }
    rewrite H in E. lia.
Qed.
Definition hits (x : A) (o : option A) : bool := match o with Some y => if eq_dec x y then true else false | None => false end.
Lemma find_pos_other l x cum p : ~ In x l -> hits x (find_pos A weight l cum p) = false.
Proof.
  revert cum. induction l as [|y l IH]; intros cum H; cbn [find_pos]; [reflexivity|].
  destruct (_ <? _); [|apply IH; intros C; apply H; right; auto].
  cbn. destruct (eq_dec x y) as [->|]; auto. exfalso. apply H. left; auto.
Qed.
Lemma cnt_zero f a w : (forall x, a <= x < a + Z.of_nat w -> f x = false) -> cnt f a w = 0.
Proof. revert a. induction w as [|w IH]; intros a H; cbn; auto. rewrite H by lia. rewrite IH; auto. intros x Hx. apply H. lia. Qed.
Lemma cnt_all f a w : (forall x, a <= x < a + Z.of_nat w -> f x = true) -> cnt f a w = Z.of_nat w.
Proof. revert a. induction w as [|w IH]; intros a H; cbn [cnt]; auto. rewrite H by lia. rewrite IH; [lia|]. intros x Hx. apply H. lia. Qed.
Lemma cnt_app f a w w' : cnt f a (w + w') = cnt f a w + cnt f (a + Z.of_nat w) w'.
Proof.
  revert a. induction w as [|w IH]; intros a; cbn [cnt Nat.add].
  - replace (a + Z.of_nat 0) with a by lia. lia.
  - rewrite IH. replace (a + 1 + Z.of_nat w) with (a + Z.of_nat (S w)) by lia. lia.
Qed.
Lemma find_pos_count l x : NoDup l -> forall cum, 0 <= cum -> cum + shares l < 2 ^ 64 ->
  cnt (fun p => hits x (find_pos A weight l cum p)) cum (Z.to_nat (shares l)) = (if in_dec eq_dec x l then share x else 0).
Proof.
  intros ND. induction l as [|y l IH]; intros cum H0 H1; [reflexivity|]. inversion ND; subst.
  pose proof (share_pos y) as SP. pose proof (shares_nonneg l) as SN. cbn [shares] in *.
  rewrite Z2Nat.inj_add by lia. rewrite cnt_app. rewrite Z2Nat.id by lia.
  assert (E1 : cnt (fun p => hits x (find_pos A weight (y :: l) cum p)) cum (Z.to_nat (share y)) =
    if eq_dec x y then share y else 0).
  { rewrite (cnt_ext _ (fun _ => hits x (Some y))).
    - unfold hits. destruct (eq_dec x y).
      + rewrite cnt_all by auto. lia.
      + rewrite cnt_zero by auto. lia.
    - intros p Hp. cbn [find_pos]. change (eff_weight A weight y) with (share y). rewrite Z.mod_small by lia.
      destruct (Z.ltb_spec p (cum + share y)); [reflexivity|lia]. }
  rewrite E1.
  rewrite (cnt_ext _ (fun p => hits x (find_pos A weight l (cum + share y) p))).
  2: { intros p Hp. cbn [find_pos]. change (eff_weight A weight y) with (share y). rewrite Z.mod_small by lia.
       destruct (Z.ltb_spec p (cum + share y)); [lia|reflexivity]. }
  rewrite IH by (auto; lia). cbn [in_dec].
  destruct (eq_dec x y) as [->|N].
  - destruct (in_dec eq_dec y l); [contradiction|]. destruct (in_dec eq_dec y (y :: l)) as [|C]; [lia|exfalso; apply C; left; auto].
  - destruct (in_dec eq_dec x l) as [I|I], (in_dec eq_dec x (y :: l)) as [J|J]; try lia.
    + exfalso. apply J. right; auto.
    + destruct J as [J|J]; [congruence|contradiction].
Qed.

(** Over any full cycle (as many consecutive picks as the weights add up to) every
    connection is picked exactly as often as its weight says. *)
Theorem C50_weighted : forall l c, l <> [] -> NoDup l -> 0 <= c -> c + shares l < 2 ^ 64 ->
  forall x, In x l ->
  times x (snd (picks (Weighted_Pick A weight) (Z.to_nat (shares l)) c l)) = share x.
Proof.
  intros l c HN ND H0 H1 x HX. pose proof (shares_nonneg l) as SN.
  assert (SP : 0 < shares l).
  { destruct l as [|y l]; [congruence|]. cbn. pose proof (share_pos y). pose proof (shares_nonneg l). lia. }
  destruct l as [|x0 l0] eqn:EL; [congruence|]. rewrite <- EL in *.
  set (pos := fun c => match find_pos A weight l 0 (c mod shares l) with Some x => Ok x | None => Ok x0 end).
  assert (HP : forall c, 0 <= c < 2 ^ 64 - 1 -> Weighted_Pick A weight c l = (c + 1, pos c)).
  { intros c' H. unfold Weighted_Pick, Add1. rewrite EL. rewrite <- EL at 1. cbn zeta. rewrite <- EL.
    rewrite totalWeight_shares by lia. destruct (Z.eqb_spec (shares l) 0); [lia|].
    rewrite (Z.mod_small (c' + 1)) by lia. replace (c' + 1 - 1) with c' by lia. rewrite (Z.mod_small c') by lia. reflexivity. }
  destruct (times_picks _ pos l x HP (Z.to_nat (shares l)) c H0 ltac:(lia)) as [E _]. rewrite E. clear E.
  assert (FP : forall l' p cum, 0 <= cum -> cum <= p < cum + shares l' -> cum + shares l' < 2 ^ 64 -> exists y, find_pos A weight l' cum p = Some y).
  { induction l' as [|y l' IH]; intros p cum A1 A2 A3; cbn [shares find_pos] in *; [lia|].
    pose proof (share_pos y). pose proof (shares_nonneg l'). change (eff_weight A weight y) with (share y). rewrite Z.mod_small by lia.
    destruct (Z.ltb_spec p (cum + share y)); [eauto|]. apply IH; lia. }
  rewrite (cnt_ext _ (fun c => (fun p => hits x (find_pos A weight l 0 p)) (c mod shares l))).
  2: { intros i _. unfold pos. destruct (FP l (i mod shares l) 0) as [y Ey]; try lia.
       rewrite Ey. reflexivity. }
  rewrite (cnt_cycle (fun p => hits x (find_pos A weight l 0 p)) (shares l)) by lia. rewrite find_pos_count by (auto; lia). destruct (in_dec eq_dec x l); [auto|contradiction].
Qed.
(** ... and every pick is a member. *)
Theorem C50_weighted_member : forall l c, l <> [] -> 0 <= c < 2 ^ 64 -> shares l < 2 ^ 64 ->
  exists x, snd (Weighted_Pick A weight c l) = Ok x /\ In x l.
Proof.
  intros l c HN HC HS. destruct l as [|x0 l0] eqn:EL; [congruence|]. rewrite <- EL in *.
  unfold Weighted_Pick. rewrite EL. cbn zeta. rewrite <- EL. rewrite totalWeight_shares by lia.
  assert (SP : 0 < shares l). { rewrite EL. cbn. pose proof (share_pos x0). pose proof (shares_nonneg l0). lia. }
  destruct (Z.eqb_spec (shares l) 0); [lia|]. cbn [snd].
  assert (G : forall l' cum p x, find_pos A weight l' cum p = Some x -> In x l').
  { induction l' as [|y l' IH]; intros cum p x; cbn; [discriminate|]. destruct (_ <? _); [intros E; injection E as <-; auto|]. eauto. }
  destruct (find_pos A weight l 0 _) eqn:E; [exists a; eauto|]. exists x0. split; auto. rewrite EL. left; auto.
Qed.
End Weights.

Section Priorities.
Variable priority : A -> Z.
(** The elements of least priority value. *)
Definition best (l : list A) (x : A) : Prop := In x l /\ forall y, In y l -> priority x <= priority y.

Lemma min_spec l : forall x0, (forall y, In y (x0 :: l) -> minPriority A priority x0 l <= priority y) /\
  exists y, In y (x0 :: l) /\ priority y = minPriority A priority x0 l.
Proof.
  unfold minPriority. intros x0.
  assert (G : forall m, (fold_left (fun m x => if priority x <? m then priority x else m) l m <= m) /\
    (forall y, In y l -> fold_left (fun m x => if priority x <? m then priority x else m) l m <= priority y) /\
    (fold_left (fun m x => if priority x <? m then priority x else m) l m = m \/
     exists y, In y l /\ priority y = fold_left (fun m x => if priority x <? m then priority x else m) l m)).
  { induction l as [|x l IH]; intros m; cbn [fold_left].
    - split; [lia|]. split; [intros y []|auto].
    - destruct (IH (if priority x <? m then priority x else m)) as (I1 & I2 & I3).
      destruct (Z.ltb_spec (priority x) m).
      + split; [lia|]. split; [intros y [<-|Hy]; [lia|auto]|]. right. destruct I3 as [I3|(y & Hy & I3)]; [exists x; split; [left; auto|lia]|].
        exists y. split; [right; auto|lia].
      + split; [lia|]. split; [intros y [<-|Hy]; [lia|auto]|]. destruct I3 as [I3|(y & Hy & I3)]; [auto|]. right. exists y. split; [right; auto|lia]. }
  destruct (G (priority x0)) as (G1 & G2 & G3). split.
  - intros y [<-|Hy]; auto.
  - destruct G3 as [G3|(y & Hy & G3)]; [exists x0; split; [left; auto|lia]|exists y; split; [right; auto|lia]].
Qed.
Definition candidates (x0 : A) (l : list A) : list A := filter (fun x => priority x =? minPriority A priority x0 l) (x0 :: l).
Lemma candidates_best x0 l x : In x (candidates x0 l) <-> best (x0 :: l) x.
Proof.
  unfold candidates, best. rewrite filter_In, Z.eqb_eq. destruct (min_spec l x0) as (M1 & y & M2 & M3). split.
  - intros [H ->]. auto.
  - intros [H1 H2]. split; auto. specialize (H2 y M2). specialize (M1 x H1). lia.
Qed.
(** The picker only picks elements of least priority value, each of them equally often up
    to one over any window of picks. *)
Theorem C50_priority : forall l w c, l <> [] -> NoDup l -> 0 <= c -> c + Z.of_nat w < 2 ^ 64 ->
  let rs := snd (picks (Priority_Pick A priority) w c l) in
  Forall (fun r => exists x, r = Ok x /\ best l x) rs /\
  forall x y, best l x -> best l y -> Z.abs (times x rs - times y rs) <= 1.
Proof.
  intros l w c HN ND H0 H1. destruct l as [|x0 l]; [congruence|].
  pose proof (candidates_best x0 l) as CB.
  assert (NDC : NoDup (candidates x0 l)) by (apply NoDup_filter; auto).
  assert (NC : candidates x0 l <> []).
  { destruct (min_spec l x0) as (_ & y & M2 & M3). intros C. assert (I : In y (candidates x0 l)) by (apply filter_In; rewrite Z.eqb_eq; auto).
    rewrite C in I. destruct I. }
  assert (E : forall w c, picks (Priority_Pick A priority) w c (x0 :: l) = picks (RRPicker_Pick A) w c (candidates x0 l)).
  { induction w0 as [|w0 IH]; intros c0; cbn [picks]; [reflexivity|].
    assert (EP : Priority_Pick A priority c0 (x0 :: l) = RRPicker_Pick A c0 (candidates x0 l)).
    { unfold Priority_Pick, RRPicker_Pick. fold (candidates x0 l). destruct (candidates x0 l) eqn:EC; [congruence|]. reflexivity. }
    rewrite EP. destruct (RRPicker_Pick _ _ _). now rewrite IH. }
  rewrite E. destruct (C49_round_robin_picker (candidates x0 l) w c NC NDC H0 H1) as [F1 F2]. split.
  - eapply Forall_impl; [|exact F1]. intros r (x & -> & Hx). exists x. split; auto. now apply CB.
  - intros x y Hx Hy. apply F2; now apply CB.
Qed.
End Priorities.
End Fair.

(** After 2^64 picks the counter wraps around, and a window across that point is not fair
    for a number of connections that is not a power of two. *)
Theorem C49_wrap_around : snd (picks Z (RoundRobin_Pick Z) 2 (2 ^ 64 - 1) [10; 20; 30]) = [Ok 10; Ok 10].
Proof. reflexivity. Qed.
Print Assumptions C49_round_robin_balancer.
Print Assumptions C49_round_robin_picker.
Print Assumptions C49_members.
Print Assumptions C49_empty.
Print Assumptions C49_wrap_around.
Print Assumptions C50_weighted.
Print Assumptions C50_weighted_member.
Print Assumptions C50_priority.

Example demo_round_robin :
  snd (picks Z (RoundRobin_Pick Z) 5 7 [10; 20; 30]) = [Ok 20; Ok 30; Ok 10; Ok 20; Ok 30] /\ NoDup [10; 20; 30].
Proof. split; [reflexivity|]. repeat constructor; cbn; lia. Qed.
Example demo_weighted :
  let weight := fun x => if x =? 10 then 3 else if x =? 20 then 0 else 2 in
  shares Z weight [10; 20; 30] = 6 /\
  snd (picks Z (Weighted_Pick Z weight) 6 4 [10; 20; 30]) = [Ok 30; Ok 30; Ok 10; Ok 10; Ok 10; Ok 20].
Proof. split; reflexivity. Qed.
Example demo_priority :
  let priority := fun x => x / 10 in best Z priority [20; 11; 15; 30; 12] 15 /\
  snd (picks Z (Priority_Pick Z priority) 4 0 [20; 11; 15; 30; 12]) = [Ok 15; Ok 12; Ok 11; Ok 15].
Proof.
  split; [|reflexivity]. split; [cbn; tauto|]. intros y Hy. cbn in Hy. change (15 / 10) with 1.
  repeat destruct Hy as [<-|Hy]; try (vm_compute; congruence).
Qed.
