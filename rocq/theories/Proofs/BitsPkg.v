(** Proofs for C150. *)
From Coq Require Import Lia List.
Import ListNotations.
From Verif.Model Require Import Base BitsPkg.
From Verif.Proofs Require Import BaseLemmas.
Open Scope list_scope. Open Scope Z_scope.

Lemma tb_mod a w i : 0 <= w -> 0 <= i -> Z.testbit (a mod 2 ^ w) i = (i <? w) && Z.testbit a i.
Proof.
  intros W I. destruct (Z.ltb_spec i w).
  - rewrite Z.mod_pow2_bits_low by lia. reflexivity.
  - rewrite Z.mod_pow2_bits_high by lia. reflexivity.
Qed.
Lemma tb_ones n i : 0 <= n -> 0 <= i -> Z.testbit (2 ^ n - 1) i = (i <? n).
Proof.
  intros N I. replace (2 ^ n - 1) with (Z.ones n) by (rewrite Z.ones_equiv; lia). destruct (Z.ltb_spec i n).
  - apply Z.ones_spec_low. lia.
  - apply Z.ones_spec_high. lia.
Qed.
Lemma tb_small a w i : 0 <= a < 2 ^ w -> 0 <= w -> w <= i -> Z.testbit a i = false.
Proof. intros A W I. rewrite <- (Z.mod_small a (2 ^ w)) by lia. rewrite tb_mod by lia. destruct (Z.ltb_spec i w); [lia|reflexivity]. Qed.
Lemma tb_one pos i : 0 <= pos -> 0 <= i -> Z.testbit (Z.shiftl 1 pos) i = (i =? pos).
Proof.
  intros P I. rewrite Z.shiftl_spec by lia. destruct (Z.eqb_spec i pos) as [-> | N].
  - rewrite Z.sub_diag. reflexivity.
  - destruct (Z.ltb_spec i pos); [apply Z.testbit_neg_r; lia|]. change 1 with (2 ^ 1 - 1). rewrite tb_ones by lia. lia.
Qed.
Lemma bits_eq a b : 0 <= a -> 0 <= b -> (forall i, 0 <= i -> Z.testbit a i = Z.testbit b i) -> a = b.
Proof. intros A B H. apply Z.bits_inj'. exact H. Qed.
Lemma in_range a w : 0 <= w -> 0 <= a -> (forall i, w <= i -> Z.testbit a i = false) -> 0 <= a < 2 ^ w.
Proof.
  intros W A H. split; [exact A|]. replace a with (a mod 2 ^ w); [apply Z.mod_pos_bound, Z.pow_pos_nonneg; lia|].
  apply Z.bits_inj'. intros i I. rewrite tb_mod by lia. destruct (Z.ltb_spec i w); [reflexivity|]. rewrite H by lia. reflexivity.
Qed.

Lemma Mask_bits w s e : 0 <= w -> 0 <= s < e -> e <= 64 ->
  exists m, Mask w s e = Ok m /\ 0 <= m < 2 ^ w /\ forall i, 0 <= i -> Z.testbit m i = (s <=? i) && (i <? e) && (i <? w).
Proof.
  intros W S E. unfold Mask. destruct (Z.leb_spec e s); [lia|]. destruct (Z.ltb_spec 64 e); [lia|]. eexists. split; [reflexivity|].
  split; [apply Z.mod_pos_bound, Z.pow_pos_nonneg; lia|]. intros i I. rewrite tb_mod by lia. destruct (Z.eqb_spec (e - s) 64).
  - rewrite tb_ones by lia. destruct (Z.ltb_spec i w), (Z.ltb_spec i 64), (Z.leb_spec s i), (Z.ltb_spec i e); cbn; auto; lia.
  - rewrite tb_mod by lia. rewrite Z.shiftl_spec by lia. destruct (Z.leb_spec s i).
    + rewrite tb_ones by lia. destruct (Z.ltb_spec i w), (Z.ltb_spec i 64), (Z.ltb_spec (i - s) (e - s)), (Z.ltb_spec i e); cbn; auto; lia.
    + rewrite Z.testbit_neg_r by lia. rewrite !andb_false_r. reflexivity.
Qed.
Lemma Mask_panics w s e : e <= s \/ 64 < e -> Mask w s e = Panic.
Proof. intros Q. unfold Mask. destruct (Z.leb_spec e s); [reflexivity|]. destruct (Z.ltb_spec 64 e); [reflexivity|lia]. Qed.

Lemma SetValue_bits w val store s e : 0 <= s < e -> e <= w -> 0 <= store < 2 ^ w -> 0 <= val ->
  exists st, SetValue w val store s e = Ok st /\ 0 <= st < 2 ^ w /\
    forall i, 0 <= i -> Z.testbit st i = Z.testbit store i || ((s <=? i) && (i <? w) && Z.testbit val (i - s)).
Proof.
  intros S E B V. unfold SetValue. destruct (Z.leb_spec e s); [lia|]. eexists. split; [reflexivity|].
  assert (T : forall i, 0 <= i -> Z.testbit (Z.lor store (Z.shiftl (val mod 2 ^ w) s mod 2 ^ w)) i = Z.testbit store i || ((s <=? i) && (i <? w) && Z.testbit val (i - s))).
  { intros i I. rewrite Z.lor_spec, tb_mod by lia. f_equal. rewrite Z.shiftl_spec by lia. destruct (Z.leb_spec s i).
    - rewrite tb_mod by lia. destruct (Z.ltb_spec i w), (Z.ltb_spec (i - s) w); cbn; auto; lia.
    - rewrite Z.testbit_neg_r by lia. rewrite andb_false_r. reflexivity. }
  split; [|exact T]. apply in_range; [lia| |].
  - apply Z.lor_nonneg. split; [lia|]. apply Z.mod_pos_bound, Z.pow_pos_nonneg; lia.
  - intros i I. rewrite T by lia. rewrite (tb_small store w) by lia. destruct (Z.ltb_spec i w); [lia|]. rewrite andb_false_r. reflexivity.
Qed.
Lemma GetValue_range w1 st m s e val : 0 <= w1 -> 0 <= s < e -> 0 <= val < 2 ^ (e - s) ->
  (forall i, 0 <= i -> Z.testbit (Z.land st m) i = (s <=? i) && (i <? e) && Z.testbit val (i - s)) -> GetValue w1 st m s = val mod 2 ^ w1.
Proof.
  intros W S V T. unfold GetValue. f_equal. apply Z.bits_inj'. intros i I. rewrite Z.shiftr_spec by lia. rewrite T by lia.
  replace (i + s - s) with i by lia. destruct (Z.leb_spec s (i + s)); [|lia]. destruct (Z.ltb_spec (i + s) e); [reflexivity|].
  cbn. symmetry. apply (tb_small val (e - s)); lia.
Qed.
Lemma ClearBits_bits w store s e : 0 <= w <= 64 -> 0 <= s < e -> e <= w -> 0 <= store < 2 ^ w ->
  0 <= ClearBits w store s e < 2 ^ w /\ forall i, 0 <= i -> Z.testbit (ClearBits w store s e) i = negb ((s <=? i) && (i <? e)) && Z.testbit store i.
Proof.
  intros W S E B. unfold ClearBits. destruct (Z.leb_spec e s); [lia|].
  set (m := if e - s =? 64 then 2 ^ 64 - 1 else Z.shiftl ((Z.shiftl 1 (e - s) mod 2 ^ 64 - 1) mod 2 ^ 64) s mod 2 ^ 64).
  assert (M : forall i, 0 <= i -> Z.testbit (m mod 2 ^ w) i = (s <=? i) && (i <? e)).
  { intros i I. rewrite tb_mod by lia. unfold m. destruct (Z.eqb_spec (e - s) 64).
    - rewrite tb_ones by lia. destruct (Z.ltb_spec i w), (Z.ltb_spec i 64), (Z.leb_spec s i), (Z.ltb_spec i e); cbn; auto; lia.
    - rewrite Z.shiftl_1_l. assert (P : 0 < 2 ^ (e - s) < 2 ^ 64) by (split; [apply Z.pow_pos_nonneg; lia|apply Z.pow_lt_mono_r; lia]).
      rewrite (Z.mod_small (2 ^ (e - s))) by lia. rewrite (Z.mod_small (2 ^ (e - s) - 1)) by lia.
      rewrite tb_mod by lia. rewrite Z.shiftl_spec by lia. destruct (Z.leb_spec s i).
      + rewrite tb_ones by lia. destruct (Z.ltb_spec i w), (Z.ltb_spec i 64), (Z.ltb_spec (i - s) (e - s)), (Z.ltb_spec i e); cbn; auto; lia.
      + rewrite Z.testbit_neg_r by lia. rewrite !andb_false_r. reflexivity. }
  assert (T : forall i, 0 <= i -> Z.testbit (Z.ldiff store (m mod 2 ^ w)) i = negb ((s <=? i) && (i <? e)) && Z.testbit store i).
  { intros i I. rewrite Z.ldiff_spec, M by lia. apply andb_comm. }
  split; [|exact T]. apply in_range; [lia| |].
  - apply Z.ldiff_nonneg. lia.
  - intros i I. rewrite T by lia. rewrite (tb_small store w) by lia. apply andb_false_r.
Qed.
Lemma bit_mask w pos i : 0 <= w -> 0 <= pos < w -> 0 <= i -> Z.testbit (Z.shiftl 1 pos mod 2 ^ w) i = (i =? pos).
Proof. intros W P I. rewrite tb_mod, tb_one by lia. destruct (Z.ltb_spec i w), (Z.eqb_spec i pos); cbn; auto; lia. Qed.
Lemma bit_far w pos : 0 <= w <= pos -> Z.shiftl 1 pos mod 2 ^ w = 0.
Proof. intros P. apply Z.bits_inj'. intros i I. rewrite tb_mod, tb_one by lia. rewrite Z.bits_0. destruct (Z.ltb_spec i w), (Z.eqb_spec i pos); cbn; auto; lia. Qed.
Lemma GetBit_spec x w store pos : 0 <= pos < w -> GetBit x w store pos = Ok (Z.testbit store pos).
Proof.
  intros P. unfold GetBit. destruct (Z.ltb_spec (w - 1) pos); [lia|]. rewrite andb_false_r. f_equal.
  destruct (Z.testbit store pos) eqn:E.
  - destruct (Z.eqb_spec (Z.land store (Z.shiftl 1 pos mod 2 ^ w)) 0) as [Q|Q]; [|reflexivity]. exfalso.
    assert (X : Z.testbit (Z.land store (Z.shiftl 1 pos mod 2 ^ w)) pos = true) by (rewrite Z.land_spec, E, bit_mask, Z.eqb_refl by lia; reflexivity).
    rewrite Q, Z.bits_0 in X. discriminate.
  - replace (Z.land store (Z.shiftl 1 pos mod 2 ^ w)) with 0; [reflexivity|]. apply Z.bits_inj'. intros i I. rewrite Z.bits_0, Z.land_spec, bit_mask by lia.
    destruct (Z.eqb_spec i pos) as [-> | N]; [rewrite E; reflexivity|]. symmetry. apply andb_false_r.
Qed.
Lemma SetBit_spec x w store pos v : 0 <= pos < w -> 0 <= store < 2 ^ w ->
  exists st, SetBit x w store pos v = Ok st /\ 0 <= st < 2 ^ w /\ forall i, 0 <= i -> Z.testbit st i = if i =? pos then v else Z.testbit store i.
Proof.
  intros P B. unfold SetBit. destruct (Z.ltb_spec (w - 1) pos); [lia|]. rewrite andb_false_r.
  assert (M : 0 <= Z.shiftl 1 pos mod 2 ^ w) by (apply Z.mod_pos_bound, Z.pow_pos_nonneg; lia).
  destruct v; eexists; (split; [reflexivity|]).
  - assert (T : forall i, 0 <= i -> Z.testbit (Z.lor store (Z.shiftl 1 pos mod 2 ^ w)) i = if i =? pos then true else Z.testbit store i).
    { intros i I. rewrite Z.lor_spec, bit_mask by lia. destruct (i =? pos); [apply orb_true_r|apply orb_false_r]. }
    split; [|exact T]. apply in_range; [lia|apply Z.lor_nonneg; lia|]. intros i I. rewrite T by lia. destruct (Z.eqb_spec i pos); [lia|]. apply (tb_small store w); lia.
  - assert (T : forall i, 0 <= i -> Z.testbit (Z.ldiff store (Z.shiftl 1 pos mod 2 ^ w)) i = if i =? pos then false else Z.testbit store i).
    { intros i I. rewrite Z.ldiff_spec, bit_mask by lia. destruct (i =? pos); [apply andb_false_r|apply andb_true_r]. }
    split; [|exact T]. apply in_range; [lia|apply Z.ldiff_nonneg; lia|]. intros i I. rewrite T by lia. destruct (Z.eqb_spec i pos); [lia|]. apply (tb_small store w); lia.
Qed.
Lemma ClearBytes_go_spec fuel b i to : (Z.to_nat (to - i) < fuel)%nat -> 0 <= i -> to <= len b ->
  exists b', ClearBytes_go fuel b i to = Ok b' /\ len b' = len b /\ forall k, 0 <= k -> index b' k = if (i <=? k) && (k <? to) then Ok 0 else index b k.
Proof.
  revert b i. induction fuel as [|fuel IH]; intros b i F I L; [lia|]. cbn [ClearBytes_go]. destruct (Z.ltb_spec i to).
  - destruct (Z.ltb_spec i (len b)); [|lia]. destruct (IH (upd b i 0) (i + 1)) as (b' & E & L' & T); [lia|lia|rewrite len_upd; lia|].
    exists b'. split; [exact E|]. split; [rewrite L', len_upd; reflexivity|]. intros k K. rewrite T by lia.
    destruct (Z.eq_dec k i) as [-> | N].
    + destruct (Z.leb_spec (i + 1) i); [lia|]. cbn. rewrite index_upd_eq by lia. destruct (Z.leb_spec i i); [|lia]. destruct (Z.ltb_spec i to); [reflexivity|lia].
    + rewrite index_upd_neq by lia. destruct (Z.leb_spec (i + 1) k), (Z.leb_spec i k); try lia; reflexivity.
  - exists b. split; [reflexivity|]. split; [reflexivity|]. intros k K. destruct (Z.leb_spec i k), (Z.ltb_spec k to); cbn; auto; lia.
Qed.
Lemma ClearBytes_panics fuel b i to : (Z.to_nat (to - i) < fuel)%nat -> 0 <= i < to -> len b < to -> ClearBytes_go fuel b i to = Panic.
Proof.
  revert b i. induction fuel as [|fuel IH]; intros b i F I L; [lia|]. cbn [ClearBytes_go]. destruct (Z.ltb_spec i to); [|lia].
  destruct (Z.ltb_spec i (len b)); [|reflexivity]. apply IH; [lia|lia|]. rewrite len_upd. lia.
Qed.
