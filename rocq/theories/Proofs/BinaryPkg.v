(** Proofs for C149. *)
From Coq Require Import Lia List.
Import ListNotations.
From Verif.Model Require Import Base BinaryPkg.
From Verif.Spec Require Import BinaryPkg.
From Verif.Proofs Require Import BaseLemmas.
Open Scope list_scope. Open Scope Z_scope.

Lemma le_enc_nth n v i : (i < n)%nat -> nth_error (le_enc n v) i = Some (v / 256 ^ Z.of_nat i mod 256).
Proof.
  revert v i. induction n as [|n IH]; intros v i L; [lia|]. destruct i as [|i].
  - cbn. rewrite Z.div_1_r. reflexivity.
  - cbn [le_enc nth_error]. rewrite IH by lia. rewrite Z.div_div by lia. replace (256 * 256 ^ Z.of_nat i) with (256 ^ Z.of_nat (S i)); [reflexivity|].
    rewrite Nat2Z.inj_succ, Z.pow_succ_r by lia. reflexivity.
Qed.
Lemma nth_skip {A} n (l : list A) i : nth_error (skipn n l) i = nth_error l (n + i).
Proof. revert l. induction n as [|n IH]; intros l; [reflexivity|]. destruct l as [|a l]; [destruct i; reflexivity|]. apply IH. Qed.
Lemma put_ok n b v : (n <= length b)%nat -> le_put n b 0 v = Ok (le_enc n v ++ skipn n b).
Proof.
  intros L. rewrite <- (firstn_skipn n b) at 1. rewrite <- (app_nil_l (firstn n b ++ skipn n b)).
  rewrite (le_put_split n [] (firstn n b) (skipn n b)); [reflexivity|reflexivity|]. unfold len. rewrite firstn_length_le; lia.
Qed.
Lemma put_short n b v : (length b < n)%nat -> le_put n b 0 v = Panic.
Proof. intros L. unfold le_put, len. replace (_ && _) with false by lia. reflexivity. Qed.
Lemma put_holds n b v : (n <= length b)%nat -> exists b', le_put n b 0 v = Ok b' /\ holds_le n v b b'.
Proof.
  intros L. exists (le_enc n v ++ skipn n b). split; [apply put_ok, L|]. split; [|split].
  - rewrite app_length, le_enc_length, skipn_length. lia.
  - intros i Li. rewrite nth_error_app1 by (rewrite le_enc_length; lia). apply le_enc_nth, Li.
  - intros i Li. rewrite nth_error_app2 by (rewrite le_enc_length; lia). rewrite le_enc_length, nth_skip. f_equal. lia.
Qed.
Lemma pow256 n : 256 ^ Z.of_nat n = 2 ^ (8 * Z.of_nat n).
Proof. rewrite Z.pow_mul_r by lia. reflexivity. Qed.
Lemma sN_mod n x : 0 < n -> sN n (x mod 2 ^ n) = sN n x.
Proof. intros. unfold sN. rewrite Z.mod_mod; [reflexivity|]. apply Z.pow_nonzero; lia. Qed.
Lemma sN_fits n x : 0 < n -> - 2 ^ (n - 1) <= x < 2 ^ (n - 1) -> sN n x = x.
Proof.
  intros N F. assert (P : 2 ^ n = 2 * 2 ^ (n - 1)) by (rewrite <- Z.pow_succ_r by lia; f_equal; lia). unfold sN. destruct (Z.ltb_spec x 0).
  - replace (x mod 2 ^ n) with (x + 2 ^ n) by (symmetry; rewrite <- (Z.mod_small (x + 2 ^ n) (2 ^ n)) by lia; rewrite <- (Z.mod_add x 1 (2 ^ n)) by lia; f_equal; lia).
    destruct (Z.ltb_spec (x + 2 ^ n) (2 ^ (n - 1))); lia.
  - rewrite Z.mod_small by lia. destruct (Z.ltb_spec x (2 ^ (n - 1))); lia.
Qed.
Lemma tb_pos t : (1 <= tbytes t)%nat. Proof. destruct t as [g [] m]; cbn; lia. Qed.
Lemma conv_enc t v : fits t v -> conv t (le_dec (le_enc (tbytes t) v)) = v.
Proof.
  unfold fits, conv. rewrite le_dec_enc, pow256. pose proof (tb_pos t). destruct (it_signed t); intros F.
  - rewrite sN_mod by lia. apply sN_fits; [lia|exact F].
  - rewrite Z.mod_mod by (apply Z.pow_nonzero; lia). apply Z.mod_small, F.
Qed.
Lemma GetT_app t v q : fits t v -> GetT t (le_enc (tbytes t) v ++ q) = Ok v.
Proof. intros F. unfold GetT. rewrite le_get_app by apply len_le_enc. cbn [bind]. rewrite conv_enc by exact F. reflexivity. Qed.
Lemma GetT_short t b : (length b < tbytes t)%nat -> GetT t b = Panic.
Proof. intros L. unfold GetT, le_get, slice, len. replace (_ && _) with false by lia. reflexivity. Qed.
(** Reading depends on the first bytes only. *)
Lemma GetT_holds t v b b' : fits t v -> (tbytes t <= length b)%nat -> holds_le (tbytes t) v b b' -> GetT t b' = Ok v.
Proof.
  intros F L (Q1 & Q2 & Q3). rewrite <- (firstn_skipn (tbytes t) b'). replace (firstn (tbytes t) b') with (le_enc (tbytes t) v); [apply GetT_app, F|].
  assert (G : forall n l w, (n <= length l)%nat -> (forall i, (i < n)%nat -> nth_error l i = Some (w / 256 ^ Z.of_nat i mod 256)) -> le_enc n w = firstn n l).
  { induction n as [|n IH]; intros l w Ln Q; [reflexivity|]. destruct l as [|a l]; [cbn in Ln; lia|]. cbn [le_enc firstn]. f_equal.
    - specialize (Q 0%nat ltac:(lia)). cbn in Q. rewrite Z.div_1_r in Q. congruence.
    - apply IH; [cbn in Ln; lia|]. intros i Li. specialize (Q (S i) ltac:(lia)). cbn [nth_error] in Q. rewrite Q. rewrite Z.div_div by lia.
      rewrite Nat2Z.inj_succ, Z.pow_succ_r by lia. reflexivity. }
  apply G; [lia|exact Q2].
Qed.
Lemma holds_weaken n m v b b' : (n <= m)%nat -> holds_le m v b b' -> forall i, (i < n)%nat -> nth_error b' i = Some (v / 256 ^ Z.of_nat i mod 256).
Proof. intros L (_ & Q & _) i Li. apply Q. lia. Qed.
Lemma enc64 v : le_enc 8 (u64 v) = le_enc 8 v.
Proof. unfold u64. change 64 with (8 * Z.of_nat 8). rewrite <- pow256. apply le_enc_mod. Qed.
