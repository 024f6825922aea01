(** Values stored in tokens. *)
From Coq Require Import ZArith List Bool Lia ZifyBool.
Import ListNotations.
From Verif.Model Require Import Base Field Token.
From Verif.Spec Require Import Message.
Open Scope Z_scope.

Lemma mod64 v n : 0 <= n <= 64 -> (v mod 2 ^ 64) mod 2 ^ n = v mod 2 ^ n.
Proof.
  intros R. symmetry. apply Znumtheory.Zmod_div_mod; [apply Z.pow_pos_nonneg; lia|lia|].
  exists (2 ^ (64 - n)). rewrite <- Z.pow_add_r by lia. f_equal. lia.
Qed.
Lemma sN_range n v : 0 < n <= 64 -> - 2 ^ (n - 1) <= v < 2 ^ (n - 1) -> sN n (v mod 2 ^ 64) = v.
Proof.
  intros Hn R. unfold sN. cbn zeta. rewrite mod64 by lia.
  assert (E : 2 ^ n = 2 * 2 ^ (n - 1)) by (rewrite <- Z.pow_succ_r by lia; f_equal; lia).
  destruct (Z.ltb_spec (v mod 2 ^ n) (2 ^ (n - 1))).
  - destruct (Z_lt_ge_dec v 0); [|apply Z.mod_small; lia].
    assert (v mod 2 ^ n = v + 2 ^ n) by (symmetry; apply (Z.mod_unique _ _ (-1)); lia). lia.
  - destruct (Z_lt_ge_dec v 0); [|rewrite Z.mod_small in H by lia; lia].
    assert (v mod 2 ^ n = v + 2 ^ n) by (symmetry; apply (Z.mod_unique _ _ (-1)); lia). lia.
Qed.
Lemma get_put k v : in_range k v -> getData k (putData k v) = v.
Proof.
  unfold in_range, getData, putData, s8, s16, s32, s64, u8, u16, u32, u64.
  destruct k; intros R; try reflexivity; try (apply sN_range; lia).
  - destruct (Z.eqb_spec v 0); cbn; lia.
  - rewrite mod64 by lia. apply Z.mod_small; lia.
  - rewrite mod64 by lia. apply Z.mod_small; lia.
  - rewrite mod64 by lia. apply Z.mod_small; lia.
  - apply Z.mod_small; lia.
Qed.
