(** Lemmas about the base vocabulary. *)
From Coq Require Export Lia ZifyBool ZifyNat ZifyN.
From Verif.Model Require Export Base.
Ltac Zify.zify_post_hook ::= Z.div_mod_to_equations.

Ltac inv H := inversion H; clear H; subst.

(** Simplify a bind whose head is known. *)
Lemma bind_Ok {A B} (a : A) (f : A -> res B) : bind (Ok a) f = f a.
Proof. reflexivity. Qed.

Lemma bind_Ok_inv {A B} (x : res A) (f : A -> res B) b :
  bind x f = Ok b -> exists a, x = Ok a /\ f a = Ok b.
Proof. destruct x; cbn; intros; try discriminate. eauto. Qed.

(** Length. *)
Lemma len_nonneg {A} (l : list A) : 0 <= len l.
Proof. unfold len; lia. Qed.
Lemma len_nil {A} : len (@nil A) = 0. Proof. reflexivity. Qed.
Lemma len_cons {A} (x : A) l : len (x :: l) = 1 + len l.
Proof. unfold len. cbn [length]. lia. Qed.
Lemma len_app {A} (a b : list A) : len (a ++ b) = len a + len b.
Proof. unfold len. rewrite app_length. lia. Qed.
Lemma len_take {A} n (l : list A) : 0 <= n <= len l -> len (take n l) = n.
Proof. unfold len, take. intros. rewrite firstn_length. lia. Qed.
Lemma len_take_min {A} n (l : list A) : 0 <= n -> len (take n l) = Z.min n (len l).
Proof. unfold len, take. intros. rewrite firstn_length. lia. Qed.
Lemma len_drop {A} n (l : list A) : 0 <= n <= len l -> len (drop n l) = len l - n.
Proof. unfold len, drop. intros. rewrite skipn_length. lia. Qed.
Lemma len_drop_max {A} n (l : list A) : 0 <= n -> len (drop n l) = Z.max 0 (len l - n).
Proof. unfold len, drop. intros. rewrite skipn_length. lia. Qed.
Lemma len_zeros n : 0 <= n -> len (zeros n) = n.
Proof. unfold len, zeros. intros. rewrite repeat_length. lia. Qed.
Lemma len_map {A B} (f : A -> B) l : len (map f l) = len l.
Proof. unfold len. rewrite map_length. reflexivity. Qed.
Lemma len_repeat {A} (x : A) n : len (repeat x n) = Z.of_nat n.
Proof. unfold len. rewrite repeat_length. reflexivity. Qed.
Lemma len_0_nil {A} (l : list A) : len l = 0 -> l = [].
Proof. destruct l; auto. rewrite len_cons. pose proof (len_nonneg l). lia. Qed.
Lemma len_rev {A} (l : list A) : len (rev l) = len l.
Proof. unfold len. rewrite rev_length. reflexivity. Qed.

(** take / drop. *)
Lemma take_0 {A} (l : list A) : take 0 l = []. Proof. reflexivity. Qed.
Lemma drop_0 {A} (l : list A) : drop 0 l = l. Proof. reflexivity. Qed.
Lemma take_neg {A} n (l : list A) : n <= 0 -> take n l = [].
Proof. intros. unfold take. replace (Z.to_nat n) with O by lia. reflexivity. Qed.
Lemma take_all {A} n (l : list A) : len l <= n -> take n l = l.
Proof. unfold len, take. intros. apply firstn_all2. lia. Qed.
Lemma drop_all {A} n (l : list A) : len l <= n -> drop n l = [].
Proof. unfold len, drop. intros. apply skipn_all2. lia. Qed.
Lemma take_nil {A} n : take n (@nil A) = [].
Proof. unfold take. apply firstn_nil. Qed.
Lemma drop_nil {A} n : drop n (@nil A) = [].
Proof. unfold drop. apply skipn_nil. Qed.
Lemma take_drop {A} n (l : list A) : take n l ++ drop n l = l.
Proof. unfold take, drop. apply firstn_skipn. Qed.
Lemma take_app_l {A} n (a b : list A) : n <= len a -> take n (a ++ b) = take n a.
Proof.
  unfold len, take. intros. rewrite firstn_app.
  replace (Z.to_nat n - length a)%nat with O by lia. cbn. apply app_nil_r.
Qed.
Lemma take_app_r {A} n (a b : list A) :
  len a <= n -> take n (a ++ b) = a ++ take (n - len a) b.
Proof.
  unfold len, take. intros. rewrite firstn_app.
  rewrite firstn_all2 by lia. do 2 f_equal. lia.
Qed.
Lemma take_app_exact {A} n (a b : list A) : n = len a -> take n (a ++ b) = a.
Proof. intros ->. rewrite take_app_l by lia. apply take_all. lia. Qed.
Lemma drop_app_l {A} n (a b : list A) : n <= len a -> drop n (a ++ b) = drop n a ++ b.
Proof.
  unfold len, drop. intros. rewrite skipn_app.
  replace (Z.to_nat n - length a)%nat with O by lia. reflexivity.
Qed.
Lemma drop_app_r {A} n (a b : list A) :
  len a <= n -> drop n (a ++ b) = drop (n - len a) b.
Proof.
  unfold len, drop. intros. rewrite skipn_app.
  rewrite skipn_all2 by lia. cbn. f_equal. lia.
Qed.
Lemma drop_app_exact {A} n (a b : list A) : n = len a -> drop n (a ++ b) = b.
Proof. intros ->. rewrite drop_app_r by lia. rewrite Z.sub_diag. reflexivity. Qed.
Lemma drop_drop {A} a b (l : list A) : 0 <= a -> 0 <= b -> drop a (drop b l) = drop (a + b) l.
Proof.
  unfold drop. intros. rewrite Z2Nat.inj_add by lia.
  generalize (Z.to_nat a) (Z.to_nat b). clear.
  intros m n. revert l; induction n; intros; cbn.
  - now rewrite Nat.add_0_r.
  - replace (m + S n)%nat with (S (m + n)) by lia. destruct l; cbn.
    + now rewrite skipn_nil.
    + apply IHn.
Qed.
Lemma take_take {A} a b (l : list A) : 0 <= a <= b -> take a (take b l) = take a l.
Proof.
  unfold take. intros. rewrite firstn_firstn. f_equal. lia.
Qed.
Lemma take_cons {A} n (x : A) l : 0 < n -> take n (x :: l) = x :: take (n - 1) l.
Proof.
  unfold take. intros. replace (Z.to_nat n) with (S (Z.to_nat (n - 1))) by lia. reflexivity.
Qed.
Lemma drop_cons {A} n (x : A) l : 0 < n -> drop n (x :: l) = drop (n - 1) l.
Proof.
  unfold drop. intros. replace (Z.to_nat n) with (S (Z.to_nat (n - 1))) by lia. reflexivity.
Qed.

(** Slices and indexing. *)
Lemma slice_ok {A} (l : list A) a b :
  0 <= a <= b -> b <= len l -> slice l a b = Ok (take (b - a) (drop a l)).
Proof. intros. unfold slice. replace (_ && _) with true by lia. reflexivity. Qed.

Lemma slice_app {A} (p m q : list A) a b :
  a = len p -> b = len p + len m -> slice (p ++ m ++ q) a b = Ok m.
Proof.
  intros -> ->. pose proof (len_nonneg p). pose proof (len_nonneg m).
  pose proof (len_nonneg q).
  rewrite slice_ok by (rewrite ?len_app; lia).
  rewrite drop_app_exact by reflexivity. rewrite take_app_exact by lia. reflexivity.
Qed.
Lemma slice_prefix {A} (m q : list A) b :
  b = len m -> slice (m ++ q) 0 b = Ok m.
Proof. intros. apply (slice_app (@nil A) m q); unfold len in *; cbn [length]; lia. Qed.
Lemma slice_inv {A} (l : list A) a b r :
  slice l a b = Ok r -> 0 <= a <= b /\ b <= len l /\ r = take (b - a) (drop a l) /\ len r = b - a.
Proof.
  unfold slice. destruct (_ && _) eqn:E; intros H; inv H.
  repeat split; try lia. pose proof (len_nonneg l). rewrite len_take; [lia|].
  rewrite len_drop by lia. lia.
Qed.

Lemma index_app {A} (p : list A) x q i : i = len p -> index (p ++ x :: q) i = Ok x.
Proof.
  intros ->. unfold index. pose proof (len_nonneg p). pose proof (len_nonneg q).
  rewrite len_app, len_cons. replace (_ && _) with true by lia.
  unfold len. rewrite Nat2Z.id. rewrite nth_error_app2 by lia. rewrite Nat.sub_diag.
  reflexivity.
Qed.
Lemma index_ok_ex {A} (l : list A) i : 0 <= i < len l -> exists x, index l i = Ok x.
Proof.
  intros. unfold index. replace (_ && _) with true by lia.
  destruct (nth_error l (Z.to_nat i)) eqn:E; eauto.
  apply nth_error_None in E. unfold len in *. lia.
Qed.
Lemma index_inv {A} (l : list A) i x :
  index l i = Ok x -> 0 <= i < len l /\ nth_error l (Z.to_nat i) = Some x.
Proof.
  unfold index. destruct (_ && _) eqn:E; [|discriminate].
  destruct (nth_error _ _); intros H; inv H. split; auto; lia.
Qed.
Lemma index_nth_error {A} (l : list A) i x :
  0 <= i -> nth_error l (Z.to_nat i) = Some x -> index l i = Ok x.
Proof.
  intros Hi H. unfold index. rewrite H.
  assert (Z.to_nat i < length l)%nat by (apply nth_error_Some; congruence).
  unfold len. replace (_ && _) with true by lia. reflexivity.
Qed.
Lemma set_nth_length {A} n (x : A) l : length (set_nth n x l) = length l.
Proof. revert n; induction l; destruct n; cbn; auto. Qed.
Lemma len_upd {A} (l : list A) i x : len (upd l i x) = len l.
Proof. unfold len, upd. now rewrite set_nth_length. Qed.
Lemma nth_error_set_nth_eq {A} n (x : A) l :
  (n < length l)%nat -> nth_error (set_nth n x l) n = Some x.
Proof. revert n; induction l; destruct n; cbn; intros; try lia; auto. apply IHl. lia. Qed.
Lemma nth_error_set_nth_neq {A} n m (x : A) l :
  n <> m -> nth_error (set_nth n x l) m = nth_error l m.
Proof.
  revert n m; induction l; destruct n, m; cbn; intros; auto; try congruence.
Qed.
Lemma index_upd_eq {A} (l : list A) i x : 0 <= i < len l -> index (upd l i x) i = Ok x.
Proof.
  intros. apply index_nth_error; [lia|]. unfold upd, len in *.
  apply nth_error_set_nth_eq. lia.
Qed.
Lemma index_upd_neq {A} (l : list A) i j x : 0 <= i -> i <> j -> index (upd l i x) j = index l j.
Proof.
  intros. unfold index. rewrite len_upd. destruct (_ && _) eqn:E; auto.
  unfold upd. rewrite nth_error_set_nth_neq by lia. reflexivity.
Qed.

Lemma copy_at_split p m q src off :
  off = len p -> len m = len src -> copy_at (p ++ m ++ q) off src = Ok (p ++ src ++ q).
Proof.
  intros -> Hm. unfold copy_at.
  pose proof (len_nonneg p). pose proof (len_nonneg m). pose proof (len_nonneg q).
  rewrite !len_app. replace (_ && _) with true by lia.
  rewrite (take_app_exact (len p)) by reflexivity.
  replace (Z.min _ _) with (len src) by lia.
  rewrite take_all by lia. rewrite (app_assoc p m q). rewrite (drop_app_exact (len p + len src)).
  - reflexivity.
  - rewrite len_app. lia.
Qed.

(** Little endian. *)
Definition is_byte (b : Z) : Prop := 0 <= b < 256.
Definition is_bytes (l : bytes) : Prop := Forall is_byte l.

Lemma le_enc_length n v : length (le_enc n v) = n.
Proof. revert v; induction n; cbn; intros; auto. Qed.
Lemma len_le_enc n v : len (le_enc n v) = Z.of_nat n.
Proof. unfold len. now rewrite le_enc_length. Qed.
Lemma le_enc_bytes n v : is_bytes (le_enc n v).
Proof.
  revert v; induction n; cbn [le_enc]; intros; constructor; auto; [|apply IHn].
  unfold is_byte. apply Z.mod_pos_bound. lia.
Qed.
Lemma pow256_succ n : 256 ^ Z.of_nat (S n) = 256 * 256 ^ Z.of_nat n.
Proof. rewrite Nat2Z.inj_succ, Z.pow_succ_r by lia. reflexivity. Qed.
Lemma le_dec_enc n v : le_dec (le_enc n v) = v mod 256 ^ Z.of_nat n.
Proof.
  revert v; induction n; intros; cbn [le_enc le_dec].
  - cbn. now rewrite Z.mod_1_r.
  - rewrite IHn, pow256_succ.
    assert (0 < 256 ^ Z.of_nat n) by (apply Z.pow_pos_nonneg; lia).
    rewrite Z.rem_mul_r by lia. lia.
Qed.
Lemma le_dec_enc_id n v : 0 <= v < 256 ^ Z.of_nat n -> le_dec (le_enc n v) = v.
Proof. intros. rewrite le_dec_enc. now apply Z.mod_small. Qed.
Lemma le_enc_dec l : is_bytes l -> le_enc (length l) (le_dec l) = l.
Proof.
  induction 1 as [|b l Hb Hl IH]; cbn [length le_enc le_dec]; auto.
  unfold is_byte in Hb. f_equal.
  - lia.
  - replace ((b + 256 * le_dec l) / 256) with (le_dec l) by lia. apply IH.
Qed.
Lemma le_enc_dec' n l : is_bytes l -> len l = Z.of_nat n -> le_enc n (le_dec l) = l.
Proof.
  intros Hb Hl. replace n with (length l) by (unfold len in Hl; lia). now apply le_enc_dec.
Qed.
Lemma le_dec_bound l : is_bytes l -> 0 <= le_dec l < 256 ^ len l.
Proof.
  unfold len. induction 1 as [|b l Hb Hl IH]; cbn [length le_dec]; [lia|].
  rewrite pow256_succ. unfold is_byte in Hb. lia.
Qed.
Lemma le_dec_app a b : le_dec (a ++ b) = le_dec a + 256 ^ len a * le_dec b.
Proof.
  unfold len. induction a as [|x a IH]; cbn [app length le_dec].
  - change (256 ^ Z.of_nat 0) with 1. lia.
  - rewrite IH, pow256_succ. lia.
Qed.
Lemma le_enc_app n m v :
  le_enc (n + m) v = le_enc n v ++ le_enc m (v / 256 ^ Z.of_nat n).
Proof.
  revert v; induction n; intros; cbn [Nat.add le_enc app].
  - change (256 ^ Z.of_nat 0) with 1. now rewrite Z.div_1_r.
  - rewrite IHn. do 3 f_equal. rewrite pow256_succ, Z.div_div; auto; try lia.
Qed.
Lemma le_enc_mod n v : le_enc n (v mod 256 ^ Z.of_nat n) = le_enc n v.
Proof.
  rewrite <- le_dec_enc. rewrite <- (le_enc_length n v) at 1.
  apply le_enc_dec, le_enc_bytes.
Qed.
Lemma le_enc_inj n a b :
  0 <= a < 256 ^ Z.of_nat n -> 0 <= b < 256 ^ Z.of_nat n -> le_enc n a = le_enc n b -> a = b.
Proof. intros Ha Hb H. apply (f_equal le_dec) in H. now rewrite !le_dec_enc_id in H. Qed.

Lemma is_bytes_app a b : is_bytes (a ++ b) <-> is_bytes a /\ is_bytes b.
Proof. unfold is_bytes. apply Forall_app. Qed.
Lemma is_bytes_take n l : is_bytes l -> is_bytes (take n l).
Proof.
  unfold is_bytes, take. rewrite !Forall_forall. intros H x Hx. apply H.
  rewrite <- (firstn_skipn (Z.to_nat n) l). apply in_or_app. now left.
Qed.
Lemma is_bytes_drop n l : is_bytes l -> is_bytes (drop n l).
Proof.
  unfold is_bytes, drop. rewrite !Forall_forall. intros H x Hx. apply H.
  rewrite <- (firstn_skipn (Z.to_nat n) l). apply in_or_app. now right.
Qed.
Lemma is_bytes_zeros n : is_bytes (zeros n).
Proof. unfold is_bytes, zeros. apply Forall_forall. intros x H. apply repeat_spec in H. subst. unfold is_byte. lia. Qed.

Lemma zeros_app a b : 0 <= a -> 0 <= b -> zeros (a + b) = zeros a ++ zeros b.
Proof. intros. unfold zeros. rewrite Z2Nat.inj_add by lia. apply repeat_app. Qed.

(** Put on a split buffer. *)
Lemma le_put_split n p m q off v :
  off = len p -> len m = Z.of_nat n ->
  le_put n (p ++ m ++ q) off v = Ok (p ++ le_enc n v ++ q).
Proof.
  intros -> Hm. unfold le_put.
  pose proof (len_nonneg p). pose proof (len_nonneg q).
  rewrite !len_app. replace (_ && _) with true by lia.
  apply copy_at_split; auto. now rewrite len_le_enc.
Qed.
Lemma le_get_app n m q : len m = n -> le_get n (m ++ q) = Ok (le_dec m).
Proof. intros. unfold le_get. rewrite slice_prefix by auto. reflexivity. Qed.

Lemma testbit_small a n i : 0 <= n -> 0 <= a < 2 ^ n -> n <= i -> Z.testbit a i = false.
Proof.
  intros Hn Ha Hi. destruct (Z.eq_dec a 0) as [->|]; [apply Z.bits_0|].
  apply Z.bits_above_log2; [lia|]. apply Z.log2_lt_pow2; try lia.
  apply Z.lt_le_trans with (2 ^ n); try lia. apply Z.pow_le_mono_r; lia.
Qed.
Lemma pow2_bits_lor a b n : 0 <= n -> 0 <= a < 2 ^ n -> Z.lor a (b * 2 ^ n) = a + b * 2 ^ n.
Proof.
  intros Hn Ha. rewrite <- Z.shiftl_mul_pow2 by auto.
  assert (Z.land a (Z.shiftl b n) = 0) as E.
  { apply Z.bits_inj'. intros i Hi. rewrite Z.land_spec, Z.bits_0.
    destruct (Z.ltb_spec i n).
    - rewrite Z.shiftl_spec_low by lia. apply andb_false_r.
    - rewrite (testbit_small a n) by lia. reflexivity. }
  rewrite Z.add_nocarry_lxor by auto. now rewrite Z.lxor_lor.
Qed.

Lemma land_ones_mod a n : 0 <= n -> Z.land a (2 ^ n - 1) = a mod 2 ^ n.
Proof. intros. rewrite <- Z.land_ones by lia. f_equal. rewrite Z.ones_equiv. lia. Qed.

Lemma nth_error_ext' {A} (a b : list A) : (forall i, nth_error a i = nth_error b i) -> a = b.
Proof.
  revert b. induction a as [|x a IH]; intros [|y b] H; auto.
  - specialize (H O). discriminate.
  - specialize (H O). discriminate.
  - pose proof (H O) as H0. cbn in H0. inv H0. f_equal. apply IH. intros i. exact (H (S i)).
Qed.
