From Coq Require Import Lia.
From Verif Require Import Model.Base Model.Pack Spec.Packed Proofs.BaseLemmas.

Definition nz (b : Z) : bool := negb (b =? 0).

(** The tag of a word, byte by byte. *)
Fixpoint tagof (l : bytes) : Z :=
  match l with [] => 0 | b :: r => (if nz b then 1 else 0) + 2 * tagof r end.

Lemma tagof_odd b r : Z.odd (tagof (b :: r)) = nz b.
Proof.
  cbn [tagof]. rewrite Z.odd_add_mul_2. destruct (nz b); reflexivity.
Qed.
Lemma tagof_div b r : tagof (b :: r) / 2 = tagof r.
Proof. cbn [tagof]. destruct (nz b); lia. Qed.
Lemma tagof_bound l : 0 <= tagof l < 2 ^ len l.
Proof.
  induction l; [cbn; lia|].
  cbn [tagof]. rewrite len_cons, Z.pow_add_r by (pose proof (len_nonneg l); lia).
  change (2 ^ 1) with 2. destruct (nz a); lia.
Qed.

Lemma spread_tagof l : spread (length l) (tagof l) (filter nz l) = l.
Proof.
  induction l as [|b r IH]; [reflexivity|].
  cbn [length spread]. rewrite tagof_odd, tagof_div. cbn [filter].
  destruct (nz b) eqn:E; cbn [hd tl]; rewrite IH; [reflexivity|].
  unfold nz in E. f_equal. lia.
Qed.
Lemma popcount_tagof l : popcount (length l) (tagof l) = len (filter nz l).
Proof.
  induction l as [|b r IH]; [reflexivity|].
  cbn [length popcount]. rewrite tagof_odd, tagof_div, IH. cbn [filter].
  destruct (nz b); [rewrite len_cons|]; lia.
Qed.

Lemma byte_of_word l i : is_bytes l -> (i < length l)%nat ->
  Z.land (Z.shiftr (le_dec l) (8 * Z.of_nat i)) 255 = nth i l 0.
Proof.
  intros B. revert i. induction B as [|b r Hb B IH]; intros i Hi; [cbn in Hi; lia|].
  unfold is_byte in Hb. assert (b = b mod 256) by (rewrite Z.mod_small; lia).
  assert (LM : forall x, Z.land x 255 = x mod 256) by (intros; apply (land_ones_mod x 8); lia).
  rewrite LM.
  destruct i as [|i].
  - change (8 * Z.of_nat 0) with 0. rewrite Z.shiftr_0_r. cbn [le_dec nth]. lia.
  - cbn [nth]. cbn in Hi. specialize (IH i ltac:(lia)). rewrite LM in IH. rewrite <- IH.
    rewrite !Z.shiftr_div_pow2 by lia.
    replace (8 * Z.of_nat (S i)) with (8 + 8 * Z.of_nat i) by lia.
    rewrite Z.pow_add_r by lia. rewrite <- Z.div_div by lia.
    do 2 f_equal. cbn [le_dec]. change (2 ^ 8) with 256. lia.
Qed.

Lemma list8 {A} (l : list A) : len l = 8 ->
  exists a b c d e f g h, l = [a; b; c; d; e; f; g; h].
Proof.
  intros H. do 8 (destruct l as [|? l]; [unfold len in H; cbn in H; lia|]).
  destruct l; [|unfold len in H; cbn [length] in H; lia]. repeat eexists.
Qed.

Definition word_bytes (l : bytes) : Prop :=
  forall i, In i idx8 -> Z.land (Z.shiftr (le_dec l) (i * 8)) 255 = nth (Z.to_nat i) l 0.
Lemma word_bytes_ok l : is_bytes l -> len l = 8 -> word_bytes l.
Proof.
  intros B L i Hi.
  assert (0 <= i < 8) by (unfold idx8 in Hi; cbn in Hi; lia).
  replace (i * 8) with (8 * Z.of_nat (Z.to_nat i)) by lia.
  apply byte_of_word; [exact B|unfold len in L; lia].
Qed.

Lemma computeTag_spec l : is_bytes l -> len l = 8 -> computeTag (le_dec l) = tagof l.
Proof.
  intros B L. pose proof (word_bytes_ok l B L) as W.
  destruct (list8 l L) as (a & b & c & d & e & f & g & h & ->).
  set (v := le_dec _) in *. unfold word_bytes in W. fold v in W.
  unfold computeTag, idx8. cbn [fold_left].
  assert (W0 : Z.land (Z.shiftr v (0 * 8)) 255 = a) by (apply (W 0); cbn; tauto).
  assert (W1 : Z.land (Z.shiftr v (1 * 8)) 255 = b) by (apply (W 1); cbn; tauto).
  assert (W2 : Z.land (Z.shiftr v (2 * 8)) 255 = c) by (apply (W 2); cbn; tauto).
  assert (W3 : Z.land (Z.shiftr v (3 * 8)) 255 = d) by (apply (W 3); cbn; tauto).
  assert (W4 : Z.land (Z.shiftr v (4 * 8)) 255 = e) by (apply (W 4); cbn; tauto).
  assert (W5 : Z.land (Z.shiftr v (5 * 8)) 255 = f) by (apply (W 5); cbn; tauto).
  assert (W6 : Z.land (Z.shiftr v (6 * 8)) 255 = g) by (apply (W 6); cbn; tauto).
  assert (W7 : Z.land (Z.shiftr v (7 * 8)) 255 = h) by (apply (W 7); cbn; tauto).
  rewrite W0, W1, W2, W3, W4, W5, W6, W7. clear W L B v W0 W1 W2 W3 W4 W5 W6 W7. cbn [tagof]. unfold nz.
  destruct (a =? 0), (b =? 0), (c =? 0), (d =? 0), (e =? 0), (f =? 0), (g =? 0), (h =? 0); reflexivity.
Qed.

Lemma countZeros_spec l : is_bytes l -> len l = 8 ->
  countZerosInWord (le_dec l) = 8 - len (filter nz l).
Proof.
  intros B L. pose proof (word_bytes_ok l B L) as W.
  destruct (list8 l L) as (a & b & c & d & e & f & g & h & ->).
  set (v := le_dec _) in *. unfold word_bytes in W. fold v in W.
  unfold countZerosInWord, idx8. cbn [fold_left].
  assert (W0 : Z.land (Z.shiftr v (0 * 8)) 255 = a) by (apply (W 0); cbn; tauto).
  assert (W1 : Z.land (Z.shiftr v (1 * 8)) 255 = b) by (apply (W 1); cbn; tauto).
  assert (W2 : Z.land (Z.shiftr v (2 * 8)) 255 = c) by (apply (W 2); cbn; tauto).
  assert (W3 : Z.land (Z.shiftr v (3 * 8)) 255 = d) by (apply (W 3); cbn; tauto).
  assert (W4 : Z.land (Z.shiftr v (4 * 8)) 255 = e) by (apply (W 4); cbn; tauto).
  assert (W5 : Z.land (Z.shiftr v (5 * 8)) 255 = f) by (apply (W 5); cbn; tauto).
  assert (W6 : Z.land (Z.shiftr v (6 * 8)) 255 = g) by (apply (W 6); cbn; tauto).
  assert (W7 : Z.land (Z.shiftr v (7 * 8)) 255 = h) by (apply (W 7); cbn; tauto).
  rewrite W0, W1, W2, W3, W4, W5, W6, W7. clear W L B v W0 W1 W2 W3 W4 W5 W6 W7. cbn [filter]. unfold nz.
  destruct (a =? 0), (b =? 0), (c =? 0), (d =? 0), (e =? 0), (f =? 0), (g =? 0), (h =? 0); reflexivity.
Qed.

Lemma put_app out y q w x : w = len out -> put (out ++ y :: q) w x = Ok (out ++ x :: q).
Proof.
  intros ->. unfold put. rewrite len_app, len_cons.
  pose proof (len_nonneg out). pose proof (len_nonneg q).
  replace ((0 <=? len out) && (len out <? len out + (1 + len q))) with true by lia.
  f_equal. unfold upd, len. rewrite Nat2Z.id.
  clear. induction out; cbn; [reflexivity|]. now rewrite IHout.
Qed.

Lemma testmask t i : 0 <= i < 8 -> (Z.land t (u8 (Z.shiftl 1 i)) =? 0) = negb (Z.testbit t i).
Proof.
  intros Hi.
  assert (E : u8 (Z.shiftl 1 i) = 2 ^ i).
  { rewrite Z.shiftl_mul_pow2, Z.mul_1_l by lia. apply Z.mod_small. split; [lia|].
    apply Z.pow_lt_mono_r; lia. }
  rewrite E. destruct (Z.testbit t i) eqn:T; cbn.
  - apply Z.eqb_neq. intros H.
    assert (Z.testbit (Z.land t (2 ^ i)) i = false) by (rewrite H; apply Z.bits_0).
    rewrite Z.land_spec, T, Z.pow2_bits_true in H0 by lia. discriminate.
  - apply Z.eqb_eq. apply Z.bits_inj'. intros n Hn. rewrite Z.land_spec, Z.bits_0.
    destruct (Z.eq_dec i n) as [<-|Ne]; [now rewrite T|].
    rewrite Z.pow2_bits_false by lia. apply andb_false_r.
Qed.

Lemma tagof_testbit l i : 0 <= i < len l -> Z.testbit (tagof l) i = nz (nth (Z.to_nat i) l 0).
Proof.
  revert i. induction l as [|b r IH]; intros i Hi; [cbn in Hi; lia|].
  rewrite len_cons in Hi. destruct (Z.eq_dec i 0) as [->|Ne].
  - rewrite Z.bit0_odd, tagof_odd. reflexivity.
  - replace i with (Z.succ (i - 1)) by lia. rewrite <- Z.div2_bits by lia.
    rewrite tagof_div, IH by lia.
    replace (Z.to_nat (Z.succ (i - 1))) with (S (Z.to_nat (i - 1))) by lia. reflexivity.
Qed.

(** packWord writes exactly the non-zero bytes. *)
Lemma packWord_spec out rest l :
  is_bytes l -> len l = 8 -> len (filter nz l) <= len rest ->
  packWord (out ++ rest) (len out) (le_dec l) (tagof l)
  = Ok (out ++ filter nz l ++ drop (len (filter nz l)) rest, len (filter nz l)).
Proof.
  intros B L R. unfold packWord.
  pose proof (len_nonneg out). pose proof (len_nonneg rest). rewrite len_app.
  replace (negb ((0 <=? len out) && (len out <=? len out + len rest))) with false by lia.
  set (step := fun acc i => _).
  assert (G : forall is (acc : bytes) q, (forall i, In i is -> 0 <= i < 8) ->
    len (filter nz (map (fun i => nth (Z.to_nat i) l 0) is)) <= len q ->
    fold_left step is (Ok (out ++ acc ++ q, len acc))
    = Ok (out ++ acc ++ filter nz (map (fun i => nth (Z.to_nat i) l 0) is)
             ++ drop (len (filter nz (map (fun i => nth (Z.to_nat i) l 0) is))) q,
          len acc + len (filter nz (map (fun i => nth (Z.to_nat i) l 0) is)))).
  { induction is as [|i is IH]; intros acc q Hin Hq.
    - cbn [fold_left map filter app]. change (len (@nil Z)) with 0; rewrite drop_0, Z.add_0_r. reflexivity.
    - cbn [fold_left].
      assert (Hi : 0 <= i < 8) by (apply Hin; now left).
      assert (Es : step (Ok (out ++ acc ++ q, len acc)) i
        = if nz (nth (Z.to_nat i) l 0)
          then d' <- put (out ++ acc ++ q) (len out + len acc) (u8 (Z.shiftr (le_dec l) (i * 8))) ;; Ok (d', len acc + 1)
          else Ok (out ++ acc ++ q, len acc)).
      { unfold step. cbn [bind]. rewrite testmask by lia. rewrite tagof_testbit by lia.
        rewrite negb_involutive. reflexivity. }
      rewrite Es. cbn [map filter] in *.
      destruct (nz (nth (Z.to_nat i) l 0)) eqn:N.
      + rewrite len_cons in Hq |- *. destruct q as [|y q].
        { change (len (@nil Z)) with 0 in Hq. pose proof (len_nonneg (filter nz (map (fun i => nth (Z.to_nat i) l 0) is))). lia. }
        rewrite len_cons in Hq.
        assert (Eu : u8 (Z.shiftr (le_dec l) (i * 8)) = nth (Z.to_nat i) l 0).
        { pose proof (word_bytes_ok l B L) as W.
          rewrite <- (W i). unfold u8. rewrite <- land_ones_mod by lia. reflexivity.
          unfold idx8. cbn. lia. }
        rewrite Eu.
        rewrite (app_assoc out acc (y :: q)), put_app by (rewrite len_app; lia). cbn [bind].
        replace ((out ++ acc) ++ nth (Z.to_nat i) l 0 :: q)
          with (out ++ (acc ++ [nth (Z.to_nat i) l 0]) ++ q) by (rewrite <- !app_assoc; reflexivity).
        replace (len acc + 1) with (len (acc ++ [nth (Z.to_nat i) l 0])) by (rewrite len_app; reflexivity).
        rewrite IH by (try lia; intros; apply Hin; now right).
        f_equal. f_equal.
        * rewrite <- !app_assoc. cbn [app]. do 4 f_equal.
          rewrite drop_cons by (pose proof (len_nonneg (filter nz (map (fun i => nth (Z.to_nat i) l 0) is))); lia).
          f_equal. lia.
        * rewrite len_app. change (len [nth (Z.to_nat i) l 0]) with 1. lia.
      + apply IH; [intros; apply Hin; now right|lia]. }
  assert (M : map (fun i => nth (Z.to_nat i) l 0) idx8 = l).
  { destruct (list8 l L) as (a & b & c & d & e & f & g & h & ->). reflexivity. }
  specialize (G idx8 [] rest). rewrite M in G. cbn [app] in G. change (len (@nil Z)) with 0 in G. cbn [Z.add] in G.
  apply G; [|lia]. intros i Hi. unfold idx8 in Hi. cbn in Hi. lia.
Qed.

