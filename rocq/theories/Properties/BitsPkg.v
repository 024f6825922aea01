(** C150: bit ranges and single bits of unsigned integers (Model/BitsPkg.v).  Bits are told by Z.testbit; w is the width of the
    type, a value of the type is one of [0, 2^w). *)
From Coq Require Import Lia List.
Import ListNotations.
From Verif.Model Require Import Base BitsPkg.
From Verif.Proofs Require Import BaseLemmas BitsPkg.
Open Scope list_scope. Open Scope Z_scope.

(** Mask has exactly the bits from start to end, end not included, as far as the type reaches; it panics for empty ranges and beyond 64. *)
Theorem C150_mask w s e : 0 <= w -> 0 <= s ->
  (s < e <= 64 -> exists m, Mask w s e = Ok m /\ 0 <= m < 2 ^ w /\ forall i, 0 <= i -> Z.testbit m i = (s <=? i) && (i <? e) && (i <? w)) /\
  (~ s < e <= 64 -> Mask w s e = Panic).
Proof. intros W S. split; [intros E; apply Mask_bits; lia|intros E; apply Mask_panics; lia]. Qed.
(** A value that fits, stored in a range that is clear, is read back, and no bit outside of the range changes. *)
Theorem C150_set_get_partial w w1 val store s e : w <= 64 -> 0 <= w1 -> 0 <= s < e -> e <= w -> 0 <= store < 2 ^ w -> 0 <= val < 2 ^ (e - s) ->
  (forall i, s <= i < e -> Z.testbit store i = false) ->
  exists m st, Mask w s e = Ok m /\ SetValue w val store s e = Ok st /\ 0 <= st < 2 ^ w /\ GetValue w1 st m s = val mod 2 ^ w1 /\
    forall i, 0 <= i -> ~ s <= i < e -> Z.testbit st i = Z.testbit store i.
Proof.
  intros W W1 S E B V C. destruct (Mask_bits w s e) as (m & EM & BM & TM); try lia. destruct (SetValue_bits w val store s e) as (st & ES & BS & TS); try lia.
  assert (HV : forall i, e <= i -> Z.testbit val (i - s) = false) by (intros i I; apply (tb_small val (e - s)); lia).
  exists m, st. split; [exact EM|]. split; [exact ES|]. split; [exact BS|]. split.
  - apply (GetValue_range w1 st m s e val); try lia. intros i I. rewrite Z.land_spec, TM, TS by lia.
    destruct (Z.leb_spec s i), (Z.ltb_spec i e), (Z.ltb_spec i w); cbn; rewrite ?andb_false_r, ?andb_true_r; auto; try lia. rewrite C by lia. reflexivity.
  - intros i I N. rewrite TS by lia. destruct (Z.leb_spec s i); cbn; [|apply orb_false_r]. rewrite HV by lia. rewrite andb_false_r. apply orb_false_r.
Qed.
(** ClearBits clears exactly its range; after it a value can be stored whatever the range held before. *)
Theorem C150_clear w store s e : 0 <= w <= 64 -> 0 <= s < e -> e <= w -> 0 <= store < 2 ^ w ->
  0 <= ClearBits w store s e < 2 ^ w /\ forall i, 0 <= i -> Z.testbit (ClearBits w store s e) i = negb ((s <=? i) && (i <? e)) && Z.testbit store i.
Proof. exact (ClearBits_bits w store s e). Qed.
Theorem C150_replace w w1 val store s e : 0 <= w <= 64 -> 0 <= w1 -> 0 <= s < e -> e <= w -> 0 <= store < 2 ^ w -> 0 <= val < 2 ^ (e - s) ->
  exists m st, Mask w s e = Ok m /\ SetValue w val (ClearBits w store s e) s e = Ok st /\ GetValue w1 st m s = val mod 2 ^ w1 /\
    forall i, 0 <= i -> ~ s <= i < e -> Z.testbit st i = Z.testbit store i.
Proof.
  intros W W1 S E B V. destruct (ClearBits_bits w store s e W S E B) as (B2 & T2).
  destruct (C150_set_get_partial w w1 val (ClearBits w store s e) s e) as (m & st & EM & ES & _ & EG & T); try lia.
  { intros i I. rewrite T2 by lia. destruct (Z.leb_spec s i), (Z.ltb_spec i e); cbn; try lia; auto. }
  exists m, st. split; [exact EM|]. split; [exact ES|]. split; [exact EG|]. intros i I N. rewrite T, T2 by lia.
  destruct (Z.leb_spec s i), (Z.ltb_spec i e); try lia; reflexivity.
Qed.
(** Single bits: a bit that is set is read back, the others are as before, and ClearBit is SetBit of false. *)
Theorem C150_bit x w store p v : 0 <= p < w -> 0 <= store < 2 ^ w ->
  exists st, SetBit x w store p v = Ok st /\ 0 <= st < 2 ^ w /\ (forall q, 0 <= q < w -> GetBit x w st q = if q =? p then Ok v else GetBit x w store q) /\
    (v = false -> ClearBit w store p = st).
Proof.
  intros P B. destruct (SetBit_spec x w store p v P B) as (st & E & BS & T). exists st. split; [exact E|]. split; [exact BS|]. split.
  - intros q Q. rewrite !GetBit_spec by lia. rewrite T by lia. destruct (q =? p); reflexivity.
  - intros ->. unfold SetBit in E. destruct (x && _); [discriminate|]. injection E as <-. reflexivity.
Qed.
(** Positions outside of uint8 .. uint64 panic; those of the types without a case (uint, uintptr, defined types) read as false and are not set. *)
Theorem C150_bit_outside w store p v : 0 <= w <= p ->
  GetBit true w store p = Panic /\ SetBit true w store p v = Panic /\ GetBit false w store p = Ok false /\ SetBit false w store p v = Ok store /\ ClearBit w store p = store.
Proof.
  intros P. unfold GetBit, SetBit, ClearBit. destruct (Z.ltb_spec (w - 1) p); [|lia]. cbn [andb]. rewrite bit_far by lia. rewrite Z.land_0_r, Z.lor_0_r, Z.ldiff_0_r.
  repeat split. destruct v; reflexivity.
Qed.
(** ClearBytes clears the bytes from from to to, and panics when there are not that many. *)
Theorem C150_clear_bytes b from to : 0 <= from -> to < 256 ->
  (to <= len b -> exists b', ClearBytes b from to = Ok b' /\ len b' = len b /\ forall k, 0 <= k -> index b' k = if (from <=? k) && (k <? to) then Ok 0 else index b k) /\
  (from < to -> len b < to -> ClearBytes b from to = Panic).
Proof. intros F T. split; [intros L; apply ClearBytes_go_spec; lia|intros L L2; apply ClearBytes_panics; lia]. Qed.

(** SetValue replaces what the range held, and stays in its range: false, it only sets bits, and does not look at end. *)
Theorem C150_set_get_refuted : ~ (forall w val store s e, w = 8 -> 0 <= s < e -> e <= w -> 0 <= store < 2 ^ w -> 0 <= val < 2 ^ (e - s) ->
  exists m st, Mask w s e = Ok m /\ SetValue w val store s e = Ok st /\ GetValue w st m s = val).
Proof. intros A. destruct (A 8 1 6 1 3 eq_refl) as (m & st & E1 & E2 & E3); [lia|lia|cbn; lia|cbn; lia|]. vm_compute in E1, E2. injection E1 as <-. injection E2 as <-. discriminate. Qed.
Theorem C150_range_refuted : ~ (forall w val store s e st, w = 8 -> 0 <= s < e -> e <= w -> 0 <= store < 2 ^ w -> 0 <= val < 2 ^ w -> SetValue w val store s e = Ok st ->
  forall i, 0 <= i -> ~ s <= i < e -> Z.testbit st i = Z.testbit store i).
Proof. intros A. specialize (A 8 7 0 1 3 14 eq_refl ltac:(lia) ltac:(lia) ltac:(cbn; lia) ltac:(cbn; lia) eq_refl 3 ltac:(lia) ltac:(lia)). discriminate. Qed.

Example C150_case : Mask 16 3 7 = Ok 120 /\ SetValue 16 9 (2 ^ 15 + 1) 3 7 = Ok (2 ^ 15 + 73) /\ GetValue 8 (2 ^ 15 + 73) 120 3 = 9 /\
  ClearBits 16 (2 ^ 15 + 73) 3 7 = 2 ^ 15 + 1 /\ ClearBits 64 (2 ^ 64 - 1) 0 64 = 0 /\ SetBit true 8 5 1 true = Ok 7 /\ ClearBytes [1; 2; 3] 1 2 = Ok [1; 0; 3].
Proof. vm_compute. repeat split. Qed.

Print Assumptions C150_mask.
Print Assumptions C150_set_get_partial.
Print Assumptions C150_clear.
Print Assumptions C150_replace.
Print Assumptions C150_bit.
Print Assumptions C150_bit_outside.
Print Assumptions C150_clear_bytes.
Print Assumptions C150_set_get_refuted.
Print Assumptions C150_range_refuted.
