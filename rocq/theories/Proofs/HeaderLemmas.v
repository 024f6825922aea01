From Verif.Model Require Export Header.
From Verif.Proofs Require Export BaseLemmas.

(** The eight bytes of a header. *)
Definition hdr (fn ft f40 : Z) : bytes := le_enc 2 fn ++ le_enc 1 ft ++ le_enc 5 f40.

Lemma len_hdr fn ft f40 : len (hdr fn ft f40) = 8.
Proof. unfold hdr. rewrite !len_app, !len_le_enc. reflexivity. Qed.
Lemma hdr_bytes fn ft f40 : is_bytes (hdr fn ft f40).
Proof. unfold hdr. rewrite !is_bytes_app. repeat split; apply le_enc_bytes. Qed.

Lemma split_at {A} n (l : list A) :
  0 <= n <= len l -> exists a b, l = a ++ b /\ len a = n /\ len b = len l - n.
Proof.
  intros. exists (take n l), (drop n l). rewrite take_drop, len_take, len_drop by lia. auto.
Qed.

Lemma len5 {A} (x : list A) : len x = 5 -> exists x0 x1 x2 x3 x4, x = [x0; x1; x2; x3; x4].
Proof.
  unfold len. intros H.
  destruct x as [|x0 [|x1 [|x2 [|x3 [|x4 [|? ?]]]]]]; cbn [length] in H; try lia.
  repeat eexists.
Qed.

Lemma put_final40_spec w x rest f40 :
  len w = 3 -> len x = 5 -> is_bytes w -> 0 <= f40 < 2 ^ 40 ->
  put_final40 (w ++ x ++ rest) f40 = Ok (w ++ le_enc 5 f40 ++ rest).
Proof.
  intros Hw Hx Bw Hf.
  destruct (len5 x Hx) as (x0 & x1 & x2 & x3 & x4 & ->).
  unfold put_final40. cbn [app].
  rewrite (le_put_split 1 w [x0] (x1 :: x2 :: x3 :: x4 :: rest) 3) by auto.
  rewrite bind_Ok.
  replace (w ++ le_enc 1 0 ++ x1 :: x2 :: x3 :: x4 :: rest)
    with ((w ++ [0]) ++ [x1] ++ (x2 :: x3 :: x4 :: rest)) by (rewrite <- app_assoc; reflexivity).
  rewrite le_put_split by (rewrite ?len_app, ?Hw; reflexivity). rewrite bind_Ok.
  replace ((w ++ [0]) ++ le_enc 1 0 ++ x2 :: x3 :: x4 :: rest)
    with ((w ++ [0;0]) ++ [x2] ++ (x3 :: x4 :: rest)) by (rewrite <- !app_assoc; reflexivity).
  rewrite le_put_split by (rewrite ?len_app, ?Hw; reflexivity). rewrite bind_Ok.
  replace ((w ++ [0;0]) ++ le_enc 1 0 ++ x3 :: x4 :: rest)
    with ((w ++ [0;0;0]) ++ [x3] ++ (x4 :: rest)) by (rewrite <- !app_assoc; reflexivity).
  rewrite le_put_split by (rewrite ?len_app, ?Hw; reflexivity). rewrite bind_Ok.
  replace ((w ++ [0;0;0]) ++ le_enc 1 0 ++ x4 :: rest)
    with ((w ++ [0;0;0;0]) ++ [x4] ++ rest) by (rewrite <- !app_assoc; reflexivity).
  rewrite le_put_split by (rewrite ?len_app, ?Hw; reflexivity). rewrite bind_Ok.
  replace ((w ++ [0;0;0;0]) ++ le_enc 1 0 ++ rest)
    with ((w ++ [0;0;0;0;0]) ++ rest) by (rewrite <- !app_assoc; reflexivity).
  rewrite le_get_app by (rewrite len_app, Hw; reflexivity). rewrite bind_Ok.
  rewrite le_dec_app. change (le_dec [0;0;0;0;0]) with 0. rewrite Z.mul_0_r, Z.add_0_r.
  pose proof (le_dec_bound w Bw) as Hb. rewrite Hw in Hb.
  change (256 ^ 3) with (2 ^ 24) in Hb.
  unfold u64, final40Shift. rewrite Z.shiftl_mul_pow2 by lia.
  rewrite Z.mod_small by lia. rewrite pow2_bits_lor by lia.
  rewrite <- (app_nil_l (_ ++ rest)).
  rewrite le_put_split by (rewrite ?len_app, ?Hw; reflexivity).
  cbn [app]. rewrite app_assoc. do 2 f_equal.
  change 8%nat with (3 + 5)%nat. rewrite le_enc_app. f_equal.
  - rewrite <- le_enc_mod. change (256 ^ Z.of_nat 3) with (2 ^ 24).
    replace ((le_dec w + f40 * 2 ^ 24) mod 2 ^ 24) with (le_dec w) by lia.
    replace 3%nat with (length w) by (unfold len in Hw; lia). now apply le_enc_dec.
  - f_equal. change (256 ^ Z.of_nat 3) with (2 ^ 24). lia.
Qed.

Lemma EncodeHeader_spec buf fn ft f40 :
  8 <= len buf -> 0 <= f40 < 2 ^ 40 ->
  EncodeHeader buf fn ft f40 = Ok (hdr fn ft f40 ++ drop 8 buf).
Proof.
  intros Hl Hf. unfold EncodeHeader, HeaderSize, MaxFinal40.
  replace (len buf <? 8) with false by lia.
  replace (f40 >? 2 ^ 40 - 1) with false by lia.
  destruct (split_at 2 buf) as (a & r & -> & Ha & Hr); [lia|].
  rewrite len_app in *.
  destruct (split_at 1 r) as (b & r' & -> & Hb & Hr'); [lia|].
  rewrite len_app in *.
  destruct (split_at 5 r') as (c & r'' & -> & Hc & Hr''); [lia|].
  rewrite <- (app_nil_l (a ++ _)). rewrite le_put_split by (auto; reflexivity).
  rewrite bind_Ok. cbn [app].
  rewrite le_put_split by (rewrite ?len_le_enc; auto; reflexivity).
  rewrite bind_Ok.
  replace (le_enc 2 fn ++ le_enc 1 ft ++ c ++ r'') with ((le_enc 2 fn ++ le_enc 1 ft) ++ c ++ r'')
    by now rewrite app_assoc.
  rewrite put_final40_spec; auto.
  - f_equal. unfold hdr. rewrite !app_assoc. f_equal.
    rewrite drop_app_exact; auto. rewrite !len_app. lia.
  - apply is_bytes_app. split; apply le_enc_bytes.
Qed.

Lemma EncodeHeader_big buf fn ft f40 : 2 ^ 40 <= f40 -> EncodeHeader buf fn ft f40 = Panic.
Proof.
  intros. unfold EncodeHeader, MaxFinal40. destruct (len buf <? _); auto.
  replace (f40 >? _) with true by lia. reflexivity.
Qed.

Lemma MakeHeader_spec fn ft f40 :
  0 <= f40 < 2 ^ 40 -> MakeHeader fn ft f40 = Ok (hdr fn ft f40).
Proof.
  intros. unfold MakeHeader. rewrite EncodeHeader_spec; auto.
  change (len (zeros HeaderSize)) with 8. lia.
Qed.

Lemma index_hdr fn ft f40 rest :
  0 <= ft < 2 ^ 8 -> index (hdr fn ft f40 ++ rest) 2 = Ok ft.
Proof.
  intros. unfold hdr. rewrite <- !app_assoc. cbn [le_enc].
  replace (ft mod 256) with ft by lia.
  apply (index_app (le_enc 2 fn)). reflexivity.
Qed.

Lemma DecodeHeader_spec fn ft f40 rest :
  0 <= fn < 2 ^ 16 -> 0 <= ft < 2 ^ 8 -> 0 <= f40 < 2 ^ 40 ->
  DecodeHeader (hdr fn ft f40 ++ rest) = Ok (fn, ft, f40).
Proof.
  intros H1 H2 H3. unfold DecodeHeader, HeaderSize. pose proof (len_nonneg rest).
  rewrite len_app, len_hdr. replace (_ <? 8) with false by lia.
  unfold hdr at 1. rewrite <- app_assoc. rewrite le_get_app by apply len_le_enc.
  rewrite bind_Ok. rewrite le_dec_enc_id by (cbn; lia).
  rewrite index_hdr by lia. rewrite bind_Ok. rewrite le_get_app by apply len_hdr. rewrite bind_Ok.
  unfold hdr. rewrite !le_dec_app, !len_le_enc, !le_dec_enc_id by (cbn; lia).
  unfold final40Shift. rewrite Z.shiftr_div_pow2 by lia.
  do 2 f_equal. change (256 ^ Z.of_nat 2) with 65536. change (256 ^ Z.of_nat 1) with 256. lia.
Qed.

Lemma DecodeHeaderFinal40_spec fn ft f40 rest :
  0 <= fn < 2 ^ 16 -> 0 <= ft < 2 ^ 8 -> 0 <= f40 < 2 ^ 40 ->
  DecodeHeaderFinal40 (hdr fn ft f40 ++ rest) = Ok f40.
Proof.
  intros H1 H2 H3. unfold DecodeHeaderFinal40.
  rewrite le_get_app by apply len_hdr. rewrite bind_Ok.
  unfold hdr. rewrite !le_dec_app, !len_le_enc, !le_dec_enc_id by (cbn; lia).
  unfold final40Shift. rewrite Z.shiftr_div_pow2 by lia. f_equal.
  change (256 ^ Z.of_nat 2) with 65536. change (256 ^ Z.of_nat 1) with 256. lia.
Qed.

(** Every buffer of eight bytes is a header. *)
Lemma hdr_surj b :
  is_bytes b -> len b = 8 ->
  exists fn ft f40, b = hdr fn ft f40 /\ 0 <= fn < 2 ^ 16 /\ 0 <= ft < 2 ^ 8 /\ 0 <= f40 < 2 ^ 40.
Proof.
  intros Hb Hl.
  destruct (split_at 2 b) as (a & r & -> & Ha & Hr); [lia|]. rewrite len_app in *.
  destruct (split_at 1 r) as (c & r' & -> & Hc & Hr'); [lia|]. rewrite len_app in *.
  rewrite !is_bytes_app in Hb. destruct Hb as (Ba & Bc & Br).
  exists (le_dec a), (le_dec c), (le_dec r').
  pose proof (le_dec_bound a Ba) as P1. rewrite Ha in P1.
  pose proof (le_dec_bound c Bc) as P2. rewrite Hc in P2.
  pose proof (le_dec_bound r' Br) as P3. replace (len r') with 5 in P3 by lia.
  split; [|cbn in *; lia]. unfold hdr.
  rewrite !le_enc_dec' by (auto; lia). reflexivity.
Qed.

Lemma DecodeHeader_ok_ex b :
  is_bytes b -> 8 <= len b ->
  exists fn ft f40, DecodeHeader b = Ok (fn, ft, f40) /\ take 8 b = hdr fn ft f40 /\
    0 <= fn < 2 ^ 16 /\ 0 <= ft < 2 ^ 8 /\ 0 <= f40 < 2 ^ 40.
Proof.
  intros Hb Hl. destruct (hdr_surj (take 8 b)) as (fn & ft & f40 & E & R).
  { now apply is_bytes_take. } { apply len_take; lia. }
  exists fn, ft, f40. split; [|tauto].
  rewrite <- (take_drop 8 b), E. apply DecodeHeader_spec; tauto.
Qed.

Lemma lor3 a b c :
  0 <= a < 2 ^ 8 -> 0 <= b < 2 ^ 8 -> 0 <= c ->
  Z.lor (Z.lor a (b * 2 ^ 8)) (c * 2 ^ 16) = a + b * 2 ^ 8 + c * 2 ^ 16.
Proof.
  intros. rewrite (pow2_bits_lor a b 8) by lia. rewrite pow2_bits_lor by lia. reflexivity.
Qed.

Definition map_f40 (k v sz : Z) : Z := k + v * 2 ^ 8 + sz * 2 ^ 16.
Lemma EncodeMapHeader_spec buf fn k v sz :
  8 <= len buf -> 0 <= k < 2 ^ 8 -> 0 <= v < 2 ^ 8 -> 0 <= sz < 2 ^ 24 ->
  EncodeMapHeader buf fn k v sz = Ok (hdr fn FTMap_code (map_f40 k v sz) ++ drop 8 buf).
Proof.
  intros Hl Hk Hv Hs. unfold EncodeMapHeader, MaxMapSize.
  replace (sz >? _) with false by lia.
  unfold u64, mapValueTypeShift, mapSizeShift. rewrite !Z.shiftl_mul_pow2 by lia.
  change (2 ^ 0) with 1. rewrite Z.mul_1_r. rewrite !Z.mod_small by lia.
  rewrite lor3 by lia. apply EncodeHeader_spec; unfold map_f40; lia.
Qed.
Lemma DecodeMapHeader_spec fn ft k v sz rest :
  0 <= fn < 2 ^ 16 -> 0 <= ft < 2 ^ 8 ->
  0 <= k < 2 ^ 8 -> 0 <= v < 2 ^ 8 -> 0 <= sz < 2 ^ 24 ->
  DecodeMapHeader (hdr fn ft (map_f40 k v sz) ++ rest) = Ok (k, v, sz).
Proof.
  intros Hf Ht Hk Hv Hs. unfold DecodeMapHeader.
  rewrite DecodeHeader_spec by (unfold map_f40; lia). rewrite bind_Ok.
  unfold mapValueTypeShift, mapSizeShift. rewrite !Z.shiftr_div_pow2 by lia.
  change 255 with (2 ^ 8 - 1). change 16777215 with (2 ^ 24 - 1).
  rewrite !land_ones_mod by lia. unfold map_f40. change (2 ^ 0) with 1.
  rewrite Z.div_1_r. repeat f_equal; lia.
Qed.

Definition any_f40 (t sz : Z) : Z := t + sz * 2 ^ 8.
Lemma EncodeAnyHeader_spec buf fn t sz :
  8 <= len buf -> 0 <= t < 2 ^ 8 -> 0 <= sz < 2 ^ 32 ->
  EncodeAnyHeader buf fn t sz = Ok (hdr fn FTAny_code (any_f40 t sz) ++ drop 8 buf).
Proof.
  intros Hl Ht Hs. unfold EncodeAnyHeader, HeaderSize. replace (_ <? 8) with false by lia.
  unfold u64, anySizeShift. rewrite !Z.shiftl_mul_pow2 by lia.
  change (2 ^ 0) with 1. rewrite Z.mul_1_r. rewrite !Z.mod_small by lia.
  rewrite pow2_bits_lor by lia. apply EncodeHeader_spec; unfold any_f40; lia.
Qed.
Lemma DecodeAnyHeader_spec fn ft t sz rest :
  0 <= fn < 2 ^ 16 -> 0 <= ft < 2 ^ 8 -> 0 <= t < 2 ^ 8 -> 0 <= sz < 2 ^ 32 ->
  DecodeAnyHeader (hdr fn ft (any_f40 t sz) ++ rest) = Ok (t, sz).
Proof.
  intros Hf Ht Hk Hs. unfold DecodeAnyHeader, HeaderSize. pose proof (len_nonneg rest).
  rewrite len_app, len_hdr. replace (_ <? 8) with false by lia.
  rewrite DecodeHeader_spec by (unfold any_f40; lia). rewrite bind_Ok.
  unfold anySizeShift. rewrite !Z.shiftr_div_pow2 by lia.
  change 255 with (2 ^ 8 - 1). change 4294967295 with (2 ^ 32 - 1).
  rewrite !land_ones_mod by lia. unfold any_f40, u8, u32. change (2 ^ 0) with 1.
  rewrite Z.div_1_r. repeat f_equal; lia.
Qed.
