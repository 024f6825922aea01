(** C01, C02: field, map and Any headers. *)
From Verif.Model Require Import Base Header.
From Verif.Proofs Require Import BaseLemmas HeaderLemmas.

(** C01: encode then decode, for every number, type and 40-bit value, in a buffer
    that may be longer than the header (the rest of it is not touched). *)
Theorem C01_header_roundtrip :
  forall buf fn ft f40,
    8 <= len buf -> 0 <= fn < 2 ^ 16 -> 0 <= ft < 2 ^ 8 -> 0 <= f40 < 2 ^ 40 ->
    exists buf',
      EncodeHeader buf fn ft f40 = Ok buf' /\ len buf' = len buf /\
      drop 8 buf' = drop 8 buf /\
      DecodeHeader buf' = Ok (fn, ft, f40) /\ DecodeHeaderFinal40 buf' = Ok f40.
Proof.
  intros buf fn ft f40 Hl Hfn Hft Hf.
  exists (hdr fn ft f40 ++ drop 8 buf).
  rewrite EncodeHeader_spec, DecodeHeader_spec, DecodeHeaderFinal40_spec by auto.
  rewrite len_app, len_hdr, len_drop by lia.
  repeat split; auto; try lia.
Qed.

Example C01_header_roundtrip_ex :
  EncodeHeader (zeros 10) 513 14 (2 ^ 40 - 1) = Ok [1; 2; 14; 255; 255; 255; 255; 255; 0; 0]
  /\ DecodeHeader [1; 2; 14; 255; 255; 255; 255; 255; 0; 0] = Ok (513, 14, 2 ^ 40 - 1).
Proof. split; vm_compute; reflexivity. Qed.

(** C01: an oversize final-40 value panics, it is never truncated. *)
Theorem C01_header_oversize_panics :
  forall buf fn ft f40, 2 ^ 40 <= f40 ->
    EncodeHeader buf fn ft f40 = Panic /\ EncodeHeaderFinal40 buf f40 = Panic.
Proof.
  intros. split.
  - now apply EncodeHeader_big.
  - unfold EncodeHeaderFinal40, MaxFinal40. destruct (Z.gtb_spec f40 (2 ^ 40 - 1)); auto. lia.
Qed.

(** C01: decoding is injective: the header bytes are determined by the three parts. *)
Theorem C01_header_decode_injective :
  forall a b r, is_bytes a -> is_bytes b -> len a = 8 -> len b = 8 ->
    DecodeHeader a = Ok r -> DecodeHeader b = Ok r -> a = b.
Proof.
  intros a b r Ha Hb La Lb Da Db.
  destruct (hdr_surj a Ha La) as (f1 & t1 & x1 & -> & ? & ? & ?).
  destruct (hdr_surj b Hb Lb) as (f2 & t2 & x2 & -> & ? & ? & ?).
  rewrite <- (app_nil_r (hdr f1 t1 x1)), DecodeHeader_spec in Da by auto.
  rewrite <- (app_nil_r (hdr f2 t2 x2)), DecodeHeader_spec in Db by auto.
  congruence.
Qed.

(** C01: the three partial updates change their own part only. *)
Theorem C01_header_partial_updates :
  forall buf fn ft f40,
    is_bytes buf -> 8 <= len buf -> DecodeHeader buf = Ok (fn, ft, f40) ->
    (forall fn', 0 <= fn' < 2 ^ 16 -> exists b, EncodeHeaderFieldNum buf fn' = Ok b /\
       DecodeHeader b = Ok (fn', ft, f40) /\ drop 8 b = drop 8 buf) /\
    (forall ft', 0 <= ft' < 2 ^ 8 -> exists b, EncodeHeaderFieldType buf ft' = Ok b /\
       DecodeHeader b = Ok (fn, ft', f40) /\ drop 8 b = drop 8 buf) /\
    (forall v, 0 <= v < 2 ^ 40 -> exists b, EncodeHeaderFinal40 buf v = Ok b /\
       DecodeHeader b = Ok (fn, ft, v) /\ drop 8 b = drop 8 buf).
Proof.
  intros buf fn ft f40 HB HL HD.
  destruct (DecodeHeader_ok_ex buf HB HL) as (a & b & c & HD' & Ht & Ha & Hb & Hc).
  rewrite HD in HD'. injection HD' as <- <- <-.
  rewrite <- (take_drop 8 buf), Ht. set (rest := drop 8 buf).
  assert (Hd : forall p q : bytes, len p = 8 -> drop 8 (p ++ q) = q) by (intros; now apply drop_app_exact).
  repeat split.
  - intros v Hv. exists (hdr v ft f40 ++ rest).
    rewrite DecodeHeader_spec, !Hd by (auto; apply len_hdr).
    repeat split. unfold hdr, EncodeHeaderFieldNum. rewrite <- !app_assoc.
    exact (le_put_split 2 [] (le_enc 2 fn) _ 0 v eq_refl (len_le_enc 2 fn)).
  - intros v Hv. exists (hdr fn v f40 ++ rest).
    rewrite DecodeHeader_spec, !Hd by (auto; apply len_hdr).
    repeat split. unfold hdr, EncodeHeaderFieldType. rewrite <- !app_assoc.
    rewrite (le_put_split 1 (le_enc 2 fn) (le_enc 1 ft)); auto.
  - intros v Hv. exists (hdr fn ft v ++ rest).
    rewrite DecodeHeader_spec, !Hd by (auto; apply len_hdr).
    repeat split. unfold hdr, EncodeHeaderFinal40, MaxFinal40.
    destruct (Z.gtb_spec v (2 ^ 40 - 1)); [lia|].
    rewrite <- !app_assoc, (app_assoc (le_enc 2 fn)), (app_assoc (le_enc 2 fn)).
    rewrite put_final40_spec; auto.
    apply is_bytes_app. split; apply le_enc_bytes.
Qed.

Example C01_header_partial_updates_ex :
  DecodeHeader (zeros 8) = Ok (0, 0, 0) /\
  EncodeHeaderFinal40 [1; 2; 14; 9; 9; 9; 9; 9] 258 = Ok [1; 2; 14; 2; 1; 0; 0; 0].
Proof. split; vm_compute; reflexivity. Qed.

(** C02: map header. *)
Theorem C02_map_header_roundtrip :
  forall buf fn k v sz,
    8 <= len buf -> 0 <= fn < 2 ^ 16 -> 0 <= k < 2 ^ 8 -> 0 <= v < 2 ^ 8 -> 0 <= sz < 2 ^ 24 ->
    exists buf',
      EncodeMapHeader buf fn k v sz = Ok buf' /\ drop 8 buf' = drop 8 buf /\
      DecodeMapHeader buf' = Ok (k, v, sz) /\
      exists f40, DecodeHeader buf' = Ok (fn, FTMap_code, f40).
Proof.
  intros. exists (hdr fn FTMap_code (map_f40 k v sz) ++ drop 8 buf).
  rewrite EncodeMapHeader_spec, DecodeMapHeader_spec by (auto; unfold FTMap_code; lia).
  repeat split; auto.
  eexists. apply DecodeHeader_spec; auto; unfold FTMap_code, map_f40; lia.
Qed.
Theorem C02_map_header_oversize_panics :
  forall buf fn k v sz, 2 ^ 24 <= sz -> EncodeMapHeader buf fn k v sz = Panic.
Proof.
  intros. unfold EncodeMapHeader, MaxMapSize.
  destruct (Z.gtb_spec sz (2 ^ 24 - 1)); auto. lia.
Qed.
Example C02_map_header_ex :
  EncodeMapHeader (zeros 8) 7 13 3 (2 ^ 24 - 1) = Ok [7; 0; 55; 13; 3; 255; 255; 255].
Proof. vm_compute; reflexivity. Qed.

(** C02: Any header. *)
Theorem C02_any_header_roundtrip :
  forall buf fn t sz,
    8 <= len buf -> 0 <= fn < 2 ^ 16 -> 0 <= t < 2 ^ 8 -> 0 <= sz < 2 ^ 32 ->
    exists buf',
      EncodeAnyHeader buf fn t sz = Ok buf' /\ drop 8 buf' = drop 8 buf /\
      DecodeAnyHeader buf' = Ok (t, sz) /\
      exists f40, DecodeHeader buf' = Ok (fn, FTAny_code, f40).
Proof.
  intros. exists (hdr fn FTAny_code (any_f40 t sz) ++ drop 8 buf).
  rewrite EncodeAnyHeader_spec, DecodeAnyHeader_spec by (auto; unfold FTAny_code; lia).
  repeat split; auto.
  eexists. apply DecodeHeader_spec; auto; unfold FTAny_code, any_f40; lia.
Qed.
Example C02_any_header_ex :
  EncodeAnyHeader (zeros 8) 7 14 (2 ^ 32 - 1) = Ok [7; 0; 15; 14; 255; 255; 255; 255].
Proof. vm_compute; reflexivity. Qed.

Print Assumptions C01_header_roundtrip.
Print Assumptions C01_header_oversize_panics.
Print Assumptions C01_header_decode_injective.
Print Assumptions C01_header_partial_updates.
Print Assumptions C02_map_header_roundtrip.
Print Assumptions C02_map_header_oversize_panics.
Print Assumptions C02_any_header_roundtrip.
