(** The field builders of the model write the wire format. *)
From Verif.Proofs Require Export WireLemmas.

Lemma EncodeHeader_zeros n f ft x :
  8 <= n -> 0 <= x < 2 ^ 40 ->
  EncodeHeader (zeros n) f ft x = Ok (hdr f ft x ++ zeros (n - 8)).
Proof.
  intros. rewrite EncodeHeader_spec by (auto; rewrite len_zeros; lia).
  do 2 f_equal. replace n with (8 + (n - 8)) at 1 by lia. rewrite zeros_app by lia.
  apply drop_app_exact. reflexivity.
Qed.

Lemma wide_field_spec f ft v : wide_field f ft v = Ok (hdr f ft 0 ++ le_enc 8 v).
Proof.
  unfold wide_field. rewrite EncodeHeader_zeros by (change HeaderSize with 8; lia).
  rewrite bind_Ok. change (zeros (HeaderSize + 8 - 8)) with (zeros 8).
  rewrite <- (app_nil_r (zeros 8)).
  rewrite le_put_split; [now rewrite app_nil_r|now rewrite len_hdr|reflexivity].
Qed.

Lemma copy_at_all p src n off :
  off = len p -> n = len src -> copy_at (p ++ zeros n) off src = Ok (p ++ src).
Proof.
  intros -> ->. rewrite <- (app_nil_r (zeros _)), copy_at_split; auto.
  - now rewrite app_nil_r.
  - rewrite len_zeros; auto. apply len_nonneg.
Qed.
Lemma copy_at_pad p src n m off :
  off = len p -> n = len src -> 0 <= m -> copy_at (p ++ zeros (n + m)) off src = Ok (p ++ src ++ zeros m).
Proof.
  intros -> -> Hm. rewrite zeros_app by (auto; apply len_nonneg). rewrite copy_at_split; auto.
  rewrite len_zeros; auto. apply len_nonneg.
Qed.

Lemma bytes_field_spec f str b :
  len (wire_value f (VBytes str b)) < 2 ^ 32 ->
  bytes_field f (if str then FTString else FTBytes) b = Ok (wire_value f (VBytes str b)).
Proof.
  intros HL. rewrite len_wire_value in HL. cbn [v_rest] in HL. rewrite len_padded in HL.
  pose proof (len_nonneg b). pose proof (pad_len_range (len b)).
  unfold bytes_field. rewrite paddingNeeded_pad by lia.
  rewrite EncodeHeader_zeros by (change HeaderSize with 8; lia). rewrite bind_Ok.
  change HeaderSize with 8.
  replace (8 + len b + pad_len (len b) - 8) with (len b + pad_len (len b)) by lia.
  rewrite copy_at_pad; auto; try lia.
Qed.

(** ** Bools *)

Lemma bits_byte_range l : (length l <= 8)%nat -> 0 <= bits_byte l < 2 ^ Z.of_nat (length l).
Proof.
  induction l as [|b l IH]; cbn [bits_byte length]; intros H; [cbn; lia|].
  rewrite Nat2Z.inj_succ, Z.pow_succ_r by lia. specialize (IH ltac:(lia)). destruct b; lia.
Qed.
Lemma bits_byte_snoc l b :
  bits_byte (l ++ [b]) = bits_byte l + (if b then 2 ^ len l else 0).
Proof.
  induction l as [|a l IH]; [cbn; destruct b; reflexivity|].
  cbn [bits_byte app]. rewrite IH, len_cons.
  destruct b; [|lia]. rewrite Z.add_comm with (n := 1), Z.pow_add_r by (try lia; apply len_nonneg).
  change (2 ^ 1) with 2. lia.
Qed.
(** A byte list at index j, as a function. *)
Lemma nth_error_bit_bytes l j :
  (j < (length l + 7) / 8)%nat ->
  nth_error (bit_bytes l) j = Some (bits_byte (firstn 8 (skipn (8 * j) l))).
Proof.
  intros. unfold bit_bytes. rewrite nth_error_map.
  rewrite (nth_error_nth' _ O) by (rewrite seq_length; lia).
  cbn [option_map]. rewrite seq_nth by lia. reflexivity.
Qed.

(** The packing loop, with the items already packed as [done] and n bytes in all:
    the buffer holds the bits of [done] followed by zero bytes. *)
Definition packed (n : nat) (l : list bool) : bytes :=
  map (fun i => bits_byte (firstn 8 (skipn (8 * i) l))) (seq 0 n).
Lemma packed_nil n : packed n [] = zeros (Z.of_nat n).
Proof.
  unfold packed, zeros. rewrite Nat2Z.id.
  assert (H : forall s, map (fun i => bits_byte (firstn 8 (skipn (8 * i) []))) (seq s n) = repeat 0 n).
  { induction n; intros; cbn [seq map repeat]; auto. rewrite skipn_nil, IHn. reflexivity. }
  apply H.
Qed.
Lemma packed_snoc n l b :
  (length l < 8 * n)%nat ->
  packed n (l ++ [b]) =
  if b then upd (packed n l) (len l / 8) (bits_byte (firstn 8 (skipn (8 * (length l / 8)) l)) + 2 ^ (len l mod 8))
  else packed n l.
Proof.
  intros HL.
  assert (E : forall i, bits_byte (firstn 8 (skipn (8 * i) (l ++ [b]))) =
     bits_byte (firstn 8 (skipn (8 * i) l)) +
       (if b && Nat.eqb i (length l / 8) then 2 ^ (len l mod 8) else 0)).
  { intros i. rewrite skipn_app, firstn_app, skipn_length.
    destruct (Nat.eqb_spec i (length l / 8)) as [->|N].
    - assert (length l = 8 * (length l / 8) + length l mod 8)%nat by (apply Nat.div_mod; lia).
      assert (length l mod 8 < 8)%nat by (apply Nat.mod_upper_bound; lia).
      replace (8 * (length l / 8) - length l)%nat with 0%nat by lia. cbn [skipn].
      rewrite (firstn_all2 (n := 8) (skipn (8 * (length l / 8)) l)) by (rewrite skipn_length; lia).
      replace (8 - (length l - 8 * (length l / 8)))%nat with (S (7 - length l mod 8)) by lia.
      cbn [firstn]. rewrite firstn_nil. rewrite bits_byte_snoc.
      replace (len (skipn (8 * (length l / 8)) l)) with (len l mod 8).
      2:{ unfold len. rewrite skipn_length.
          replace (length l - 8 * (length l / 8))%nat with (length l mod 8)%nat by lia.
          rewrite Nat2Z.inj_mod. reflexivity. }
      destruct b; cbn; lia.
    - rewrite andb_false_r, Z.add_0_r. f_equal.
      destruct (Nat.lt_ge_cases i (length l / 8)).
      + replace (8 - (length l - 8 * i))%nat with 0%nat.
        { cbn. now rewrite app_nil_r. }
        assert (length l = 8 * (length l / 8) + length l mod 8)%nat by (apply Nat.div_mod; lia). lia.
      + rewrite (skipn_all2 (n := 8 * i - length l) [b]).
        * now rewrite firstn_nil, app_nil_r.
        * cbn [length].
          assert (length l = 8 * (length l / 8) + length l mod 8)%nat by (apply Nat.div_mod; lia).
          assert (length l mod 8 < 8)%nat by (apply Nat.mod_upper_bound; lia). lia. }
  unfold packed.
  assert (HD : len l / 8 = Z.of_nat (length l / 8)) by (unfold len; now rewrite Nat2Z.inj_div).
  destruct b.
  - rewrite HD, upd_map_seq.
    2:{ split; [lia|]. apply Nat2Z.inj_lt. apply Nat.div_lt_upper_bound; lia. }
    apply map_ext. intros i. rewrite E. cbn [andb].
    destruct (Nat.eqb_spec i (length l / 8)) as [->|N].
    + rewrite Z.eqb_refl. reflexivity.
    + destruct (Z.eqb_spec (Z.of_nat i) (Z.of_nat (length l / 8))); [lia|]. lia.
  - apply map_ext. intros i. rewrite E. cbn [andb]. lia.
Qed.

Lemma upd_app_r {A} (p q : list A) i x : i >= len p -> upd (p ++ q) i x = p ++ upd q (i - len p) x.
Proof.
  intros H. unfold upd, len in *. rewrite Z2Nat.inj_sub by lia. rewrite Nat2Z.id.
  assert (length p <= Z.to_nat i)%nat as Hi by lia. revert Hi. generalize (Z.to_nat i) as k. clear.
  induction p as [|y p IH]; intros k Hk; cbn [app length] in *.
  - now rewrite Nat.sub_0_r.
  - destruct k; [lia|]. cbn [set_nth]. f_equal. rewrite IH by lia. reflexivity.
Qed.
Lemma upd_app_l {A} (p q : list A) i x : 0 <= i < len p -> upd (p ++ q) i x = upd p i x ++ q.
Proof.
  intros H. unfold upd, len in *.
  assert (Z.to_nat i < length p)%nat as Hi by lia. revert Hi. generalize (Z.to_nat i) as k. clear.
  induction p as [|y p IH]; intros k Hk; cbn [app length] in *; [lia|].
  destruct k; cbn [set_nth app]; auto. f_equal. apply IH. lia.
Qed.
Lemma length_packed n l : length (packed n l) = n.
Proof. unfold packed. now rewrite map_length, seq_length. Qed.
Lemma len_packed n l : len (packed n l) = Z.of_nat n.
Proof. unfold len. now rewrite length_packed. Qed.
Lemma index_packed n l i :
  0 <= i < Z.of_nat n ->
  index (packed n l) i = Ok (bits_byte (firstn 8 (skipn (8 * Z.to_nat i) l))).
Proof.
  intros. apply index_nth_error; [lia|]. unfold packed. rewrite nth_error_map.
  rewrite (nth_error_nth' _ O) by (rewrite seq_length; lia).
  cbn [option_map]. rewrite seq_nth by lia. reflexivity.
Qed.

Lemma index_app_r {A} (p q : list A) i : len p <= i -> index (p ++ q) i = index q (i - len p).
Proof.
  intros. unfold index. rewrite len_app. pose proof (len_nonneg p).
  replace (0 <=? i) with true by lia. replace (0 <=? i - len p) with true by lia. cbn [andb].
  replace (i <? len p + len q) with (i - len p <? len q) by lia.
  rewrite nth_error_app2 by (unfold len in *; lia).
  replace (Z.to_nat i - length p)%nat with (Z.to_nat (i - len p)); auto. unfold len in *; lia.
Qed.
Lemma index_app_l {A} (p q : list A) i : i < len p -> index (p ++ q) i = index p i.
Proof.
  intros. unfold index. rewrite len_app. pose proof (len_nonneg q).
  destruct (Z.leb_spec 0 i); auto. cbn [andb].
  replace (i <? len p + len q) with true by lia. replace (i <? len p) with true by lia.
  rewrite nth_error_app1 by (unfold len in *; lia). auto.
Qed.

Lemma pack_bools_spec items done h n z :
  len h = 8 -> (length done + length items <= 8 * n)%nat ->
  pack_bools (h ++ packed n done ++ z) (len done) items = Ok (h ++ packed n (done ++ items) ++ z).
Proof.
  intros Hh. revert done. induction items as [|b items IH]; intros done HL; cbn [pack_bools length] in *.
  - now rewrite app_nil_r.
  - assert (HB : len done / 8 < Z.of_nat n).
    { unfold len. apply Z.div_lt_upper_bound; lia. }
    pose proof (len_nonneg done).
    assert (E : (if b then
                 x <- index (h ++ packed n done ++ z) (8 + len done / 8) ;;
                 Ok (upd (h ++ packed n done ++ z) (8 + len done / 8) (Z.lor x (u8 (Z.shiftl 1 (len done mod 8)))))
               else Ok (h ++ packed n done ++ z)) = Ok (h ++ packed n (done ++ [b]) ++ z)).
    { rewrite packed_snoc by lia. destruct b; auto.
      rewrite index_app_r, Hh by lia.
      replace (8 + len done / 8 - 8) with (len done / 8) by lia.
      rewrite index_app_l by (rewrite len_packed; lia).
      rewrite index_packed by lia. rewrite bind_Ok. f_equal.
      rewrite upd_app_r, Hh by lia.
      replace (8 + len done / 8 - 8) with (len done / 8) by lia.
      rewrite upd_app_l by (rewrite len_packed; lia). do 2 f_equal.
      rewrite Z.shiftl_mul_pow2 by lia. rewrite Z.mul_1_l.
      assert (P : 0 < 2 ^ (len done mod 8) <= 2 ^ 7).
      { split; [apply Z.pow_pos_nonneg; lia|]. apply Z.pow_le_mono_r; lia. }
      unfold u8. rewrite Z.mod_small by lia.
      replace (Z.to_nat (len done / 8)) with (length done / 8)%nat.
      2:{ unfold len. rewrite <- (Nat2Z.inj_div _ 8). now rewrite Nat2Z.id. }
      rewrite <- (Z.mul_1_l (2 ^ _)). rewrite pow2_bits_lor; try lia. f_equal.
      pose proof (bits_byte_range (firstn 8 (skipn (8 * (length done / 8)) done))) as R.
      rewrite firstn_length, skipn_length in R.
      assert (length done = 8 * (length done / 8) + length done mod 8)%nat by (apply Nat.div_mod; lia).
      assert (length done mod 8 < 8)%nat by (apply Nat.mod_upper_bound; lia).
      replace (Nat.min 8 (length done - 8 * (length done / 8))) with (length done mod 8)%nat in R by lia.
      replace (len done mod 8) with (Z.of_nat (length done mod 8)).
      2:{ unfold len. rewrite Nat2Z.inj_mod. reflexivity. }
      apply R. lia. }
    rewrite E, bind_Ok.
    replace (len done + 1) with (len (done ++ [b])) by (rewrite len_app; reflexivity).
    rewrite IH.
    + now rewrite <- app_assoc.
    + rewrite app_length. cbn. lia.
Qed.

Lemma bools_field_spec f l :
  len (wire_value f (VBools l)) < 2 ^ 32 ->
  bools_field f l = Ok (wire_value f (VBools l)).
Proof.
  intros HL. rewrite len_wire_value in HL. cbn [v_rest] in HL. rewrite len_padded, len_bit_bytes in HL.
  pose proof (len_nonneg l). pose proof (pad_len_range ((len l + 7) / 8)).
  unfold bools_field. rewrite paddingNeeded_pad by lia.
  rewrite EncodeHeader_zeros by (change HeaderSize with 8; lia). rewrite bind_Ok.
  change HeaderSize with 8.
  replace (8 + (len l + 7) / 8 + pad_len ((len l + 7) / 8) - 8)
    with ((len l + 7) / 8 + pad_len ((len l + 7) / 8)) by lia.
  rewrite zeros_app by lia.
  set (n := ((length l + 7) / 8)%nat).
  assert (En : (len l + 7) / 8 = Z.of_nat n).
  { unfold n, len. rewrite Nat2Z.inj_div, Nat2Z.inj_add. reflexivity. }
  rewrite En, <- packed_nil.
  change 0 with (len (@nil bool)). rewrite pack_bools_spec.
  - cbn [app]. rewrite wire_form. cbn [v_type v_f40 v_rest]. unfold padded.
    rewrite len_bit_bytes, En. reflexivity.
  - apply len_hdr.
  - unfold n. pose proof (Nat.div_mod (length l + 7) 8). 
    pose proof (Nat.mod_upper_bound (length l + 7) 8). cbn [length]. lia.
Qed.

(** ** Numbers *)

Lemma item_size_kind k : item_size k = kind_size k.
Proof. destruct k; reflexivity. Qed.
Lemma append_items_spec k values data :
  append_items k data values = data ++ nums_data k values.
Proof.
  revert data. induction values as [|v r IH]; intros; cbn [append_items].
  - cbn. now rewrite app_nil_r.
  - rewrite IH. unfold put_item. rewrite item_size_kind. rewrite <- app_assoc. reflexivity.
Qed.
Lemma list_ft_type k : k <> KBool -> list_ft k = list_type k.
Proof. destruct k; auto; congruence. Qed.
Lemma numbers_field_spec f k l :
  k <> KBool -> len (wire_value f (VNums k l)) < 2 ^ 32 ->
  numbers_field f k (nums_data k l) = Ok (wire_value f (VNums k l)).
Proof.
  intros HK HL. rewrite len_wire_value in HL. cbn [v_rest] in HL.
  pose proof (len_nonneg (nums_data k l)).
  unfold numbers_field. change HeaderSize with 8.
  rewrite EncodeHeader_zeros by lia. rewrite bind_Ok.
  replace (8 + len (nums_data k l) - 8) with (len (nums_data k l)) by lia.
  rewrite copy_at_all; auto. rewrite list_ft_type by auto. reflexivity.
Qed.

(** ** Strings and bytes *)

Lemma blobs_size_spec l : blobs_size l = len (concat (map blob l)).
Proof.
  induction l as [|b l IH]; auto. cbn [blobs_size map concat].
  unfold blob at 1. rewrite !len_app, len_le_enc, IH. lia.
Qed.
Lemma put_blobs_spec l pre post n :
  n = len (concat (map blob l)) -> n < 2 ^ 32 ->
  put_blobs (pre ++ zeros n ++ post) (len pre) l = Ok (pre ++ concat (map blob l) ++ post).
Proof.
  revert pre n. induction l as [|b l IH]; intros pre n -> HL; cbn [put_blobs map concat] in *.
  - reflexivity.
  - unfold blob at 1. unfold blob at 1 in HL. rewrite !len_app, len_le_enc in *.
    pose proof (len_nonneg b). pose proof (len_nonneg (concat (map blob l))).
    rewrite <- Z.add_assoc. rewrite zeros_app by lia. rewrite zeros_app by lia.
    rewrite <- !app_assoc.
    rewrite le_put_split by (auto; rewrite len_zeros; lia). rewrite bind_Ok.
    replace (u32 (len b)) with (len b) by (unfold u32; rewrite Z.mod_small; lia).
    rewrite (app_assoc pre).
    rewrite copy_at_split.
    2:{ rewrite len_app, len_le_enc. lia. }
    2:{ rewrite len_zeros; lia. }
    rewrite bind_Ok. rewrite (app_assoc _ b).
    replace (len pre + 4 + len b) with (len ((pre ++ le_enc 4 (len b)) ++ b))
      by (rewrite !len_app, len_le_enc; lia).
    rewrite IH by (auto; lia). now rewrite <- !app_assoc.
Qed.
Lemma blobs_field_spec f str l :
  len (wire_value f (VBlobs str l)) < 2 ^ 32 ->
  blobs_field f (if str then FTListStrings else FTListBytes) l = Ok (wire_value f (VBlobs str l)).
Proof.
  intros HL. rewrite wire_form. rewrite len_wire_value in HL. cbn [v_rest v_f40 v_type] in *.
  set (d := concat (map blob l)) in *.
  unfold blobs_field. rewrite blobs_size_spec. fold d. rewrite len_padded in *.
  pose proof (len_nonneg d). pose proof (pad_len_range (len d)).
  rewrite paddingNeeded_pad by lia. change HeaderSize with 8.
  rewrite EncodeHeader_zeros by lia. rewrite bind_Ok.
  replace (8 + len d + pad_len (len d) - 8) with (len d + pad_len (len d)) by lia.
  rewrite zeros_app by lia.
  replace (8 + len d + pad_len (len d)) with (8 + (len d + pad_len (len d))) by lia.
  set (h := hdr _ _ _). change 8 with (len h) at 1.
  rewrite put_blobs_spec; [|reflexivity|change (len d < 2 ^ 32); lia]. reflexivity.
Qed.

(** ** Structs *)

Lemma EncodeHeaderFieldNum_spec f g ft x rest :
  EncodeHeaderFieldNum (hdr f ft x ++ rest) g = Ok (hdr g ft x ++ rest).
Proof.
  unfold EncodeHeaderFieldNum, hdr. rewrite <- !app_assoc.
  exact (le_put_split 2 [] (le_enc 2 f) _ 0 g eq_refl (len_le_enc 2 f)).
Qed.
Lemma le_enc_u16 i : le_enc 2 (u16 i) = le_enc 2 i.
Proof. unfold u16. change (2 ^ 16) with (256 ^ Z.of_nat 2). apply le_enc_mod. Qed.
Lemma hdr_u16 i t x : hdr (u16 i) t x = hdr i t x.
Proof. unfold hdr. now rewrite le_enc_u16. Qed.

Lemma put_structs_spec l fs i :
  length fs = length l ->
  exists items',
    put_structs i (map (fun p => wire_struct (fst p) (snd p)) (combine fs l)) = Ok (items', wire_items i l)
    /\ length items' = length l.
Proof.
  revert fs i. induction l as [|m l IH]; intros [|g fs] i HL; cbn in HL; try discriminate.
  - exists []. auto.
  - cbn [combine map put_structs fst snd]. rewrite wire_struct_hdr, EncodeHeaderFieldNum_spec, bind_Ok.
    destruct (IH fs (i + 1)) as (items' & E & L); [congruence|]. rewrite E, bind_Ok.
    eexists. split.
    + do 2 f_equal. cbn [wire_items]. rewrite wire_struct_hdr, hdr_u16. reflexivity.
    + cbn. now rewrite L.
Qed.
Lemma len_wire_items i j l : len (wire_items i l) = len (wire_items j l).
Proof.
  revert i j. induction l as [|m l IH]; intros; auto. cbn [wire_items].
  rewrite !len_app, !len_wire_struct. now rewrite (IH (i + 1) (j + 1)).
Qed.
Lemma structs_field_spec f (l : list msg) fs :
  length fs = length l ->
  len (wire_value f (VStructs l)) < 2 ^ 32 ->
  exists items',
    structs_field f (map (fun p => wire_struct (fst p) (snd p)) (combine fs l))
    = Ok (items', wire_value f (VStructs l)) /\ length items' = length l.
Proof.
  intros HF HL. unfold structs_field. rewrite wire_form. cbn [v_type v_f40 v_rest].
  rewrite len_wire_value in HL. cbn [v_rest] in HL.
  assert (ES : forall fs i, length fs = length l ->
     fold_right (fun it n => len it + n) 0 (map (fun p => wire_struct (fst p) (snd p)) (combine fs l))
     = len (wire_items i l)).
  { clear. induction l as [|m l IH]; intros [|g fs] i HL; cbn in HL; try discriminate; auto.
    cbn [combine map fold_right fst snd wire_items]. rewrite len_app, !len_wire_struct.
    rewrite (IH fs (i + 1)) by congruence. reflexivity. }
  rewrite (ES fs 0) by auto.
  pose proof (len_nonneg (wire_items 0 l)). change HeaderSize with 8.
  rewrite EncodeHeader_zeros by lia. rewrite bind_Ok.
  destruct (put_structs_spec l fs 0 HF) as (items' & E & L). rewrite E, bind_Ok.
  exists items'. split; auto.
Qed.

(** ** Any *)

Lemma any_field_spec f h d :
  len h = 16 -> len (wire_value f (VAny h d)) < 2 ^ 32 ->
  any_field f h d = Ok (wire_value f (VAny h d)).
Proof.
  intros H16 HL. rewrite wire_form. rewrite len_wire_value in HL. cbn [v_rest v_f40 v_type] in *.
  rewrite len_app in HL. pose proof (len_nonneg d).
  unfold any_field. change AnyHashSize with 16. change HeaderSize with 8.
  replace (u32 (16 + len d)) with (16 + len d) by (unfold u32; rewrite Z.mod_small; lia).
  rewrite EncodeAnyHeader_spec by (rewrite ?len_zeros; unfold FTStruct; lia). rewrite bind_Ok.
  replace (any_f40 FTStruct (16 + len d)) with (FTStruct + 256 * (16 + len d)) by (unfold any_f40; lia).
  rewrite zeros_app by lia. rewrite (drop_app_exact 8) by reflexivity.
  rewrite zeros_app by lia.
  rewrite copy_at_split by (rewrite ?len_hdr, ?len_zeros; lia). rewrite bind_Ok.
  rewrite app_assoc. rewrite copy_at_all by (rewrite ?len_app, ?len_hdr; lia).
  now rewrite <- app_assoc.
Qed.

Lemma anys_size_spec l : 
  Forall (fun p => len (fst p) = 16) l -> 
  anys_size l = len (concat (map (fun p : bytes * bytes => fst p ++ snd p) l)).
Proof.
  induction 1 as [|[h d] l H Hl IH]; auto. cbn [anys_size map concat fst snd] in *.
  rewrite !len_app, IH, H. unfold AnyHashSize. lia.
Qed.
Lemma put_anys_spec l pre n :
  Forall (fun p => len (fst p) = 16) l ->
  n = len (concat (map (fun p : bytes * bytes => fst p ++ snd p) l)) ->
  put_anys (pre ++ zeros n) (len pre) l = Ok (pre ++ concat (map (fun p => fst p ++ snd p) l)).
Proof.
  intros H. revert pre n. induction H as [|[h d] l H Hl IH]; intros pre n ->; cbn [put_anys map concat fst snd] in *.
  - reflexivity.
  - set (c := concat (map (fun p : bytes * bytes => fst p ++ snd p) l)) in *.
    rewrite !len_app. pose proof (len_nonneg d). pose proof (len_nonneg c). pose proof (len_nonneg h).
    rewrite zeros_app by lia. rewrite zeros_app by lia. rewrite <- !app_assoc.
    rewrite copy_at_split by (rewrite ?len_zeros; lia). rewrite bind_Ok.
    rewrite (app_assoc pre).
    unfold AnyHashSize.
    rewrite copy_at_split by (rewrite ?len_zeros, ?len_app; lia). rewrite bind_Ok.
    rewrite (app_assoc _ d).
    replace (len pre + 16 + len d) with (len ((pre ++ h) ++ d)) by (rewrite !len_app; lia).
    rewrite IH by auto. now rewrite <- !app_assoc.
Qed.
Lemma anys_field_spec f l :
  valid_value (VAnys l) -> len (wire_value f (VAnys l)) < 2 ^ 32 ->
  anys_field f l = Ok (wire_value f (VAnys l)).
Proof.
  intros HV HL. pose proof (valid_f40 _ _ HV HL) as H40.
  rewrite wire_form. rewrite len_wire_value in HL. cbn [v_rest v_f40 v_type] in *.
  cbn [valid_value] in HV.
  assert (H16 : Forall (fun p : bytes * bytes => len (fst p) = 16) l).
  { eapply Forall_impl; [|exact HV]. intros p Hp. apply Hp. }
  unfold anys_field. rewrite anys_size_spec by auto.
  set (c := concat (map (fun p : bytes * bytes => fst p ++ snd p) l)) in *.
  pose proof (len_nonneg c). change HeaderSize with 8.
  rewrite EncodeHeader_zeros by lia. rewrite bind_Ok.
  replace (8 + len c - 8) with (len c) by lia.
  set (h := hdr _ _ _). change 8 with (len h). now rewrite put_anys_spec.
Qed.

(** ** Maps *)

Lemma map_field_spec f kt vt e :
  valid_value (VMap kt vt e) -> map_field f kt vt e = Ok (wire_value f (VMap kt vt e)).
Proof.
  intros (Hk & Hv & _ & HS). rewrite wire_form. cbn [v_rest v_f40 v_type].
  unfold map_field. rewrite len_padded in *. pose proof (len_nonneg e).
  pose proof (pad_len_range (len e)). rewrite paddingNeeded_pad by lia. change HeaderSize with 8.
  replace (8 + len e + pad_len (len e)) with (8 + (len e + pad_len (len e))) by lia.
  replace (u32 (8 + (len e + pad_len (len e)))) with (8 + (len e + pad_len (len e)))
    by (unfold u32; rewrite Z.mod_small; lia).
  rewrite EncodeMapHeader_spec by (rewrite ?len_zeros; lia). rewrite bind_Ok.
  rewrite zeros_app by lia. rewrite (drop_app_exact 8) by reflexivity.
  rewrite copy_at_pad by (rewrite ?len_hdr; lia). unfold padded.
  unfold map_f40. change (2 ^ 8) with 256. change (2 ^ 16) with 65536.
  rewrite (Z.mul_comm vt), (Z.mul_comm _ 65536). reflexivity.
Qed.
