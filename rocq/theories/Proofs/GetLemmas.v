(** The getters read back the wire format. *)
From Verif.Proofs Require Export ReparseLemmas.
From Verif.Spec Require Export Query.

Lemma Sim_len s n h3 m tail : Sim s n h3 m tail -> len (st_data s) < 2 ^ 32.
Proof.
  intros [R _]. rewrite (rep_data _ _ _ _ _ R), !len_app, len_le_enc.
  destruct (rep_h3 _ _ _ _ _ R) as [-> _]. pose proof (rep_size _ _ _ _ _ R). lia.
Qed.

Lemma Sim_seen s n h3 m tail f :
  Sim s n h3 m tail -> 0 <= f ->
  match seen n m f with
  | Some v => exists p q, FieldOffset s f = Ok (len p, len (wire_value f v)) /\
      st_data s = p ++ wire_value f v ++ q /\ 8 <= len p /\ valid_value v /\ f < 2 ^ 16 /\
      len p + len (wire_value f v) + len q < 2 ^ 32
  | None => FieldOffset s f = Ok (0, 0)
  end.
Proof.
  intros HS Hf. pose proof (Sim_len _ _ _ _ _ HS) as HL. destruct HS as [R V].
  destruct (Rep_FieldOffset _ _ _ _ _ f R Hf) as [A B].
  unfold seen. replace (0 <=? f) with true by lia. cbn [andb].
  destruct (Z.ltb_spec f (Z.of_nat n)).
  - destruct (flook f m) as [v|] eqn:E.
    + assert (E' : flook f (enc m) = Some (wire_value f v)).
      { unfold enc. rewrite flook_map, E. reflexivity. }
      destruct (A H _ E') as (p & q & E1 & E2 & E3 & E4).
      exists p, q. split; auto. split; auto. split; auto.
      destruct V as [_ V]. rewrite Forall_forall in V. apply flook_In in E. apply V in E.
      cbn in E. rewrite E2, !len_app in HL. split; [tauto|]. lia.
    + apply B. intros _. unfold enc. rewrite flook_map, E. reflexivity.
  - apply B. lia.
Qed.
Lemma Sim_HasField s n h3 m tail f :
  Sim s n h3 m tail -> 0 <= f ->
  HasField s f = Ok (match seen n m f with Some _ => true | None => false end).
Proof.
  intros [R V] Hf. rewrite (Rep_HasField _ _ _ _ _ f R Hf).
  unfold seen. replace (0 <=? f) with true by lia. cbn [andb].
  destruct (f <? Z.of_nat n); auto. unfold enc. rewrite flook_map. now destruct (flook f m).
Qed.

Ltac seen_cases HS Hf :=
  match type of HS with Sim ?s ?n ?h3 ?m ?tail =>
    match type of Hf with 0 <= ?f =>
      let H := fresh "L" in
      pose proof (Sim_seen s n h3 m tail f HS Hf) as H;
      destruct (seen n m f) as [v|];
      [destruct H as (p & q & EO & ED & Hp & HV & Hf16 & HT)|] end end.

Lemma slice_field (p c q : bytes) : slice (p ++ c ++ q) (len p) (len p + len c) = Ok c.
Proof. apply slice_app; lia. Qed.
Lemma slice_field_hdr p f t x r q : slice (p ++ (hdr f t x ++ r) ++ q) (len p) (len p + HeaderSize) = Ok (hdr f t x).
Proof. rewrite <- app_assoc. apply slice_app; auto. Qed.
Lemma DecodeHeader_hdr f t x :
  0 <= f < 2 ^ 16 -> 0 <= t < 2 ^ 8 -> 0 <= x < 2 ^ 40 -> DecodeHeader (hdr f t x) = Ok (f, t, x).
Proof. intros. rewrite <- (app_nil_r (hdr f t x)). now apply DecodeHeader_spec. Qed.

Lemma decode_field f v :
  0 <= f < 2 ^ 16 -> valid_value v -> len (wire_value f v) < 2 ^ 32 ->
  DecodeHeader (hdr f (v_type v) (v_f40 v)) = Ok (f, v_type v, v_f40 v).
Proof.
  intros. apply DecodeHeader_hdr; auto.
  - pose proof (v_type_range v). lia.
  - eapply valid_f40; eauto.
Qed.

Lemma get_final40_spec s n h3 m tail f :
  Sim s n h3 m tail -> 0 <= f ->
  get_final40 s f = Ok (option_map v_f40 (seen n m f)).
Proof.
  intros HS Hf. unfold get_final40. seen_cases HS Hf.
  - rewrite EO, bind_Ok. pose proof (len_wire_value_ge f v).
    replace (len (wire_value f v) =? 0) with false by lia. rewrite ED. rewrite wire_form.
    rewrite slice_field_hdr, bind_Ok.
    pose proof (len_nonneg p). pose proof (len_nonneg q).
    rewrite decode_field by (auto; lia). reflexivity.
  - rewrite L. reflexivity.
Qed.

Lemma sN_mod N z : 0 < N -> - 2 ^ (N - 1) <= z < 2 ^ (N - 1) -> sN N (z mod 2 ^ N) = z.
Proof.
  intros HN Hz. unfold sN. rewrite Z.mod_mod by (apply Z.pow_nonzero; lia).
  assert (E : 2 ^ N = 2 * 2 ^ (N - 1)).
  { rewrite <- Z.pow_succ_r by lia. f_equal. lia. }
  destruct (Z.le_gt_cases 0 z).
  - rewrite Z.mod_small by lia. replace (z <? _) with true by lia. reflexivity.
  - replace (z mod 2 ^ N) with (z + 2 ^ N).
    + replace (_ <? _) with false by lia. lia.
    + rewrite <- (Z.mod_add z 1) by lia. rewrite Z.mul_1_l. symmetry. apply Z.mod_small. lia.
Qed.

Lemma get_wide_spec s n h3 m tail f k :
  Sim s n h3 m tail -> 0 <= f -> is_wide k = true ->
  match seen n m f with
  | Some (VScalar k' z) => is_wide k' = true -> get_wide s f = Ok (Some (z mod 2 ^ 64))
  | Some _ => True
  | None => get_wide s f = Ok None
  end.
Proof.
  intros HS Hf HW. unfold get_wide. seen_cases HS Hf.
  - destruct v; auto. intros HW'. rewrite EO, bind_Ok. pose proof (len_wire_value_ge f (VScalar k0 v)).
    replace (len (wire_value f (VScalar k0 v)) =? 0) with false by lia. rewrite ED. rewrite wire_form.
    cbn [v_rest]. rewrite HW'.
    replace (p ++ (hdr f (v_type (VScalar k0 v)) (v_f40 (VScalar k0 v)) ++ le_enc 8 v) ++ q)
      with ((p ++ hdr f (v_type (VScalar k0 v)) (v_f40 (VScalar k0 v))) ++ (le_enc 8 v ++ q) ++ [])
      by (rewrite app_nil_r, <- !app_assoc; reflexivity).
    rewrite slice_app.
    2:{ rewrite len_app, len_hdr. reflexivity. }
    2:{ rewrite !len_app, len_nil. lia. }
    rewrite bind_Ok. unfold le_get.
    rewrite slice_prefix by reflexivity. rewrite !bind_Ok. do 2 f_equal. apply (le_dec_enc 8).
  - rewrite L. reflexivity.
Qed.

Lemma get_scalar_spec s n h3 m tail f k r :
  Sim s n h3 m tail -> expects n m (QScalar f k) r -> answer s (QScalar f k) = r.
Proof.
  intros HS [Hf HE]. cbn [answer].
  pose proof (get_final40_spec _ _ _ _ _ f HS Hf) as G.
  pose proof (fun k => get_wide_spec _ _ _ _ _ f k HS Hf) as W.
  assert (V : forall v, seen n m f = Some v -> valid_value v).
  { intros v E. pose proof (Sim_seen _ _ _ _ _ f HS Hf) as L. rewrite E in L.
    destruct L as (? & ? & ? & ? & ? & ? & _). auto. }
  destruct (seen n m f) as [[k' v| | | | | | | | |]|]; try tauto.
  - destruct HE as [-> ->]. specialize (V _ eq_refl). cbn [valid_value] in V.
    cbn [option_map v_f40] in G.
    destruct k; cbn [in_range] in V; cbn [is_wide kind_size Nat.eqb Z.of_nat Pos.of_succ_nat Pos.succ] in G;
    cbn [get_scalar];
    unfold GetBool, GetInt8, GetInt16, GetInt32, GetInt64, GetUint8, GetUint16, GetUint32, GetUint64,
      GetFloat32, GetFloat64; try rewrite G; cbn [bind or0];
    unfold s8, s16, s32, s64, u8, u16, u32.
    + do 2 f_equal. assert (v = 0 \/ v = 1) as [-> | ->] by lia; reflexivity.
    + change (256 ^ 1) with (2 ^ 8). rewrite sN_mod; auto; cbn; lia.
    + change (256 ^ 2) with (2 ^ 16). rewrite sN_mod; auto; cbn; lia.
    + change (256 ^ 4) with (2 ^ 32). rewrite sN_mod; auto; cbn; lia.
    + rewrite (W KI64) by reflexivity. cbn [bind or0]. rewrite sN_mod; auto; cbn; lia.
    + change (256 ^ 1) with (2 ^ 8). rewrite !Z.mod_small by (rewrite ?Z.mod_small; lia). reflexivity.
    + change (256 ^ 2) with (2 ^ 16). rewrite !Z.mod_small by (rewrite ?Z.mod_small; lia). reflexivity.
    + change (256 ^ 4) with (2 ^ 32). rewrite !Z.mod_small by (rewrite ?Z.mod_small; lia). reflexivity.
    + rewrite (W KU64) by reflexivity. cbn [bind or0]. rewrite Z.mod_small by lia. reflexivity.
    + change (256 ^ 4) with (2 ^ 32). rewrite !Z.mod_small by (rewrite ?Z.mod_small; lia). reflexivity.
    + rewrite (W KF64) by reflexivity. cbn [bind or0]. rewrite Z.mod_small by lia. reflexivity.
  - subst r. cbn [option_map] in G.
    destruct k; cbn [get_scalar];
    unfold GetBool, GetInt8, GetInt16, GetInt32, GetInt64, GetUint8, GetUint16, GetUint32, GetUint64,
      GetFloat32, GetFloat64; rewrite ?G; try reflexivity;
    [rewrite (W KI64) by reflexivity|rewrite (W KU64) by reflexivity|rewrite (W KF64) by reflexivity]; reflexivity.
Qed.

Lemma GetBytes_spec s n h3 m tail f r :
  Sim s n h3 m tail -> expects n m (QBytes f) r -> answer s (QBytes f) = r.
Proof.
  intros HS [Hf HE]. cbn [answer]. unfold GetBytes. seen_cases HS Hf.
  - destruct v; try tauto. subst r. rewrite EO, bind_Ok. pose proof (len_wire_value_ge f (VBytes is_string b)).
    replace (len (wire_value f (VBytes is_string b)) =? 0) with false by lia.
    pose proof (len_nonneg p). pose proof (len_nonneg q).
    assert (HD := decode_field f (VBytes is_string b) ltac:(lia) HV ltac:(lia)).
    rewrite ED, wire_form, slice_field_hdr, bind_Ok, HD, bind_Ok.
    cbn [v_f40 v_rest]. destruct (Z.eqb_spec (len b) 0) as [E|E].
    { apply len_0_nil in E. subst b. reflexivity. }
    unfold padded.
    replace (p ++ (hdr f (v_type (VBytes is_string b)) (len b) ++ b ++ zeros (pad_len (len b))) ++ q)
      with ((p ++ hdr f (v_type (VBytes is_string b)) (len b)) ++ b ++ (zeros (pad_len (len b)) ++ q))
      by (rewrite <- !app_assoc; reflexivity).
    rewrite slice_app; [reflexivity| |]; rewrite len_app, len_hdr; reflexivity.
  - subst r. rewrite L. reflexivity.
Qed.

(** ** Bool lists *)
Lemma bits_byte_testbit l j : (length l <= 8)%nat -> Z.testbit (bits_byte l) (Z.of_nat j) = nth j l false.
Proof.
  revert j. induction l as [|b l IH]; intros j H; cbn [bits_byte length] in *.
  - rewrite Z.testbit_0_l. destruct j; reflexivity.
  - destruct j.
    + cbn [nth]. change (Z.of_nat 0) with 0. rewrite Z.add_comm, Z.testbit_odd, Z.shiftr_0_r.
      rewrite Z.odd_add, Z.odd_mul. destruct b; reflexivity.
    + cbn [nth]. rewrite <- IH by lia. rewrite Nat2Z.inj_succ.
      
      pose proof (Z.div2_bits ((if b then 1 else 0) + 2 * bits_byte l) (Z.of_nat j) ltac:(lia)) as D.
      etransitivity; [symmetry; exact D|].
      replace (_ / 2) with (bits_byte l); [reflexivity|]. destruct b; lia.
Qed.
Lemma land_bit b j : 0 <= j < 8 -> negb (Z.land b (u8 (Z.shiftl 1 j)) =? 0) = Z.testbit b j.
Proof.
  intros Hj. rewrite Z.shiftl_1_l. unfold u8. rewrite Z.mod_small.
  2:{ split; [apply Z.pow_nonneg; lia|]. apply Z.pow_lt_mono_r; lia. }
  destruct (Z.testbit b j) eqn:E.
  - destruct (Z.eqb_spec (Z.land b (2 ^ j)) 0) as [Q|]; auto.
    assert (Z.testbit (Z.land b (2 ^ j)) j = true) as T.
    { rewrite Z.land_spec, E, Z.pow2_bits_true by lia. reflexivity. }
    rewrite Q, Z.testbit_0_l in T. discriminate.
  - replace (Z.land b (2 ^ j)) with 0; auto. symmetry. apply Z.bits_inj'. intros i Hi.
    rewrite Z.land_spec, Z.testbit_0_l. destruct (Z.eq_dec i j) as [->|].
    + now rewrite E.
    + rewrite Z.pow2_bits_false by lia. apply andb_false_r.
Qed.
Lemma nth_firstn_skipn {A} (l : list A) a b i d :
  (i < b)%nat -> nth i (firstn b (skipn a l)) d = nth (a + i) l d.
Proof.
  intros H. revert l. induction a as [|a IH]; intros l; cbn [skipn Nat.add].
  - revert b l H. induction i; intros [|b] [|x l] H; cbn; auto; try lia. apply IHi. lia.
  - destruct l; cbn [nth].
    + rewrite firstn_nil. destruct i; auto.
    + apply IH.
Qed.

Lemma unpack_bools_spec n h l z i :
  len h = 8 -> (i + n <= length l)%nat ->
  unpack_bools n (h ++ bit_bytes l ++ z) (Z.of_nat i) = Ok (firstn n (skipn i l)).
Proof.
  intros Hh. revert i. induction n as [|n IH]; intros i Hi; [reflexivity|].
  cbn [unpack_bools]. change HeaderSize with 8.
  assert (D8 : Z.of_nat i / 8 = Z.of_nat (i / 8)) by (now rewrite Nat2Z.inj_div).
  assert (M8 : Z.of_nat i mod 8 = Z.of_nat (i mod 8)) by (now rewrite Nat2Z.inj_mod).
  assert (DM : i = (8 * (i / 8) + i mod 8)%nat) by (apply Nat.div_mod; lia).
  assert (MB : (i mod 8 < 8)%nat) by (apply Nat.mod_upper_bound; lia).
  assert (DB : (i / 8 < (length l + 7) / 8)%nat).
  { apply Nat.div_lt_upper_bound; [lia|].
    assert (length l + 7 = 8 * ((length l + 7) / 8) + (length l + 7) mod 8)%nat by (apply Nat.div_mod; lia).
    assert ((length l + 7) mod 8 < 8)%nat by (apply Nat.mod_upper_bound; lia). lia. }
  rewrite index_app_r by lia. rewrite Hh.
  replace (8 + Z.of_nat i / 8 - 8) with (Z.of_nat (i / 8)) by lia.
  rewrite index_app_l by (unfold len; rewrite bit_bytes_length; lia).
  rewrite (index_nth_error _ _ (bits_byte (firstn 8 (skipn (8 * (i / 8)) l)))); [|lia|].
  2:{ rewrite Nat2Z.id. now apply nth_error_bit_bytes. }
  rewrite bind_Ok.
  replace (Z.of_nat i + 1) with (Z.of_nat (S i)) by lia. rewrite IH by lia. rewrite bind_Ok. f_equal.
  rewrite M8, land_bit by lia. rewrite bits_byte_testbit by (rewrite firstn_length; lia).
  rewrite nth_firstn_skipn by auto. rewrite <- DM.
  clear - Hi. revert i Hi. induction l as [|x l IHl]; intros i Hi; [cbn in Hi; lia|].
  destruct i; cbn [skipn nth firstn]; auto. apply IHl. cbn in Hi. lia.
Qed.

Lemma get_bools_spec s n h3 m tail f r :
  Sim s n h3 m tail -> expects n m (QBools f) r -> answer s (QBools f) = r.
Proof.
  intros HS [Hf HE]. cbn [answer]. unfold get_bools. seen_cases HS Hf.
  - destruct v; try tauto. subst r. rewrite EO, bind_Ok. pose proof (len_wire_value_ge f (VBools l)).
    replace (len (wire_value f (VBools l)) =? 0) with false by lia.
    pose proof (len_nonneg p). pose proof (len_nonneg q).
    rewrite ED, slice_field, bind_Ok. change HeaderSize with 8.
    replace (len (wire_value f (VBools l)) <? 8) with false by lia.
    assert (HD := decode_field f (VBools l) ltac:(lia) HV ltac:(lia)).
    assert (LW : 8 * len (wire_value f (VBools l)) + 1 > len l).
    { rewrite len_wire_value. cbn [v_rest]. rewrite len_padded, len_bit_bytes.
      pose proof (pad_len_range ((len l + 7) / 8)). pose proof (len_nonneg l). lia. }
    rewrite wire_form in *. rewrite slice_prefix by (now rewrite len_hdr). rewrite bind_Ok, HD, bind_Ok.
    cbn [v_f40]. rewrite Z.min_l by (cbn [v_f40] in LW; lia). cbn [v_rest]. unfold padded.
    assert (U := unpack_bools_spec (length l) (hdr f (v_type (VBools l)) (len l)) l (zeros (pad_len (len (bit_bytes l)))) 0 (len_hdr _ _ _) (le_n _)).
    change (Z.of_nat 0) with 0 in U. unfold len at 1. rewrite Nat2Z.id, U. cbn [skipn bind]. now rewrite firstn_all.
  - subst r. rewrite L. reflexivity.
Qed.

(** ** Number lists *)
Lemma item_size_eq k : item_size k = kind_size k. Proof. destruct k; reflexivity. Qed.
Lemma len_nums_data k l : len (nums_data k l) = Z.of_nat (kind_size k) * len l.
Proof.
  unfold nums_data. induction l as [|z l IH]; cbn [map concat]; [rewrite !len_nil; lia|].
  rewrite len_app, len_le_enc, IH, len_cons. lia.
Qed.
Lemma nums_data_app k a b : nums_data k (a ++ b) = nums_data k a ++ nums_data k b.
Proof. unfold nums_data. now rewrite map_app, concat_app. Qed.
Lemma get_item_enc k z : k <> KBool -> in_range k z -> get_item k (le_enc (kind_size k) z) = z.
Proof.
  intros NK HR. unfold get_item. rewrite le_dec_enc.
  destruct k; try congruence; cbn [in_range] in HR; cbn [kind_size Z.of_nat Pos.of_succ_nat Pos.succ];
    unfold s8, s16, s32, s64.
  - change (256 ^ 1) with (2 ^ 8). apply sN_mod; [lia|]. cbn. lia.
  - change (256 ^ 2) with (2 ^ 16). apply sN_mod; [lia|]. cbn. lia.
  - change (256 ^ 4) with (2 ^ 32). apply sN_mod; [lia|]. cbn. lia.
  - change (256 ^ 8) with (2 ^ 64). apply sN_mod; [lia|]. cbn. lia.
  - apply Z.mod_small. exact HR.
  - apply Z.mod_small. exact HR.
  - apply Z.mod_small. exact HR.
  - apply Z.mod_small. exact HR.
  - apply Z.mod_small. exact HR.
  - apply Z.mod_small. exact HR.
Qed.
Lemma kind_size_pos k : (0 < kind_size k)%nat. Proof. destruct k; cbn; lia. Qed.
Lemma nu_get_spec k a z b d :
  k <> KBool -> in_range k z ->
  nu_get k (mkNumbers (nums_data k (a ++ z :: b)) (len (a ++ z :: b)) d) (len a) = Ok z.
Proof.
  intros NK HR. unfold nu_get. cbn [nu_len nu_data]. rewrite len_app, len_cons.
  pose proof (len_nonneg a). pose proof (len_nonneg b).
  replace (_ || _) with false by lia.
  rewrite nums_data_app. change (nums_data k (z :: b)) with (le_enc (kind_size k) z ++ nums_data k b).
  change (item_size k) with (kind_size k). rewrite slice_app.
  - rewrite bind_Ok. now rewrite get_item_enc.
  - rewrite len_nums_data. lia.
  - rewrite len_nums_data, len_le_enc. lia.
Qed.
Lemma nu_slice_spec k l d :
  k <> KBool -> Forall (in_range k) l -> nu_slice k (mkNumbers (nums_data k l) (len l) d) = Ok l.
Proof.
  intros NK HF. unfold nu_slice. cbn [nu_len]. unfold len at 2. rewrite Nat2Z.id.
  assert (H : forall b a, l = a ++ b ->
    nu_slice_from k (mkNumbers (nums_data k l) (len l) d) (length b) (len a) = Ok b).
  { induction b as [|z b IH]; intros a E; [reflexivity|]. cbn [length nu_slice_from].
    assert (in_range k z). { subst l. apply Forall_app in HF. destruct HF as [_ HF]. now inv HF. }
    assert (NG : nu_get k (mkNumbers (nums_data k l) (len l) d) (len a) = Ok z).
    { rewrite E. now apply nu_get_spec. }
    rewrite NG, bind_Ok. specialize (IH (a ++ [z])).
    rewrite len_app in IH. change (len [z]) with 1 in IH. rewrite IH; [reflexivity|].
    rewrite E, <- app_assoc. reflexivity. }
  apply (H l []). reflexivity.
Qed.
Lemma get_numbers_spec s n h3 m tail f k r :
  Sim s n h3 m tail -> expects n m (QNums f k) r -> answer s (QNums f k) = r.
Proof.
  intros HS [Hf HE]. cbn [answer]. unfold get_numbers. seen_cases HS Hf.
  - destruct v; try tauto. destruct HE as [-> ->]. destruct HV as [NK HV].
    rewrite EO, bind_Ok. pose proof (len_wire_value_ge f (VNums k l)).
    replace (len (wire_value f (VNums k l)) =? 0) with false by lia.
    pose proof (len_nonneg p). pose proof (len_nonneg q).
    rewrite ED, slice_field, bind_Ok. change HeaderSize with 8.
    replace (len (wire_value f (VNums k l)) <? 8) with false by lia.
    assert (HD := decode_field f (VNums k l) ltac:(lia) (conj NK HV) ltac:(lia)).
    rewrite wire_form. rewrite slice_prefix by (now rewrite len_hdr). rewrite bind_Ok, HD, bind_Ok.
    cbn [v_f40 v_rest]. change (item_size k) with (kind_size k). pose proof (kind_size_pos k).
    pose proof (len_nonneg l). fold (nums_data k l).
    replace (8 + len (nums_data k l) - 8) with (len l * Z.of_nat (kind_size k))
      by (rewrite len_nums_data; lia).
    rewrite Z.quot_mul by lia. replace (len l * Z.of_nat (kind_size k) <? 0) with false by lia.
    rewrite <- (app_nil_r (hdr _ _ _ ++ nums_data k l)), <- app_assoc.
    rewrite slice_app by (rewrite ?len_hdr, ?len_nums_data; lia). rewrite bind_Ok.
    rewrite Z.div_mul by lia. cbn [bind]. rewrite nu_slice_spec by auto. reflexivity.
  - subst r. rewrite L. reflexivity.
Qed.

(** ** String and bytes lists *)
Lemma len_blob b : len (blob b) = 4 + len b.
Proof. unfold blob. rewrite len_app, len_le_enc. reflexivity. Qed.
(** The loop reads the items back and then meets the padding, which it takes for one
    more empty item when it is at least four bytes long. *)
Lemma parse_blobs_spec fuel pre l k :
  0 <= k < 8 -> len (concat (map blob l)) < 2 ^ 32 -> (length l + 2 <= fuel)%nat ->
  parse_blobs fuel (pre ++ concat (map blob l) ++ zeros k) (len pre)
  = Ok (l ++ if 4 <=? k then [[]] else []).
Proof.
  intros Hk. revert fuel pre. induction l as [|b l IH]; intros fuel pre HL HF; cbn [map concat length] in *.
  - rewrite app_nil_l. destruct fuel as [|fuel]; [lia|]. cbn [parse_blobs].
    rewrite len_app, len_zeros by lia. destruct (Z.leb_spec 4 k).
    + replace (len pre + 4 <=? len pre + k) with true by lia.
      rewrite <- (app_nil_r (zeros k)) at 1. rewrite slice_app by (rewrite ?len_zeros; lia).
      rewrite bind_Ok. unfold le_get.
      replace (zeros k) with (zeros 4 ++ zeros (k - 4)) by (rewrite <- zeros_app by lia; f_equal; lia).
      rewrite slice_prefix by reflexivity. rewrite !bind_Ok.
      change (Base.le_dec (zeros 4) =? 0) with true. cbv iota.
      destruct fuel as [|fuel]; [lia|]. cbn [parse_blobs].
      rewrite !len_app, !len_zeros by lia.
      replace (len pre + 4 + 4 <=? _) with false by lia. reflexivity.
    + replace (len pre + 4 <=? len pre + k) with false by lia. reflexivity.
  - destruct fuel as [|fuel]; [lia|]. rewrite len_app, len_blob in HL.
    pose proof (len_nonneg b). pose proof (len_nonneg (concat (map blob l))). pose proof (len_nonneg pre).
    replace (pre ++ (blob b ++ concat (map blob l)) ++ zeros k)
      with (pre ++ le_enc 4 (len b) ++ b ++ concat (map blob l) ++ zeros k)
      by (unfold blob; rewrite <- !app_assoc; reflexivity).
    cbn [parse_blobs].
    assert (LL : len (pre ++ le_enc 4 (len b) ++ b ++ concat (map blob l) ++ zeros k)
      = len pre + 4 + len b + len (concat (map blob l)) + k).
    { rewrite !len_app, len_le_enc, len_zeros by lia. lia. }
    rewrite LL. replace (len pre + 4 <=? _) with true by lia.
    rewrite <- (app_nil_r (le_enc 4 (len b) ++ b ++ concat (map blob l) ++ zeros k)) at 1.
    rewrite slice_app; [|reflexivity|rewrite !len_app, len_le_enc, len_zeros by lia; lia].
    rewrite bind_Ok. unfold le_get.
    rewrite slice_prefix by (now rewrite len_le_enc). rewrite !bind_Ok.
    rewrite le_dec_enc_id by (change (256 ^ Z.of_nat 4) with (2 ^ 32); lia).
    assert (IH' : parse_blobs fuel (pre ++ le_enc 4 (len b) ++ b ++ concat (map blob l) ++ zeros k)
                   (len pre + 4 + len b) = Ok (l ++ if 4 <=? k then [[]] else [])).
    { specialize (IH fuel (pre ++ le_enc 4 (len b) ++ b) ltac:(lia) ltac:(lia)).
      rewrite !len_app, len_le_enc, <- !app_assoc in IH. rewrite <- Z.add_assoc. exact IH. }
    destruct (Z.eqb_spec (len b) 0) as [E|E].
    + rewrite E, Z.add_0_r in IH'. rewrite E. rewrite IH'. apply len_0_nil in E. subst b. reflexivity.
    + replace (len pre + 4 + len b <=? _) with true by lia.
      rewrite IH'.
      replace (pre ++ le_enc 4 (len b) ++ b ++ concat (map blob l) ++ zeros k) with
        ((pre ++ le_enc 4 (len b)) ++ b ++ concat (map blob l) ++ zeros k) by (now rewrite <- app_assoc).
      rewrite slice_app by (rewrite len_app, len_le_enc; lia). reflexivity.
Qed.
Lemma length_blobs (l : list bytes) : 4 * Z.of_nat (length l) <= len (concat (map blob l)).
Proof.
  induction l as [|b l IH]; cbn [map concat length]; [cbn; lia|].
  rewrite len_app, len_blob. pose proof (len_nonneg b). lia.
Qed.
(** Exactly what a reader gets for a string list. *)
Lemma get_blobs_exact s n h3 m tail f str l :
  Sim s n h3 m tail -> 0 <= f -> seen n m f = Some (VBlobs str l) ->
  get_blobs s f = Ok (Some (actual_blobs l)).
Proof.
  intros HS Hf E. unfold get_blobs. pose proof (Sim_seen _ _ _ _ _ f HS Hf) as L. rewrite E in L.
  destruct L as (p & q & EO & ED & Hp & HV & Hf16 & HT).
  rewrite EO, bind_Ok. pose proof (len_wire_value_ge f (VBlobs str l)).
  replace (len (wire_value f (VBlobs str l)) =? 0) with false by lia.
  pose proof (len_nonneg p). pose proof (len_nonneg q).
  rewrite ED, slice_field, bind_Ok. change HeaderSize with 8.
  replace (len (wire_value f (VBlobs str l)) <? 8) with false by lia.
  assert (LW : len (wire_value f (VBlobs str l)) < 2 ^ 32) by lia.
  rewrite len_wire_value in LW. cbn [v_rest] in LW. rewrite len_padded in LW.
  pose proof (pad_len_range (len (concat (map blob l)))).
  rewrite wire_form. cbn [v_rest]. unfold padded.
  change 8 with (len (hdr f (v_type (VBlobs str l)) (v_f40 (VBlobs str l)))) at 1.
  pose proof (length_blobs l).
  rewrite parse_blobs_spec; [reflexivity|lia|lia|].
  rewrite !app_length. pose proof (len_hdr f (v_type (VBlobs str l)) (v_f40 (VBlobs str l))) as LH.
  unfold len in *. lia.
Qed.
Lemma get_blobs_spec (rule : list bytes -> res ans -> Prop) s n h3 m tail f r :
  (forall l r, rule l r -> r = Ok (ABlobs (Some (actual_blobs l)))) ->
  Sim s n h3 m tail -> reads rule n m (QBlobs f) r -> answer s (QBlobs f) = r.
Proof.
  intros HR HS [Hf HE]. cbn [answer]. pose proof (Sim_seen _ _ _ _ _ f HS Hf) as L.
  destruct (seen n m f) as [v|] eqn:E.
  - destruct v; try tauto. rewrite (get_blobs_exact _ _ _ _ _ _ _ _ HS Hf E).
    now rewrite (HR _ _ HE).
  - subst r. unfold get_blobs. rewrite L. reflexivity.
Qed.
