(** The IsSet bits of a history, and the trailer they become. *)
From Verif.Spec Require Export IsSet.
From Verif.Proofs Require Export TailLemmas.

(** ** Which bits a history sets *)
Definition iview (s : strct) : bool * option bytes := (st_isSetOn s, st_isSet s).
Definition mark_bits (bits : bytes) (f : Z) : bytes :=
  if f / 7 <? len bits then
    match nth_error bits (Z.to_nat (f / 7)) with
    | Some b => upd bits (f / 7) (Z.lor b (u8 (Z.shiftl 1 (f mod 7))))
    | None => bits
    end
  else bits.
Definition mark_view (v : bool * option bytes) (f : Z) : bool * option bytes :=
  match v with (true, Some bits) => (true, Some (mark_bits bits f)) | _ => v end.

Lemma iview_mark s f : iview (markFieldSet s f) = mark_view (iview s) f.
Proof.
  unfold markFieldSet, iview, mark_view, mark_bits. destruct (st_isSetOn s) eqn:E, (st_isSet s) eqn:E1; rewrite ?E, ?E1; auto.
  destruct (f / 7 <? len l); rewrite ?E, ?E1; auto. destruct (nth_error l (Z.to_nat (f / 7))); cbn; rewrite ?E, ?E1; auto.
Qed.
Lemma iview_ensure s s' : ensureFieldIndexParsed s = Ok s' -> iview s' = iview s.
Proof.
  unfold ensureFieldIndexParsed. destruct (st_parsed s); intros H; [now inv H|].
  destruct (parseFieldIndex _ _); cbn [bind] in H; now inv H.
Qed.
Lemma iview_insert s f d s' : insertField s f d = Ok s' -> iview s' = iview s.
Proof.
  unfold insertField. intros H. apply bind_Ok_inv in H. destruct H as (s1 & E1 & H). apply iview_ensure in E1. rewrite <- E1.
  destruct (f >=? _); [discriminate|]. apply bind_Ok_inv in H. destruct H as (e & _ & H).
  apply bind_Ok_inv in H. destruct H as ((d1 & i1) & _ & H). apply bind_Ok_inv in H. destruct H as (d2 & _ & H). now inv H.
Qed.
Lemma iview_remove s f s' : removeField s f = Ok s' -> iview s' = iview s.
Proof.
  unfold removeField. intros H. apply bind_Ok_inv in H. destruct H as (s1 & E1 & H). apply iview_ensure in E1. rewrite <- E1.
  destruct (f >=? _); [now inv H|]. apply bind_Ok_inv in H. destruct H as (e & _ & H).
  destruct (fe_size e =? 0); [now inv H|].
  apply bind_Ok_inv in H. destruct H as (d1 & _ & H). apply bind_Ok_inv in H. destruct H as (d2 & _ & H). now inv H.
Qed.
Lemma iview_record s o : iview (RecordOp s o) = iview s.
Proof. unfold RecordOp. now destruct (st_recording s). Qed.
Lemma iview_clear s f s' : clear_scalar s f = Ok s' -> iview s' = iview s.
Proof.
  unfold clear_scalar. intros H. apply bind_Ok_inv in H. destruct H as (s1 & E1 & H). apply iview_remove in E1. rewrite <- E1.
  inv H. destruct (st_recording s1); auto. apply iview_record.
Qed.
Lemma iview_store s f d r s' : store_field s f d r = Ok s' -> iview s' = mark_view (iview s) f.
Proof.
  unfold store_field. intros H. apply bind_Ok_inv in H. destruct H as (s1 & E1 & H). apply iview_insert in E1. rewrite <- E1.
  inv H. rewrite <- iview_mark. destruct (st_recording _); auto. apply iview_record.
Qed.

Lemma iview_if (b : bool) s f d r s' (w : res bytes) :
  (if b then clear_scalar s f else (data <- w ;; store_field s f (d data) (r data))) = Ok s' ->
  iview s' = fold_left mark_view (if b then [] else [f]) (iview s).
Proof.
  destruct b; intros H.
  - now apply iview_clear in H.
  - apply bind_Ok_inv in H. destruct H as (data & _ & H). now apply iview_store in H.
Qed.

Lemma nil_b_eq {A} (l : list A) : (len l =? 0) = nil_b l. Proof. apply nil_b_len. Qed.

Lemma iview_op o s n m t s' :
  ok_op n t m o -> o <> OMarshal -> do_op s o = Ok s' -> iview s' = fold_left mark_view (marked o) (iview s).
Proof.
  intros HK HM H. destruct o.
  - (* scalar *)
    cbn [ok_op valid_value] in HK. destruct HK as (_ & _ & HV & _).
    cbn [do_op marked] in *. unfold set_scalar in H.
    destruct k; cbn [is_zero] in *.
    1:{ unfold SetBool in H. replace (v =? 0) with (negb (v =? 1)) by (cbn [in_range] in HV; unfold in_range in HV; cbn in HV; lia).
        apply (iview_if _ _ _ (fun d => d) (fun _ => [1]) _ _ H). }
    all: unfold SetInt8, SetInt16, SetInt32, SetInt64, SetUint8, SetUint16, SetUint32, SetUint64, SetFloat32, SetFloat64 in H;
         match type of H with (if _ then _ else (_ <- _ ;; store_field _ _ _ ?r)) = _ => apply (iview_if _ _ _ (fun d => d) (fun _ => r) _ _ H) end.
  - cbn [do_op marked] in *. rewrite <- nil_b_eq. destruct str; unfold SetStringAsBytes, SetBytes in H; apply (iview_if _ _ _ (fun d => d) (fun _ => b) _ _ H).
  - now apply iview_remove in H.
  - now apply iview_ensure in H.
  - congruence.
  - cbn in H. now inv H.
  - cbn in H. now inv H.
  - apply ok_ONested in HK. destruct HK as (_ & HK). rewrite do_ONested in H.
    destruct (build_sim _ _ HK) as (c & EC & SC & _). rewrite EC, bind_Ok in H.
    cbn [marked SetNestedStruct] in *. rewrite (Sim_data _ _ _ SC) in H. rewrite wire_msg_nil_iff in H.
    destruct (nil_b (sem [] child)); [now apply iview_clear in H|].
    apply bind_Ok_inv in H. destruct H as (d1 & _ & H). apply bind_Ok_inv in H. destruct H as (d2 & _ & H).
    now apply iview_store in H.
  - now apply iview_clear in H.
  - cbn [do_op] in H. unfold sync_bools in H. destruct (len l =? 0); [now apply iview_remove in H|].
    apply bind_Ok_inv in H. destruct H as (d1 & _ & H). now apply iview_insert in H.
  - cbn [do_op] in H. unfold sync_numbers in H. destruct (_ =? 0); [now apply iview_remove in H|].
    apply bind_Ok_inv in H. destruct H as (d1 & _ & H). now apply iview_insert in H.
  - cbn [do_op] in H. unfold sync_blobs in H. destruct (_ =? 0); [now apply iview_remove in H|].
    apply bind_Ok_inv in H. destruct H as (d1 & _ & H). now apply iview_insert in H.
  - rewrite do_OStructs in H. apply bind_Ok_inv in H. destruct H as (it & _ & H).
    apply bind_Ok_inv in H. destruct H as ((s1 & it1) & H & HX). inv HX. unfold sync_structs in H.
    destruct (_ =? 0). { apply bind_Ok_inv in H. destruct H as (p & H & HX). inv HX. now apply iview_remove in H. }
    apply bind_Ok_inv in H. destruct H as ((d1 & d2) & _ & H).
    apply bind_Ok_inv in H. destruct H as (p & H & HX). inv HX. now apply iview_insert in H.
  - rewrite do_OAny in H. apply bind_Ok_inv in H. destruct H as (c & _ & H). cbn [SetAny] in H.
    apply bind_Ok_inv in H. destruct H as (d & _ & H). now apply iview_store in H.
  - cbn [do_op marked] in *. unfold SetAnyRaw in H. rewrite nil_b_eq in H. destruct (nil_b raw); [now apply iview_clear in H|].
    destruct (negb _); [discriminate|]. apply bind_Ok_inv in H. destruct H as (d & _ & H). now apply iview_store in H.
  - cbn [do_op marked] in *. unfold SetListAnyRaw in H. rewrite nil_b_eq in H. destruct (nil_b items); [now apply iview_clear in H|].
    destruct (forallb _ _); [|discriminate]. apply bind_Ok_inv in H. destruct H as (d & _ & H). now apply iview_store in H.
  - cbn [do_op] in H. unfold sync_map in H. destruct (_ =? 0); [now apply iview_remove in H|].
    apply bind_Ok_inv in H. destruct H as (d1 & _ & H). now apply iview_insert in H.
Qed.
Lemma iview_run l : forall s n m t s',
  ok_run n t m l -> ~ In OMarshal l -> run s l = Ok s' -> iview s' = fold_left mark_view (marks l) (iview s).
Proof.
  induction l as [|o l IH]; intros s n m t s' HK HM H; cbn [run] in H.
  - now inv H.
  - destruct HK as [HO HK]. apply bind_Ok_inv in H. destruct H as (s1 & E & H).
    unfold marks. cbn [map concat]. rewrite fold_left_app. fold (marks l).
    erewrite IH; eauto; [|intros X; apply HM; now right].
    f_equal. eapply iview_op; eauto. intros ->. apply HM. now left.
Qed.

(** ** The trailer bytes *)
Lemma isset_numbytes_eq n : 0 <= n -> isset_numbytes n = Z.max 1 ((n + 6) / 7).
Proof. intros H. unfold isset_numbytes. assert (0 <= (n + 6) / 7) by (apply Z.div_pos; lia). destruct (Z.eqb_spec ((n + 6) / 7) 0); lia. Qed.

Lemma lor_lt a b k : 0 <= k -> 0 <= a < 2 ^ k -> 0 <= b < 2 ^ k -> 0 <= Z.lor a b < 2 ^ k.
Proof.
  intros Hk Ha Hb. split; [apply Z.lor_nonneg; lia|].
  destruct (Z.eq_dec (Z.lor a b) 0) as [->|N]; [apply Z.pow_pos_nonneg; lia|].
  assert (0 <= Z.lor a b) by (apply Z.lor_nonneg; lia).
  apply Z.log2_lt_pow2; [lia|]. rewrite Z.log2_lor by lia.
  assert (K : forall x, 0 <= x < 2 ^ k -> x <> 0 -> Z.log2 x < k) by (intros; apply Z.log2_lt_pow2; lia).
  destruct (Z.eq_dec a 0) as [->|Na].
  - rewrite Z.lor_0_l in N. cbn [Z.log2]. rewrite Z.max_r by apply Z.log2_nonneg. auto.
  - destruct (Z.eq_dec b 0) as [->|Nb].
    + cbn [Z.log2]. rewrite Z.max_l by apply Z.log2_nonneg. auto.
    + apply Z.max_lub_lt; auto.
Qed.
Lemma bit_byte_range j F : 0 <= bit_byte j F < 128.
Proof.
  induction F as [|f F IH]; cbn [bit_byte]; [lia|]. change 128 with (2 ^ 7) in *. apply lor_lt; auto; try lia.
  destruct (f / 7 =? j); [|lia]. assert (0 <= f mod 7 < 7) by (apply Z.mod_pos_bound; lia).
  split; [lia|]. apply Z.pow_lt_mono_r; lia.
Qed.
Lemma bit_byte_snoc j F f : bit_byte j (F ++ [f]) = Z.lor (bit_byte j F) (if f / 7 =? j then 2 ^ (f mod 7) else 0).
Proof.
  induction F as [|g F IH]; cbn [bit_byte app]; [apply Z.lor_0_r|]. rewrite IH. apply Z.lor_assoc.
Qed.
Lemma bit_byte_high j F b : Forall (fun f => 0 <= f < b) F -> b <= 7 * j -> bit_byte j F = 0.
Proof.
  intros HF Hj. induction HF as [|f F H1 H2 IH]; cbn [bit_byte]; auto. rewrite IH.
  destruct (Z.eqb_spec (f / 7) j); [|reflexivity]. subst j. pose proof (Z.mul_div_le f 7). lia.
Qed.

Definition bits_of (L : nat) (F : list Z) : bytes := map (fun j => bit_byte (Z.of_nat j) F) (seq 0 L).
Lemma len_bits_of L F : len (bits_of L F) = Z.of_nat L.
Proof. unfold bits_of, len. now rewrite map_length, seq_length. Qed.
Lemma mark_bits_of L F f : 0 <= f -> f / 7 < Z.of_nat L -> mark_bits (bits_of L F) f = bits_of L (F ++ [f]).
Proof.
  intros H0 Hf. unfold mark_bits. rewrite len_bits_of. replace (f / 7 <? Z.of_nat L) with true by lia.
  assert (H7 : 0 <= f / 7) by (apply Z.div_pos; lia).
  unfold bits_of at 1. rewrite nth_error_map. rewrite (nth_error_nth' _ O) by (rewrite seq_length; lia).
  rewrite seq_nth by lia. cbn [option_map plus]. rewrite Z2Nat.id by lia.
  unfold bits_of. rewrite upd_map_seq by lia. apply map_ext. intros i. rewrite bit_byte_snoc.
  destruct (Z.eqb_spec (Z.of_nat i) (f / 7)) as [E|N].
  - rewrite <- E, Z.eqb_refl. f_equal. unfold u8. rewrite Z.shiftl_1_l.
    assert (0 <= f mod 7 < 7) by (apply Z.mod_pos_bound; lia).
    rewrite Z.mod_small; auto. split; [lia|]. apply Z.pow_lt_mono_r; lia.
  - replace (f / 7 =? Z.of_nat i) with false by lia. now rewrite Z.lor_0_r.
Qed.
Lemma mark_all L G : forall F, Forall (fun f => 0 <= f /\ f / 7 < Z.of_nat L) G ->
  fold_left mark_view G (true, Some (bits_of L F)) = (true, Some (bits_of L (F ++ G))).
Proof.
  induction G as [|f G IH]; intros F HG; cbn [fold_left]; [now rewrite app_nil_r|]. inv HG.
  cbn [mark_view]. rewrite mark_bits_of by tauto. rewrite IH by auto. now rewrite <- app_assoc.
Qed.
Lemma bits_of_nil L : bits_of L [] = repeat 0 L.
Proof. unfold bits_of. cbn [bit_byte]. generalize 0%nat. induction L; intros; cbn; auto. f_equal. auto. Qed.

Lemma set_cont_map (g : nat -> Z) L : forall k a, (forall j, 0 <= g j < 128) ->
  set_cont k (map g (seq a L)) = map (fun j => g j + if (j <? a + k)%nat then 128 else 0) (seq a L).
Proof.
  induction L as [|L IH]; intros k a HG; [destruct k; reflexivity|]. cbn [seq map]. destruct k.
  - cbn [set_cont]. f_equal.
    + replace (a <? a + 0)%nat with false by (symmetry; apply Nat.ltb_ge; lia). lia.
    + apply map_ext_in. intros j Hj. apply in_seq in Hj. replace (j <? a + 0)%nat with false by (symmetry; apply Nat.ltb_ge; lia). lia.
  - cbn [set_cont]. f_equal.
    + replace (a <? a + S k)%nat with true by (symmetry; apply Nat.ltb_lt; lia).
      change 128 with (1 * 2 ^ 7). apply pow2_bits_lor; [lia|]. apply HG.
    + rewrite IH by auto. apply map_ext. intros j. now rewrite Nat.add_succ_comm.
Qed.
Lemma set_cont_trailer n F :
  set_cont (Z.to_nat (isset_numbytes (Z.of_nat n) - 1)) (bits_of (Z.to_nat (trailer_len (Z.of_nat n))) F) = trailer n F.
Proof.
  unfold bits_of, trailer. rewrite set_cont_map by (intros; apply bit_byte_range).
  rewrite isset_numbytes_eq by lia. apply map_ext. intros j. f_equal. cbn [plus].
  destruct (Nat.ltb_spec j (Z.to_nat (Z.max 1 ((Z.of_nat n + 6) / 7) - 1))), (Z.ltb_spec (Z.of_nat j) (Z.max 1 ((Z.of_nat n + 6) / 7) - 1)); auto; lia.
Qed.
Lemma trailer_len_pos n : 0 <= n -> 8 <= trailer_len n /\ (trailer_len n) mod 8 = 0 /\ trailer_len n <= n + 20.
Proof.
  intros H. unfold trailer_len. assert (0 <= (n + 6) / 7 <= n + 6).
  { split; [apply Z.div_pos; lia|]. apply Z.div_le_upper_bound; lia. }
  set (x := (n + 6) / 7) in *. lia.
Qed.
Lemma trailer_fields n : (7 * Z.to_nat (trailer_len (Z.of_nat n)) >= n)%nat.
Proof.
  unfold trailer_len. assert (H : Z.of_nat n <= 7 * ((Z.of_nat n + 6) / 7)) by lia.
  set (x := (Z.of_nat n + 6) / 7) in *. lia.
Qed.
Lemma len_trailer n F : len (trailer n F) = trailer_len (Z.of_nat n).
Proof. unfold trailer, len. rewrite map_length, seq_length. pose proof (trailer_len_pos (Z.of_nat n)). lia. Qed.
Lemma trailer_bytes n F : is_bytes (trailer n F).
Proof.
  unfold trailer, is_bytes. apply Forall_map, Forall_forall. intros j _. unfold is_byte.
  pose proof (bit_byte_range (Z.of_nat j) F). destruct (_ <? _); lia.
Qed.

Lemma seq_split8 L : (8 <= L)%nat -> seq 0 L = 0%nat :: 1%nat :: 2%nat :: 3%nat :: 4%nat :: 5%nat :: 6%nat :: 7%nat :: seq 8 (L - 8).
Proof. intros H. replace L with (8 + (L - 8))%nat at 1 by lia. reflexivity. Qed.

Definition trailer_byte (n : nat) (F : list Z) (j : Z) : Z :=
  bit_byte j F + if j <? Z.max 1 ((Z.of_nat n + 6) / 7) - 1 then 128 else 0.
Lemma trailer_byte_range n F j : 0 <= trailer_byte n F j < 256.
Proof. unfold trailer_byte. pose proof (bit_byte_range j F). destruct (_ <? _); lia. Qed.
Lemma cons_mod a b : 0 <= a < 256 -> (a + 256 * b) mod 256 = a. Proof. lia. Qed.
Lemma cons_div a b : 0 <= a < 256 -> (a + 256 * b) / 256 = b. Proof. lia. Qed.
Lemma trailer_hdr n F :
  exists rest, trailer n F = hdr (trailer_byte n F 0 + 256 * trailer_byte n F 1) (trailer_byte n F 2)
     (trailer_byte n F 3 + 256 * (trailer_byte n F 4 + 256 * (trailer_byte n F 5 + 256 * (trailer_byte n F 6 + 256 * trailer_byte n F 7)))) ++ rest /\
    is_bytes rest /\ len rest = trailer_len (Z.of_nat n) - 8.
Proof.
  pose proof (trailer_len_pos (Z.of_nat n)) as HL.
  exists (map (fun j => trailer_byte n F (Z.of_nat j)) (seq 8 (Z.to_nat (trailer_len (Z.of_nat n)) - 8))).
  assert (R := trailer_byte_range n F). split; [|split].
  - unfold trailer.
    change (fun j : nat => bit_byte (Z.of_nat j) F + (if Z.of_nat j <? Z.max 1 ((Z.of_nat n + 6) / 7) - 1 then 128 else 0))
      with (fun j => trailer_byte n F (Z.of_nat j)).
    rewrite seq_split8 by lia. unfold hdr. cbn [map le_enc app].
    pose proof (R 0); pose proof (R 1); pose proof (R 2); pose proof (R 3); pose proof (R 4); pose proof (R 5); pose proof (R 6); pose proof (R 7).
    change (Z.of_nat 0) with 0. change (Z.of_nat 1) with 1. change (Z.of_nat 2) with 2. change (Z.of_nat 3) with 3.
    change (Z.of_nat 4) with 4. change (Z.of_nat 5) with 5. change (Z.of_nat 6) with 6. change (Z.of_nat 7) with 7.
    repeat match goal with H : 0 <= trailer_byte n F ?j < 256 |- _ => revert H; generalize (trailer_byte n F j) end.
    clear. intros. rewrite !cons_div by lia. rewrite !cons_mod by lia. rewrite !Z.mod_small by lia. reflexivity.
  - unfold is_bytes. apply Forall_map, Forall_forall. intros j _. apply R.
  - unfold len. rewrite map_length, seq_length. lia.
Qed.

(** ** Transparent trailers, and trailers that make the parser loop *)
Lemma trailer_skips n n' F :
  Forall (fun f => 0 <= f < Z.of_nat n) F -> Z.of_nat n' <= 32896 -> Z.of_nat n <= 65536 ->
  (15 <= Z.of_nat n <= 21 -> clashes F = false) -> skips n' (trailer n F).
Proof.
  intros HF Hn' Hn HC. destruct (trailer_hdr n F) as (rest & -> & HB & HL).
  assert (R := trailer_byte_range n F). assert (B := fun j => bit_byte_range j F).
  pose proof (trailer_len_pos (Z.of_nat n)) as (TL1 & TL2 & TL3); [lia|].
  pose proof (R 0); pose proof (R 1); pose proof (R 2); pose proof (R 3); pose proof (R 4); pose proof (R 5); pose proof (R 6); pose proof (R 7).
  apply skips_hdr; auto; try lia.
  unfold trailer_byte in *. unfold trailer_len in *.
  set (q := (Z.of_nat n + 6) / 7) in *.
  destruct (Z.leb_spec (Z.of_nat n) 14).
  { left. assert (q <= 2) by (subst q; lia). rewrite (bit_byte_high 2 F (Z.of_nat n)) by (auto; lia).
    replace (2 <? Z.max 1 q - 1) with false by lia. reflexivity. }
  right. assert (3 <= q) by (subst q; lia). replace (0 <? Z.max 1 q - 1) with true in * by lia. replace (1 <? Z.max 1 q - 1) with true in * by lia.
  pose proof (B 0); pose proof (B 1). split; [lia|].
  destruct (Z.leb_spec (Z.of_nat n) 21).
  { left. assert (Q3 : q = 3) by (subst q; lia). split; [lia|].
    rewrite Q3 in *. change (2 <? Z.max 1 3 - 1) with false. change (3 <? Z.max 1 3 - 1) with false.
    change (4 <? Z.max 1 3 - 1) with false. change (5 <? Z.max 1 3 - 1) with false. change (6 <? Z.max 1 3 - 1) with false. change (7 <? Z.max 1 3 - 1) with false.
    rewrite (bit_byte_high 3 F (Z.of_nat n)) by (auto; lia).
    rewrite (bit_byte_high 4 F (Z.of_nat n)) by (auto; lia).
    rewrite (bit_byte_high 5 F (Z.of_nat n)) by (auto; lia).
    rewrite (bit_byte_high 6 F (Z.of_nat n)) by (auto; lia).
    rewrite (bit_byte_high 7 F (Z.of_nat n)) by (auto; lia).
    assert (HN21 : 15 <= Z.of_nat n <= 21) by lia. specialize (HC HN21). unfold clashes in HC. unfold zero_sized. change (0 + 0 + _) with 0. change (0 / 2 ^ 16) with 0.
    change (0 =? 0) with true. clear - HC. lia. }
  assert (4 <= q) by (subst q; lia).
  replace (2 <? Z.max 1 q - 1) with true in * by lia. pose proof (B 2) as B2.
  destruct (Z.leb_spec (Z.of_nat n) 56).
  { left. assert (q <= 8) by (subst q; lia). split; [lia|]. unfold zero_sized. clear - B2. lia. }
  right. assert (9 <= q) by (subst q; lia). split; [lia|].
  replace (7 <? Z.max 1 q - 1) with true in * by lia. pose proof (B 7). lia.
Qed.
Lemma trailer_loops n F :
  Forall (fun f => 0 <= f < Z.of_nat n) F -> 15 <= Z.of_nat n <= 21 -> clashes F = true -> loops (trailer n F).
Proof.
  intros HF Hn HC. destruct (trailer_hdr n F) as (rest & E & HB & HL).
  assert (R := trailer_byte_range n F). split.
  { intros X. pose proof (len_trailer n F) as L. rewrite X in L. pose proof (trailer_len_pos (Z.of_nat n)). change (len (@nil Z)) with 0 in L. lia. }
  rewrite E. intros p idx k HBp.
  pose proof (R 0); pose proof (R 1); pose proof (R 2); pose proof (R 3); pose proof (R 4); pose proof (R 5); pose proof (R 6); pose proof (R 7).
  apply loops_hdr; auto; try lia.
  unfold trailer_byte. assert (Q : (Z.of_nat n + 6) / 7 = 3) by lia. rewrite Q.
  change (2 <? Z.max 1 3 - 1) with false. change (3 <? Z.max 1 3 - 1) with false.
  change (4 <? Z.max 1 3 - 1) with false. change (5 <? Z.max 1 3 - 1) with false. change (6 <? Z.max 1 3 - 1) with false. change (7 <? Z.max 1 3 - 1) with false.
  rewrite (bit_byte_high 3 F (Z.of_nat n)) by (auto; lia).
  rewrite (bit_byte_high 4 F (Z.of_nat n)) by (auto; lia).
  rewrite (bit_byte_high 5 F (Z.of_nat n)) by (auto; lia).
  rewrite (bit_byte_high 6 F (Z.of_nat n)) by (auto; lia).
  rewrite (bit_byte_high 7 F (Z.of_nat n)) by (auto; lia).
  unfold clashes in HC. unfold zero_sized. change (0 + 0 + _) with 0. change (0 / 2 ^ 16) with 0.
  change (0 =? 0) with true. clear - HC. lia.
Qed.
