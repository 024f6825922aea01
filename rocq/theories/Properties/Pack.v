(** C28-C30: packing. *)
From Coq Require Import Lia.
From Verif Require Import Model.Base Model.Pack Spec.Packed Proofs.BaseLemmas Proofs.PackWord
  Proofs.PackLemmas Proofs.UnpackLemmas.

Lemma s64_id x : 0 <= x < 2 ^ 63 -> s64 x = x.
Proof. intros H. unfold s64, sN. rewrite Z.mod_small by lia. destruct (_ <? _) eqn:E; lia. Qed.

Lemma poolGet_spec pooled n : 0 <= n <= 2 ^ 48 -> exists b, poolGet pooled n = Ok b /\ len b = n.
Proof.
  intros Hn. unfold poolGet. destruct (len pooled <? n) eqn:E.
  - replace (n <=? 2 ^ 48) with true by lia. eexists. split; [reflexivity|]. apply len_zeros. lia.
  - rewrite slice_ok by lia. eexists. split; [reflexivity|]. rewrite len_take; rewrite ?drop_0; lia.
Qed.

Lemma header_split p : HeaderSize <= len p -> is_bytes p ->
  p = le_enc 8 (le_dec (take 8 p)) ++ le_enc 8 (le_dec (take 8 (drop 8 p))) ++ drop 16 p.
Proof.
  unfold HeaderSize. intros L B.
  rewrite (le_enc_dec' 8 (take 8 p)) by (try apply is_bytes_take; try rewrite len_take by lia; auto).
  rewrite (le_enc_dec' 8 (take 8 (drop 8 p))).
  - replace (drop 16 p) with (drop 8 (drop 8 p)) by (rewrite drop_drop by lia; reflexivity).
    rewrite !take_drop. reflexivity.
  - apply is_bytes_take, is_bytes_drop, B.
  - rewrite len_take; [reflexivity|]. rewrite len_drop by lia. lia.
Qed.

(** What Pack does, in one statement. *)
Lemma Pack_spec pooled m :
  is_bytes m -> len m mod 8 = 0 -> 0 < len m <= 2 ^ 47 ->
  exists body, Pack pooled m = Ok (Some (le_enc 8 (len m) ++ le_enc 8 (len body) ++ body)) /\
    expands body m /\ len body <= 9 * (len m / 8) + 1.
Proof.
  intros B M L. unfold Pack.
  replace (Z.rem (len m) 8) with 0 by (rewrite Z.rem_mod_nonneg by lia; lia).
  cbn [Z.eqb negb]. replace (len m =? 0) with false by lia.
  assert (Hmax : 9 * (len m / 8) + 1 <= maxPackedSize (len m) <= 2 ^ 48 - 16).
  { unfold maxPackedSize. replace (len m =? 0) with false by lia.
    change (2 ^ 48) with 281474976710656. change (2 ^ 47) with 140737488355328 in L. lia. }
  destruct (poolGet_spec pooled (HeaderSize + maxPackedSize (len m))) as (buf & -> & Lb);
    [unfold HeaderSize; lia|]. cbn [bind]. unfold HeaderSize in *.
  rewrite slice_ok by lia. cbn [bind].
  rewrite take_all by (rewrite len_drop by lia; lia).
  set (rest := drop 16 buf). assert (Lr : len rest = maxPackedSize (len m)) by (unfold rest; rewrite len_drop by lia; lia).
  destruct (packLoop_spec (S (length m)) [] m [] rest B M ltac:(lia)) as (p & X & R & H).
  { intros B0 (R1 & _). lia. }
  cbn [app] in H. change (len (@nil Z)) with 0 in H. rewrite Z.add_0_l in H.
  unfold packInto. rewrite H. cbn [bind].
  destruct R as (R1 & _). pose proof (len_nonneg p).
  exists p. split; [|split; [exact X|exact R1]].
  assert (E16 : take 16 buf = take 8 buf ++ take 8 (drop 8 buf)).
  { rewrite <- (take_drop 8 (take 16 buf)). rewrite take_take by lia. f_equal.
    unfold take, drop. change (Z.to_nat 16) with (8 + 8)%nat. change (Z.to_nat 8) with 8%nat.
    rewrite <- firstn_skipn_comm. reflexivity. }
  rewrite E16. rewrite <- !app_assoc.
  change (le_put 8 (take 8 buf ++ ?x)) with (le_put 8 ([] ++ take 8 buf ++ x)).
  rewrite (le_put_split 8 []) by (try reflexivity; rewrite len_take by lia; reflexivity).
  cbn [bind app].
  rewrite (le_put_split 8 (le_enc 8 (u64 (len m)))); [|rewrite len_le_enc; reflexivity|].
  2: { rewrite len_take; [reflexivity|]. rewrite len_drop by lia. lia. }
  cbn [bind].
  unfold u64. rewrite (Z.mod_small (len m)), (Z.mod_small (len p)).
  2-3: change (2 ^ 64) with 18446744073709551616; change (2 ^ 48) with 281474976710656 in *;
       change (2 ^ 47) with 140737488355328 in *; lia.
  rewrite (app_assoc _ p), (app_assoc _ (le_enc 8 (len p) ++ p)).
  rewrite slice_prefix; [reflexivity|].
  rewrite !len_app, !len_le_enc. lia.
Qed.

Lemma Unpack_header pooled U P body extra :
  0 <= P < 2 ^ 62 -> 0 <= U <= 2 ^ 48 -> len body = P ->
  Unpack pooled (le_enc 8 U ++ le_enc 8 P ++ body ++ extra) =
  (if negb (U mod 8 =? 0) then Err else
   buf <- poolGet pooled U ;;
   ' (buf, n) <- unpackInto buf body ;;
   if negb (n =? U) then Err else Ok buf).
Proof.
  intros HP HU Lb. unfold Unpack, HeaderSize. pose proof (len_nonneg extra).
  change (2 ^ 48) with 281474976710656 in *. change (2 ^ 62) with 4611686018427387904 in *.
  assert (L : len (le_enc 8 U ++ le_enc 8 P ++ body ++ extra) = 16 + (P + len extra))
    by (rewrite !len_app, !len_le_enc; lia).
  rewrite L. replace (16 + (P + len extra) <? 16) with false by lia.
  rewrite slice_prefix by (rewrite len_le_enc; reflexivity). cbn [bind].
  rewrite (slice_app (le_enc 8 U)) by (rewrite !len_le_enc; reflexivity). cbn [bind].
  rewrite !le_dec_enc_id by (change (256 ^ Z.of_nat 8) with 18446744073709551616; lia).
  rewrite (s64_id U) by (change (2 ^ 63) with 9223372036854775808; lia).
  rewrite (s64_id P) by (change (2 ^ 63) with 9223372036854775808; lia).
  rewrite (s64_id (16 + P)) by (change (2 ^ 63) with 9223372036854775808; lia).
  replace (16 + (P + len extra) <? 16 + P) with false by lia.
  rewrite Z.rem_mod_nonneg by lia.
  destruct (U mod 8 =? 0); cbn [negb]; [|reflexivity].
  destruct (poolGet pooled U) as [buf| | |]; cbn [bind]; try reflexivity.
  rewrite (app_assoc (le_enc 8 U)). rewrite (slice_app (le_enc 8 U ++ le_enc 8 P)) by
    (rewrite ?len_app, ?len_le_enc; lia).
  cbn [bind]. reflexivity.
Qed.

(** What Unpack does on data whose header sizes are those of the data. *)
Lemma Unpack_spec pooled U body extra :
  is_bytes body -> len body < 2 ^ 62 -> 0 <= U <= 2 ^ 48 -> U mod 8 = 0 ->
  exists o, outcome body U o /\
    Unpack pooled (le_enc 8 U ++ le_enc 8 (len body) ++ body ++ extra) =
    (u <- o ;; if len u =? U then Ok u else Err).
Proof.
  intros B Lb HU M. pose proof (len_nonneg body).
  rewrite Unpack_header by (auto; lia).
  replace (U mod 8 =? 0) with true by lia. cbn [negb].
  destruct (poolGet_spec pooled U HU) as (buf & -> & Lbuf). cbn [bind]. unfold unpackInto.
  destruct (unpackLoop_spec (S (length body)) [] body [] buf B ltac:(lia)) as (o & Ho & Hl).
  cbn [app] in Hl. change (len (@nil Z)) with 0 in Hl. rewrite Hl.
  exists o. rewrite Lbuf in Ho. split; [exact Ho|].
  destruct o as [u| | |]; cbn [bind]; try reflexivity. rewrite Z.add_0_l.
  destruct (len u =? U) eqn:E; cbn [negb]; [|reflexivity].
  rewrite drop_all by lia. rewrite app_nil_r. reflexivity.
Qed.

Lemma expands_len8 p u : expands p u -> len u mod 8 = 0.
Proof.
  intros H. induction H.
  - reflexivity.
  - rewrite len_app, spread_len. lia.
  - rewrite len_app, len_zeros by lia. lia.
  - rewrite !len_app. lia.
Qed.

Lemma expands_fun p u : expands p u -> forall u', expands p u' -> u = u'.
Proof.
  intros H. induction H; intros u' H'.
  - apply expands_nil_inv in H'. auto.
  - apply expands_word_inv in H'; [|lia]. destruct H' as (ds' & p' & v & E & L & -> & H').
    apply app_eq_len in E; [|lia]. destruct E as [-> ->]. f_equal. auto.
  - apply expands_zero_inv in H'. destruct H' as (c' & p' & v & E & _ & -> & H').
    injection E as <- <-. f_equal. auto.
  - apply expands_literal_inv in H'. destruct H' as (w' & c' & ws' & p' & v & E & _ & L1 & L2 & -> & H').
    apply app_eq_len in E; [|lia]. destruct E as [-> E]. injection E as <- E.
    apply app_eq_len in E; [|lia]. destruct E as [-> ->]. do 2 f_equal. auto.
Qed.

Lemma is_bytes_expands p u : expands p u -> is_bytes u -> is_bytes p.
Proof.
  assert (S8 : forall n t ds, len ds = popcount n t -> is_bytes (spread n t ds) -> is_bytes ds).
  { induction n as [|n IH]; intros t ds L B; cbn [popcount spread] in *.
    - apply len_0_nil in L. subst. constructor.
    - destruct (Z.odd t).
      + inversion B; subst. destruct ds as [|d ds]; [constructor|]. rewrite len_cons in L.
        cbn [hd tl] in *. constructor; [assumption|]. apply (IH (t / 2)); [lia|assumption].
      + inversion B; subst. apply (IH (t / 2)); [lia|assumption]. }
  intros H. induction H; intros B.
  - constructor.
  - apply is_bytes_app in B. destruct B as [B1 B2].
    constructor; [unfold is_byte; lia|]. apply is_bytes_app. split; [|exact (IHexpands B2)]. apply (S8 8%nat t); auto.
  - apply is_bytes_app in B. destruct B as [B1 B2].
    constructor; [unfold is_byte; lia|]. constructor; [unfold is_byte; lia|]. exact (IHexpands B2).
  - apply is_bytes_app in B. destruct B as [B1 B2]. apply is_bytes_app in B2. destruct B2 as [B2 B3].
    constructor; [unfold is_byte; lia|]. apply is_bytes_app. split; [auto|].
    constructor; [unfold is_byte; lia|]. apply is_bytes_app. exact (conj B2 (IHexpands B3)).
Qed.

Lemma cut_not_expands p1 u1 : expands p1 u1 -> forall t short, 0 <= t < 256 -> len short < popcount 8 t ->
  forall v, ~ expands (p1 ++ t :: short) v.
Proof.
  intros H t short Ht Hs. induction H; intros v X; cbn [app] in X.
  - inversion X; subst.
    + rewrite len_app in Hs. pose proof (len_nonneg p). lia.
    + change (popcount 8 0) with 0 in Hs. pose proof (len_nonneg (c :: p)). lia.
    + change (popcount 8 255) with 8 in Hs. rewrite len_app in Hs. pose proof (len_nonneg (c :: ws ++ p)). lia.
  - rewrite <- app_assoc in X.
    apply expands_word_inv in X; [|lia]. destruct X as (ds' & p' & v' & E & L & -> & H').
    apply app_eq_len in E; [|lia]. destruct E as [_ <-]. apply (IHexpands _ H').
  - apply expands_zero_inv in X. destruct X as (c' & p' & v' & E & _ & -> & H').
    injection E as <- <-. apply (IHexpands _ H').
  - rewrite <- app_assoc in X. cbn [app] in X. rewrite <- app_assoc in X.
    apply expands_literal_inv in X. destruct X as (w' & c' & ws' & p' & v' & E & _ & L1 & L2 & -> & H').
    apply app_eq_len in E; [|lia]. destruct E as [-> E]. injection E as <- E.
    apply app_eq_len in E; [|lia]. destruct E as [-> <-]. apply (IHexpands _ H').
Qed.

(** C28.  Packing a message and unpacking the result gives the message, whatever is
    left in the pooled buffers and whatever follows the packed bytes. *)
Theorem C28_pack_unpack : forall pool1 pool2 m extra,
  is_bytes m -> len m mod 8 = 0 -> 0 < len m <= 2 ^ 47 ->
  exists p, Pack pool1 m = Ok (Some p) /\ Unpack pool2 (p ++ extra) = Ok m.
Proof.
  intros pool1 pool2 m extra B M L.
  destruct (Pack_spec pool1 m B M L) as (body & HP & X & Hb).
  eexists. split; [exact HP|]. rewrite <- !app_assoc.
  change (2 ^ 47) with 140737488355328 in *.
  destruct (Unpack_spec pool2 (len m) body extra) as (o & Ho & ->).
  - apply (is_bytes_expands body m X B).
  - change (2 ^ 62) with 4611686018427387904. lia.
  - change (2 ^ 48) with 281474976710656. lia.
  - exact M.
  - inversion Ho as [u Hu Lu E|He E|u Hu Lu E]; cbn [bind].
    + rewrite (expands_fun _ _ Hu _ X), Z.eqb_refl. reflexivity.
    + specialize (He body [] m 0 (eq_sym (app_nil_r body)) X E_nil). lia.
    + exfalso. destruct Hu as (p1 & t & short & -> & Hp1 & Ht & Hs).
      exact (cut_not_expands _ _ Hp1 _ _ Ht Hs _ X).
Qed.
Print Assumptions C28_pack_unpack.

(** The packed bytes are those the format documents, for every message. *)
Theorem C28_packed_form : forall pooled m,
  is_bytes m -> len m mod 8 = 0 -> 0 < len m <= 2 ^ 47 ->
  exists p, Pack pooled m = Ok (Some p) /\ packed_form p m.
Proof.
  intros pooled m B M L. destruct (Pack_spec pooled m B M L) as (body & HP & X & _).
  eexists. split; [exact HP|]. exists body. auto.
Qed.
Print Assumptions C28_packed_form.

(** Unpack yields a value only for a packed form of that value (followed by anything),
    and always does for one. *)
Theorem C28_unpack_sound : forall pooled U P rest u,
  is_bytes rest -> 0 <= P < 2 ^ 62 -> 0 <= U <= 2 ^ 48 ->
  Unpack pooled (le_enc 8 U ++ le_enc 8 P ++ rest) = Ok u ->
  exists body extra, rest = body ++ extra /\ len body = P /\ len u = U /\ expands body u.
Proof.
  intros pooled U P rest u B HP HU H.
  destruct (Z_le_gt_dec P (len rest)) as [Hle|Hgt].
  - destruct (take_split P rest ltac:(lia)) as (body & extra & -> & Lb). subst P.
    exists body, extra. apply is_bytes_app in B. destruct B as [B _].
    destruct (U mod 8 =? 0) eqn:M.
    + destruct (Unpack_spec pooled U body extra B ltac:(lia) HU ltac:(lia)) as (o & Ho & E).
      rewrite E in H. destruct Ho as [v Hv Lv|Hv|v Hv Lv]; cbn [bind] in H; try discriminate.
      destruct (len v =? U) eqn:El; [|discriminate]. injection H as <-.
      repeat split; auto. lia.
    + rewrite Unpack_header in H by (auto; lia). rewrite M in H. discriminate.
  - exfalso. unfold Unpack, HeaderSize in H. pose proof (len_nonneg rest).
    rewrite !len_app, !len_le_enc in H.
    change (Z.of_nat 8) with 8 in H.
    replace (8 + (8 + len rest) <? 16) with false in H by lia.
    rewrite slice_prefix in H by (rewrite len_le_enc; reflexivity). cbn [bind] in H.
    rewrite (slice_app (le_enc 8 U)) in H by (rewrite !len_le_enc; reflexivity). cbn [bind] in H.
    change (2 ^ 62) with 4611686018427387904 in *.
    rewrite (le_dec_enc_id 8 P) in H by (change (256 ^ Z.of_nat 8) with 18446744073709551616; lia).
    rewrite (s64_id P) in H by (change (2 ^ 63) with 9223372036854775808; lia).
    rewrite (s64_id (16 + P)) in H by (change (2 ^ 63) with 9223372036854775808; lia).
    replace (8 + (8 + len rest) <? 16 + P) with true in H by lia. discriminate.
Qed.
Print Assumptions C28_unpack_sound.

(** The empty message is not packed: Pack gives nil, and Unpack of that is an error, not the empty message. *)
Theorem C28_empty : forall pool1 pool2, Pack pool1 [] = Ok None /\ Unpack pool2 [] = Err.
Proof. intros pool1 pool2. split; reflexivity. Qed.
Print Assumptions C28_empty.
Theorem C28_unaligned_refused : forall pooled m, len m mod 8 <> 0 -> Pack pooled m = Err.
Proof.
  intros pooled m H. unfold Pack. pose proof (len_nonneg m). rewrite Z.rem_mod_nonneg by lia.
  replace (len m mod 8 =? 0) with false by lia. reflexivity.
Qed.
Print Assumptions C28_unaligned_refused.

(** A concrete message: mixed words, a run of zero words and a run of literal words. *)
Definition sample_message : bytes :=
  [9;0;0;7;48;0;0;0] ++ zeros 24 ++ [1;2;3;4;5;6;7;8] ++ [1;2;3;4;0;6;7;8] ++ [255;0;0;0;0;0;0;1].
Example C28_sample :
  is_bytes sample_message /\ len sample_message mod 8 = 0 /\ 0 < len sample_message <= 2 ^ 47 /\
  exists p, Pack (zeros 200) sample_message = Ok (Some p) /\
            drop 16 p = [25;9;7;48; 0;2; 255;1;2;3;4;5;6;7;8;1;1;2;3;4;0;6;7;8; 129;255;1] /\
            Unpack [7;7;7] p = Ok sample_message.
Proof.
  split; [repeat (constructor; [unfold is_byte; lia|]); constructor|].
  split; [reflexivity|]. split; [split; vm_compute; [reflexivity|discriminate]|].
  eexists. split; [vm_compute; reflexivity|]. split; [vm_compute; reflexivity|]. vm_compute. reflexivity.
Qed.

(** C29.  Pack never writes outside the buffer it sized (no panic, whatever the pool
    returns), and the sizes in the header are the real ones. *)
Theorem C29_size_bound : forall pooled m,
  is_bytes m -> len m <= 2 ^ 47 ->
  match Pack pooled m with
  | Ok (Some p) =>
      UnpackedSize p = len m /\ PackedSize p = len p - 16 /\
      16 <= len p /\ PackedSize p <= len m + len m / 8 + 1
  | Ok None => m = []
  | Err => len m mod 8 <> 0
  | Panic | Hang => False
  end.
Proof.
  intros pooled m B L. pose proof (len_nonneg m).
  destruct (Z.eq_dec (len m mod 8) 0) as [M|M].
  2: { rewrite C28_unaligned_refused by exact M. exact M. }
  destruct (Z.eq_dec (len m) 0) as [E|E].
  { unfold Pack. rewrite E. cbn. apply len_0_nil. exact E. }
  destruct (Pack_spec pooled m B M ltac:(lia)) as (body & -> & X & Hb).
  pose proof (len_nonneg body).
  assert (Lp : len (le_enc 8 (len m) ++ le_enc 8 (len body) ++ body) = 16 + len body)
    by (rewrite !len_app, !len_le_enc; lia).
  change (2 ^ 47) with 140737488355328 in *.
  assert (E1 : UnpackedSize (le_enc 8 (len m) ++ le_enc 8 (len body) ++ body) = len m).
  { unfold UnpackedSize, HeaderSize. rewrite Lp. replace (16 + len body <? 16) with false by lia.
    rewrite take_app_exact by (rewrite len_le_enc; reflexivity).
    rewrite le_dec_enc_id by (change (256 ^ Z.of_nat 8) with 18446744073709551616; lia).
    apply s64_id. change (2 ^ 63) with 9223372036854775808. lia. }
  assert (E2 : PackedSize (le_enc 8 (len m) ++ le_enc 8 (len body) ++ body) = len body).
  { unfold PackedSize, HeaderSize. rewrite Lp. replace (16 + len body <? 16) with false by lia.
    rewrite drop_app_exact by (rewrite len_le_enc; reflexivity).
    rewrite take_app_exact by (rewrite len_le_enc; reflexivity).
    rewrite le_dec_enc_id by (change (256 ^ Z.of_nat 8) with 18446744073709551616; lia).
    apply s64_id. change (2 ^ 63) with 9223372036854775808. lia. }
  rewrite E1, E2, Lp. repeat split; lia.
Qed.
Print Assumptions C29_size_bound.

(** The bound is attained: one literal word packs into ten bytes. *)
Example C29_bound_tight :
  exists p, Pack [] [1;2;3;4;5;6;7;8] = Ok (Some p) /\ PackedSize p = 8 + 8 / 8 + 1.
Proof. eexists. split; [vm_compute; reflexivity|]. vm_compute. reflexivity. Qed.

(** C30.  Full statement (false, see below): Unpack returns a value or an error for
    every input.  Proved: it does whenever the sizes in the header are within the data
    and the address space and the stream is not cut inside a word; and it never loops. *)
Definition unpack_total : Prop :=
  forall pooled p, is_bytes p -> Unpack pooled p <> Panic /\ Unpack pooled p <> Hang.

Theorem C30_unpack_total_partial : forall pooled U body extra,
  is_bytes body -> len body < 2 ^ 62 -> 0 <= U <= 2 ^ 48 ->
  (forall u, len u + 8 <= U -> ~ cut_in_word body u) ->
  Unpack pooled (le_enc 8 U ++ le_enc 8 (len body) ++ body ++ extra) <> Panic.
Proof.
  intros pooled U body extra B Lb HU Hc. pose proof (len_nonneg body).
  destruct (U mod 8 =? 0) eqn:M.
  - destruct (Unpack_spec pooled U body extra B Lb HU ltac:(lia)) as (o & Ho & ->).
    destruct Ho as [u Hu Lu|He|u Hu Lu]; cbn [bind].
    + destruct (len u =? U); discriminate.
    + discriminate.
    + exfalso. exact (Hc u Lu Hu).
  - rewrite Unpack_header by (auto; lia). rewrite M. discriminate.
Qed.
Print Assumptions C30_unpack_total_partial.

(** Data that is too short for its header, or for its declared size, is an error. *)
Theorem C30_short_is_error : forall pooled p,
  is_bytes p -> len p < 16 -> Unpack pooled p = Err.
Proof.
  intros pooled p B H. unfold Unpack, HeaderSize. replace (len p <? 16) with true by lia. reflexivity.
Qed.
Theorem C30_truncated_is_error : forall pooled U P rest,
  0 <= P < 2 ^ 62 -> len rest < P ->
  Unpack pooled (le_enc 8 U ++ le_enc 8 P ++ rest) = Err.
Proof.
  intros pooled U P rest HP Hl. unfold Unpack, HeaderSize. pose proof (len_nonneg rest).
  rewrite !len_app, !len_le_enc. change (Z.of_nat 8) with 8.
  replace (8 + (8 + len rest) <? 16) with false by lia.
  rewrite slice_prefix by (rewrite len_le_enc; reflexivity). cbn [bind].
  rewrite (slice_app (le_enc 8 U)) by (rewrite !len_le_enc; reflexivity). cbn [bind].
  change (2 ^ 62) with 4611686018427387904 in *.
  rewrite (le_dec_enc_id 8 P) by (change (256 ^ Z.of_nat 8) with 18446744073709551616; lia).
  rewrite (s64_id P) by (change (2 ^ 63) with 9223372036854775808; lia).
  rewrite (s64_id (16 + P)) by (change (2 ^ 63) with 9223372036854775808; lia).
  replace (8 + (8 + len rest) <? 16 + P) with true by lia. reflexivity.
Qed.
Print Assumptions C30_truncated_is_error.

(** Every loop of Unpack ends, on every input. *)
Theorem C30_unpack_terminates : forall pooled p, is_bytes p -> Unpack pooled p <> Hang.
Proof.
  intros pooled p B. unfold Unpack.
  destruct (len p <? HeaderSize); [discriminate|].
  destruct (slice p 0 8) eqn:Ea; cbn [bind]; try discriminate;
    try (unfold slice in Ea; destruct (_ && _) in Ea; discriminate).
  destruct (slice p 8 16) eqn:Eb; cbn [bind]; try discriminate;
    try (unfold slice in Eb; destruct (_ && _) in Eb; discriminate).
  destruct (_ <? _); [discriminate|]. destruct (negb _); [discriminate|].
  destruct (poolGet pooled _) eqn:Ec; cbn [bind]; try discriminate.
  2: { unfold poolGet, slice in Ec. destruct (_ <? _) in Ec; destruct (_ <=? _) in Ec;
       try discriminate; destruct (_ && _) in Ec; discriminate. }
  destruct (slice p HeaderSize _) as [src| | |] eqn:Ed; cbn [bind]; try discriminate;
    try (unfold slice in Ed; destruct (_ && _) in Ed; discriminate).
  apply slice_inv in Ed.
  assert (Bs : is_bytes src) by (destruct Ed as (_ & _ & -> & _); apply is_bytes_take, is_bytes_drop, B).
  destruct (unpackLoop_spec (S (length src)) [] src [] a1 Bs ltac:(lia)) as (o & Ho & Hl).
  cbn [app] in Hl. change (len (@nil Z)) with 0 in Hl. unfold unpackInto. rewrite Hl.
  destruct Ho; cbn [bind]; try discriminate. destruct (negb _); discriminate.
Qed.
Print Assumptions C30_unpack_terminates.

(** The full statement fails: every input with a correct header whose stream is cut
    inside a word, and whose output has room for that word, panics. *)
Theorem C30_unpack_panics_on_cut : forall pooled U body extra u,
  is_bytes body -> len body < 2 ^ 62 -> 0 <= U <= 2 ^ 48 -> U mod 8 = 0 ->
  cut_in_word body u -> len u + 8 <= U ->
  Unpack pooled (le_enc 8 U ++ le_enc 8 (len body) ++ body ++ extra) = Panic.
Proof.
  intros pooled U body extra u B Lb HU M Hc Lu.
  destruct (Unpack_spec pooled U body extra B Lb HU M) as (o & Ho & ->).
  destruct Hc as (p1 & t & short & -> & Hp1 & Ht & Hs).
  inversion Ho as [v Hv Lv E|He E|v Hv Lv E]; cbn [bind].
  - exfalso. exact (cut_not_expands _ _ Hp1 _ _ Ht Hs _ Hv).
  - specialize (He p1 (t :: short) u 8 eq_refl Hp1 (E_cut t short Ht Hs)). lia.
  - reflexivity.
Qed.
Print Assumptions C30_unpack_panics_on_cut.

Theorem C30_unpack_total_refuted : ~ unpack_total.
Proof.
  intros H. destruct (H [] ([8;0;0;0;0;0;0;0] ++ [1;0;0;0;0;0;0;0] ++ [1])) as [H1 _].
  - repeat (constructor; [unfold is_byte; lia|]). constructor.
  - apply H1. vm_compute. reflexivity.
Qed.
Print Assumptions C30_unpack_total_refuted.

(** Concrete inputs for the hypotheses of the C30 theorems. *)
Example C30_partial_sample : forall pooled,
  Unpack pooled (le_enc 8 8 ++ le_enc 8 4 ++ [25;9;7;48] ++ []) <> Panic.
Proof.
  intros pooled. apply (C30_unpack_total_partial pooled 8 [25;9;7;48] []).
  - repeat (constructor; [unfold is_byte; lia|]). constructor.
  - reflexivity.
  - split; [lia|]. vm_compute. discriminate.
  - intros u Lu (p1 & t & short & E & X & Ht & Hs).
    apply (cut_not_expands p1 u X t short Ht Hs [9; 0; 0; 7; 48; 0; 0; 0]).
    rewrite <- E. apply (X_word 25 [9; 7; 48] [] []); [lia|reflexivity|constructor].
Qed.
Example C30_cut_sample : forall pooled extra,
  Unpack pooled (le_enc 8 8 ++ le_enc 8 (len [7; 1]) ++ [7; 1] ++ extra) = Panic.
Proof.
  intros pooled extra. apply (C30_unpack_panics_on_cut pooled 8 [7; 1] extra []).
  - repeat (constructor; [unfold is_byte; lia|]). constructor.
  - reflexivity.
  - split; [lia|]. vm_compute. discriminate.
  - reflexivity.
  - exists [], 7, [1]. repeat split; try lia. constructor.
  - vm_compute. discriminate.
Qed.
Print Assumptions C30_short_is_error.
