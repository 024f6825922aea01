(** Encoding and decoding map entries. *)
From Verif.Spec Require Import MapSpec Reach.
From Verif.Model Require Import Struct Maps.
From Verif.Proofs Require Import BaseLemmas HeaderLemmas WireLemmas SimLemmas GetLemmas ReachLemmas MapLemmas.
From Coq Require Import Lia.

Lemma hdr_norm f t x : hdr f t x = hdr (f mod 2 ^ 16) (t mod 2 ^ 8) x.
Proof.
  unfold hdr. f_equal; [symmetry; apply (le_enc_mod 2)|]. f_equal. symmetry. apply (le_enc_mod 1).
Qed.
Lemma sized_decode d : sized d -> len d < 2 ^ 40 ->
  8 <= len d /\ (forall a q, slice (a ++ d ++ q) (len a) (len a + HeaderSize) = Ok (take 8 d)) /\
  exists f t, DecodeHeader (take 8 d) = Ok (f, t, len d).
Proof.
  intros (f & t & r & E) HL. assert (L : 8 <= len d).
  { rewrite E, len_app, header_hdr, len_hdr. pose proof (len_nonneg r). lia. }
  assert (T : take 8 d = hdr f t (len d)).
  { rewrite E at 1. rewrite header_hdr. apply take_app_exact. now rewrite len_hdr. }
  split; auto. split.
  - intros a q. rewrite slice_ok; unfold HeaderSize; rewrite ?len_app; pose proof (len_nonneg a); pose proof (len_nonneg q); try lia.
    rewrite drop_app_exact by reflexivity. replace (len a + 8 - len a) with 8 by lia.
    rewrite take_app_l by lia. reflexivity.
  - rewrite T, hdr_norm. exists (f mod 2 ^ 16), (t mod 2 ^ 8). apply DecodeHeader_hdr.
    + apply Z.mod_pos_bound; lia.
    + apply Z.mod_pos_bound; lia.
    + pose proof (len_nonneg d); lia.
Qed.

Lemma dec_num_enc k z rest : in_range k z -> dec_num k (put_item k z ++ rest) = Ok z.
Proof.
  intros H. unfold dec_num, put_item. rewrite item_size_eq.
  rewrite slice_prefix by (rewrite len_le_enc; reflexivity). cbn [bind]. f_equal.
  assert (D : k = KBool \/ k <> KBool) by (destruct k; auto; right; discriminate).
  destruct D as [->|N].
  - cbn in H. rewrite le_dec_enc_id by (cbn; lia). destruct (Z.eqb_spec z 0); lia.
  - rewrite get_item_enc by auto. destruct k; auto. congruence.
Qed.
Lemma dec_blob_enc b rest : len b < 2 ^ 32 -> dec_blob (le_enc 4 (u32 (len b)) ++ b ++ rest) = Ok (Some b).
Proof.
  intros H. unfold dec_blob. pose proof (len_nonneg b). pose proof (len_nonneg rest).
  rewrite !len_app, len_le_enc. destruct (Z.ltb_spec (Z.of_nat 4 + (len b + len rest)) 4); [lia|].
  rewrite le_get_app by apply len_le_enc. cbn [bind].
  assert (E : Base.le_dec (le_enc 4 (u32 (len b))) = len b).
  { unfold u32. rewrite Z.mod_small by lia. apply le_dec_enc_id. change (256 ^ Z.of_nat 4) with (2 ^ 32). lia. }
  rewrite E. destruct (Z.ltb_spec (Z.of_nat 4 + (len b + len rest)) (4 + len b)); [lia|].
  rewrite slice_app by (rewrite ?len_le_enc; lia). reflexivity.
Qed.

Lemma len_encKey kt k : key_ok kt k -> len (encKey kt k) = keySize kt k /\ 0 < keySize kt k.
Proof.
  destruct kt as [kk|], k as [z|s]; cbn [key_ok encKey keySize]; try tauto; intros H.
  - unfold put_item. rewrite len_le_enc. rewrite item_size_eq. pose proof (kind_size_pos kk). lia.
  - rewrite len_app, len_le_enc. pose proof (len_nonneg s). lia.
Qed.
Lemma decodeKey_enc kt k rest : key_ok kt k -> len (encKey kt k) < 2 ^ 32 ->
  decodeKey kt (encKey kt k ++ rest) = Ok (Some (k, len (encKey kt k))).
Proof.
  intros H HL. destruct (len_encKey kt k H) as [L P]. unfold decodeKey. rewrite len_app. pose proof (len_nonneg rest).
  destruct (Z.eqb_spec (len (encKey kt k) + len rest) 0); [lia|].
  destruct kt as [kk|], k as [z|s]; cbn [key_ok encKey keySize] in *; try tauto.
  - destruct (Z.ltb_spec (len (put_item kk z) + len rest) (Z.of_nat (item_size kk))); [lia|].
    rewrite dec_num_enc by auto. cbn [bind]. rewrite L. reflexivity.
  - rewrite <- app_assoc. rewrite len_app, len_le_enc in HL. rewrite dec_blob_enc by lia. cbn [bind]. rewrite L. reflexivity.
Qed.

Lemma anys_fold l : forall a, fold_left (fun size (it : bytes * bytes) => size + (16 + len (snd it))) l a =
  a + fold_left (fun size (it : bytes * bytes) => size + (16 + len (snd it))) l 0.
Proof.
  induction l as [|x l IH]; intros a; cbn [fold_left]; [lia|]. rewrite (IH (a + _)), (IH (0 + _)). lia.
Qed.
Definition any_ok (p : bytes * bytes) : Prop :=
  len (fst p) = 16 /\ byte_list (fst p) /\ byte_list (snd p) /\ sized (snd p).
Lemma len_anys l : Forall any_ok l ->
  len (anys_bytes l) = fold_left (fun size (it : bytes * bytes) => size + (16 + len (snd it))) l 0.
Proof.
  induction 1 as [|[h d] l (H1 & _) HF IH]; [reflexivity|]. cbn [anys_bytes fold_left snd fst] in *.
  rewrite anys_fold, !len_app. rewrite IH. lia.
Qed.
Lemma len_encValue vt v : val_ok vt v -> len (encValue vt v) = valueSize vt v.
Proof.
  destruct vt, v as [z|b|d|[[h d]|]|l|]; cbn [val_ok encValue valueSize]; try tauto; intros H.
  - unfold put_item. rewrite len_le_enc. reflexivity.
  - rewrite len_app, len_le_enc. lia.
  - rewrite len_app, len_le_enc. lia.
  - rewrite len_app. lia.
  - rewrite len_app, len_le_enc, anys_fold. rewrite len_anys by exact H. lia.
Qed.

Lemma dec_anys_enc l rest : Forall any_ok l -> len (anys_bytes l) < 2 ^ 32 -> forall pre,
  dec_anys (length l) (pre ++ anys_bytes l ++ rest) (len pre) = Ok (l, len pre + len (anys_bytes l)).
Proof.
  intros HF. induction HF as [|[h d] l (H1 & H2 & H3 & H4) HF IH]; intros HL pre; cbn [length dec_anys anys_bytes fst snd] in *.
  - change (len (@nil Z)) with 0. repeat f_equal. lia.
  - rewrite !len_app in HL. pose proof (len_nonneg pre). pose proof (len_nonneg rest). pose proof (len_nonneg (anys_bytes l)). pose proof (len_nonneg d).
    destruct (sized_decode d H4 ltac:(lia)) as (L8 & HS & f & t & HD).
    rewrite !len_app. unfold HeaderSize at 1.
    destruct (Z.ltb_spec (len pre + (len h + (len d + len (anys_bytes l)) + len rest)) (len pre + 16 + 8)); [lia|].
    replace (pre ++ (h ++ d ++ anys_bytes l) ++ rest) with (pre ++ h ++ (d ++ anys_bytes l ++ rest)) by now rewrite <- !app_assoc.
    rewrite slice_app by lia. cbn [bind].
    replace (pre ++ h ++ d ++ anys_bytes l ++ rest) with ((pre ++ h) ++ d ++ (anys_bytes l ++ rest)) by now rewrite <- !app_assoc.
    assert (E : len pre + 16 = len (pre ++ h)) by (rewrite len_app; lia). rewrite E.
    rewrite HS. cbn [bind]. rewrite HD. cbn [bind].
    destruct (Z.ltb_spec (len pre + (len h + (len d + len (anys_bytes l)) + len rest)) (len (pre ++ h) + len d)); [lia|].
    rewrite slice_app by lia. cbn [bind].
    replace ((pre ++ h) ++ d ++ anys_bytes l ++ rest) with (((pre ++ h) ++ d) ++ anys_bytes l ++ rest) by now rewrite <- !app_assoc.
    rewrite <- (len_app (pre ++ h) d). rewrite IH by lia. cbn [bind]. do 2 f_equal. rewrite !len_app. lia.
Qed.

Lemma decodeValue_enc vt v rest : val_ok vt v -> len (encValue vt v) < 2 ^ 32 ->
  decodeValue vt (encValue vt v ++ rest) = Ok (Some (v, len (encValue vt v))) /\ 0 < len (encValue vt v).
Proof.
  intros H HL. pose proof (len_encValue vt v H) as L. pose proof (len_nonneg rest) as R.
  assert (P : 0 < len (encValue vt v)).
  { rewrite L. destruct vt, v as [z|b|d|[[h d]|]|l|]; cbn [val_ok valueSize] in *; try tauto;
      try (match goal with |- context[len ?x] => pose proof (len_nonneg x); lia end).
    - rewrite item_size_eq. pose proof (kind_size_pos k). lia.
    - destruct H as [_ (f & t & r & E)]. rewrite E, len_app, header_hdr, len_hdr. pose proof (len_nonneg r). lia.
    - rewrite anys_fold. rewrite <- len_anys by exact H. pose proof (len_nonneg (anys_bytes l)). lia. }
  split; [|exact P].
  unfold decodeValue. rewrite len_app. destruct (Z.eqb_spec (len (encValue vt v) + len rest) 0); [lia|].
  destruct vt, v as [z|b|d|[[h d]|]|l|]; cbn [val_ok encValue valueSize] in *; try tauto.
  - destruct (Z.ltb_spec (len (put_item k z) + len rest) (Z.of_nat (item_size k))); [lia|].
    rewrite dec_num_enc by auto. cbn [bind]. rewrite L. reflexivity.
  - rewrite <- app_assoc. rewrite len_app, len_le_enc in HL. rewrite dec_blob_enc by lia. cbn [bind]. rewrite L. reflexivity.
  - rewrite <- app_assoc. rewrite len_app, len_le_enc in HL. rewrite dec_blob_enc by lia. cbn [bind]. rewrite L. reflexivity.
  - destruct H as [_ H]. destruct (sized_decode d H ltac:(lia)) as (L8 & HS & f & t & HD).
    unfold HeaderSize at 1. destruct (Z.ltb_spec (len d + len rest) 8); [lia|].
    specialize (HS [] rest). cbn [app] in HS. change (len (@nil Z)) with 0 in HS. rewrite Z.add_0_l in HS. rewrite HS. cbn [bind].
    rewrite HD. cbn [bind]. unfold HeaderSize.
    destruct (Z.ltb_spec (len d) 8); [lia|]. destruct (Z.ltb_spec (len d + len rest) (len d)); [lia|]. cbn [orb].
    rewrite slice_prefix by reflexivity. reflexivity.
  - destruct H as (H1 & _ & _ & H). rewrite len_app in *. pose proof (len_nonneg h).
    destruct (sized_decode d H ltac:(lia)) as (L8 & HS & f & t & HD).
    unfold HeaderSize at 1. destruct (Z.ltb_spec (len h + len d + len rest) (16 + 8)); [lia|].
    rewrite <- app_assoc. rewrite slice_prefix by lia. cbn [bind].
    specialize (HS h rest). rewrite H1 in HS. rewrite HS. cbn [bind]. rewrite HD. cbn [bind].
    destruct (Z.ltb_spec (len h + len d + len rest) (16 + len d)); [lia|].
    rewrite slice_app by lia. cbn [bind]. rewrite H1. reflexivity.
  - rewrite len_app, len_le_enc in HL. pose proof (len_nonneg (anys_bytes l)).
    rewrite len_app at 1. rewrite len_le_enc. destruct (Z.ltb_spec (Z.of_nat 4 + len (anys_bytes l) + len rest) 4); [lia|].
    assert (LL : 16 * len l <= len (anys_bytes l)).
    { clear -H. induction H as [|[h d] l (H1 & _) HF IH]; [reflexivity|]. cbn [anys_bytes fst] in *.
      rewrite len_cons, !len_app. pose proof (len_nonneg d). lia. }
    pose proof (len_nonneg l).
    rewrite <- app_assoc. rewrite le_get_app by apply len_le_enc. cbn [bind].
    assert (E : Base.le_dec (le_enc 4 (u32 (len l))) = len l).
    { unfold u32. rewrite Z.mod_small by lia. apply le_dec_enc_id. change (256 ^ Z.of_nat 4) with (2 ^ 32). lia. }
    rewrite E. unfold len at 1. rewrite Nat2Z.id.
    pose proof (dec_anys_enc l rest H ltac:(lia) (le_enc 4 (u32 (len l)))) as D. rewrite len_le_enc in D.
    change (Z.of_nat 4) with 4 in D. rewrite D. cbn [bind]. rewrite len_app, len_le_enc. reflexivity.
Qed.

Lemma len_encEntries kt vt ks vs : Forall (key_ok kt) ks -> Forall (val_ok vt) vs ->
  len (encEntries kt vt ks vs) = calculateDataSize kt vt ks vs.
Proof.
  intros HK. revert vs. induction HK as [|k ks Hk HK IH]; intros vs HV; [reflexivity|].
  destruct HV as [|v vs Hv HV]; [reflexivity|]. cbn [encEntries calculateDataSize].
  rewrite !len_app, IH, len_encValue by auto. rewrite (proj1 (len_encKey _ _ Hk)). lia.
Qed.
Lemma byte_list_app a b : byte_list a -> byte_list b -> byte_list (a ++ b).
Proof. intros. apply Forall_app. auto. Qed.
Lemma anys_bytes_ok l : Forall any_ok l -> byte_list (anys_bytes l).
Proof.
  induction 1 as [|[h d] l (H1 & H2 & H3 & _) HF IH]; [constructor|]. cbn in *. auto using byte_list_app.
Qed.
Lemma encEntries_bytes kt vt ks vs : Forall (key_ok kt) ks -> Forall (val_ok vt) vs -> byte_list (encEntries kt vt ks vs).
Proof.
  intros HK. revert vs. induction HK as [|k ks Hk HK IH]; intros vs HV; [constructor|].
  destruct HV as [|v vs Hv HV]; [constructor|]. cbn [encEntries].
  apply byte_list_app; [|apply byte_list_app; [|apply IH; auto]].
  - destruct kt as [kk|], k as [z|s]; cbn in *; try tauto; [apply le_enc_bytes|].
    repeat constructor; try (unfold u8; apply Z.mod_pos_bound; lia); auto.
    all: try (match goal with |- Forall _ _ => auto end).
    all: try (pose proof (le_enc_bytes 4 (u32 (len s))) as B; unfold is_bytes in B; cbn in B; 
              repeat match goal with B : Forall _ _ |- _ => inversion B; subst; clear B end; auto).
  - destruct vt, v as [z|b|d|[[h d]|]|l|]; cbn [val_ok encValue] in *; try tauto.
    + apply le_enc_bytes.
    + apply byte_list_app; auto. apply le_enc_bytes.
    + apply byte_list_app; auto. apply le_enc_bytes.
    + apply byte_list_app; tauto.
    + apply byte_list_app; [apply le_enc_bytes|]. apply anys_bytes_ok, Hv.
Qed.

(** ** The parsing loop *)
Lemma parse_cons fuel kt vt pre ek ev rest k v : 0 < len ek ->
  decodeKey kt (ek ++ ev ++ rest) = Ok (Some (k, len ek)) ->
  decodeValue vt (ev ++ rest) = Ok (Some (v, len ev)) ->
  parse_entries (S fuel) kt vt (pre ++ ek ++ ev ++ rest) (len pre) =
  (r <- parse_entries fuel kt vt ((pre ++ ek ++ ev) ++ rest) (len (pre ++ ek ++ ev)) ;;
   let '(ks, vs) := r in Ok (k :: ks, v :: vs)).
Proof.
  intros P DK DV. cbn [parse_entries]. rewrite !len_app.
  pose proof (len_nonneg pre). pose proof (len_nonneg ev). pose proof (len_nonneg rest).
  destruct (Z.ltb_spec (len pre) (len pre + (len ek + (len ev + len rest)))); [|lia].
  rewrite slice_ok by (rewrite ?len_app; lia). rewrite drop_app_exact by reflexivity.
  rewrite take_all by (rewrite !len_app; lia). cbn [bind]. rewrite DK. cbn [bind].
  rewrite slice_ok by (rewrite ?len_app; lia). rewrite app_assoc. rewrite drop_app_exact by (rewrite len_app; lia).
  rewrite take_all by (rewrite !len_app; lia). cbn [bind]. rewrite DV. cbn [bind].
  replace ((pre ++ ek ++ ev) ++ rest) with ((pre ++ ek) ++ ev ++ rest) by now rewrite <- !app_assoc.
  replace (len pre + len ek + len ev) with (len pre + (len ek + len ev)) by lia. reflexivity.
Qed.
Lemma parse_stop fuel kt vt pre rest : (1 <= fuel)%nat ->
  (len rest = 0 \/ decodeKey kt rest = Ok None \/
   exists ek ev k, rest = ek ++ ev /\ decodeKey kt rest = Ok (Some (k, len ek)) /\ decodeValue vt ev = Ok None) ->
  parse_entries fuel kt vt (pre ++ rest) (len pre) = Ok ([], []).
Proof.
  intros F H. destruct fuel as [|fuel]; [lia|]. cbn [parse_entries]. rewrite len_app.
  pose proof (len_nonneg pre). pose proof (len_nonneg rest).
  destruct (Z.ltb_spec (len pre) (len pre + len rest)); [|reflexivity].
  rewrite slice_ok by (rewrite ?len_app; lia). rewrite drop_app_exact by reflexivity.
  rewrite take_all by lia. cbn [bind]. destruct H as [H|[->|(ek & ev & k & E & -> & DV)]]; [lia|reflexivity|].
  cbn [bind]. subst rest. rewrite len_app in *. pose proof (len_nonneg ek). pose proof (len_nonneg ev).
  rewrite slice_ok by (rewrite ?len_app; lia). rewrite app_assoc. rewrite drop_app_exact by (rewrite len_app; lia).
  rewrite take_all by lia. cbn [bind]. rewrite DV. reflexivity.
Qed.

Ltac small p := let H := fresh in
  assert (H : p = 0 \/ p = 1 \/ p = 2 \/ p = 3 \/ p = 4 \/ p = 5 \/ p = 6 \/ p = 7) by lia;
  destruct H as [->|[->|[->|[->|[->|[->|[->| ->]]]]]]].
Lemma decodeKey_zeros kt p : 0 <= p < 8 ->
  decodeKey kt (zeros p) = Ok (if p <? zero_key_size kt then None else Some (zero_key kt, zero_key_size kt)).
Proof. intros H. small p; destruct kt as [[]|]; reflexivity. Qed.
Lemma decodeValue_zeros vt p : 0 <= p < 8 ->
  decodeValue vt (zeros p) = Ok (match zero_val_size vt with
                                 | Some n => if p <? n then None else Some (zero_val vt, n)
                                 | None => None end).
Proof. intros H. small p; destruct vt as [[]| | | | | |]; reflexivity. Qed.
Lemma zero_key_size_pos kt : 0 < zero_key_size kt.
Proof. destruct kt as [[]|]; cbn; lia. Qed.

Lemma parse_zeros kt vt fuel : forall pre p, 0 <= p < 8 -> (Z.to_nat p < fuel)%nat ->
  parse_entries fuel kt vt (pre ++ zeros p) (len pre) =
  Ok (repeat (zero_key kt) (ghosts kt vt p), repeat (zero_val vt) (ghosts kt vt p)).
Proof.
  induction fuel as [|fuel IH]; intros pre p Hp HF; [lia|].
  pose proof (zero_key_size_pos kt) as ZK. pose proof (decodeKey_zeros kt p Hp) as DK.
  destruct (Z.ltb_spec p (zero_key_size kt)) as [Q|Q].
  { rewrite parse_stop; [|lia|auto].
    assert (E : ghosts kt vt p = O).
    { unfold ghosts. destruct (zero_val_size vt) as [z|] eqn:EZ; auto.
      assert (0 < z) by (destruct vt as [[]| | | | | |]; cbn in EZ; try discriminate; injection EZ as <-; cbn; lia).
      rewrite Z.div_small by lia. reflexivity. }
    rewrite E. reflexivity. }
  set (zk := zero_key_size kt) in *.
  pose proof (decodeValue_zeros vt (p - zk) ltac:(lia)) as DV.
  assert (EP : zeros p = zeros zk ++ zeros (p - zk)) by (rewrite <- zeros_app by lia; f_equal; lia).
  assert (LK : len (zeros zk) = zk) by (apply len_zeros; lia).
  unfold ghosts in *. fold zk in IH |- *.
  destruct (zero_val_size vt) as [z|] eqn:EZ.
  2:{ rewrite parse_stop; [reflexivity|lia|]. right. right. exists (zeros zk), (zeros (p - zk)), (zero_key kt).
      rewrite LK. auto. }
  assert (Hz : 0 < z) by (destruct vt as [[]| | | | | |]; cbn in EZ; try discriminate; injection EZ as <-; cbn; lia).
  destruct (Z.ltb_spec (p - zk) z) as [Q2|Q2].
  { rewrite parse_stop; [rewrite Z.div_small by lia; reflexivity|lia|]. right. right. exists (zeros zk), (zeros (p - zk)), (zero_key kt).
    rewrite LK. auto. }
  assert (EV : zeros (p - zk) = zeros z ++ zeros (p - zk - z)) by (rewrite <- zeros_app by lia; f_equal; lia).
  assert (LV : len (zeros z) = z) by (apply len_zeros; lia).
  rewrite EP in *. rewrite EV in *.
  rewrite (parse_cons fuel kt vt pre (zeros zk) (zeros z) (zeros (p - zk - z)) (zero_key kt) (zero_val vt)); [| lia | rewrite LK; exact DK | rewrite LV; exact DV].
  rewrite IH by lia. cbn [bind].
  replace (p / (zk + z)) with (1 + (p - zk - z) / (zk + z)).
  2:{ replace p with ((p - zk - z) + 1 * (zk + z)) at 2 by lia. rewrite Z.div_add by lia. lia. }
  assert (0 <= (p - zk - z) / (zk + z)) by (apply Z.div_pos; lia).
  rewrite Z2Nat.inj_add by lia. reflexivity.
Qed.

Lemma parse_enc kt vt p ks : forall vs fuel pre, Forall (key_ok kt) ks -> Forall (val_ok vt) vs -> length ks = length vs ->
  len (encEntries kt vt ks vs) < 2 ^ 32 -> 0 <= p < 8 -> (Z.to_nat (len (encEntries kt vt ks vs) + p) < fuel)%nat ->
  parse_entries fuel kt vt (pre ++ encEntries kt vt ks vs ++ zeros p) (len pre) =
  Ok (ks ++ repeat (zero_key kt) (ghosts kt vt p), vs ++ repeat (zero_val vt) (ghosts kt vt p)).
Proof.
  induction ks as [|k ks IH]; intros [|v vs] fuel pre HK HV HLen HL Hp HF; try discriminate.
  - cbn [encEntries app]. apply parse_zeros; auto; cbn in HF. 
  - inversion HK as [|? ? Hk HK']; inversion HV as [|? ? Hv HV']; subst. cbn [encEntries] in *.
    rewrite !len_app in *. pose proof (len_nonneg (encKey kt k)). pose proof (len_nonneg (encValue vt v)).
    pose proof (len_nonneg (encEntries kt vt ks vs)).
    destruct (len_encKey kt k Hk) as [LK PK].
    destruct fuel as [|fuel]; [lia|].
    replace (pre ++ (encKey kt k ++ encValue vt v ++ encEntries kt vt ks vs) ++ zeros p)
      with (pre ++ encKey kt k ++ encValue vt v ++ (encEntries kt vt ks vs ++ zeros p)) by now rewrite <- !app_assoc.
    rewrite (parse_cons fuel kt vt pre _ _ _ k v).
    + rewrite IH; auto; lia.
    + lia.
    + apply decodeKey_enc; auto. lia.
    + apply decodeValue_enc; auto. lia.
Qed.
