(** Lemmas for Properties/GoReflect.v. *)
From Verif.Spec Require Export GoReflect.
From Verif.Proofs Require Import ReachLemmas QueryLemmas GetLemmas WireLemmas RepLemmas BuildLemmas SimLemmas ListHeapProofs.

Definition has (n : nat) (m : msg) (f : Z) : bool := match seen n m f with Some _ => true | None => false end.
Lemma has_field n s m f : reached n s m -> 0 <= f -> HasField s f = Ok (has n m f).
Proof.
  intros HR Hf. pose proof (reached_answer n s m (QHas f) _ HR (conj Hf eq_refl)) as E. cbn [answer] in E.
  destruct (HasField s f); cbn [bind] in E; inversion E; reflexivity.
Qed.
Lemma seen_in (fs : list fdesc) m f d : 0 <= f -> nth_error fs (Z.to_nat f) = Some d -> seen (length fs) m f = flook f m.
Proof.
  intros Hf E. unfold seen. assert (H : (Z.to_nat f < length fs)%nat) by (apply nth_error_Some; congruence).
  replace ((0 <=? f) && (f <? Z.of_nat (length fs))) with true; auto. symmetry. apply andb_true_iff. lia.
Qed.

(** GetValue, once the field is known to be set. *)
Definition got (reg : registry) (h : hstruct) (d : fdesc) (f : Z) : res (hstruct * option rvalue) :=
  let s := h_s h in
    let ty := fd_ty d in
    if ty =? FTBool then b <- GetBool s f ;; Ok (h, Some (RBool b))
    else match num_kind ty with
    | Some k =>
      z <- get_scalar s f k ;;
      match fd_enum d, k with
      | Some e, KU8 | Some e, KU16 => g <- findGroup reg k e ;; Ok (h, Some (REnum k z g))
      | _, _ => Ok (h, Some (RNum k z))
      end
    | None =>
    if ty =? FTBytes then b <- GetBytes s f ;; Ok (h, Some (RBytes (Some b)))
    else if ty =? FTString then b <- GetString s f ;; Ok (h, Some (RStr b))
    else if ty =? FTStruct then
      match fd_child d with
      | None => Panic
      | Some fs' =>
        o <- GetNestedStruct s f (length fs') ;;
        Ok (h, option_map (fun c => RStruct (hstart c) fs') o)
      end
    else if ty =? FTListBools then l <- getListBools s f ;; Ok (h, Some (RList (RBools l)))
    else match nums_kind ty with
    | Some k => '(h, l) <- getListNumbers h f k ;; Ok (h, Some (RList (RNums k l)))
    | None =>
    if ty =? FTListBytes then '(h, l) <- getListBlobs h f false ;; Ok (h, Some (RList (RBlobs false l)))
    else if ty =? FTListStrings then '(h, l) <- getListBlobs h f true ;; Ok (h, Some (RList (RBlobs true l)))
    else if ty =? FTListStructs then
      match fd_child d with
      | None => Panic
      | Some fs' => l <- get_structs s f (length fs') ;; Ok (h, Some (RList (RStructs (map hstart l) fs')))
      end
    else Panic
    end end.
Lemma get_value reg fs h m f d :
  reached (length fs) (h_s h) m -> 0 <= f -> nth_error fs (Z.to_nat f) = Some d ->
  exists s, reached (length fs) s m /\ st_data s = st_data (h_s h) /\
    GetValue reg h fs f = match flook f m with None => Ok (with_s h s, None) | Some _ => got reg (with_s h s) d f end.
Proof.
  intros HR Hf E. destruct (parsed_ok _ _ _ HR) as (s & EP & RS & ED). exists s. split; auto. split; auto.
  unfold GetValue. rewrite (has_field _ _ _ _ HR Hf), EP, !bind_Ok. unfold has. rewrite (seen_in _ _ _ _ Hf E).
  destruct (flook f m); cbn [negb]; [|reflexivity].
  rewrite (index_nth_error _ _ d) by auto. rewrite bind_Ok. reflexivity.
Qed.

Lemma got_bool reg h d f : fd_ty d = FTBool -> got reg h d f = (b <- GetBool (h_s h) f ;; Ok (h, Some (RBool b))).
Proof. intros E. unfold got. rewrite E. reflexivity. Qed.
Lemma got_num reg h d f k : k <> KBool -> fd_ty d = scalar_type k ->
  got reg h d f =
  (z <- get_scalar (h_s h) f k ;;
   match fd_enum d, k with
   | Some e, KU8 | Some e, KU16 => g <- findGroup reg k e ;; Ok (h, Some (REnum k z g))
   | _, _ => Ok (h, Some (RNum k z))
   end).
Proof. intros N E. unfold got. rewrite E. destruct k; try congruence; reflexivity. Qed.
Lemma got_nums reg h d f k : k <> KBool -> fd_ty d = list_type k ->
  got reg h d f = ('(h, l) <- getListNumbers h f k ;; Ok (h, Some (RList (RNums k l)))).
Proof. intros N E. unfold got. rewrite E. destruct k; try congruence; reflexivity. Qed.

Lemma getBool n s m f z : reached n s m -> 0 <= f -> seen n m f = Some (VScalar KBool z) -> GetBool s f = Ok (z =? 1).
Proof.
  intros HR Hf HV. pose proof (reached_answer n s m (QScalar f KBool) (Ok (ANum z)) HR) as E.
  cbn [expects reads] in E. unfold expects in E. cbn [reads] in E. rewrite HV in E. specialize (E (conj Hf (conj eq_refl eq_refl))).
  cbn [answer get_scalar] in E. destruct (GetBool s f) as [b| | |]; cbn [bind] in E; inversion E. destruct b; reflexivity.
Qed.
Lemma getScalar n s m f k z : reached n s m -> 0 <= f -> seen n m f = Some (VScalar k z) -> get_scalar s f k = Ok z.
Proof.
  intros HR Hf HV. pose proof (reached_answer n s m (QScalar f k) (Ok (ANum z)) HR) as E.
  unfold expects in E. cbn [reads] in E. rewrite HV in E. specialize (E (conj Hf (conj eq_refl eq_refl))).
  cbn [answer] in E. destruct (get_scalar s f k) as [b| | |]; cbn [bind] in E; inversion E. reflexivity.
Qed.
Lemma getBytes n s m f t b : reached n s m -> 0 <= f -> seen n m f = Some (VBytes t b) -> GetBytes s f = Ok b.
Proof.
  intros HR Hf HV. pose proof (reached_answer n s m (QBytes f) (Ok (ABytes b)) HR) as E.
  unfold expects in E. cbn [reads] in E. rewrite HV in E. specialize (E (conj Hf eq_refl)).
  cbn [answer] in E. destruct (GetBytes s f); cbn [bind] in E; inversion E. reflexivity.
Qed.
Lemma getNums n s m f k l : reached n s m -> 0 <= f -> seen n m f = Some (VNums k l) ->
  exists nu, get_numbers s f k = Ok (Some nu) /\ nu_slice k nu = Ok l.
Proof.
  intros HR Hf HV. pose proof (reached_answer n s m (QNums f k) (Ok (ANums (Some l))) HR) as E.
  unfold expects in E. cbn [reads] in E. rewrite HV in E. specialize (E (conj Hf (conj eq_refl eq_refl))).
  cbn [answer] in E. destruct (get_numbers s f k) as [[nu|]| | |]; cbn [bind] in E; try discriminate.
  exists nu. split; auto. destruct (nu_slice k nu); cbn [bind] in E; inversion E. reflexivity.
Qed.
Lemma getNested n s m f c n' : reached n s m -> 0 <= f -> seen n m f = Some (VStruct c) ->
  exists s', GetNestedStruct s f n' = Ok (Some s') /\ reached n' s' c.
Proof.
  intros HR Hf HV. destruct (reached_good _ _ _ HR) as (g & _ & S & _).
  pose proof (GetNestedStruct_spec _ _ _ _ _ f n' S Hf) as G. rewrite HV in G. destruct G as (s' & E & _).
  exists s'. split; auto. eapply R_nested; eauto.
Qed.
Lemma getStructs n s m f l n' : reached n s m -> 0 <= f -> seen n m f = Some (VStructs l) ->
  exists ss, get_structs s f n' = Ok ss /\ reached_all n' ss l.
Proof.
  intros HR Hf HV. destruct (reached_good _ _ _ HR) as (g & _ & S & _).
  pose proof (get_structs_spec _ _ _ _ _ f n' S Hf) as G. rewrite HV in G. destruct G as (E & _).
  eexists. split; [exact E|].
  assert (A : forall k c, nth_error l k = Some c ->
    exists x, nth_error (map (item_struct n') (numbered 0 l)) k = Some x /\ reached n' x c).
  { intros k c EK.
    destruct (nth_error (map (item_struct n') (numbered 0 l)) k) as [x|] eqn:EX.
    - exists x. split; auto. eapply R_item; eauto.
    - apply nth_error_None in EX. rewrite map_length, numbered_length in EX.
      exfalso. apply (@nth_error_None msg l k) in EX. assert (X : Some c = None) by (transitivity (@nth_error msg l k); [symmetry; exact EK|exact EX]). discriminate X. }
  assert (LL : length (map (item_struct n') (numbered 0 l)) = length l) by (now rewrite map_length, numbered_length).
  clear - A LL. revert A LL. generalize (map (item_struct n') (numbered 0 l)) as ss.
  induction l as [|c l IH]; intros ss A LL; destruct ss as [|x ss]; cbn in LL; try lia; constructor.
  - destruct (A 0%nat c eq_refl) as (y & EY & R). cbn in EY. inversion EY. now subst.
  - apply IH; [|lia]. intros k d E. exact (A (S k) d E).
Qed.

(** ** The names of enums *)
Lemma splitAt_ne c s : Idl.splitAt c s <> [].
Proof. induction s as [|d s IH]; cbn; [easy|]. destruct (d =? c); [easy|]. destruct (Idl.splitAt c s); easy. Qed.
Lemma splitAt_none c s : ~ In c s -> Idl.splitAt c s = [s].
Proof.
  induction s as [|d s IH]; intros H; cbn; auto. destruct (Z.eqb_spec d c) as [->|N]; [exfalso; apply H; now left|].
  rewrite IH; auto. intros X. apply H. now right.
Qed.
Lemma splitAt_one c a b : ~ In c a -> Idl.splitAt c (a ++ c :: b) = a :: Idl.splitAt c b.
Proof.
  induction a as [|d a IH]; intros H; cbn; [now rewrite Z.eqb_refl|].
  destruct (Z.eqb_spec d c) as [->|N]; [exfalso; apply H; now left|].
  rewrite IH; auto. intros X. apply H. now right.
Qed.
Lemma bytes_eqb_refl a : bytes_eqb a a = true.
Proof. induction a; cbn; auto. rewrite Z.eqb_refl. auto. Qed.
Lemma bytes_eqb_eq a b : bytes_eqb a b = true -> a = b.
Proof.
  revert b. induction a as [|x a IH]; intros [|y b]; cbn; try discriminate; auto.
  intros H. apply andb_true_iff in H. destruct H as [H1 H2]. apply Z.eqb_eq in H1. f_equal; auto.
Qed.
Lemma by_name l x g : NoDup (map fst l) -> In (x, g) l -> ByName l x = Some g.
Proof.
  unfold ByName. induction l as [|[y k] l IH]; intros ND HI; cbn in *; [tauto|]. inversion ND as [|? ? NI ND']; subst.
  destruct HI as [HI|HI].
  - inversion HI; subst. now rewrite bytes_eqb_refl.
  - destruct (bytes_eqb y x) eqn:E; [|now apply IH]. apply bytes_eqb_eq in E. subst. exfalso. apply NI.
    change x with (fst (x, g)). now apply in_map.
Qed.
Lemma find_group reg k e g : enum_is reg e g -> k = KU8 \/ ~ In 46 (snd e) -> findGroup reg k e = Ok (Some g).
Proof.
  intros (plain & l & (NP & HN) & ER & ND & HI) HK. unfold findGroup.
  assert (E : egName k (snd e) = Ok plain).
  { destruct HN as [EN|(pkg & NK & EN)].
    - rewrite EN in *. destruct k; cbn [egName]; auto. now rewrite splitAt_none.
    - destruct HK as [->|NI].
      + cbn [egName]. rewrite EN, splitAt_one by auto. now rewrite splitAt_none.
      + exfalso. apply NI. rewrite EN. apply in_app_iff. right. now left. }
  rewrite E, bind_Ok, ER. f_equal. now apply by_name.
Qed.

(** ** Reading *)
Lemma got_shows reg fs h m f d v :
  reached (length fs) (h_s h) m -> 0 <= f -> nth_error fs (Z.to_nat f) = Some d -> flook f m = Some v ->
  fits_type (fd_ty d) v -> well_described reg d -> kept d v -> valid_value v ->
  exists h' r, got reg h d f = Ok (h', Some r) /\ shows reg d v r /\ h_s h' = h_s h.
Proof.
  intros HR Hf EN EV HT [WE WC] HK VV. pose proof (seen_in fs m f d Hf EN) as ES. rewrite EV in ES.
  destruct v; cbn [fits_type kept shows] in *; try tauto.
  - destruct (kind_eqb k KBool) eqn:EK.
    + destruct k; try discriminate EK. rewrite got_bool by auto. rewrite (getBool _ _ _ _ _ HR Hf ES). cbn [bind].
      exists h. eexists. split; [reflexivity|]. auto.
    + assert (NB : k <> KBool) by (intros ->; discriminate EK).
      rewrite (got_num _ _ _ _ k NB HT), (getScalar _ _ _ _ _ _ HR Hf ES). cbn [bind].
      destruct (fd_enum d) as [e|] eqn:EE.
      * destruct (WE e eq_refl) as [IT (g & HG)]. rewrite HT in IT.
        assert (KK : k = KU8 \/ k = KU16).
        { destruct k; cbn in IT; auto; exfalso; repeat (destruct IT as [IT|IT]; [discriminate IT|]); exact IT. }
        destruct KK; subst k.
        -- rewrite (find_group reg KU8 e g HG) by auto. cbn [bind]. exists h. eexists. split; [reflexivity|]. split; eauto.
        -- rewrite (find_group reg KU16 e g HG) by (right; auto). cbn [bind]. exists h. eexists. split; [reflexivity|]. split; eauto.
      * exists h. eexists. split; [destruct k; reflexivity|]. destruct k; try congruence; split; reflexivity.
  - exists h. destruct HT as [HT|HT]; eexists; unfold got; rewrite HT.
    + change (FTBytes =? FTBool) with false. change (num_kind FTBytes) with (@None kind). cbv iota.
      change (FTBytes =? FTBytes) with true. cbv iota. rewrite (getBytes _ _ _ _ _ _ HR Hf ES). cbn [bind].
      split; [reflexivity|]. split; reflexivity.
    + change (FTString =? FTBool) with false. change (num_kind FTString) with (@None kind). cbv iota.
      change (FTString =? FTBytes) with false. change (FTString =? FTString) with true. cbv iota. unfold GetString. rewrite (getBytes _ _ _ _ _ _ HR Hf ES). cbn [bind].
      split; [reflexivity|]. split; reflexivity.
  - destruct VV as [NB VV]. rewrite (got_nums _ _ _ _ k NB HT). unfold getListNumbers.
    destruct (getNums _ _ _ _ _ _ HR Hf ES) as (nu & E1 & E2). rewrite E1. cbn [bind]. rewrite E2. cbn [bind].
    eexists. eexists. split; [reflexivity|]. split; reflexivity.
  - unfold got. rewrite HT. destruct (fd_child d) as [fs'|] eqn:EC; [|exfalso; now apply WC; auto].
    destruct (getNested _ _ _ _ _ (length fs') HR Hf ES) as (s' & E & R).
    change (FTStruct =? FTBool) with false. change (num_kind FTStruct) with (@None kind). cbv iota.
    change (FTStruct =? FTBytes) with false. change (FTStruct =? FTString) with false. change (FTStruct =? FTStruct) with true. cbv iota.
    rewrite E. cbn [bind option_map]. exists h. eexists. split; [reflexivity|]. split; [|reflexivity]. exists fs', s'. auto.
  - unfold got. rewrite HT. destruct (fd_child d) as [fs'|] eqn:EC; [|exfalso; now apply WC; auto].
    destruct (getStructs _ _ _ _ _ (length fs') HR Hf ES) as (ss & E & R).
    change (num_kind FTListStructs) with (@None kind). change (nums_kind FTListStructs) with (@None kind).
    unfold FTListStructs, FTBool, FTBytes, FTString, FTStruct, FTListBools, FTListBytes, FTListStrings. cbn [Z.eqb Pos.eqb].
    rewrite E. cbn [bind]. exists h. eexists. split; [reflexivity|]. split; [|reflexivity]. exists fs', ss. auto.
Qed.

(** ** The lists that are read wrongly, and the values that are not read *)
Lemma byte_bits_bits l : (length l <= 8)%nat -> byte_bits (bits_byte l) = l ++ repeat false (8 - length l).
Proof.
  intros H. unfold byte_bits.
  assert (E : forall j, negb (Z.land (bits_byte l) (Z.shiftl 1 (Z.of_nat j)) =? 0) = nth j l false).
  { intros j. rewrite <- (bits_byte_testbit l j H). rewrite Z.shiftl_1_l.
    destruct (Z.testbit (bits_byte l) (Z.of_nat j)) eqn:EB.
    - apply negb_true_iff, Z.eqb_neq. intros X.
      assert (Y : Z.testbit (Z.land (bits_byte l) (2 ^ Z.of_nat j)) (Z.of_nat j) = false) by (rewrite X; apply Z.testbit_0_l).
      rewrite Z.land_spec, EB, Z.pow2_bits_true in Y by lia. discriminate.
    - apply negb_false_iff, Z.eqb_eq. apply Z.bits_inj'. intros i Hi. rewrite Z.land_spec, Z.bits_0.
      destruct (Z.eq_dec i (Z.of_nat j)) as [->|N]; [now rewrite EB|]. rewrite Z.pow2_bits_false by lia. now rewrite andb_false_r. }
  pose proof (E 0%nat) as E0. pose proof (E 1%nat) as E1. pose proof (E 2%nat) as E2. pose proof (E 3%nat) as E3.
  pose proof (E 4%nat) as E4. pose proof (E 5%nat) as E5. pose proof (E 6%nat) as E6. pose proof (E 7%nat) as E7.
  cbn [Z.of_nat Pos.of_succ_nat Pos.succ] in *. cbn [map]. rewrite E0, E1, E2, E3, E4, E5, E6, E7.
  do 9 (destruct l as [|? l]; [reflexivity|]). cbn in H. lia.
Qed.
Lemma flat_bits l : flat_map byte_bits (bit_bytes l) = l ++ repeat false (8 * ((length l + 7) / 8) - length l).
Proof.
  unfold bit_bytes. set (q := ((length l + 7) / 8)%nat).
  assert (HQ : (length l <= 8 * q)%nat).
  { unfold q. pose proof (Nat.div_mod (length l + 7) 8 ltac:(lia)). pose proof (Nat.mod_upper_bound (length l + 7) 8 ltac:(lia)). lia. }
  assert (A : forall k, (k <= q)%nat -> flat_map byte_bits (map (fun i => bits_byte (firstn 8 (skipn (8 * i) l))) (seq 0 k)) =
    firstn (8 * k) l ++ repeat false (8 * k - length l)).
  { induction k as [|k IH]; intros HK; [reflexivity|].
    rewrite seq_S, map_app, flat_map_app, IH by lia. cbn [map flat_map]. rewrite app_nil_r, Nat.add_0_l.
    rewrite byte_bits_bits by (rewrite firstn_length; lia). rewrite firstn_length, skipn_length.
    destruct (Nat.le_gt_cases (8 * k) (length l)) as [LE|GT].
    - replace (8 * k - length l)%nat with 0%nat by lia. cbn [repeat]. rewrite app_nil_r.
      replace (8 * S k)%nat with (8 * k + 8)%nat by lia. rewrite app_assoc. f_equal; [|f_equal; lia].
      rewrite <- (firstn_skipn (8 * k) l) at 3. rewrite firstn_app, firstn_length.
      replace (Nat.min (8 * k) (length l)) with (8 * k)%nat by lia.
      rewrite (firstn_all2 (n := 8 * k + 8)) by (rewrite firstn_length; lia). f_equal. f_equal. lia.
    - exfalso. unfold q in HK.
      pose proof (Nat.div_mod (length l + 7) 8 ltac:(lia)). pose proof (Nat.mod_upper_bound (length l + 7) 8 ltac:(lia)). lia. }
  rewrite (A q (le_n _)). rewrite firstn_all2 by lia. reflexivity.
Qed.

Lemma flat_zeros k : flat_map byte_bits (zeros k) = repeat false (8 * Z.to_nat k).
Proof.
  unfold zeros. induction (Z.to_nat k) as [|n IH]; [reflexivity|].
  cbn [repeat flat_map]. rewrite IH. replace (8 * S n)%nat with (8 + 8 * n)%nat by lia. now rewrite repeat_app.
Qed.
(** Up to the next multiple of 64. *)
Definition to64 (n : nat) : nat := (64 * ((n + 63) / 64) - n)%nat.
Lemma flat_padded l : flat_map byte_bits (padded (bit_bytes l)) = l ++ repeat false (to64 (length l)).
Proof.
  unfold padded. rewrite flat_map_app, flat_bits, flat_zeros, <- app_assoc, <- repeat_app. f_equal. f_equal.
  unfold len. rewrite bit_bytes_length. unfold to64, pad_len.
  set (q := ((length l + 7) / 8)%nat).
  pose proof (Nat.div_mod (length l + 7) 8 ltac:(lia)) as H1. pose proof (Nat.mod_upper_bound (length l + 7) 8 ltac:(lia)) as H2.
  fold q in H1.
  pose proof (Nat.div_mod (length l + 63) 64 ltac:(lia)) as H3. pose proof (Nat.mod_upper_bound (length l + 63) 64 ltac:(lia)) as H4.
  set (p := ((length l + 63) / 64)%nat) in *.
  pose proof (Z.div_mod (- Z.of_nat q) 8 ltac:(lia)) as H5. pose proof (Z.mod_pos_bound (- Z.of_nat q) 8 ltac:(lia)) as H6.
  set (r := (- Z.of_nat q) mod 8) in *. set (e := - Z.of_nat q / 8) in *.
  lia.
Qed.
Lemma getBools n s m f l : reached n s m -> 0 <= f -> seen n m f = Some (VBools l) ->
  getListBools s f = Ok (l ++ repeat false (to64 (length l))).
Proof.
  intros HR Hf ES. destruct (reached_good _ _ _ HR) as (g & _ & HS & _). unfold getListBools.
  pose proof (Sim_seen _ _ _ _ _ f HS Hf) as L. rewrite ES in L. destruct L as (p & q & EO & ED & Hp & HV & Hf16 & HT).
  rewrite EO, bind_Ok. pose proof (len_wire_value_ge f (VBools l)) as GE. change HeaderSize with 8.
  rewrite ED, slice_field, bind_Ok. rewrite wire_form. cbn [v_rest].
  assert (EL : len (hdr f (v_type (VBools l)) (v_f40 (VBools l)) ++ padded (bit_bytes l)) = 8 + len (padded (bit_bytes l))) by (rewrite len_app, len_hdr; reflexivity).
  rewrite drop_app_exact by (now rewrite len_hdr). rewrite flat_padded.
  destruct (Z.leb_spec (len (hdr f (v_type (VBools l)) (v_f40 (VBools l)) ++ padded (bit_bytes l))) 8) as [LE|GT]; [|reflexivity].
  rewrite EL in LE. assert (LP : padded (bit_bytes l) = []) by (destruct (padded (bit_bytes l)) as [|x y]; auto; rewrite len_cons in LE; pose proof (len_nonneg y); lia).
  pose proof (flat_padded l) as FP. rewrite LP in FP. cbn [flat_map] in FP. now rewrite <- FP.
Qed.
Lemma got_bools reg fs h m f d l :
  reached (length fs) (h_s h) m -> 0 <= f -> nth_error fs (Z.to_nat f) = Some d -> flook f m = Some (VBools l) ->
  fd_ty d = FTListBools ->
  got reg h d f = Ok (h, Some (RList (RBools (l ++ repeat false (to64 (length l)))))).
Proof.
  intros HR Hf EN EV HT. pose proof (seen_in fs m f d Hf EN) as ES. rewrite EV in ES.
  unfold got. rewrite HT. change (num_kind FTListBools) with (@None kind).
  unfold FTListBools, FTBool, FTBytes, FTString, FTStruct. cbn [Z.eqb Pos.eqb]. rewrite (getBools _ _ _ _ _ HR Hf ES). reflexivity.
Qed.
Lemma got_blobs reg h f d (str : bool) : fd_ty d = (if str then FTListStrings else FTListBytes) ->
  got reg h d f = Ok (h_register h f (CBlobs str [] false), Some (RList (RBlobs str []))).
Proof. intros HT. unfold got. rewrite HT. destruct str; reflexivity. Qed.
Lemma got_panics reg h f d : fd_ty d = FTAny \/ fd_ty d = FTListAny \/ fd_ty d = FTMap -> got reg h d f = Panic.
Proof. intros [HT|[HT|HT]]; unfold got; rewrite HT; reflexivity. Qed.

(** ** What reading does to the struct *)
Definition object_list (ty : Z) : Prop := ty = FTListBytes \/ ty = FTListStrings \/ exists k, k <> KBool /\ ty = list_type k.
Lemma nums_kind_some ty k : nums_kind ty = Some k -> k <> KBool /\ ty = list_type k.
Proof.
  unfold nums_kind. intros E. apply find_some in E. destruct E as [I E]. apply Z.eqb_eq in E. split; auto.
  intros ->. cbn in I. repeat (destruct I as [I|I]; [discriminate I|]). exact I.
Qed.
Lemma got_quiet reg h f d h' o : ~ object_list (fd_ty d) -> got reg h d f = Ok (h', o) -> h' = h.
Proof.
  intros NO. unfold got. destruct (fd_ty d =? FTBool); [destruct (GetBool _ _); intros E; inversion E; auto|].
  destruct (num_kind (fd_ty d)) as [k|].
  { destruct (get_scalar _ _ _); cbn [bind]; try discriminate.
    destruct (fd_enum d) as [e|]; [|intros E; inversion E; auto].
    destruct k; try (intros E; inversion E; auto; fail); destruct (findGroup _ _ _); cbn [bind]; intros E; inversion E; auto. }
  destruct (fd_ty d =? FTBytes); [destruct (GetBytes _ _); intros E; inversion E; auto|].
  destruct (fd_ty d =? FTString); [destruct (GetString _ _); intros E; inversion E; auto|].
  destruct (fd_ty d =? FTStruct); [destruct (fd_child d); [|discriminate]; destruct (GetNestedStruct _ _ _); intros E; inversion E; auto|].
  destruct (fd_ty d =? FTListBools); [destruct (getListBools _ _); intros E; inversion E; auto|].
  destruct (nums_kind (fd_ty d)) as [k|] eqn:EK.
  { exfalso. apply NO. right. right. exists k. now apply nums_kind_some. }
  destruct (Z.eqb_spec (fd_ty d) FTListBytes); [exfalso; apply NO; now left|].
  destruct (Z.eqb_spec (fd_ty d) FTListStrings); [exfalso; apply NO; right; now left|].
  destruct (fd_ty d =? FTListStructs); [|discriminate].
  destruct (fd_child d); [|discriminate]; destruct (get_structs _ _ _); intros E; inversion E; auto.
Qed.
Lemma got_struct reg h f d h' o : got reg h d f = Ok (h', o) -> h_s h' = h_s h.
Proof.
  destruct (Z.eq_dec (fd_ty d) FTListBytes) as [E1|N1].
  { rewrite (got_blobs reg h f d false E1). intros E. inversion E. reflexivity. }
  destruct (Z.eq_dec (fd_ty d) FTListStrings) as [E2|N2].
  { rewrite (got_blobs reg h f d true E2). intros E. inversion E. reflexivity. }
  destruct (nums_kind (fd_ty d)) as [k|] eqn:EK.
  - destruct (nums_kind_some _ _ EK) as [NB ET]. rewrite (got_nums _ _ _ _ k NB ET). unfold getListNumbers.
    destruct (get_numbers _ _ _) as [o'| | |]; cbn [bind]; try discriminate. destruct (nu_slice _ _); cbn [bind]; intros E; inversion E. reflexivity.
  - intros E. rewrite (got_quiet reg h f d h' o); auto. intros [X|[X|(k & NB & X)]]; auto.
    rewrite X in EK. destruct k; try congruence; discriminate EK.
Qed.

(** ** Setting *)
Lemma num_kind_scalar k : k <> KBool -> num_kind (scalar_type k) = Some k.
Proof. destruct k; try congruence; reflexivity. Qed.
Lemma scalar_not_bool k : k <> KBool -> (scalar_type k =? FTBool) = false.
Proof. destruct k; try congruence; reflexivity. Qed.
Lemma put_scalar n s m f k z : reached n s m -> 0 <= f < Z.of_nat n -> f < 2 ^ 16 -> in_range k z ->
  fits 0 (mset (is_zero k z) f (VScalar k z) m) ->
  exists s', set_scalar s f k z = Ok s' /\ reached n s' (mset (is_zero k z) f (VScalar k z) m).
Proof.
  intros HR Hf H16 V F. destruct (reached_op n s m (OScalar f k z) HR) as (s' & E & R); [cbn; auto|].
  exists s'. split; [exact E|exact R].
Qed.
Lemma by_value g e z : In e g -> e_num e = z -> 0 <= z < 2 ^ 16 -> exists e', ByValue g z = Some e' /\ e_num e' = z.
Proof.
  intros HI HE HZ. unfold ByValue. assert (U : u16 z = z) by (unfold u16; apply Z.mod_small; lia). rewrite U.
  destruct (find (fun e0 => e_num e0 =? z) g) as [e'|] eqn:EF.
  - exists e'. split; auto. apply find_some in EF. now apply Z.eqb_eq.
  - exfalso. apply (find_none _ _ EF) in HI. cbn in HI. rewrite HE, Z.eqb_refl in HI. discriminate.
Qed.
Lemma put_nested n s m f n' c mc : reached n s m -> reached n' c mc -> 0 <= f < Z.of_nat n -> f < 2 ^ 16 ->
  fits 0 (mset (nil_b mc) f (VStruct mc) m) ->
  exists s', SetNestedStruct s f (Some c) = Ok s' /\ reached n s' (mset (nil_b mc) f (VStruct mc) m).
Proof.
  intros HR RC Hf H16 F. destruct (reached_good _ _ _ HR) as (g & Hg & S & I). destruct (reached_good _ _ _ RC) as (g' & Hg' & S' & I').
  destruct (Sim_SetNested _ _ _ _ _ f _ _ _ _ S S' Hf H16 F) as (s' & E & _). exists s'. split; auto. eapply R_set_nested; eauto. split; auto.
Qed.
Lemma set_taken fs h m f d v w :
  reached (length fs) (h_s h) m -> 0 <= f < 2 ^ 16 -> nth_error fs (Z.to_nat f) = Some d ->
  has_type v (fd_ty d) -> stands_for v w -> valid_value w -> fits 0 (mset (zero_value w) f w m) -> taken v ->
  exists s, Set_ h fs f v = Ok (with_s h s) /\ reached (length fs) s (mset (zero_value w) f w m).
Proof.
  intros HR Hf EN HT SF VV FI TK. unfold Set_. rewrite (index_nth_error _ _ d) by (auto; lia). rewrite bind_Ok.
  assert (Hn : 0 <= f < Z.of_nat (length fs)) by (split; [lia|]; assert (Z.to_nat f < length fs)%nat by (apply nth_error_Some; congruence); lia).
  destruct v as [b|k z|k z g|b|b|c cfs|l]; cbn [has_type stands_for taken Any] in *; rewrite ?HT.
  - subst w. cbn [bind SetField]. unfold SetField. change (FTBool =? FTBool) with true. cbv iota.
    destruct (put_scalar _ _ _ f KBool (if b then 1 else 0) HR Hn ltac:(lia)) as (s & E & R); auto.
    cbn [set_scalar] in E. replace ((if b then 1 else 0) =? 1) with b in E by (destruct b; reflexivity). rewrite E. cbn [bind]. eauto.
  - destruct SF as [NB ->]. cbn [bind]. unfold SetField. rewrite scalar_not_bool, num_kind_scalar by auto.
    unfold kind_eqb. rewrite Z.eqb_refl.
    destruct (put_scalar _ _ _ f k z HR Hn ltac:(lia)) as (s & E & R); auto. rewrite E. cbn [bind]. exists s.
    split; [destruct k; try congruence; reflexivity|exact R].
  - destruct SF as (HK & -> & l & e & -> & HI & HE). cbn [valid_value] in VV.
    assert (RZ : 0 <= z < 2 ^ 16 /\ (k = KU8 -> 0 <= z < 2 ^ 8)) by (destruct HK; subst k; cbn in VV; split; intros; try discriminate; lia).
    destruct (by_value l e z HI HE ltac:(tauto)) as (e' & EB & EZ). rewrite EB. cbn [bind option_map].
    destruct (put_scalar _ _ _ f k z HR Hn ltac:(lia)) as (s & E & R); auto. exists s. split; [|exact R].
    unfold SetField. destruct HK; subst k; cbn [set_scalar] in E.
    + change (scalar_type KU8 =? FTBool) with false. change (num_kind (scalar_type KU8)) with (Some KU8). cbv iota.
      replace (u8 (e_num e')) with z; [now rewrite E|]. rewrite EZ. unfold u8. symmetry. apply Z.mod_small. destruct RZ as [_ RZ]. specialize (RZ eq_refl). lia.
    + change (scalar_type KU16 =? FTBool) with false. change (num_kind (scalar_type KU16)) with (Some KU16). cbv iota.
      now rewrite EZ, E.
  - destruct b as [b|]; [|tauto]. subst w. cbn [bind]. unfold SetField. change (num_kind FTBytes) with (@None kind).
    change (FTBytes =? FTBool) with false. change (FTBytes =? FTBytes) with true. cbv iota.
    destruct (reached_op _ _ _ (OBytes f false b) HR) as (s & E & R); [cbn; repeat split; auto; lia|].
    cbn [do_op] in E. rewrite E. cbn [bind]. eauto.
  - subst w. destruct b as [|x b]; [tauto|]. cbn [bind]. unfold SetField. change (num_kind FTString) with (@None kind).
    change (FTString =? FTBool) with false. change (FTString =? FTBytes) with false. change (FTString =? FTString) with true. cbv iota.
    destruct (reached_op _ _ _ (OBytes f true (x :: b)) HR) as (s & E & R); [cbn; repeat split; auto; lia|].
    cbn [do_op] in E. rewrite E. cbn [bind]. eauto.
  - destruct SF as (n' & mc & RC & ND & ->). cbn [bind]. unfold SetField. change (num_kind FTStruct) with (@None kind).
    unfold FTStruct, FTBool, FTBytes, FTString. cbn [Z.eqb Pos.eqb].
    unfold syncDirtyLists. rewrite ND. cbn [sync_all bind with_dirty h_s].
    destruct (put_nested _ _ _ f _ _ _ HR RC Hn ltac:(lia) FI) as (s & E & R). rewrite E. cbn [bind]. eauto.
  - tauto.
Qed.

(** ** Clearing *)
Definition single_type (ty : Z) : Prop := (exists k, ty = scalar_type k) \/ ty = FTBytes \/ ty = FTString \/ ty = FTStruct.
Lemma zero_scalar k : is_zero k 0 = true. Proof. destruct k; reflexivity. Qed.
Lemma clear_single fs h m f d :
  reached (length fs) (h_s h) m -> 0 <= f < 2 ^ 16 -> nth_error fs (Z.to_nat f) = Some d -> single_type (fd_ty d) ->
  exists s, Clear h fs f = Ok (with_s h s) /\ reached (length fs) s (fdel f m).
Proof.
  intros HR Hf EN HT. unfold Clear. rewrite (index_nth_error _ _ d) by (auto; lia). rewrite bind_Ok.
  assert (Hn : 0 <= f < Z.of_nat (length fs)) by (split; [lia|]; assert (Z.to_nat f < length fs)%nat by (apply nth_error_Some; congruence); lia).
  assert (FD : fits 0 (fdel f m)).
  { destruct (reached_op _ _ _ (OClear f) HR) as (s & _ & R); [exact Hn|]. apply reached_sorted in R. apply R. }
  destruct HT as [(k & HT)|[HT|[HT|HT]]]; rewrite HT.
  - destruct (put_scalar _ _ _ f k 0 HR Hn ltac:(lia)) as (s & E & R); [destruct k; cbn; lia|rewrite zero_scalar; exact FD|].
    rewrite zero_scalar in R. cbn [mset] in R. exists s. split; [|exact R].
    destruct (kind_eqb k KBool) eqn:EK.
    + destruct k; try discriminate EK. cbn [set_scalar] in E. change (scalar_type KBool =? FTBool) with true. cbv iota.
      change (0 =? 1) with false in E. now rewrite E.
    + assert (NB : k <> KBool) by (intros ->; discriminate EK). rewrite scalar_not_bool, num_kind_scalar by auto. now rewrite E.
  - destruct (reached_op _ _ _ (OBytes f false []) HR) as (s & E & R); [cbn; repeat split; auto; try lia; constructor|].
    exists s. split; [|exact R]. cbn [do_op] in E. change (num_kind FTBytes) with (@None kind).
    change (FTBytes =? FTBool) with false. change ((FTBytes =? FTBytes) || (FTBytes =? FTString)) with true. cbv iota. now rewrite E.
  - destruct (reached_op _ _ _ (OBytes f false []) HR) as (s & E & R); [cbn; repeat split; auto; try lia; constructor|].
    exists s. split; [|exact R]. cbn [do_op] in E. change (num_kind FTString) with (@None kind).
    change (FTString =? FTBool) with false. change ((FTString =? FTBytes) || (FTString =? FTString)) with true. cbv iota. now rewrite E.
  - destruct (reached_op _ _ _ (ONil f) HR) as (s & E & R); [exact Hn|].
    exists s. split; [|exact R]. cbn [do_op] in E. change (num_kind FTStruct) with (@None kind).
    unfold FTStruct, FTBool, FTBytes, FTString. cbn [Z.eqb Pos.eqb orb]. now rewrite E.
Qed.

(** ** Going through the fields *)
Lemma told_one reg fs h m f d :
  reached (length fs) (h_s h) m -> 0 <= f -> nth_error fs (Z.to_nat f) = Some d ->
  (forall v, flook f m = Some v -> fits_type (fd_ty d) v /\ kept d v) -> well_described reg d ->
  exists h' o, GetValue reg h fs f = Ok (h', o) /\ told reg m f d (fd_name d, o) /\ reached (length fs) (h_s h') m.
Proof.
  intros HR Hf EN HV HW. destruct (get_value reg fs h m f d HR Hf EN) as (s & RS & ED & ->).
  unfold told. cbn [fst snd]. destruct (flook f m) as [v|] eqn:EV.
  - destruct (HV v eq_refl) as [FT KP].
    assert (VV : valid_value v).
    { destruct (reached_sorted _ _ _ HR) as (_ & (_ & VM) & _). rewrite Forall_forall in VM.
      apply (flook_In _ _ _ ) in EV. exact (proj2 (VM _ EV)). }
    destruct (got_shows reg fs (with_s h s) m f d v RS Hf EN EV FT HW KP VV) as (h' & r & E & SH & ES).
    exists h', (Some r). rewrite ES. cbn [with_s h_s]. auto.
  - exists (with_s h s), None. auto.
Qed.
Lemma fields_told reg fs m yield :
  (forall f d v, 0 <= f -> nth_error fs (Z.to_nat f) = Some d -> flook f m = Some v -> fits_type (fd_ty d) v /\ kept d v) ->
  Forall (well_described reg) fs ->
  forall rest done h seen, fs = done ++ rest -> reached (length fs) (h_s h) m -> length seen = length done ->
  (forall i x d, nth_error seen i = Some x -> nth_error fs i = Some d -> told reg m (Z.of_nat i) d x) ->
  (forall j, (0 < j <= length seen)%nat -> yield (firstn j seen) = true) ->
  exists h' g, fields_from reg h fs (Z.of_nat (length done)) rest yield seen = Ok (h', g) /\
    (length seen <= length g <= length fs)%nat /\ firstn (length seen) g = seen /\
    (forall i x d, nth_error g i = Some x -> nth_error fs i = Some d -> told reg m (Z.of_nat i) d x) /\
    (forall j, (0 < j < length g)%nat -> yield (firstn j g) = true) /\
    ((length g < length fs)%nat -> (0 < length g)%nat /\ yield g = false) /\ reached (length fs) (h_s h') m.
Proof.
  intros HV HW rest. induction rest as [|d q IH]; intros done h seen EF HR LS TO YS; cbn [fields_from].
  - exists h, seen. split; auto. assert (LF : length fs = length seen) by (rewrite EF, app_nil_r; congruence).
    split; [lia|]. split; [apply firstn_all|]. split; auto. split; [intros; apply YS; lia|]. split; [lia|auto].
  - assert (EN : nth_error fs (Z.to_nat (Z.of_nat (length done))) = Some d).
    { rewrite Nat2Z.id, EF, nth_error_app2, Nat.sub_diag by lia. reflexivity. }
    assert (WD : well_described reg d) by (rewrite Forall_forall in HW; apply HW; rewrite EF; apply in_app_iff; right; now left).
    destruct (told_one reg fs h m (Z.of_nat (length done)) d HR ltac:(lia) EN) as (h1 & o & EG & TD & R1); auto.
    { intros v EV. eapply HV; eauto. lia. }
    rewrite EG. cbn [bind]. set (seen' := seen ++ [(fd_name d, o)]).
    assert (L' : length seen' = S (length done)) by (unfold seen'; rewrite app_length; cbn; lia).
    assert (TO' : forall i x e, nth_error seen' i = Some x -> nth_error fs i = Some e -> told reg m (Z.of_nat i) e x).
    { intros i x e EI EE. destruct (Nat.lt_ge_cases i (length seen)) as [LT|GE].
      - unfold seen' in EI. rewrite nth_error_app1 in EI by auto. eauto.
      - assert (i = length done) by (assert (i < length seen')%nat by (apply nth_error_Some; congruence); lia). subst i.
        unfold seen' in EI. rewrite nth_error_app2 in EI by lia. replace (length done - length seen)%nat with 0%nat in EI by lia.
        cbn in EI. inversion EI; subst x. rewrite Nat2Z.id in EN. rewrite EN in EE. inversion EE; subst e. exact TD. }
    assert (LFS : length fs = (length done + S (length q))%nat) by (rewrite EF, app_length; reflexivity).
    assert (FS : forall j, (j <= length seen)%nat -> firstn j seen' = firstn j seen).
    { intros j Hj. unfold seen'. rewrite firstn_app. replace (j - length seen)%nat with 0%nat by lia. cbn. now rewrite app_nil_r. }
    destruct (yield seen') eqn:EY.
    + replace (Z.of_nat (length done) + 1) with (Z.of_nat (length (done ++ [d]))) by (rewrite app_length; cbn; lia).
      destruct (IH (done ++ [d]) h1 seen') as (h' & g & E & LG & FG & TG & YG & SG & RG); auto.
      { rewrite <- app_assoc. exact EF. }
      { rewrite app_length. cbn. lia. }
      { intros j Hj. destruct (Nat.eq_dec j (length seen')) as [->|NE]; [rewrite firstn_all; exact EY|].
        rewrite FS by lia. apply YS. lia. }
      exists h', g. split; auto. split; [lia|]. split; [|auto].
      transitivity (firstn (length seen) seen'); [|rewrite FS by lia; apply firstn_all].
      pose proof (f_equal (firstn (length seen)) FG) as X. rewrite firstn_firstn in X.
      replace (Nat.min (length seen) (length seen')) with (length seen) in X by lia. exact X.
    + exists h1, seen'. split; auto. split; [lia|]. split; [rewrite FS by lia; apply firstn_all|]. split; auto.
      split; [intros j Hj; rewrite FS by lia; apply YS; lia|]. split; auto. intros _. split; [lia|auto].
Qed.

(** ** Printing *)
Lemma string_struct sprint fuel reg h fs x m f d :
  reached (length fs) (h_s h) m -> 0 <= f -> nth_error fs (Z.to_nat f) = Some d -> flook f m = None ->
  String_ sprint fuel reg (RStruct h fs) <> Ok x.
Proof.
  intros HR Hf EN EV. destruct fuel as [|fuel]; [discriminate|]. cbn [String_].
  match goal with |- context [?G h 0 fs true] => set (go := G) end.
  assert (A : forall rest done h first y, fs = done ++ rest -> reached (length fs) (h_s h) m -> (length done <= Z.to_nat f)%nat ->
    go h (Z.of_nat (length done)) rest first <> Ok y).
  { induction rest as [|e q IH]; intros done h1 first y EF R1 LE E.
    - assert (Z.to_nat f < length fs)%nat by (apply nth_error_Some; congruence). rewrite EF, app_length in H. cbn in H. lia.
    - unfold go in E; cbn beta iota in E; fold go in E.
      assert (EE : nth_error fs (Z.to_nat (Z.of_nat (length done))) = Some e).
      { rewrite Nat2Z.id, EF, nth_error_app2, Nat.sub_diag by lia. reflexivity. }
      destruct (get_value reg fs h1 m (Z.of_nat (length done)) e R1 ltac:(lia) EE) as (s & RS & ED & EG).
      rewrite EG in E.
      destruct (flook (Z.of_nat (length done)) m) as [v|] eqn:EL; [|discriminate E].
      assert (NE : length done <> Z.to_nat f) by (intros X; rewrite X, Z2Nat.id in EL by lia; congruence).
      destruct (got reg (with_s h1 s) e (Z.of_nat (length done))) as [[h2 o]| | |] eqn:EO; cbn [bind] in E; try discriminate E.
      pose proof (got_struct _ _ _ _ _ _ EO) as ES. cbn [with_s h_s] in ES.
      destruct o as [r|]; [|discriminate E].
      destruct (String_ sprint fuel reg r); cbn [bind] in E; try discriminate E.
      destruct (go h2 (Z.of_nat (length done) + 1) q false) as [z| | |] eqn:EQ; cbn [bind] in E; try discriminate E.
      apply (IH (done ++ [e]) h2 false z).
      + rewrite <- app_assoc. exact EF.
      + now rewrite ES.
      + rewrite app_length. cbn. lia.
      + rewrite app_length. cbn [length]. replace (Z.of_nat (length done + 1)) with (Z.of_nat (length done) + 1) by lia. exact EQ. }
  intros E. destruct (go h 0 fs true) as [y| | |] eqn:EQ; cbn [bind] in E; try discriminate E.
  exact (A fs [] h true y eq_refl HR ltac:(cbn; lia) EQ).
Qed.

(** ** The list object that reading a number list leaves behind *)
Lemma read_numbers reg fs h m f d k l :
  reached (length fs) (h_s h) m -> 0 <= f -> nth_error fs (Z.to_nat f) = Some d -> flook f m = Some (VNums k l) -> k <> KBool ->
  fd_ty d = list_type k ->
  exists h' i, GetValue reg h fs f = Ok (h', Some (RList (RNums k l))) /\ h_list h' f (LNums k) = Ok (h', i) /\
    h_read h' i = Ok (VNums k l) /\ (forall j x, h_read h j = Ok x -> h_read h' j = Ok x).
Proof.
  intros HR Hf EN EV NB HT. destruct (get_value reg fs h m f d HR Hf EN) as (s & RS & ED & ->). rewrite EV.
  pose proof (seen_in fs m f d Hf EN) as ES. rewrite EV in ES.
  rewrite (got_nums _ _ _ _ k NB HT). unfold getListNumbers. cbn [with_s h_s].
  destruct (getNums _ _ _ _ _ _ RS Hf ES) as (nu & E1 & E2). rewrite E1. cbn [bind]. rewrite E2. cbn [bind].
  eexists. exists (length (h_objs h)). split; [reflexivity|].
  assert (NT : nth_error (h_objs h ++ [mkL f (CNums k nu)]) (length (h_objs h)) = Some (mkL f (CNums k nu))).
  { rewrite nth_error_app2, Nat.sub_diag by lia. reflexivity. }
  split; [|split].
  - unfold h_list, h_register. cbn [h_lists h_objs SetList GetList fst snd]. rewrite Z.eqb_refl. cbn [with_s h_objs].
    rewrite NT. cbn [lo_c c_type]. destruct (lty_eq_dec (LNums k) (LNums k)); [reflexivity|congruence].
  - unfold h_read, h_register. cbn [h_objs with_s]. rewrite NT. cbn [lo_c read_content]. now rewrite E2.
  - intros j x. unfold h_read, h_register. cbn [h_objs with_s]. destruct (nth_error (h_objs h) j) eqn:EJ; [|discriminate].
    rewrite nth_error_app1 by (apply nth_error_Some; congruence). now rewrite EJ.
Qed.
