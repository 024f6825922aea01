(** The field builders of the model produce the wire format of Spec/Message.v. *)
From Verif.Proofs Require Export RepLemmas.
From Verif.Spec Require Export History.

Lemma header_hdr f t x : header f t x = hdr f t x.
Proof. reflexivity. Qed.

Lemma paddingNeeded_pad n : 0 <= n -> paddingNeeded n = pad_len n.
Proof.
  intros. unfold paddingNeeded, pad_len.
  destruct (Z.leb_spec n 0). { replace n with 0 by lia. reflexivity. }
  destruct (Z.eqb_spec (n mod 8) 0); lia.
Qed.
Lemma pad_len_range n : 0 <= pad_len n < 8.
Proof. unfold pad_len. lia. Qed.
Lemma len_padded b : len (padded b) = len b + pad_len (len b).
Proof. unfold padded. rewrite len_app, len_zeros; auto. apply pad_len_range. Qed.

(** ** Induction on values and operations *)

Section ValueInd.
Variable P : value -> Prop.
Hypothesis HS : forall k z, P (VScalar k z).
Hypothesis HB : forall s b, P (VBytes s b).
Hypothesis HBo : forall l, P (VBools l).
Hypothesis HN : forall k l, P (VNums k l).
Hypothesis HBl : forall s l, P (VBlobs s l).
Hypothesis HSt : forall m, Forall (fun p => P (snd p)) m -> P (VStruct m).
Hypothesis HSts : forall l, Forall (Forall (fun p => P (snd p))) l -> P (VStructs l).
Hypothesis HA : forall h d, P (VAny h d).
Hypothesis HAs : forall l, P (VAnys l).
Hypothesis HM : forall kt vt e, P (VMap kt vt e).
Fixpoint value_ind' (v : value) : P v :=
  let msgs := (fix go (m : msg) : Forall (fun p => P (snd p)) m :=
                 match m with
                 | [] => Forall_nil _
                 | p :: r => Forall_cons p (value_ind' (snd p)) (go r)
                 end) in
  match v with
  | VScalar k z => HS k z
  | VBytes s b => HB s b
  | VBools l => HBo l
  | VNums k l => HN k l
  | VBlobs s l => HBl s l
  | VStruct m => HSt m (msgs m)
  | VStructs l =>
      HSts l ((fix go (l : list msg) : Forall (Forall (fun p => P (snd p))) l :=
                 match l with
                 | [] => Forall_nil _
                 | m :: r => Forall_cons m (msgs m) (go r)
                 end) l)
  | VAny h d => HA h d
  | VAnys l => HAs l
  | VMap kt vt e => HM kt vt e
  end.
End ValueInd.

Lemma wire_VStruct f m : wire_value f (VStruct m) = wire_struct f m.
Proof. reflexivity. Qed.
Lemma wire_VStructs f l :
  wire_value f (VStructs l) = header f FTListStructs (8 + len (wire_items 0 l)) ++ wire_items 0 l.
Proof. reflexivity. Qed.

Lemma valid_go (m : msg) :
  (fix go (m : msg) := match m with
                       | [] => True
                       | p :: r => valid_value (snd p) /\ go r
                       end) m <-> Forall (fun p => valid_value (snd p)) m.
Proof.
  induction m as [|p r IH]; [split; auto|]. rewrite Forall_cons_iff, <- IH. tauto.
Qed.
Lemma valid_VStruct m : valid_value (VStruct m) <-> valid_msg m.
Proof.
  unfold valid_msg. cbn [valid_value]. rewrite valid_go. rewrite !Forall_forall.
  split.
  - intros (HS & HR & HV). split; auto.
  - intros (HS & HA). split; auto. split; intros x Hx; apply HA; auto.
Qed.
Lemma valid_VStructs l : valid_value (VStructs l) <-> Forall valid_msg l.
Proof.
  induction l as [|m r IH]; [split; [constructor|exact (fun _ => I)]|].
  rewrite Forall_cons_iff, <- IH, <- valid_VStruct. reflexivity.
Qed.

Definition enc (m : msg) : fields := fmap_val wire_value m.
Lemma body_enc m : body (enc m) = wire_msg m.
Proof. unfold body, enc, fmap_val, wire_msg. now rewrite map_map. Qed.
Lemma wire_struct_hdr f m : wire_struct f m = hdr f FTStruct (8 + len (wire_msg m)) ++ wire_msg m.
Proof. reflexivity. Qed.
Lemma len_wire_struct f m : len (wire_struct f m) = 8 + len (wire_msg m).
Proof. rewrite wire_struct_hdr, len_app, len_hdr. lia. Qed.

(** ** Every encoded value is a field the parser measures correctly. *)

Definition v_type (v : value) : Z :=
  match v with
  | VScalar k _ => scalar_type k
  | VBytes str _ => if str then FTString else FTBytes
  | VBools _ => FTListBools
  | VNums k _ => list_type k
  | VBlobs str _ => if str then FTListStrings else FTListBytes
  | VStruct _ => FTStruct
  | VStructs _ => FTListStructs
  | VAny _ _ => FTAny
  | VAnys _ => FTListAny
  | VMap _ _ _ => FTMap
  end.
Definition nums_data (k : kind) (l : list Z) : bytes := concat (map (le_enc (kind_size k)) l).
Definition v_rest (v : value) : bytes :=
  match v with
  | VScalar k z => if is_wide k then le_enc 8 z else []
  | VBytes _ b => padded b
  | VBools l => padded (bit_bytes l)
  | VNums k l => nums_data k l
  | VBlobs _ l => padded (concat (map blob l))
  | VStruct m => wire_msg m
  | VStructs l => wire_items 0 l
  | VAny h d => h ++ d
  | VAnys l => concat (map (fun p => fst p ++ snd p) l)
  | VMap _ _ e => padded e
  end.
Definition v_f40 (v : value) : Z :=
  match v with
  | VScalar k z => if is_wide k then 0 else z mod 256 ^ Z.of_nat (kind_size k)
  | VBytes _ b => len b
  | VBools l => len l
  | VAny h d => FTStruct + 256 * (16 + len d)
  | VAnys l => len l
  | VMap kt vt e => kt + 256 * vt + 65536 * (8 + len (padded e))
  | _ => 8 + len (v_rest v)
  end.
Lemma wire_form f v : wire_value f v = hdr f (v_type v) (v_f40 v) ++ v_rest v.
Proof.
  destruct v; try reflexivity. cbn [wire_value v_type v_f40 v_rest].
  destruct (is_wide k); rewrite ?app_nil_r; reflexivity.
Qed.
Lemma len_wire_value f v : len (wire_value f v) = 8 + len (v_rest v).
Proof. rewrite wire_form, len_app, len_hdr. lia. Qed.
Lemma len_wire_value_ge f v : 8 <= len (wire_value f v).
Proof. rewrite len_wire_value. pose proof (len_nonneg (v_rest v)). lia. Qed.

Lemma v_type_range v : 0 < v_type v < 2 ^ 8.
Proof.
  destruct v; try (destruct k); try (destruct is_string); try (destruct strings);
    split; reflexivity.
Qed.

Lemma bit_bytes_length l : length (bit_bytes l) = ((length l + 7) / 8)%nat.
Proof. unfold bit_bytes. now rewrite map_length, seq_length. Qed.
Lemma len_bit_bytes l : len (bit_bytes l) = (len l + 7) / 8.
Proof. unfold len. rewrite bit_bytes_length. rewrite Nat2Z.inj_div, Nat2Z.inj_add. reflexivity. Qed.

Lemma len_anys (l : list (bytes * bytes)) :
  Forall (fun p => len (fst p) = 16) l ->
  len (concat (map (fun p => fst p ++ snd p) l)) = fold_right (fun p n => 16 + len (snd p) + n) 0 l.
Proof.
  induction 1 as [|p r H Hr IH]; auto. cbn [map concat fold_right].
  rewrite !len_app, IH, H. lia.
Qed.

(** The scan over []any items ends exactly behind them. *)
Lemma scan_any_items fuel (l : list (bytes * bytes)) pre post i0 n :
  Forall (fun p => len (fst p) = 16 /\ byte_list (fst p) /\ byte_list (snd p) /\
                   exists f t r, snd p = header f t (len (snd p)) ++ r) l ->
  len (concat (map (fun p => fst p ++ snd p) l)) < 2 ^ 40 ->
  (length l < fuel)%nat -> i0 + len l = n ->
  scan_any fuel (pre ++ concat (map (fun p => fst p ++ snd p) l) ++ post) n i0 (len pre)
  = Ok (len pre + len (concat (map (fun p => fst p ++ snd p) l))).
Proof.
  intros H. revert fuel pre i0. induction H as [|[h d] r Hp Hr IH]; intros fuel pre i0 HL HF Hn.
  - destruct fuel; [cbn in HF; lia|]. cbn [scan_any]. change (len (@nil (bytes * bytes))) with 0 in Hn.
    replace (i0 <? n) with false by lia. cbn. f_equal. change (len (@nil Z)) with 0. lia.
  - destruct fuel as [|fuel]; [cbn in HF; lia|]. cbn [fst snd] in Hp.
    destruct Hp as (H16 & Hbh & Hbd & f & t & rr & Ed).
    rewrite len_cons in Hn. pose proof (len_nonneg r).
    cbn [scan_any map concat fst snd]. replace (i0 <? n) with true by lia.
    cbn [map concat fst snd] in HL.
    rewrite <- !app_assoc. rewrite !len_app in HL |- *.
    set (rest := concat (map (fun p : bytes * bytes => fst p ++ snd p) r)) in *.
    pose proof (len_nonneg rest). pose proof (len_nonneg post). pose proof (len_nonneg pre).
    assert (Ld : 8 <= len d).
    { rewrite Ed, len_app, header_hdr, len_hdr. pose proof (len_nonneg rr). lia. }
    unfold AnyHashSize. change HeaderSize with 8.
    rewrite !len_app. destruct (Z.gtb_spec (len pre + 16 + 8) (len pre + (len h + (len d + (len rest + len post))))) as [HH|_]; [lia|].
    assert (Hdr : is_bytes d) by exact Hbd.
    rewrite Ed at 1. rewrite header_hdr.
    replace (pre ++ h ++ (hdr f t (len d) ++ rr) ++ rest ++ post)
      with ((pre ++ h) ++ hdr f t (len d) ++ (rr ++ rest ++ post)) by now rewrite <- !app_assoc.
    rewrite slice_app by (rewrite ?len_app, ?len_hdr; lia). rewrite bind_Ok.
    destruct (DecodeHeader_ok_ex (hdr f t (len d))) as (f1 & t1 & x1 & HD & HT & _ & _ & Hx).
    { apply hdr_bytes. } { rewrite len_hdr; lia. }
    assert (x1 = len d).
    { rewrite take_all in HT by (rewrite len_hdr; lia). unfold hdr in HT.
      apply (f_equal (fun z => drop 3 z)) in HT.
      rewrite !app_assoc, !drop_app_exact in HT by reflexivity.
      apply le_enc_inj in HT; auto; change (256 ^ Z.of_nat 5) with (2 ^ 40); lia. }
    subst x1. rewrite HD, bind_Ok. cbn [fst snd].
    replace (pre ++ h ++ d ++ rest ++ post) with ((pre ++ h ++ d) ++ rest ++ post)
      by now rewrite <- !app_assoc.
    replace (len pre + 16 + len d) with (len (pre ++ h ++ d)) by (rewrite !len_app; lia).
    rewrite IH; [rewrite !len_app; f_equal; lia|lia|cbn in HF; lia|lia].
Qed.

Lemma valid_f40 f v : valid_value v -> len (wire_value f v) < 2 ^ 32 -> 0 <= v_f40 v < 2 ^ 40.
Proof.
  intros HV HL. rewrite len_wire_value in HL. pose proof (len_nonneg (v_rest v)).
  destruct v; cbn [v_f40] in *; try (cbn [v_rest] in *; lia).
  - destruct (is_wide k) eqn:E; [lia|].
    destruct k; try discriminate E; cbn [kind_size]; cbn; lia.
  - cbn [v_rest] in HL. rewrite len_padded in HL. pose proof (pad_len_range (len b)).
    pose proof (len_nonneg b). lia.
  - cbn [v_rest] in HL. rewrite len_padded, len_bit_bytes in HL.
    pose proof (pad_len_range ((len l + 7) / 8)). pose proof (len_nonneg l). lia.
  - cbn [v_rest] in HL. rewrite len_app in HL. destruct HV as (H16 & _).
    pose proof (len_nonneg data). unfold FTStruct. lia.
  - cbn [v_rest] in HL. cbn [valid_value] in HV. rewrite len_anys in HL
      by (eapply Forall_impl; [|exact HV]; intros p Hp; apply Hp).
    assert (len l <= fold_right (fun p n => 16 + len (snd p) + n) 0 l).
    { clear. induction l as [|p l IH]; cbn [fold_right]; [cbn; lia|]. rewrite len_cons.
      pose proof (len_nonneg (snd p)). lia. }
    pose proof (len_nonneg l). lia.
  - cbn [valid_value] in HV. pose proof (len_nonneg (padded entries)). lia.
Qed.

Lemma field_size_any data pos x :
  field_size data pos FTAny x =
  (h <- slice data pos (pos + HeaderSize) ;; '(_, dataSize) <- DecodeAnyHeader h ;;
   Ok (HeaderSize + dataSize)).
Proof. reflexivity. Qed.
Lemma field_size_map data pos x :
  field_size data pos FTMap x =
  (h <- slice data pos (pos + HeaderSize) ;; '(_, _, totalSize) <- DecodeMapHeader h ;;
   Ok totalSize).
Proof. reflexivity. Qed.
Lemma field_size_anys data pos x :
  field_size data pos FTListAny x =
  (itemPos <- scan_any (S (length data)) data x 0 (pos + HeaderSize) ;; Ok (itemPos - pos)).
Proof. reflexivity. Qed.

Lemma wf_wire f v :
  0 <= f < 2 ^ 16 -> valid_value v -> len (wire_value f v) < 2 ^ 32 -> wf_field f (wire_value f v).
Proof.
  intros Hf HV HL. exists (v_type v), (v_f40 v), (v_rest v).
  pose proof (v_type_range v). pose proof (valid_f40 f v HV HL) as H40.
  repeat split; try lia. { apply wire_form. }
  intros pre post. rewrite len_wire_value. rewrite len_wire_value in HL. rewrite wire_form.
  pose proof (len_nonneg (v_rest v)) as HR.
  destruct v; cbn [v_type v_f40 v_rest] in *.
  - destruct k; reflexivity.
  - rewrite len_padded, <- paddingNeeded_pad by apply len_nonneg.
    rewrite Z.add_assoc. destruct is_string; reflexivity.
  - rewrite len_padded, len_bit_bytes, <- paddingNeeded_pad by (pose proof (len_nonneg l); lia).
    rewrite Z.add_assoc. reflexivity.
  - destruct HV as [HK _]. destruct k; try congruence; reflexivity.
  - destruct strings; reflexivity.
  - reflexivity.
  - reflexivity.
  - cbn [valid_value] in HV. destruct HV as (H16 & _ & _). rewrite len_app in *.
    rewrite field_size_any, <- app_assoc.
    rewrite slice_app by (rewrite ?len_hdr; reflexivity). rewrite bind_Ok.
    replace (FTStruct + 256 * (16 + len data)) with (any_f40 FTStruct (16 + len data))
      by (unfold any_f40; lia).
    rewrite <- (app_nil_r (hdr _ _ _)). rewrite DecodeAnyHeader_spec; try (unfold FTStruct, FTAny; lia).
    cbn [bind]. change HeaderSize with 8. f_equal. lia.
  - cbn [valid_value] in HV. rewrite field_size_anys.
    rewrite <- app_assoc, app_assoc.
    replace (len pre + HeaderSize) with (len (pre ++ hdr f FTListAny (len l)))
      by (rewrite len_app, len_hdr; reflexivity).
    rewrite scan_any_items; auto; try lia.
    + cbn [bind]. f_equal. rewrite len_app, len_hdr. lia.
    + rewrite !app_length. 
      assert (length l <= length (concat (map (fun p : bytes * bytes => fst p ++ snd p) l)))%nat.
      { clear - HV. induction HV as [|p r Hp Hr IH]; auto. cbn [map concat length].
        rewrite !app_length. destruct Hp as (Hp & _). unfold len in Hp. lia. }
      cbn [length hdr app le_enc]. lia.
  - cbn [valid_value] in HV. destruct HV as (Hk & Hv & _ & Hs).
    rewrite field_size_map, <- app_assoc.
    rewrite slice_app by (rewrite ?len_hdr; reflexivity). rewrite bind_Ok.
    replace (keyType + 256 * valType + 65536 * (8 + len (padded entries)))
      with (map_f40 keyType valType (8 + len (padded entries))) by (unfold map_f40; lia).
    rewrite <- (app_nil_r (hdr _ _ _)). rewrite DecodeMapHeader_spec; try (unfold FTMap; lia).
    reflexivity.
Qed.
