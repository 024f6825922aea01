(** Every question gets the prescribed answer. *)
From Verif.Proofs Require Export GetLemmas.

Lemma fits_sub c m : len (wire_msg c) <= len (wire_msg m) -> fits 0 m -> fits 0 c.
Proof. unfold fits. lia. Qed.

(** A struct cut out of a message and indexed at once, as GetNestedStruct and the struct
    list parser do. *)
Lemma parse_wire f c n :
  valid_msg c -> fits 0 c ->
  parseFieldIndex (wire_struct f c) (repeat fe_zero n) = Ok (index_of n (enc c)).
Proof.
  intros V F. rewrite wire_struct_hdr. rewrite <- (app_nil_r (wire_msg c)) at 2. rewrite <- body_enc.
  apply parseFieldIndex_spec; auto using stops_nil.
  - apply fsorted_map, V.
  - apply allfst_map. unfold allfst. destruct V as [_ V]. eapply Forall_impl; [|exact V]. cbn. tauto.
  - eapply wf_enc; eauto. lia.
  - rewrite rsize_enc. exact F.
Qed.
Lemma Sim_child f c n b o r l :
  valid_msg c -> fits 0 c ->
  Sim (mkStruct (wire_struct f c) (index_of n (enc c)) false b o r l) n (hdr3 f) c [].
Proof. intros. apply Sim_wire; auto. apply stale_ok_self. Qed.

Lemma GetNestedStruct_spec s n h3 m tail f n' :
  Sim s n h3 m tail -> 0 <= f ->
  match seen n m f with
  | None => GetNestedStruct s f n' = Ok None
  | Some (VStruct c) => exists s', GetNestedStruct s f n' = Ok (Some s') /\
      Sim s' n' (hdr3 f) c [] /\ st_data s' = wire_struct f c
  | _ => True
  end.
Proof.
  intros HS Hf. unfold GetNestedStruct. seen_cases HS Hf.
  - destruct v; auto. rewrite EO, bind_Ok. pose proof (len_wire_value_ge f (VStruct m0)).
    replace (len (wire_value f (VStruct m0)) =? 0) with false by lia.
    pose proof (len_nonneg p). pose proof (len_nonneg q).
    rewrite ED, slice_field, bind_Ok. apply valid_VStruct in HV.
    assert (fits 0 m0).
    { unfold fits. rewrite wire_VStruct, len_wire_struct in HT. lia. }
    rewrite wire_VStruct. rewrite parse_wire by auto. rewrite bind_Ok.
    eexists. split; [reflexivity|]. split; [now apply Sim_child|reflexivity].
  - rewrite L. reflexivity.
Qed.

(** ** Struct lists *)
Lemma len_wire_items i l : 8 * Z.of_nat (length l) <= len (wire_items i l).
Proof.
  revert i. induction l as [|m l IH]; intros i; cbn [wire_items length]; [cbn; lia|].
  rewrite len_app, len_wire_struct. specialize (IH (i + 1)). pose proof (len_nonneg (wire_msg m)). lia.
Qed.
Definition item_struct (n : nat) (p : Z * msg) : strct :=
  mkStruct (wire_struct (fst p) (snd p)) (index_of n (enc (snd p))) false false None false [].
Fixpoint numbered (i : Z) (l : list msg) : list (Z * msg) :=
  match l with [] => [] | m :: r => (i, m) :: numbered (i + 1) r end.
Lemma wire_struct_mod i m : wire_struct i m = wire_struct (i mod 2 ^ 16) m.
Proof.
  unfold wire_struct, header. do 2 f_equal. change (2 ^ 16) with (256 ^ Z.of_nat 2). symmetry. apply le_enc_mod.
Qed.
Lemma parse_structs_spec fuel pre l i n :
  Forall valid_msg l -> len (wire_items i l) + 8 < 2 ^ 32 -> (length l < fuel)%nat ->
  parse_structs fuel (pre ++ wire_items i l) n (len pre) = Ok (map (item_struct n) (numbered i l)).
Proof.
  intros HV. revert fuel pre i. induction HV as [|m l Hm Hl IH]; intros fuel pre i HL HF;
    (destruct fuel as [|fuel]; [cbn [length] in HF; lia|]); cbn [wire_items parse_structs numbered map].
  - rewrite app_nil_r. change HeaderSize with 8. replace (_ <=? _) with false by lia. reflexivity.
  - cbn [wire_items length] in *. rewrite len_app, len_wire_struct in HL.
    pose proof (len_nonneg (wire_msg m)). pose proof (len_nonneg (wire_items (i + 1) l)). pose proof (len_nonneg pre).
    rewrite !len_app, len_wire_struct. change HeaderSize with 8.
    replace (len pre + 8 <=? _) with true by lia.
    assert (EH : slice (pre ++ wire_struct i m ++ wire_items (i + 1) l) (len pre) (len pre + 8)
             = Ok (hdr (i mod 2 ^ 16) FTStruct (8 + len (wire_msg m)))).
    { rewrite wire_struct_mod, wire_struct_hdr. rewrite <- app_assoc.
      apply slice_app; rewrite ?len_hdr; lia. }
    rewrite EH, bind_Ok. rewrite DecodeHeader_hdr; try lia.
    2:{ split; [discriminate|reflexivity]. }
    rewrite bind_Ok. rewrite Z.eqb_refl. cbn [negb].
    replace (_ || _) with false by lia.
    rewrite slice_app by (rewrite ?len_wire_struct; lia). rewrite bind_Ok.
    assert (fits 0 m) by (unfold fits; lia).
    rewrite parse_wire by auto. rewrite bind_Ok.
    specialize (IH fuel (pre ++ wire_struct i m) (i + 1) ltac:(lia) ltac:(lia)).
    rewrite len_app, len_wire_struct, <- app_assoc in IH. rewrite IH. reflexivity.
Qed.
Lemma get_structs_spec s n h3 m tail f n' :
  Sim s n h3 m tail -> 0 <= f ->
  match seen n m f with
  | None => get_structs s f n' = Ok []
  | Some (VStructs l) => get_structs s f n' = Ok (map (item_struct n') (numbered 0 l)) /\
       Forall (fun c => valid_msg c /\ fits 0 c) l
  | _ => True
  end.
Proof.
  intros HS Hf. unfold get_structs. seen_cases HS Hf.
  - destruct v; auto. rewrite EO, bind_Ok.
    pose proof (len_nonneg p). pose proof (len_nonneg q). apply valid_VStructs in HV.
    assert (LW := len_wire_value f (VStructs l)). cbn [v_rest] in LW. change HeaderSize with 8.
    pose proof (len_wire_items 0 l).
    assert (HF : forall i, len (wire_items i l) + 8 < 2 ^ 32 -> Forall (fun c => valid_msg c /\ fits 0 c) l).
    { intros i Hi. apply Forall_forall. intros c Hc. split; [rewrite Forall_forall in HV; auto|].
      unfold fits. revert i Hi. clear - Hc. induction l as [|a l IH]; intros i Hi; [destruct Hc|].
      cbn [wire_items] in Hi. rewrite len_app, len_wire_struct in Hi.
      pose proof (len_nonneg (wire_items (i + 1) l)). pose proof (len_nonneg (wire_msg a)).
      destruct Hc as [->|Hc]; [lia|]. apply (IH Hc (i + 1)). lia. }
    split; [|apply (HF 0); lia].
    destruct (Z.gtb_spec (len (wire_value f (VStructs l))) 8).
    + rewrite ED, slice_field, bind_Ok. replace (_ <? 8) with false by lia.
      rewrite wire_form. cbn [v_rest].
      change 8 with (len (hdr f (v_type (VStructs l)) (v_f40 (VStructs l)))).
      rewrite parse_structs_spec; auto; [lia|].
      rewrite app_length. unfold len in *. lia.
    + destruct l; [reflexivity|]. cbn [length] in *. lia.
  - rewrite L. reflexivity.
Qed.
Lemma numbered_length i l : length (numbered i l) = length l.
Proof. revert i. induction l; intros; cbn; auto. Qed.
Lemma nth_numbered l : forall i k, nth_error (numbered i l) k = option_map (fun m => (i + Z.of_nat k, m)) (nth_error l k).
Proof.
  induction l as [|m l IH]; intros i k; [now destruct k|]. destruct k.
  - cbn. now rewrite Z.add_0_r.
  - cbn [numbered nth_error]. rewrite IH. destruct (nth_error l k); cbn; auto. do 2 f_equal. lia.
Qed.

(** ** Any *)
Lemma any_hash_len f h d : valid_value (VAny h d) -> len (wire_value f (VAny h d)) = 24 + len d.
Proof. intros (H & _). rewrite len_wire_value. cbn [v_rest]. rewrite len_app, H. lia. Qed.
Lemma GetAnyRaw_spec s n h3 m tail f :
  Sim s n h3 m tail -> 0 <= f ->
  match seen n m f with
  | None => GetAnyRaw s f = Ok None
  | Some (VAny h d) => GetAnyRaw s f = Ok (Some (d, h)) /\ len d < 2 ^ 32
  | _ => True
  end.
Proof.
  intros HS Hf. unfold GetAnyRaw. seen_cases HS Hf.
  - destruct v; auto. rewrite EO, bind_Ok. pose proof (any_hash_len f _ _ HV) as LW.
    pose proof (len_nonneg p). pose proof (len_nonneg q). pose proof (len_nonneg data).
    split; [|lia].
    change AnyMinSize with 24. replace (_ || _) with false by lia.
    assert (HD := decode_field f (VAny hash data) ltac:(lia) HV ltac:(lia)).
    rewrite ED, slice_field, bind_Ok. rewrite LW. rewrite wire_form.
    rewrite slice_prefix by (now rewrite len_hdr). rewrite bind_Ok, HD, bind_Ok.
    cbn [v_type]. rewrite Z.eqb_refl. cbn [negb v_rest]. destruct HV as (H16 & _).
    change HeaderSize with 8. change AnyHashSize with 16.
    rewrite slice_app by (rewrite ?len_hdr; lia). rewrite bind_Ok.
    replace (hdr f FTAny (v_f40 (VAny hash data)) ++ hash ++ data)
      with ((hdr f FTAny (v_f40 (VAny hash data)) ++ hash) ++ data ++ [])
      by (rewrite app_nil_r, <- app_assoc; reflexivity).
    rewrite slice_app; [reflexivity| |]; rewrite !len_app, len_hdr, ?len_nil; lia.
  - rewrite L. reflexivity.
Qed.
Lemma bytes_eqb_eq a b : bytes_eqb a b = true <-> a = b.
Proof.
  revert b. induction a as [|x a IH]; intros [|y b]; cbn; split; intros H; try discriminate; auto.
  - apply andb_prop in H. destruct H as [H1 H2]. apply IH in H2. f_equal; auto. lia.
  - inv H. rewrite Z.eqb_refl. now apply IH.
Qed.
Lemma bytes_eqb_neq a b : a <> b -> bytes_eqb a b = false.
Proof. intros. destruct (bytes_eqb a b) eqn:E; auto. apply bytes_eqb_eq in E. congruence. Qed.

(** Unmarshal of an encoded message. *)
Lemma Unmarshal_wire_struct s n f m rest :
  0 <= f < 2 ^ 16 -> valid_msg m -> fits 0 m -> stale_ok (st_index s) n (enc m) ->
  exists s', Unmarshal s (wire_struct f m ++ rest) = Ok s' /\ Sim s' n (hdr3 f) m [] /\
     st_data s' = wire_struct f m /\ same_flags s s' /\
     s' = with_parsed (with_data s (wire_struct f m)) false.
Proof.
  intros Hf V F I. unfold Unmarshal. rewrite len_app, len_wire_struct. change HeaderSize with 8.
  pose proof (len_nonneg (wire_msg m)). pose proof (len_nonneg rest). unfold fits in F.
  replace (_ <? 8) with false by lia.
  assert (E1 : slice (wire_struct f m ++ rest) 0 8 = Ok (hdr f FTStruct (8 + len (wire_msg m)))).
  { rewrite wire_struct_hdr, <- app_assoc. apply slice_prefix. now rewrite len_hdr. }
  rewrite E1, bind_Ok. rewrite DecodeHeader_hdr; auto; try lia.
  2:{ split; [discriminate|reflexivity]. }
  rewrite bind_Ok, Z.eqb_refl. cbn [negb]. replace (_ >? _) with false by lia.
  rewrite slice_prefix by (now rewrite len_wire_struct). rewrite bind_Ok.
  eexists. split; [reflexivity|]. split; [|split; [reflexivity|split]]; auto.
  - apply Sim_wire; auto.
  - split; auto. cbn. destruct (st_isSet s); auto.
Qed.
Lemma Unmarshal_carries n d c :
  carries d c -> exists s0 s' h3, New n = Ok s0 /\ Unmarshal s0 d = Ok s' /\ Sim s' n h3 c [].
Proof.
  intros (g & Hg & -> & V & F). rewrite New_spec. eexists.
  destruct (Unmarshal_wire_struct (mkStruct (hdr 0 FTStruct 8) (repeat fe_zero n) false false None false [])
             n g c []) as (s' & E & S & _); auto; try lia.
  - apply stale_ok_zero.
  - rewrite app_nil_r in E. eexists s', _. split; [reflexivity|]. split; eauto.
Qed.

(** ** Lists of Any *)
Definition any_item_ok (p : bytes * bytes) : Prop :=
  len (fst p) = 16 /\ byte_list (fst p) /\ byte_list (snd p) /\
  exists f t r, snd p = header f t (len (snd p)) ++ r.
Lemma find_any_spec : forall (l : list (bytes * bytes)) k pre,
  Forall any_item_ok l -> len (concat (map (fun p => fst p ++ snd p) l)) < 2 ^ 40 ->
  (k < length l)%nat ->
  find_any k (pre ++ concat (map (fun p => fst p ++ snd p) l)) (len pre) =
  Ok (option_map (fun p => (snd p, fst p)) (nth_error l k)).
Proof.
  induction l as [|[h d] l IH]; intros k pre HF HL HK; [cbn in HK; lia|].
  inv HF. destruct H1 as (L16 & _ & HB & f & t & r & Ed). cbn [fst snd] in *.
  cbn [map concat fst snd] in *. set (R := concat (map (fun p => fst p ++ snd p) l)) in *.
  rewrite !len_app in HL. pose proof (len_nonneg d). pose proof (len_nonneg R). pose proof (len_nonneg pre).
  assert (L8 : 8 <= len d). { rewrite Ed, len_app, header_hdr, len_hdr. pose proof (len_nonneg r). lia. }
  assert (LT : len (pre ++ (h ++ d) ++ R) = len pre + 16 + len d + len R) by (rewrite !len_app; lia).
  assert (SL1 : slice (pre ++ (h ++ d) ++ R) (len pre) (len pre + AnyHashSize) = Ok h).
  { rewrite <- app_assoc. apply slice_app; auto. change AnyHashSize with 16. lia. }
  assert (DH : exists h8, slice (pre ++ (h ++ d) ++ R) (len pre + AnyHashSize) (len pre + AnyHashSize + HeaderSize) = Ok h8
            /\ exists a b, DecodeHeader h8 = Ok (a, b, len d)).
  { exists (hdr (f mod 2 ^ 16) (t mod 2 ^ 8) (len d)). split.
    - remember (len d) as N eqn:EN. rewrite Ed. change (header f t N) with (hdr f t N).
      replace (hdr f t N) with (hdr (f mod 2 ^ 16) (t mod 2 ^ 8) N).
      2:{ unfold hdr. f_equal; [|f_equal].
          - change (2 ^ 16) with (256 ^ Z.of_nat 2). apply le_enc_mod.
          - change (2 ^ 8) with (256 ^ Z.of_nat 1). apply le_enc_mod. }
      replace (pre ++ (h ++ hdr (f mod 2 ^ 16) (t mod 2 ^ 8) N ++ r) ++ R)
        with ((pre ++ h) ++ hdr (f mod 2 ^ 16) (t mod 2 ^ 8) N ++ (r ++ R))
        by (rewrite <- !app_assoc; reflexivity).
      apply slice_app; rewrite ?len_app, ?len_hdr; change AnyHashSize with 16; change HeaderSize with 8; lia.
    - do 2 eexists. apply DecodeHeader_hdr; try apply Z.mod_pos_bound; lia. }
  destruct DH as (h8 & SL2 & a & b & DH).
  destruct k as [|k]; cbn [find_any nth_error]; rewrite LT.
  - change AnyHashSize with 16 in *. change HeaderSize with 8 in *.
    replace (len pre + 16 >? _) with false by lia. rewrite SL1, bind_Ok.
    replace (len pre + 16 + 8 >? _) with false by lia. rewrite SL2, bind_Ok, DH, bind_Ok.
    replace (len pre + 16 + len d >? _) with false by lia.
    replace (pre ++ (h ++ d) ++ R) with ((pre ++ h) ++ d ++ R) by (rewrite <- !app_assoc; reflexivity).
    rewrite slice_app by (rewrite len_app; lia). reflexivity.
  - change AnyHashSize with 16 in *. change HeaderSize with 8 in *.
    replace (len pre + 16 >? _) with false by lia. rewrite SL1, bind_Ok.
    replace (len pre + 16 + 8 >? _) with false by lia. rewrite SL2, bind_Ok, DH, bind_Ok.
    replace (len pre + 16 + len d) with (len (pre ++ h ++ d)) by (rewrite !len_app; lia).
    replace (pre ++ (h ++ d) ++ R) with ((pre ++ h ++ d) ++ R) by (rewrite <- !app_assoc; reflexivity).
    apply IH; auto; [lia|]. cbn in HK. lia.
Qed.
Lemma list_any_field_spec s n h3 m tail f :
  Sim s n h3 m tail -> 0 <= f ->
  match seen n m f with
  | None => list_any_field s f = Ok None
  | Some (VAnys l) => list_any_field s f = Ok (Some (wire_value f (VAnys l), len l)) /\
        valid_value (VAnys l) /\ len (wire_value f (VAnys l)) < 2 ^ 32
  | _ => True
  end.
Proof.
  intros HS Hf. unfold list_any_field. seen_cases HS Hf.
  - destruct v; auto. rewrite EO, bind_Ok. pose proof (len_wire_value_ge f (VAnys l)) as LW.
    pose proof (len_nonneg p). pose proof (len_nonneg q).
    split; [|split; [auto|lia]].
    change HeaderSize with 8. replace (_ || _) with false by lia.
    assert (HD := decode_field f (VAnys l) ltac:(lia) HV ltac:(lia)).
    rewrite ED, slice_field, bind_Ok. rewrite wire_form at 1.
    rewrite slice_prefix by (now rewrite len_hdr). rewrite bind_Ok, HD, bind_Ok.
    cbn [v_type]. rewrite Z.eqb_refl. reflexivity.
  - rewrite L. reflexivity.
Qed.
Lemma GetListAnyRaw_spec s n h3 m tail f i :
  Sim s n h3 m tail -> 0 <= f ->
  match seen n m f with
  | None => GetListAnyRaw s f i = Ok None
  | Some (VAnys l) => GetListAnyRaw s f i =
      Ok (if i <? 0 then None else option_map (fun p => (snd p, fst p)) (nth_error l (Z.to_nat i)))
  | _ => True
  end.
Proof.
  intros HS Hf. unfold GetListAnyRaw. pose proof (list_any_field_spec _ _ _ _ _ f HS Hf) as L.
  destruct (seen n m f) as [[]|]; auto.
  - destruct L as (E & V & LL). rewrite E, bind_Ok.
    destruct (Z.ltb_spec i 0); [reflexivity|]. cbn [orb].
    destruct (Z.geb_spec i (len l)).
    + replace (nth_error l (Z.to_nat i)) with (@None (bytes * bytes)); auto.
      symmetry. apply nth_error_None. unfold len in *. lia.
    + rewrite wire_form in *. cbn [v_rest] in *. rewrite len_app, len_hdr in LL.
      change HeaderSize with (len (hdr f (v_type (VAnys l)) (v_f40 (VAnys l)))).
      apply find_any_spec; auto; [lia|]. unfold len in *. lia.
  - rewrite L. reflexivity.
Qed.

(** ** All questions *)
Theorem answer_reads (rule : list bytes -> res ans -> Prop) :
  (forall l r, rule l r -> r = Ok (ABlobs (Some (actual_blobs l)))) ->
  forall q s n h3 m tail r,
  Sim s n h3 m tail -> reads rule n m q r -> answer s q = r.
Proof.
  intros HRULE. induction q; intros s n0 h3 m tail r HS HE.
  - destruct HE as [Hf ->]. cbn [answer]. rewrite (Sim_HasField _ _ _ _ _ _ HS Hf). reflexivity.
  - eapply get_scalar_spec; [exact HS|exact HE].
  - eapply GetBytes_spec; [exact HS|exact HE].
  - eapply get_bools_spec; [exact HS|exact HE].
  - eapply get_numbers_spec; [exact HS|exact HE].
  - eapply get_blobs_spec; eauto.
  - destruct HE as [Hf HE]. cbn [answer]. pose proof (get_structs_spec _ _ _ _ _ f n HS Hf) as G.
    destruct (seen n0 m f) as [[]|]; try tauto.
    + destruct G as [-> _]. subst r. rewrite bind_Ok. unfold len. now rewrite map_length, numbered_length.
    + rewrite G. now subst.
  - destruct HE as [Hf HE]. cbn [answer]. pose proof (GetAnyRaw_spec _ _ _ _ _ f HS Hf) as G.
    destruct (seen n0 m f) as [[]|]; try tauto.
    + destruct G as [-> _]. now subst.
    + rewrite G. now subst.
  - destruct HE as [Hf HE]. cbn [answer]. unfold GetListAnyLen.
    pose proof (list_any_field_spec _ _ _ _ _ f HS Hf) as G.
    destruct (seen n0 m f) as [[]|]; try tauto.
    + destruct G as [-> _]. now subst.
    + rewrite G. now subst.
  - destruct HE as [Hf HE]. cbn [answer]. pose proof (GetListAnyRaw_spec _ _ _ _ _ f i HS Hf) as G.
    destruct (seen n0 m f) as [[]|]; try tauto.
    + rewrite G, bind_Ok. subst r. destruct (i <? 0); auto.
      destruct (nth_error l (Z.to_nat i)) as [[h d]|]; reflexivity.
    + rewrite G. now subst.
  - destruct HE as [Hf HE]. cbn [answer]. pose proof (GetNestedStruct_spec _ _ _ _ _ f n HS Hf) as G.
    destruct (seen n0 m f) as [[]|]; try tauto.
    + destruct G as (s' & -> & S & _). rewrite bind_Ok. eapply IHq; eauto.
    + rewrite G. now subst.
  - destruct HE as [Hf [Hi HE]]. cbn [answer]. pose proof (get_structs_spec _ _ _ _ _ f n HS Hf) as G.
    destruct (seen n0 m f) as [[]|]; try tauto.
    + destruct G as [-> HF]. rewrite bind_Ok.
      destruct (nth_error l (Z.to_nat i)) as [c|] eqn:E.
      * rewrite (index_nth_error _ _ (item_struct n (0 + Z.of_nat (Z.to_nat i), c))).
        { rewrite bind_Ok. rewrite Forall_forall in HF. apply nth_error_In in E. apply HF in E.
          eapply IHq; [|exact HE]. apply Sim_child; tauto. }
        { lia. }
        { rewrite nth_error_map, nth_numbered. unfold msg in *. rewrite E. reflexivity. }
      * subst r. unfold index. replace ((0 <=? i) && _) with false; auto.
        apply nth_error_None in E. unfold len, msg in *. rewrite map_length, numbered_length. unfold msg in *. lia.
    + rewrite G. subst r. rewrite bind_Ok. unfold index. change (len (@nil strct)) with 0.
      replace ((0 <=? i) && (i <? 0)) with false by lia. reflexivity.
  - destruct HE as [Hf HE]. cbn [answer]. unfold GetAny.
    pose proof (GetAnyRaw_spec _ _ _ _ _ f HS Hf) as G.
    destruct (seen n0 m f) as [[]|]; try tauto.
    + destruct G as [-> _]. rewrite New_spec. cbn [bind].
      destruct HE as [[HN ->]|[-> (c & HC & HE)]].
      * rewrite bytes_eqb_neq by congruence. reflexivity.
      * replace (bytes_eqb h h) with true by (symmetry; now apply bytes_eqb_eq). cbn [negb].
        destruct (Unmarshal_carries n data c HC) as (s0 & s' & h3' & E0 & E & S).
        rewrite New_spec in E0. inv E0. rewrite E, bind_Ok. eapply IHq; eauto.
    + rewrite G. now subst.
  - destruct HE as [Hf [Hi HE]]. cbn [answer]. unfold GetListAny.
    pose proof (GetListAnyRaw_spec _ _ _ _ _ f i HS Hf) as G.
    destruct (seen n0 m f) as [[]|]; try tauto.
    + rewrite G. replace (i <? 0) with false by lia. rewrite New_spec. cbn [bind].
      destruct (nth_error l (Z.to_nat i)) as [[h' d]|]; cbn [option_map fst snd]; [|now subst].
      destruct HE as [[HN ->]|[-> (c & HC & HE)]].
      * rewrite bytes_eqb_neq by congruence. reflexivity.
      * replace (bytes_eqb h h) with true by (symmetry; now apply bytes_eqb_eq). cbn [negb].
        destruct (Unmarshal_carries n d c HC) as (s0 & s' & h3' & E0 & E & S).
        rewrite New_spec in E0. inv E0. rewrite E, bind_Ok. eapply IHq; eauto.
    + rewrite G. now subst.
Qed.

Theorem answer_expects q s n h3 m tail r :
  Sim s n h3 m tail -> expects n m q r -> answer s q = r.
Proof.
  apply answer_reads. intros l r' [HP ->]. unfold actual_blobs. unfold short_pad in HP.
  replace (4 <=? _) with false by lia. now rewrite app_nil_r.
Qed.
Theorem answer_actual q s n h3 m tail r :
  Sim s n h3 m tail -> actual n m q r -> answer s q = r.
Proof. apply answer_reads. auto. Qed.
