(** Reached structs simulate their message. *)
From Verif.Proofs Require Export QueryLemmas.
From Verif.Spec Require Export Reach.

Lemma seen_nonneg n m f v : seen n m f = Some v -> 0 <= f.
Proof. unfold seen. destruct (Z.leb_spec 0 f); [auto|discriminate]. Qed.

Definition Good (n : nat) (s : strct) (m : msg) : Prop :=
  exists f, 0 <= f < 2 ^ 16 /\ Sim s n (hdr3 f) m [] /\ st_isSetOn s = false.

Lemma Sim_data_f s n f m : Sim s n (hdr3 f) m [] -> st_data s = wire_struct f m.
Proof.
  intros [R _]. rewrite (rep_data _ _ _ _ _ R), body_enc, app_nil_r.
  change (len (@nil Z)) with 0. rewrite Z.add_0_r.
  unfold wire_struct, header, hdr3. now rewrite <- !app_assoc.
Qed.
Lemma Sim_fits s n h3 m tail : Sim s n h3 m tail -> fits (len tail) m /\ valid_msg m.
Proof.
  intros [R V]. split; auto. pose proof (rep_size _ _ _ _ _ R) as Z. rewrite body_enc in Z. exact Z.
Qed.
Lemma Sim_marshal s n h3 m tail :
  Sim s n h3 m tail -> st_isSetOn s = false ->
  exists s', Marshal s = Ok (s', st_data s) /\ Sim s' n h3 m tail /\ same_flags s s'.
Proof.
  intros HS HF. unfold Marshal. rewrite HF.
  destruct HS as [R V]. pose proof (rep_data _ _ _ _ _ R) as ED.
  rewrite ED. destruct (rep_h3 _ _ _ _ _ R) as [H3 H3'].
  pose proof (rep_size _ _ _ _ _ R).
  rewrite updateHeaderSize_spec; auto; [|rewrite len_app; lia].
  rewrite len_app, Z.add_assoc, bind_Ok.
  eexists. split; [reflexivity|]. split.
  - split; auto. eapply Rep_ext; eauto.
  - split; auto. cbn. destruct (st_isSet s); auto.
Qed.

Lemma wire_struct_nil g m : (len (wire_struct g m) <=? HeaderSize) = nil_b m.
Proof. rewrite <- wire_msg_nil_iff. unfold wire. now rewrite !len_wire_struct. Qed.
Lemma Sim_SetNested s n h3 m tail f n' c g mc :
  Sim s n h3 m tail -> Sim c n' (hdr3 g) mc [] -> 0 <= f < Z.of_nat n -> f < 2 ^ 16 ->
  fits (len tail) (mset (nil_b mc) f (VStruct mc) m) ->
  exists s', SetNestedStruct s f (Some c) = Ok s' /\ Sim s' n h3 (mset (nil_b mc) f (VStruct mc) m) tail /\
    same_flags s s'.
Proof.
  intros HS SC Hf Hf' HF. pose proof (Sim_data_f _ _ _ _ SC) as ED. cbn [SetNestedStruct].
  rewrite ED, wire_struct_nil.
  eapply (Sim_set' s n h3 m tail f (VStruct mc) (nil_b mc) _ (fun _ => wire_struct g mc)
             (data <- EncodeHeader (zeros (len (drop 8 (wire_struct g mc)) + 8)) f FTStruct (len (drop 8 (wire_struct g mc)) + 8) ;;
              copy_at data 8 (drop 8 (wire_struct g mc)))); auto.
  + destruct SC as [_ V]. now apply valid_VStruct.
  + intros ->. reflexivity.
  + intros _ HL. rewrite len_wire_value in HL. cbn [v_rest] in HL. rewrite drop_wire.
    pose proof (len_nonneg (wire_msg mc)). rewrite EncodeHeader_zeros by lia. rewrite bind_Ok.
    replace (len (wire_msg mc) + 8 - 8) with (len (wire_msg mc)) by lia.
    rewrite copy_at_all by (rewrite ?len_hdr; auto).
    rewrite wire_VStruct, wire_struct_hdr. now rewrite Z.add_comm.
  + intros ->. change HeaderSize with 8.
    destruct (EncodeHeader _ _ _ _) as [d| | |]; cbn [bind]; auto.
Qed.
Lemma Sim_SetAny s n h3 m tail f h n' c g mc :
  Sim s n h3 m tail -> Sim c n' (hdr3 g) mc [] -> 0 <= f < Z.of_nat n -> f < 2 ^ 16 ->
  len h = 16 -> byte_list h -> fits (len tail) (fput f (VAny h (st_data c)) m) ->
  exists s', SetAny s f (Some (h, c)) = Ok s' /\ Sim s' n h3 (fput f (VAny h (st_data c)) m) tail /\
    same_flags s s'.
Proof.
  intros HS SC Hf Hf' H16 HB HF. pose proof (Sim_data_f _ _ _ _ SC) as ED. cbn [SetAny].
  eapply (Sim_set' s n h3 m tail f (VAny h (st_data c)) false _ _ (any_field f h (st_data c))); auto.
  + cbn [valid_value]. repeat split; auto. destruct SC as [_ V]. rewrite ED. apply wire_struct_bytes; auto.
  + discriminate.
  + intros _ HL. apply any_field_spec; auto.
  + intros _. reflexivity.
Qed.
Lemma Sim_sync_structs s n h3 m tail f n' items cs :
  Sim s n h3 m tail -> Forall2 (fun c mc => exists g, Sim c n' (hdr3 g) mc []) items cs ->
  0 <= f < Z.of_nat n -> f < 2 ^ 16 ->
  fits (len tail) (mset (nil_b cs) f (VStructs cs) m) ->
  exists s' items', sync_structs s f items = Ok (s', items') /\
    Sim s' n h3 (mset (nil_b cs) f (VStructs cs) m) tail /\ same_flags s s'.
Proof.
  intros HS SI Hf Hf' HF.
  assert (ED : exists gs, length gs = length cs /\
     map st_data items = map (fun p => wire_struct (fst p) (snd p)) (combine gs cs)).
  { clear - SI. induction SI as [|a c ra rc [g Ha] Hr (gs & L & IH)]; [exists []; auto|].
    exists (g :: gs). cbn. rewrite (Sim_data_f _ _ _ _ Ha), IH, L. auto. }
  destruct ED as (gs & LG & ED).
  assert (LI : nil_b items = nil_b cs) by (inv SI; auto).
  assert (VM : Forall valid_msg cs).
  { clear - SI. induction SI as [|a c ra rc [g [_ V]] Hr IH]; auto. }
  destruct (Sim_set s n h3 m tail f (VStructs cs) (nil_b cs)
             (p <- sync_structs s f items ;; Ok (fst p))
             (p <- structs_field f (map st_data items) ;; Ok (snd p))) as (s' & E & S & F); auto.
  + now apply valid_VStructs.
  + intros E. unfold sync_structs. rewrite nil_b_len, LI, E.
    destruct (removeField s f); reflexivity.
  + intros E HL. rewrite ED.
    destruct (structs_field_spec f cs gs) as (i' & Ei & _); auto.
    rewrite Ei, bind_Ok. reflexivity.
  + intros E. unfold sync_structs. rewrite nil_b_len, LI, E.
    destruct (structs_field f (map st_data items)) as [[a b]| | |]; cbn [bind snd]; auto.
    destruct (insertField s f b); reflexivity.
  + destruct (sync_structs s f items) as [[p q]| | |]; cbn in E; try discriminate. inv E.
    exists s', q. auto.
Qed.

Lemma reached_good n s m : reached n s m -> Good n s m.
Proof.
  revert n s m.
  apply (reached_mut (fun n s m _ => Good n s m) (fun n items cs _ => Forall2 (Good n) items cs)).
  - intros n s E. destruct (Sim_New n) as (s1 & E1 & S & F). exists 0. split; [lia|]. split; [|congruence].
    assert (s = s1) by congruence. now subst.
  - intros n s m o s' HR IH HO E. destruct IH as (g & Hg & S & F).
    destruct (op_sim_all o s n _ m [] S HO) as (s1 & E1 & S1 & F1); auto.
    assert (s' = s1) by congruence. subst s1. exists g. split; auto. split; auto.
    destruct F1 as [F1 _]. congruence.
  - intros n s m o HR (g & Hg & S & F). exists g. split; auto. unfold RecordOp.
    destruct (st_recording s); [|auto]. split; [|exact F]. destruct S as [R V]. split; auto.
    destruct R. constructor; auto. clear - rep_index. destruct rep_index as (s' & E & ->).
    eexists. split; [|reflexivity]. unfold ensureFieldIndexParsed in *.
    change (st_parsed (with_ops s (st_ops s ++ [o]))) with (st_parsed s).
    change (st_data (with_ops s (st_ops s ++ [o]))) with (st_data s).
    change (st_index (with_ops s (st_ops s ++ [o]))) with (st_index s).
    destruct (st_parsed s).
    + injection E as E. unfold with_parsed, with_index, with_ops in *. rewrite E. reflexivity.
    + apply bind_Ok_inv in E. destruct E as (ix & E & E2). rewrite E, bind_Ok. injection E2 as E2.
      rewrite E2. reflexivity.
  - intros n n0 w m w' b rest s0 s HR IH EM EN EU. destruct IH as (g & Hg & S & F).
    destruct (Sim_marshal _ _ _ _ _ S F) as (w1 & E1 & _). rewrite E1 in EM. inv EM.
    rewrite (Sim_data_f _ _ _ _ S) in EU. destruct (Sim_fits _ _ _ _ _ S) as [FF V].
    rewrite New_spec in EN. inv EN.
    destruct (Unmarshal_wire_struct (mkStruct (hdr 0 FTStruct 8) (repeat fe_zero n) false false None false [])
             n g m rest) as (s' & E & S' & _ & F' & _); auto.
    { apply stale_ok_zero. }
    rewrite E in EU. inv EU. exists g. split; auto. split; auto. destruct F' as [F' _]. exact F'.
  - intros n s m f c n' s' HR IH ES EG. destruct IH as (g & Hg & S & F).
    assert (0 <= f < 2 ^ 16).
    { pose proof ES as ES'. unfold seen in ES'. destruct (Z.leb_spec 0 f); [|discriminate].
      pose proof (Sim_seen _ _ _ _ _ f S H) as L. rewrite ES in L. destruct L as (? & ? & ? & ? & ? & ? & ? & _). lia. }
    pose proof (GetNestedStruct_spec _ _ _ _ _ f n' S ltac:(lia)) as G. rewrite ES in G.
    destruct G as (s1 & E1 & S1 & _). assert (s' = s1) by congruence. subst s1.
    exists f. split; auto. split; auto. unfold GetNestedStruct in EG.
    apply bind_Ok_inv in EG. destruct EG as ([o z] & _ & EG). destruct (z =? 0); [discriminate|].
    apply bind_Ok_inv in EG. destruct EG as (d & _ & EG).
    apply bind_Ok_inv in EG. destruct EG as (ix & _ & EG). inv EG. reflexivity.
  - intros n s m f l i c n' items s' HR IH ES EN EG EI. destruct IH as (g & Hg & S & F).
    assert (0 <= f).
    { eapply seen_nonneg; eauto. }
    pose proof (get_structs_spec _ _ _ _ _ f n' S H) as G. rewrite ES in G. destruct G as [G HF].
    rewrite G in EG. inv EG. rewrite nth_error_map, nth_numbered in EI. unfold msg in *. rewrite EN in EI.
    cbn in EI. inv EI. rewrite Forall_forall in HF. apply nth_error_In in EN. apply HF in EN.
    exists ((Z.of_nat i) mod 2 ^ 16). split; [apply Z.mod_pos_bound; lia|]. split; [|reflexivity].
    unfold item_struct. cbn [fst snd]. rewrite wire_struct_mod. apply Sim_child; tauto.
  - intros n s m f h d c n' s0 s' HR IH ES HC EN EG. destruct IH as (g & Hg & S & F).
    assert (0 <= f).
    { eapply seen_nonneg; eauto. }
    pose proof (GetAnyRaw_spec _ _ _ _ _ f S H) as G. rewrite ES in G. destruct G as [G HF].
    unfold GetAny in EG. rewrite G, bind_Ok in EG.
    replace (bytes_eqb h h) with true in EG by (symmetry; now apply bytes_eqb_eq). cbn [negb] in EG.
    destruct HC as (k & Hk & -> & V & FI). rewrite New_spec in EN. inv EN.
    destruct (Unmarshal_wire_struct (mkStruct (hdr 0 FTStruct 8) (repeat fe_zero n') false false None false [])
             n' k c []) as (s1 & E & S' & _ & F' & _); auto.
    { apply stale_ok_zero. }
    rewrite app_nil_r in E. rewrite E in EG. inv EG. exists k. split; auto. split; auto. destruct F' as [F' _]. exact F'.
  - intros n s m f n' s' c s1 HR (g & Hg & S & F) HR' (g' & Hg' & S' & F') (H1 & H2 & H3) E.
    destruct (Sim_SetNested _ _ _ _ _ f _ _ _ _ S S' H1 H2 H3) as (s2 & E2 & S2 & F2).
    assert (s1 = s2) by congruence. subst s2. exists g. split; auto. split; auto. destruct F2. congruence.
  - intros n s m f n' items cs s1 items' HR (g & Hg & S & F) HRA IH (H1 & H2 & H3) E.
    destruct (Sim_sync_structs s n _ m [] f n' items cs S) as (s2 & i2 & E2 & S2 & F2); auto.
    { clear - IH. induction IH as [|x y l l' (g & _ & HS & _)]; constructor; eauto. }
    assert (s1 = s2) by congruence. subst s2. exists g. split; auto. split; auto. destruct F2. congruence.
  - intros n s m f h n' s' c s1 HR (g & Hg & S & F) HR' (g' & Hg' & S' & F') H16 HB (H1 & H2 & H3) E.
    destruct (Sim_SetAny _ _ _ _ _ f h _ _ _ _ S S' H1 H2 H16 HB H3) as (s2 & E2 & S2 & F2).
    assert (s1 = s2) by congruence. subst s2. exists g. split; auto. split; auto. destruct F2. congruence.
  - constructor.
  - intros. constructor; auto.
Qed.

(** Legal calls succeed. *)
Lemma reached_op n s m o :
  reached n s m -> ok_op n 0 m o -> exists s', do_op s o = Ok s' /\ reached n s' (apply_op m o).
Proof.
  intros HR HO. destruct (reached_good _ _ _ HR) as (g & Hg & S & F).
  destruct (op_sim_all o s n _ m [] S HO) as (s1 & E1 & _); auto.
  exists s1. split; auto. econstructor; eauto.
Qed.
Lemma reached_run n l : forall s m,
  reached n s m -> ok_run n 0 m l -> exists s', run s l = Ok s' /\ reached n s' (sem m l).
Proof.
  induction l as [|o l IH]; intros s m HR HK; [exists s; auto|].
  destruct HK as [HO HK]. destruct (reached_op _ _ _ _ HR HO) as (s1 & E1 & R1).
  destruct (IH _ _ R1 HK) as (s2 & E2 & R2). exists s2. cbn [run]. rewrite E1, bind_Ok. auto.
Qed.
Lemma reached_build n l : ok_run n 0 [] l -> exists s, build n l = Ok s /\ reached n s (sem [] l).
Proof.
  intros HK. unfold build. rewrite New_spec, bind_Ok.
  eapply reached_run; eauto. constructor. apply New_spec.
Qed.
Lemma reached_marshal n s m :
  reached n s m -> exists s' f, Marshal s = Ok (s', st_data s) /\ reached n s' m /\
    0 <= f < 2 ^ 16 /\ st_data s = wire_struct f m.
Proof.
  intros HR. destruct (reached_good _ _ _ HR) as (g & Hg & S & F).
  destruct (Sim_marshal _ _ _ _ _ S F) as (s' & E & S' & F').
  exists s', g. split; auto. split.
  - change m with (apply_op m OMarshal). econstructor; eauto; [exact I|]. cbn [do_op]. rewrite E. reflexivity.
  - split; auto. eapply Sim_data_f; eauto.
Qed.
Lemma reached_unmarshal n n' s m rest :
  reached n s m -> exists s' b s0 t, Marshal s = Ok (s', b) /\ New n' = Ok s0 /\
    Unmarshal s0 (b ++ rest) = Ok t /\ reached n' t m.
Proof.
  intros HR. destruct (reached_marshal _ _ _ HR) as (s' & g & EM & _ & Hg & ED).
  destruct (reached_good _ _ _ HR) as (g' & _ & S & _). destruct (Sim_fits _ _ _ _ _ S) as [F V].
  destruct (Unmarshal_wire_struct (mkStruct (hdr 0 FTStruct 8) (repeat fe_zero n') false false None false [])
             n' g m rest) as (t & E & _); auto.
  { apply stale_ok_zero. }
  eexists s', (st_data s), _, t. split; [exact EM|]. split; [apply New_spec|]. rewrite ED. split; [exact E|].
  eapply R_unmarshal with (rest := rest); eauto; [apply New_spec|]. now rewrite ED.
Qed.
Lemma reached_answer n s m q r : reached n s m -> expects n m q r -> answer s q = r.
Proof.
  intros HR HE. destruct (reached_good _ _ _ HR) as (g & _ & S & _). eapply answer_expects; eauto.
Qed.

(** The answers depend only on the position table and the bytes. *)
Lemma answer_view s t q :
  st_data s = st_data t -> FieldOffset s (query_field q) = FieldOffset t (query_field q) ->
  HasField s (query_field q) = HasField t (query_field q) -> answer s q = answer t q.
Proof.
  intros ED EF EH.
  destruct q; cbn [answer query_field] in *;
    [|destruct k; cbn [get_scalar]|..];
    unfold GetBool, GetInt8, GetInt16, GetInt32, GetInt64, GetUint8, GetUint16,
      GetUint32, GetUint64, GetFloat32, GetFloat64, GetBytes, get_bools, get_numbers, get_blobs,
      GetListAnyLen, GetListAny, GetListAnyRaw, GetNestedStruct, GetAny, get_final40, get_wide, get_structs,
      GetAnyRaw, list_any_field; rewrite ?EH, ?EF, ?ED; reflexivity.
Qed.
Lemma Sim_FieldOffset s n h3 m tail f :
  Sim s n h3 m tail ->
  FieldOffset s f = if f >=? Z.of_nat n then Ok (0, 0)
                    else e <- index (index_of n (enc m)) f ;; Ok (fe_off e, fe_size e).
Proof.
  intros [R V]. destruct (rep_index _ _ _ _ _ R) as (s' & E & Es). unfold FieldOffset.
  rewrite E, bind_Ok, Es. cbn [st_index with_parsed with_index]. now rewrite len_index_of.
Qed.
Lemma Sim_HasField' s n h3 m tail f :
  Sim s n h3 m tail ->
  HasField s f = if f >=? Z.of_nat n then Ok false
                 else e <- index (index_of n (enc m)) f ;; Ok (fe_size e >? 0).
Proof.
  intros [R V]. destruct (rep_index _ _ _ _ _ R) as (s' & E & Es). unfold HasField.
  rewrite E, bind_Ok, Es. cbn [st_index with_parsed with_index]. now rewrite len_index_of.
Qed.
Lemma Sim_same_view s t n h3 m tail q : Sim s n h3 m tail -> Sim t n h3 m tail -> answer s q = answer t q.
Proof.
  intros S T. apply answer_view.
  - destruct S as [S _], T as [T _]. now rewrite (rep_data _ _ _ _ _ S), (rep_data _ _ _ _ _ T).
  - now rewrite (Sim_FieldOffset _ _ _ _ _ _ S), (Sim_FieldOffset _ _ _ _ _ _ T).
  - now rewrite (Sim_HasField' _ _ _ _ _ _ S), (Sim_HasField' _ _ _ _ _ _ T).
Qed.
Lemma Sim_shared_view s t n n' h3 m tail q :
  Sim s n h3 m tail -> Sim t n' h3 m tail ->
  query_field q < Z.of_nat n -> query_field q < Z.of_nat n' -> answer s q = answer t q.
Proof.
  intros S T H1 H2. apply answer_view.
  - destruct S as [S _], T as [T _]. now rewrite (rep_data _ _ _ _ _ S), (rep_data _ _ _ _ _ T).
  - rewrite (Sim_FieldOffset _ _ _ _ _ _ S), (Sim_FieldOffset _ _ _ _ _ _ T).
    rewrite !Z.geb_leb. replace (Z.of_nat n <=? _) with false by lia. replace (Z.of_nat n' <=? _) with false by lia.
    destruct (Z.ltb_spec (query_field q) 0).
    + unfold index. replace (0 <=? query_field q) with false by lia. reflexivity.
    + rewrite !index_index_of by lia. reflexivity.
  - rewrite (Sim_HasField' _ _ _ _ _ _ S), (Sim_HasField' _ _ _ _ _ _ T).
    rewrite !Z.geb_leb. replace (Z.of_nat n <=? _) with false by lia. replace (Z.of_nat n' <=? _) with false by lia.
    destruct (Z.ltb_spec (query_field q) 0).
    + unfold index. replace (0 <=? query_field q) with false by lia. reflexivity.
    + rewrite !index_index_of by lia. reflexivity.
Qed.

(** The prescribed answer depends on the one field. *)
Lemma reads_seen rule n m n' m' q r :
  seen n m (query_field q) = seen n' m' (query_field q) -> reads rule n m q r -> reads rule n' m' q r.
Proof. destruct q; cbn [query_field reads]; intros ->; exact (fun x => x). Qed.

Lemma flook_mset_ne b f v m g : fsorted m -> g <> f -> flook g (mset b f v m) = flook g m.
Proof. intros S N. unfold mset.
  destruct b; [rewrite flook_fdel by auto|rewrite flook_fput by auto]; destruct (Z.eqb_spec g f); congruence. Qed.
Lemma apply_form o f :
  op_field o = Some f -> exists b v, forall m, apply_op m o = mset b f v m.
Proof.
  destruct o; cbn [op_field]; intros E; inv E; try (eexists; eexists; intros; reflexivity).
  - exists true, (VScalar KBool 0). reflexivity.
  - exists true, (VScalar KBool 0). reflexivity.
  - eexists false, _. reflexivity.
Qed.
Lemma apply_none m o : op_field o = None -> apply_op m o = m.
Proof. destruct o; cbn; intros; congruence. Qed.
Lemma flook_apply_ne m o g :
  fsorted m -> op_field o <> Some g -> flook g (apply_op m o) = flook g m.
Proof.
  intros S N. destruct (op_field o) as [f|] eqn:E.
  - destruct (apply_form o f E) as (b & v & EA). rewrite EA. apply flook_mset_ne; auto. congruence.
  - now rewrite apply_none.
Qed.

(** Sizes. *)
Lemma len_wire_put f v m : fsorted m -> len (wire_msg (fput f v m)) <= len (wire_msg m) + len (wire_value f v).
Proof.
  intros S. destruct (fput_form f v m S) as (l & r & old & E1 & E2 & _). rewrite E2. rewrite E1 at 1.
  unfold wire_msg. rewrite !map_app, !concat_app, !len_app. cbn [map concat fst snd]. rewrite len_app.
  pose proof (len_nonneg (concat (map (fun p => wire_value (fst p) (snd p)) old))). lia.
Qed.
Lemma len_wire_del f m : fsorted m -> len (wire_msg (fdel f m)) <= len (wire_msg m).
Proof.
  intros S. destruct (flook f m) as [v|] eqn:E.
  - destruct (flook_split f m v S E) as (l & r & -> & Hl & _). rewrite fdel_mid by auto.
    unfold wire_msg. rewrite !map_app, !concat_app, !len_app. cbn [map concat fst snd]. rewrite len_app.
    pose proof (len_nonneg (wire_value f v)). lia.
  - rewrite fdel_none by auto. lia.
Qed.
Lemma reached_sorted n s m : reached n s m -> fsorted m /\ valid_msg m /\ fits 0 m /\ len (st_data s) = 8 + len (wire_msg m).
Proof.
  intros HR. destruct (reached_good _ _ _ HR) as (g & _ & S & _).
  destruct (Sim_fits _ _ _ _ _ S) as [F V]. repeat split; auto; try apply V.
  rewrite (Sim_data_f _ _ _ _ S). apply len_wire_struct.
Qed.
Lemma fits_mset n s m b f v :
  reached n s m -> len (st_data s) + len (wire_value f v) < 2 ^ 32 -> fits 0 (mset b f v m).
Proof.
  intros HR HL. destruct (reached_sorted _ _ _ HR) as (S & _ & F & L). unfold fits, mset in *.
  pose proof (len_wire_put f v m S). pose proof (len_wire_del f m S). destruct b; lia.
Qed.

(** Histories without the calls on one field. *)
Lemma fdel_sorted_ext f (m m' : msg) :
  fsorted m -> fsorted m' -> (forall g, g <> f -> flook g m = flook g m') -> fdel f m = fdel f m'.
Proof.
  intros S S' E. apply fsorted_ext; auto using fdel_sorted. intros g. rewrite !flook_fdel by auto.
  destruct (Z.eqb_spec g f); auto.
Qed.
Lemma mset_sorted b f v m : fsorted m -> fsorted (mset b f v m).
Proof. unfold mset. destruct b; auto using fdel_sorted, fput_sorted. Qed.
Lemma apply_sorted m o : fsorted m -> fsorted (apply_op m o).
Proof.
  intros S. destruct (op_field o) as [f|] eqn:E.
  - destruct (apply_form o f E) as (b & v & EA). rewrite EA. now apply mset_sorted.
  - now rewrite apply_none.
Qed.
Lemma apply_fdel_eq m o f : fsorted m -> op_field o = Some f -> fdel f (apply_op m o) = fdel f m.
Proof.
  intros S E. apply fdel_sorted_ext; auto using apply_sorted. intros. apply flook_apply_ne; auto. congruence.
Qed.
Lemma apply_fdel_ne m o f : fsorted m -> op_field o <> Some f -> apply_op (fdel f m) o = fdel f (apply_op m o).
Proof.
  intros S N. destruct (op_field o) as [g|] eqn:E; [|now rewrite !apply_none].
  destruct (apply_form o g E) as (b & v & EA). rewrite !EA.
  apply fsorted_ext; auto using fdel_sorted, mset_sorted. intros h.
  assert (f <> g) by congruence.
  rewrite flook_fdel by auto using mset_sorted.
  destruct (Z.eqb_spec h g) as [->|].
  - destruct (Z.eqb_spec g f); [congruence|]. unfold mset.
    destruct b; rewrite ?flook_fput, ?flook_fdel by auto using fdel_sorted; now rewrite Z.eqb_refl.
  - rewrite !flook_mset_ne by auto using fdel_sorted. rewrite flook_fdel by auto. reflexivity.
Qed.
Lemma ok_op_mono n m m' o :
  len (wire_msg (apply_op m' o)) <= len (wire_msg (apply_op m o)) -> ok_op n 0 m o -> ok_op n 0 m' o.
Proof.
  intros L. assert (F : fits 0 (apply_op m o) -> fits 0 (apply_op m' o)) by (unfold fits; lia).
  destruct o; cbn [ok_op]; auto; try (intros (A & B & C & D); auto);
    try (intros ((A & B & C & D) & E); auto); auto 6.
Qed.
Lemma without_sem f l : forall m,
  fsorted m -> sem (fdel f m) (without f l) = fdel f (sem m l) /\
  (forall n, ok_run n 0 m l -> ok_run n 0 (fdel f m) (without f l)).
Proof.
  induction l as [|o l IH]; intros m S; [cbn; auto|].
  destruct (IH (apply_op m o)) as [IH1 IH2]; [now apply apply_sorted|].
  unfold without in *. cbn [filter sem].
  assert (D : op_field o = Some f \/ op_field o <> Some f).
  { destruct (op_field o) as [g|]; [|right; congruence]. destruct (Z.eq_dec g f); [left|right]; congruence. }
  destruct D as [E|E].
  - rewrite E, Z.eqb_refl. cbn [negb]. rewrite apply_fdel_eq in * by auto. split; auto.
    intros n [_ HK]. auto.
  - replace (match op_field o with Some g => negb (g =? f) | None => true end) with true.
    2:{ destruct (op_field o) as [g|]; auto. destruct (Z.eqb_spec g f); auto. congruence. }
    cbn [sem ok_run]. rewrite apply_fdel_ne by auto. split; auto.
    intros n [HO HK]. split; auto. eapply ok_op_mono; eauto. rewrite apply_fdel_ne by auto.
    apply len_wire_del. now apply apply_sorted.
Qed.
Lemma sem_app m l1 l2 : sem m (l1 ++ l2) = sem (sem m l1) l2.
Proof. revert m. induction l1; intros; cbn; auto. Qed.
Lemma ok_run_app n t m l1 l2 : ok_run n t m (l1 ++ l2) <-> ok_run n t m l1 /\ ok_run n t (sem m l1) l2.
Proof. revert m. induction l1; intros; cbn [app ok_run sem]; [tauto|]. rewrite IHl1. tauto. Qed.
Lemma zero_apply o m : zero_op o -> exists f, op_field o = Some f /\ apply_op m o = fdel f m.
Proof.
  destruct o; cbn [zero_op op_field apply_op]; try tauto; intros H; try (subst; eexists; split; reflexivity).
  - rewrite H. eexists; split; reflexivity.
Qed.
Lemma sem_sorted m l : fsorted m -> fsorted (sem m l).
Proof. revert m. induction l; intros; cbn [sem]; auto using apply_sorted. Qed.
