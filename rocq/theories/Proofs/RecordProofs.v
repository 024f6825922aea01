(** The recorded operations of a history, and replaying them. *)
From Verif.Spec Require Export Recording.
From Verif.Proofs Require Export IsSetLemmas PatchAgree.

Definition rview (s : strct) : bool * list rop := (st_recording s, st_ops s).
Definition rec_view (v : bool * list rop) (o : rop) : bool * list rop :=
  (fst v, if fst v then snd v ++ [o] else snd v).

Lemma rview_ensure s s' : ensureFieldIndexParsed s = Ok s' -> rview s' = rview s.
Proof.
  unfold ensureFieldIndexParsed. destruct (st_parsed s); intros H; [now inv H|].
  destruct (parseFieldIndex _ _); cbn [bind] in H; now inv H.
Qed.
Lemma rview_insert s f d s' : insertField s f d = Ok s' -> rview s' = rview s.
Proof.
  unfold insertField. intros H. apply bind_Ok_inv in H. destruct H as (s1 & E1 & H). apply rview_ensure in E1. rewrite <- E1.
  destruct (f >=? _); [discriminate|]. apply bind_Ok_inv in H. destruct H as (e & _ & H).
  apply bind_Ok_inv in H. destruct H as ((d1 & i1) & _ & H). apply bind_Ok_inv in H. destruct H as (d2 & _ & H). now inv H.
Qed.
Lemma rview_remove s f s' : removeField s f = Ok s' -> rview s' = rview s.
Proof.
  unfold removeField. intros H. apply bind_Ok_inv in H. destruct H as (s1 & E1 & H). apply rview_ensure in E1. rewrite <- E1.
  destruct (f >=? _); [now inv H|]. apply bind_Ok_inv in H. destruct H as (e & _ & H).
  destruct (fe_size e =? 0); [now inv H|].
  apply bind_Ok_inv in H. destruct H as (d1 & _ & H). apply bind_Ok_inv in H. destruct H as (d2 & _ & H). now inv H.
Qed.
Lemma rview_mark s f : rview (markFieldSet s f) = rview s.
Proof.
  unfold markFieldSet. destruct (st_isSetOn s), (st_isSet s); auto.
  destruct (_ <? _); auto. destruct (nth_error _ _); auto.
Qed.
Lemma rview_record s o : (if st_recording s then rview (RecordOp s o) else rview s) = rec_view (rview s) o.
Proof. unfold RecordOp, rview, rec_view. cbn [fst snd]. destruct (st_recording s) eqn:E; cbn; rewrite ?E; reflexivity. Qed.
Lemma rview_clear s f s' : clear_scalar s f = Ok s' -> rview s' = rec_view (rview s) (cleared f).
Proof.
  unfold clear_scalar. intros H. apply bind_Ok_inv in H. destruct H as (s1 & E1 & H). apply rview_remove in E1. rewrite <- E1.
  inv H. rewrite <- rview_record. destruct (st_recording s1); auto.
Qed.
Lemma rview_store s f d r s' : store_field s f d r = Ok s' -> rview s' = rec_view (rview s) (was_set f r).
Proof.
  unfold store_field. intros H. apply bind_Ok_inv in H. destruct H as (s1 & E1 & H). apply rview_insert in E1. rewrite <- E1.
  inv H. rewrite <- (rview_mark s1 f), <- rview_record. destruct (st_recording _); auto.
Qed.
Lemma rview_if (b : bool) s f r s' (w : res bytes) :
  (if b then clear_scalar s f else (data <- w ;; store_field s f data r)) = Ok s' ->
  rview s' = rec_view (rview s) (if b then cleared f else was_set f r).
Proof.
  destruct b; intros H.
  - now apply rview_clear in H.
  - apply bind_Ok_inv in H. destruct H as (data & _ & H). now apply rview_store in H.
Qed.

Lemma le_enc_little n v : le_enc n v = little_endian n v.
Proof.
  unfold little_endian. assert (G : forall i, map (fun i => v / 256 ^ Z.of_nat i mod 256) (seq i n) = le_enc n (v / 256 ^ Z.of_nat i)).
  { induction n as [|n IH]; intros i; [reflexivity|]. cbn [seq map le_enc]. f_equal. rewrite IH. f_equal.
    rewrite Z.div_div by lia. f_equal. rewrite Nat2Z.inj_succ, Z.pow_succ_r by lia. lia. }
  rewrite G. cbn. now rewrite Z.div_1_r.
Qed.

Lemma fits_value t f v m : 0 <= t -> fsorted m -> fits t (fput f v m) -> len (wire_value f v) < 2 ^ 32.
Proof.
  intros Ht S HF. unfold fits in HF. destruct (fput_form f v m S) as (l & r & old & E1 & E2 & _). rewrite E2 in HF.
  unfold wire_msg in HF. rewrite map_app, concat_app, len_app in HF. cbn [map concat fst snd] in HF. rewrite len_app in HF.
  pose proof (len_nonneg (concat (map (fun p => wire_value (fst p) (snd p)) l))).
  pose proof (len_nonneg (concat (map (fun p => wire_value (fst p) (snd p)) r))). lia.
Qed.
Definition rec_views := fold_left rec_view.
Definition rec_op (o : op) (v : bool * list rop) : bool * list rop :=
  match o with
  | ORecord b => (b, snd v)
  | ODrain => (fst v, [])
  | _ => rec_views (records o) v
  end.

Lemma rview_op o s n m t s' :
  0 <= t -> fsorted m -> ok_op n t m o -> do_op s o = Ok s' -> rview s' = rec_op o (rview s).
Proof.
  intros Ht HS HK H. destruct o.
  - (* scalar *)
    cbn [ok_op valid_value] in HK. destruct HK as (_ & _ & HV & _).
    cbn [do_op rec_op records rec_views fold_left] in *. unfold set_scalar in H.
    destruct k; cbn [is_zero width] in *.
    1:{ unfold SetBool in H. replace (v =? 0) with (negb (v =? 1)) by (cbn [in_range] in HV; unfold in_range in HV; cbn in HV; lia).
        destruct (v =? 1) eqn:EV.
        - apply Z.eqb_eq in EV. subst. cbn [negb] in *. apply (rview_if false _ _ [1] _ _ H).
        - cbn [negb] in *. now apply rview_clear in H. }
    all: rewrite <- le_enc_little;
         unfold SetInt8, SetInt16, SetInt32, SetInt64, SetUint8, SetUint16, SetUint32, SetUint64, SetFloat32, SetFloat64 in H;
         exact (rview_if _ _ _ _ _ _ H).
  - cbn [do_op rec_op records rec_views fold_left] in *. rewrite <- nil_b_eq. destruct str; unfold SetStringAsBytes, SetBytes in H; apply (rview_if _ _ _ _ _ _ H).
  - now apply rview_remove in H.
  - now apply rview_ensure in H.
  - cbn [do_op] in H. apply bind_Ok_inv in H. destruct H as ((s1 & b) & H & HX). inv HX. unfold Marshal in H.
    apply bind_Ok_inv in H. destruct H as (d & _ & H). inv H. cbn.
    destruct (st_isSetOn s) eqn:E; [|reflexivity]. destruct (st_isSet s) eqn:E'; [|reflexivity].
    unfold appendIsSetBitfield. rewrite E, E'. reflexivity.
  - cbn in H. now inv H.
  - cbn in H. now inv H.
  - apply ok_ONested in HK. destruct HK as (_ & HK). rewrite do_ONested in H.
    destruct (build_sim _ _ HK) as (c & EC & SC & _). rewrite EC, bind_Ok in H.
    cbn [SetNestedStruct rec_op records rec_views fold_left] in *. rewrite (Sim_data _ _ _ SC) in H. rewrite wire_msg_nil_iff in H.
    destruct (nil_b (sem [] child)); [now apply rview_clear in H|].
    apply bind_Ok_inv in H. destruct H as (d1 & _ & H). apply bind_Ok_inv in H. destruct H as (d2 & _ & H).
    now apply rview_store in H.
  - now apply rview_clear in H.
  - cbn [do_op] in H. unfold sync_bools in H. destruct (len l =? 0); [now apply rview_remove in H|].
    apply bind_Ok_inv in H. destruct H as (d1 & _ & H). now apply rview_insert in H.
  - cbn [do_op] in H. unfold sync_numbers in H. destruct (_ =? 0); [now apply rview_remove in H|].
    apply bind_Ok_inv in H. destruct H as (d1 & _ & H). now apply rview_insert in H.
  - cbn [do_op] in H. unfold sync_blobs in H. destruct (_ =? 0); [now apply rview_remove in H|].
    apply bind_Ok_inv in H. destruct H as (d1 & _ & H). now apply rview_insert in H.
  - rewrite do_OStructs in H. apply bind_Ok_inv in H. destruct H as (it & _ & H).
    apply bind_Ok_inv in H. destruct H as ((s1 & it1) & H & HX). inv HX. unfold sync_structs in H.
    destruct (_ =? 0). { apply bind_Ok_inv in H. destruct H as (p & H & HX). inv HX. now apply rview_remove in H. }
    apply bind_Ok_inv in H. destruct H as ((d1 & d2) & _ & H).
    apply bind_Ok_inv in H. destruct H as (p & H & HX). inv HX. now apply rview_insert in H.
  - apply ok_OAny in HK. destruct HK as (HO & HK). rewrite do_OAny in H.
    destruct (build_sim _ _ HK) as (c & EC & SC & _). rewrite EC, bind_Ok in H. cbn [SetAny] in H.
    rewrite (Sim_data _ _ _ SC) in H. rewrite apply_OAny in HO. destruct HO as (_ & _ & HV & _ & HF).
    apply fits_value in HF; auto. rewrite any_field_spec in H by auto. rewrite bind_Ok in H. unfold store_any in H.
    apply rview_store in H. exact H.
  - cbn [do_op ok_op apply_op rec_op records rec_views fold_left] in *. unfold SetAnyRaw in H. rewrite nil_b_eq in H. destruct HK as (_ & _ & (HV & _) & HF).
    destruct (nil_b raw); [now apply rview_clear in H|]. apply fits_value in HF; auto.
    destruct (negb _); [discriminate|]. rewrite any_field_spec in H by auto. rewrite bind_Ok in H. now apply rview_store in H.
  - cbn [do_op ok_op apply_op rec_op records rec_views fold_left] in *. unfold SetListAnyRaw in H. rewrite nil_b_eq in H. destruct HK as (_ & _ & HV & HF).
    destruct (nil_b items); [now apply rview_clear in H|]. apply fits_value in HF; auto.
    destruct (forallb _ _); [|discriminate]. rewrite anys_field_spec in H by auto. rewrite bind_Ok in H. now apply rview_store in H.
  - cbn [do_op] in H. unfold sync_map in H. destruct (_ =? 0); [now apply rview_remove in H|].
    apply bind_Ok_inv in H. destruct H as (d1 & _ & H). now apply rview_insert in H.
Qed.

(** ** The drained operations of a run *)
Lemma rec_views_eq ops v : rec_views ops v = (fst v, if fst v then snd v ++ ops else snd v).
Proof.
  revert v. induction ops as [|o r IH]; intros [b l]; cbn [rec_views fold_left fst snd].
  - rewrite app_nil_r. now destruct b.
  - fold (rec_views r (rec_view (b, l) o)). rewrite IH. cbn [rec_view fst snd]. destruct b; auto. now rewrite <- app_assoc.
Qed.
Lemma drained l : forall n s m, reached n s m -> ok_run n 0 m l ->
  exists s' ops, run_drains s l = Ok (s', ops) /\ run s l = Ok s' /\ reached n s' (sem m l) /\ (ops ++ st_ops s' = st_ops s ++ performed (st_recording s) l).
Proof.
  induction l as [|o l IH]; intros n s m R HK.
  - exists s, []. cbn. rewrite app_nil_r. auto.
  - destruct HK as [HO HK].
    destruct (reached_op n s m o R HO) as (s1 & E1 & R1).
    destruct (IH n s1 (apply_op m o) R1 HK) as (s2 & ops & E2 & E3 & R2 & EO).
    assert (SO : fsorted m). { destruct (reached_good _ _ _ R) as (g & _ & S & _). apply S. }
    pose proof (rview_op o s n m 0 s1 ltac:(lia) SO HO E1) as RV.
    cbn [run sem]. rewrite E1, bind_Ok.
    destruct o; try (exists s2, ops; cbn [run_drains]; rewrite E1, bind_Ok; split; [assumption|]; split; [assumption|]; split; [assumption|];
      cbn [rec_op] in RV; rewrite ?rec_views_eq in RV; cbn [rview fst snd records] in RV; injection RV as RV1 RV2;
      rewrite EO, RV1, RV2; cbn [performed records]; destruct (st_recording s); rewrite <- ?app_assoc; reflexivity).
    exists s2, (st_ops s ++ ops). cbn [do_op] in E1. inv E1. cbn [run_drains]. unfold DrainRecordedOps in *. cbn [fst] in *.
      rewrite E2, bind_Ok. split; auto. do 2 (split; [assumption|]). rewrite <- app_assoc, EO. cbn.
      now destruct (st_recording s).
Qed.

(** ** Replaying *)
Lemma num_of_le k v : in_range k v -> num_of k (little_endian (width k) v) = v /\ len (little_endian (width k) v) = kind_width k.
Proof.
  intros R. rewrite <- le_enc_little.
  assert (L : len (le_enc (width k) v) = kind_width k) by (rewrite len_le_enc; now destruct k).
  split; auto. unfold num_of. rewrite <- L, take_all by lia. rewrite le_dec_enc.
  destruct k; cbn [width in_range] in *; unfold s8, s16, s32, s64.
  - cbn. destruct (Z.eqb_spec (v mod 256) 0); nia.
  - apply (sN_mod 8); [lia|]. cbn. lia.
  - apply (sN_mod 16); [lia|]. cbn. lia.
  - apply (sN_mod 32); [lia|]. cbn. lia.
  - apply (sN_mod 64); [lia|]. cbn. lia.
  - apply Z.mod_small. exact R.
  - apply Z.mod_small. exact R.
  - apply Z.mod_small. exact R.
  - apply Z.mod_small. exact R.
  - apply Z.mod_small. exact R.
  - apply Z.mod_small. exact R.
Qed.

Lemma descr_range l f d : descr l f = Some d -> 0 <= f < len l.
Proof. unfold descr. destruct ((0 <=? f) && (f <? len l)) eqn:E; [intros _; lia|discriminate]. Qed.
Lemma replay_clear fuel h v l g c f d :
  stands h v (length l) g c -> descr l f = Some d ->
  exists h' v', m_apply_ops fuel h v l [cleared f] = Ok (h', v') /\ stands h' v' (length l) g (fdel f c).
Proof.
  intros ST HL. pose proof (descr_range _ _ _ HL) as R.
  destruct (do_step h v (length l) g c (OClear f) ST I R) as (h' & v' & E & ST' & _).
  exists h', v'. split; auto. cbn [m_apply_ops].
  assert (m_apply_op fuel h v l (cleared f) = Ok (h', v')) as ->; [|reflexivity].
  destruct fuel; cbn [m_apply_op cleared r_type r_fn r_data]; change (OpClear =? OpSet) with false;
    change (OpClear =? OpClear) with true; cbv iota; rewrite HL; exact E.
Qed.
Lemma apply_set fuel h v l f d x :
  descr l f = Some d -> m_apply_ops fuel h v l [was_set f x] = m_applySet h v (Some d) f x.
Proof.
  intros HL. cbn [m_apply_ops].
  assert (m_apply_op fuel h v l (was_set f x) = m_applySet h v (Some d) f x) as ->.
  { destruct fuel; cbn [m_apply_op was_set r_type r_fn r_data]; change (OpSet =? OpSet) with true; cbv iota; now rewrite HL. }
  destruct (m_applySet _ _ _ _ _) as [[]| | |]; reflexivity.
Qed.
Lemma replay_op fuel h v l g c o :
  stands h v (length l) g c -> fits_type l o -> ok_op (length l) 0 c o ->
  exists h' v', m_apply_ops fuel h v l (records o) = Ok (h', v') /\ stands h' v' (length l) g (apply_op c o).
Proof.
  intros ST HT HO. destruct o; cbn [fits_type] in HT; try contradiction;
    try (exists h, v; split; [reflexivity|exact ST]).
  - cbn [records apply_op]. unfold mset. destruct (is_zero k v0) eqn:EZ.
    + eapply replay_clear; eauto.
    + destruct (do_step h v (length l) g c (OScalar f k v0) ST I HO) as (h' & v' & E & ST' & _).
      exists h', v'. rewrite (apply_set _ _ _ _ _ _ _ HT). cbn [m_applySet apply_op] in *. unfold mset in ST'. rewrite EZ in ST'.
      cbn [ok_op valid_value] in HO. destruct HO as (_ & _ & HV & _).
      destruct (num_of_le k v0 HV) as [EN EL]. rewrite EL, Z.ltb_irrefl, EN. auto.
  - cbn [records apply_op]. unfold mset. destruct (nil_b b) eqn:EZ.
    + eapply replay_clear; eauto.
    + destruct (do_step h v (length l) g c (OBytes f str b) ST I HO) as (h' & v' & E & ST' & _).
      exists h', v'. rewrite (apply_set _ _ _ _ _ _ _ HT). cbn [m_applySet apply_op] in *. unfold mset in ST'. rewrite EZ in ST'. auto.
  - destruct HT as (l' & HT & HL). pose proof (descr_range _ _ _ HT) as R.
    apply ok_ONested in HO. destruct HO as (HO & HK). cbn [records]. rewrite apply_ONested in *.
    destruct (nil_b (sem [] child)) eqn:EZ.
    + cbn [mset]. eapply replay_clear; eauto.
    + rewrite (apply_set _ _ _ _ _ _ _ HT). cbn [m_applySet]. rewrite New_spec, bind_Ok, HL.
      destruct (build_sim _ _ HK) as (s & _ & SC & _). destruct (Sim_fits _ _ _ _ _ SC) as [FC VC].
      destruct (Unmarshal_wire_struct (mkStruct (hdr 0 FTStruct 8) (repeat fe_zero n) false false None false [])
                 n 0 (sem [] child) []) as (t & E & S & _); auto; [lia|apply stale_ok_zero|].
      rewrite app_nil_r in E. change (wire (sem [] child)) with (wire_struct 0 (sem [] child)). rewrite E, bind_Ok.
      destruct HO as (_ & Hf' & HF). rewrite <- EZ in HF. rewrite <- EZ.
      eapply (nested_step h v (length l) g c f n t 0 (sem [] child)); eauto; tauto.
  - destruct HT as (l' & HT). cbn [records apply_op]. eapply replay_clear; eauto.
Qed.
Lemma m_apply_ops_app fuel l ops1 ops2 : forall h v,
  m_apply_ops fuel h v l (ops1 ++ ops2) = ('(h, v) <- m_apply_ops fuel h v l ops1 ;; m_apply_ops fuel h v l ops2).
Proof.
  induction ops1 as [|o r IH]; intros h v; [reflexivity|]. cbn [app m_apply_ops].
  destruct (m_apply_op fuel h v l o) as [[h1 v1]| | |]; cbn [bind]; auto.
Qed.
Lemma replay fuel l g ops : Forall (fits_type l) ops -> forall h v c,
  stands h v (length l) g c -> ok_run (length l) 0 c ops ->
  exists h' v', m_apply_ops fuel h v l (performed true ops) = Ok (h', v') /\ stands h' v' (length l) g (sem c ops).
Proof.
  induction 1 as [|o r Ho Hr IH]; intros h v c ST HK.
  - exists h, v. auto.
  - destruct HK as [HO HK]. destruct (replay_op fuel h v l g c o ST Ho HO) as (h1 & v1 & E1 & ST1).
    destruct (IH h1 v1 _ ST1 HK) as (h2 & v2 & E2 & ST2). exists h2, v2. split; auto.
    assert (performed true (o :: r) = records o ++ performed true r) as ->.
    { destruct o; auto. contradiction. }
    rewrite m_apply_ops_app, E1. exact E2.
Qed.
Lemma run_snoc l o : forall s, run s (l ++ [o]) = (s <- run s l ;; do_op s o).
Proof.
  induction l as [|x r IH]; intros s; cbn [app run].
  - rewrite bind_Ok. destruct (do_op s o); reflexivity.
  - destruct (do_op s x); cbn [bind]; auto.
Qed.
