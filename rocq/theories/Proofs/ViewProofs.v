(** Calls on a view: what becomes of the view and of the parent. *)
From Verif.Spec Require Export Views.
From Verif.Proofs Require Export AliasProofs ReachLemmas.

(** ** The calls agree with the value level *)
Lemma load_record h b s o : load h (mkV b (RecordOp s o)) = RecordOp (load h (mkV b s)) o.
Proof. unfold load, RecordOp. cbn. destruct (st_recording s); reflexivity. Qed.
Lemma load_mark h b s f : load h (mkV b (markFieldSet s f)) = markFieldSet (load h (mkV b s)) f.
Proof.
  unfold load, markFieldSet. cbn. destruct (st_isSetOn s); [|reflexivity].
  destruct (st_isSet s); [|reflexivity]. destruct (_ <? _); [|reflexivity].
  destruct (nth_error _ _); reflexivity.
Qed.
Lemma stores_record h v s' h' v' o :
  stores h v s' h' v' -> stores h v (RecordOp s' o) h' (mkV (v_sl v') (RecordOp (v_st v') o)).
Proof.
  intros [L A]. split.
  - rewrite load_record. destruct v' as [b' t']. cbn [v_sl v_st] in *. now rewrite L.
  - destruct (RecordOp_parts s' o) as (-> & _). exact A.
Qed.
Lemma stores_mark h v s' h' v' f :
  stores h v s' h' v' -> stores h v (markFieldSet s' f) h' (mkV (v_sl v') (markFieldSet (v_st v') f)).
Proof.
  intros [L A]. split.
  - rewrite load_mark. destruct v' as [b' t']. cbn [v_sl v_st] in *. now rewrite L.
  - destruct (markFieldSet_parts s' f) as (-> & _). exact A.
Qed.
Lemma stores_recording h v s' h' v' : stores h v s' h' v' -> st_recording (v_st v') = st_recording s'.
Proof. intros [<- _]. reflexivity. Qed.

Definition sizes_ok (h : heap) (v : vst) : Prop :=
  forall e s, ensureFieldIndexParsed (load h v) = Ok s -> In e (st_index s) -> 0 <= fe_size e.

Lemma m_clear_ok h v f s' :
  wf h (v_sl v) -> sizes_ok h v -> clear_scalar (load h v) f = Ok s' ->
  exists h' v', m_clear h v f = Ok (h', v') /\ stores h v s' h' v'.
Proof.
  intros W N E. unfold clear_scalar in E. apply bind_Ok_inv in E. destruct E as (s1 & E1 & E).
  injection E as <-. destruct (m_removeField_ok _ _ _ _ W N E1) as (h' & v' & E2 & S).
  unfold m_clear. rewrite E2, bind_Ok. eexists _, _. split; [reflexivity|].
  rewrite (stores_recording _ _ _ _ _ S). destruct (st_recording s1).
  - now apply stores_record.
  - destruct v' as [b' t']. exact S.
Qed.
Lemma m_store_ok h v f data rec s' :
  wf h (v_sl v) -> store_field (load h v) f data rec = Ok s' ->
  exists h' v', m_store h v f data rec = Ok (h', v') /\ stores h v s' h' v'.
Proof.
  intros W E. unfold store_field in E. apply bind_Ok_inv in E. destruct E as (s1 & E1 & E).
  injection E as <-. destruct (m_insertField_ok _ _ _ _ _ W E1) as (h' & v' & E2 & S).
  unfold m_store. rewrite E2, bind_Ok. eexists _, _. split; [reflexivity|].
  apply (stores_mark _ _ _ _ _ f) in S. cbv zeta. 
  pose proof (stores_recording _ _ _ _ _ S) as R. cbn [v_st] in R. rewrite R.
  destruct (st_recording (markFieldSet s1 f)); [|exact S].
  apply (stores_record _ _ _ _ _ (mkRop f OpSet NoListIndex rec)) in S. exact S.
Qed.
Lemma set_scalar_form s f k x :
  set_scalar s f k x = if m_zero k x then clear_scalar s f
                       else data <- m_field f k x ;; store_field s f data (m_rec k x).
Proof. destruct k; reflexivity. Qed.
Lemma SetBytes_form s f str b :
  (if str : bool then SetStringAsBytes s f b else SetBytes s f b) =
  if len b =? 0 then clear_scalar s f
  else data <- bytes_field f (if str then FTString else FTBytes) b ;; store_field s f data b.
Proof. destruct str; reflexivity. Qed.

Lemma Sim_sizes h v n h3 m tail : Sim (load h v) n h3 m tail -> sizes_ok h v.
Proof.
  intros [R V] e s E HI. destruct (rep_index _ _ _ _ _ R) as (s1 & E1 & ->). rewrite E in E1.
  injection E1 as ->. cbn [st_index with_parsed with_index] in HI. unfold index_of in HI.
  apply in_map_iff in HI. destruct HI as (i & <- & _). unfold entry.
  destruct (locate _ _ _) as [[o z]|] eqn:Q; cbn; [|lia].
  apply locate_some in Q. destruct Q as (l & c & r & _ & _ & -> & _). apply len_nonneg.
Qed.

Lemma m_do_op_ok h v n h3 m tail o s' :
  wf h (v_sl v) -> Sim (load h v) n h3 m tail -> st_isSetOn (load h v) = false -> direct o ->
  do_op (load h v) o = Ok s' ->
  exists h' v', m_do_op h v o = Ok (h', v') /\ stores h v s' h' v'.
Proof.
  intros W S F HD E. pose proof (Sim_sizes _ _ _ _ _ _ S) as N.
  assert (Same : forall s1, st_data s1 = view h (v_sl v) -> stores h v s1 h (mkV (v_sl v) s1)).
  { intros s1 D. split.
    - rewrite (load_eq _ _ _ _ eq_refl), <- D. apply with_data_id.
    - rewrite D. now apply lands_self. }
  destruct o; try contradiction; cbn [m_do_op do_op] in *.
  - rewrite set_scalar_form in E. unfold m_set_scalar. destruct (m_zero k v0); [now apply m_clear_ok|].
    apply bind_Ok_inv in E. destruct E as (d & E1 & E). rewrite E1, bind_Ok. now apply m_store_ok.
  - rewrite SetBytes_form in E. unfold m_SetBytes. destruct (len b =? 0); [now apply m_clear_ok|].
    apply bind_Ok_inv in E. destruct E as (d & E1 & E). rewrite E1, bind_Ok. now apply m_store_ok.
  - now apply m_removeField_ok.
  - rewrite E, bind_Ok. eexists _, _. split; [reflexivity|]. apply Same.
    now rewrite (ensure_data _ _ E).
  - unfold Marshal in E. rewrite F in E.
    unfold m_Marshal, m_updateHeaderSize. change (st_data (load h v)) with (view h (v_sl v)) in E.
    apply bind_Ok_inv in E. destruct E as ([s2 d2] & E2 & E). injection E as <-.
    apply bind_Ok_inv in E2. destruct E2 as (d & E1 & E). injection E as <- <-. rewrite E1, !bind_Ok.
    pose proof (updateHeaderSize_len _ _ E1) as L. rewrite len_view in L by auto.
    eexists _, _. split; [reflexivity|]. split.
    + unfold load. rewrite view_put_same by auto. now destruct v as [? []].
    + cbn [st_data with_data]. eapply lands_then; [auto|apply lands_self; auto|]. now rewrite len_view.
  - injection E as <-. eexists _, _. split; [reflexivity|]. split; [reflexivity|].
    cbn [st_data SetRecording with_recording load with_data v_sl]. now apply lands_self.
  - injection E as <-. eexists _, _. split; [reflexivity|]. split; [reflexivity|].
    cbn [st_data DrainRecordedOps fst with_ops load with_data v_sl]. now apply lands_self.
  - match type of E with ?X = _ => change X with (do_op (load h v) (ONested f n0 child)) in E end.
    rewrite do_ONested in E.
    apply bind_Ok_inv in E. destruct E as (c & E1 & E). rewrite E1, bind_Ok.
    unfold SetNestedStruct in E. unfold m_SetNestedStruct.
    destruct (len (st_data c) <=? HeaderSize); [now apply m_clear_ok|].
    apply bind_Ok_inv in E. destruct E as (d & E2 & E). rewrite E2, bind_Ok.
    apply bind_Ok_inv in E. destruct E as (d2 & E3 & E). rewrite E3, bind_Ok. now apply m_store_ok.
  - now apply m_clear_ok.
Qed.

(** A legal call on a struct in memory that stands for c. *)
Lemma m_step h v n g c o :
  wf h (v_sl v) -> Sim (load h v) n (hdr3 g) c [] -> st_isSetOn (load h v) = false ->
  direct o -> ok_op n 0 c o ->
  exists h' v', m_do_op h v o = Ok (h', v') /\ wf h' (v_sl v') /\
    Sim (load h' v') n (hdr3 g) (apply_op c o) [] /\ st_isSetOn (load h' v') = false /\
    lands h (v_sl v) (wire_struct g (apply_op c o)) h' (v_sl v').
Proof.
  intros W S F HD HO. destruct (op_sim_all o _ _ _ _ [] S HO (fun _ => F)) as (s' & E & S' & F').
  destruct (m_do_op_ok _ _ _ _ _ _ _ _ W S F HD E) as (h' & v' & E2 & L & A).
  pose proof (Sim_data_f _ _ _ _ S') as D. rewrite D in A.
  exists h', v'. split; auto. rewrite L. split; [eapply lands_view; eauto|]. split; auto. split; auto.
  destruct F' as [F' _]. congruence.
Qed.
Lemma m_run_app h v l1 l2 : m_run h v (l1 ++ l2) = ('(h, v) <- m_run h v l1 ;; m_run h v l2).
Proof.
  revert h v. induction l1 as [|o l1 IH]; intros; cbn [app m_run]; [reflexivity|].
  destruct (m_do_op h v o) as [[h1 v1]| | |]; cbn [bind]; auto.
Qed.
Lemma m_run_step h v n g c l :
  wf h (v_sl v) -> Sim (load h v) n (hdr3 g) c [] -> st_isSetOn (load h v) = false ->
  Forall direct l -> ok_run n 0 c l ->
  exists h' v', m_run h v l = Ok (h', v') /\ wf h' (v_sl v') /\
    Sim (load h' v') n (hdr3 g) (sem c l) [] /\ st_isSetOn (load h' v') = false.
Proof.
  revert h v c. induction l as [|o l IH]; intros h v c W S F HD HO; cbn [m_run].
  - eexists _, _. split; [reflexivity|]. auto.
  - inv HD. destruct HO as [HO1 HO2].
    destruct (m_step h v n g c o) as (h1 & v1 & -> & W1 & S1 & F1 & _); auto. rewrite bind_Ok.
    apply (IH h1 v1 (apply_op c o)); auto.
Qed.

(** ** The view and its parent *)
Definition sub (s : sl) (a k : Z) : sl := mkSl (sl_arr s) (sl_off s + a) k (sl_cap s - a).

Lemma sub_wf h s a k : wf h s -> 0 <= a -> 0 <= k -> a + k <= sl_cap s -> wf h (sub s a k).
Proof. intros (A & B & C & D) Ha Hk H. unfold wf, sub. cbn. repeat split; auto; lia. Qed.
Lemma sub_view h s p c q :
  wf h s -> view h s = p ++ c ++ q -> view h (sub s (len p) (len c)) = c /\ wf h (sub s (len p) (len c)).
Proof.
  intros W E. assert (W' := W). destruct W' as (A & B & C & D).
  pose proof (len_view h s W) as L. rewrite E, !len_app in L.
  pose proof (len_nonneg p). pose proof (len_nonneg c). pose proof (len_nonneg q).
  split; [|apply sub_wf; auto; lia].
  unfold view, sub in *. cbn [sl_arr sl_off sl_len]. set (a := array h (sl_arr s)) in *.
  rewrite Z.add_comm, <- drop_drop by lia.
  rewrite <- (take_drop (sl_len s) (drop (sl_off s) a)), E.
  rewrite <- app_assoc. rewrite drop_app_exact by auto. rewrite <- app_assoc. now apply take_app_exact.
Qed.

(** What a write through a view does to the bytes of the parent. *)
Lemma sub_put h s a k d :
  wf h s -> 0 <= a <= sl_len s -> 0 <= k -> a + len d <= sl_cap s ->
  view (put h (sub s a k) d) s =
  take (sl_len s) (take a (view h s) ++ d ++ drop (a + len d) (view h s)).
Proof.
  intros W Ha Hk HC. assert (W' := W). destruct W' as (A & B & C & D). pose proof (len_nonneg d).
  pose proof (len_view h s W) as LV.
  assert (EA : array (put h (sub s a k) d) (sl_arr s) =
    take (sl_off s + a) (array h (sl_arr s)) ++ d ++ drop (sl_off s + a + len d) (array h (sl_arr s)))
    by (apply (array_put_eq h (sub s a k)); auto).
  assert (EV : view (put h (sub s a k) d) s =
     take (sl_len s) (drop (sl_off s)
       (take (sl_off s + a) (array h (sl_arr s)) ++ d ++ drop (sl_off s + a + len d) (array h (sl_arr s)))))
    by (unfold view at 1; now rewrite EA).
  rewrite EV. clear EV EA.
  unfold view in *. set (x := array h (sl_arr s)) in *.
  set (w := drop (sl_off s) x) in *.
  assert (EX : x = take (sl_off s) x ++ w) by (unfold w; now rewrite take_drop).
  assert (LP : len (take (sl_off s) x) = sl_off s) by (rewrite len_take; lia).
  assert (LW : len w = len x - sl_off s) by (unfold w; rewrite len_drop; lia).
  assert (E1 : take (sl_off s + a) x = take (sl_off s) x ++ take a w).
  { rewrite EX at 1. rewrite take_app_r by lia. rewrite LP. do 2 f_equal. lia. }
  assert (E2 : drop (sl_off s + a + len d) x = drop (a + len d) w).
  { unfold w. rewrite drop_drop by lia. f_equal. lia. }
  rewrite E1, E2, <- app_assoc. rewrite drop_app_exact by auto.
  rewrite take_take by lia.
  (* only bytes behind the parent's length differ *)
  set (n := sl_len s) in *.
  assert (LA : len (take a w) = a) by (rewrite len_take; lia).
  destruct (Z.le_gt_cases n (a + len d)).
  - rewrite !app_assoc. now rewrite !(take_app_l n (take a w ++ d)) by (rewrite len_app; lia).
  - rewrite !app_assoc. rewrite !take_app_r by (rewrite len_app; lia). f_equal.
    rewrite len_app, LA. rewrite <- (take_drop n w) at 1. rewrite drop_app_l by (rewrite LV; lia).
    assert (LD : len (drop (a + len d) (take n w)) = n - (a + len d)) by (rewrite len_drop; lia).
    rewrite take_app_exact by lia. symmetry. apply take_all. lia.
Qed.

(** Writes somewhere else. *)
Lemma view_put_other h s s' d : sl_arr s <> sl_arr s' -> view (put h s' d) s = view h s.
Proof. intros N. unfold view. now rewrite array_put_ne. Qed.
Lemma view_app h s x : (sl_arr s < length h)%nat -> view (h ++ x) s = view h s.
Proof. intros N. unfold view. now rewrite array_app. Qed.
Lemma wf_app h s x : wf h s -> wf (h ++ x) s.
Proof.
  intros (A & B & C & D). unfold wf. rewrite array_app by auto. rewrite app_length. repeat split; auto; lia.
Qed.

Lemma Sim_parsed s n h3 m tail :
  Sim s n h3 m tail -> exists s', ensureFieldIndexParsed s = Ok s' /\ Sim s' n h3 m tail /\
    s' = with_parsed (with_index s (index_of n (enc m))) true.
Proof.
  intros [R V]. destruct R as [R1 R2 R3 R4 R5 R6 (s' & E & Es)]. exists s'. split; auto. split; auto.
  split; auto. subst s'. split; auto.
  eexists. split; [apply parsed_ensure; reflexivity|]. reflexivity.
Qed.

(** The situation after GetNestedStruct. *)
Record situation (h : heap) (p' v : vst) (n n' : nat) (g f : Z) (m c : msg) (pre post : bytes) : Prop := {
  su_parent : Sim (load h p') n (hdr3 g) m [];
  su_flags : st_isSetOn (load h p') = false;
  su_index : st_index (v_st p') = index_of n (enc m) /\ st_parsed (v_st p') = true;
  su_wf : wf h (v_sl p');
  su_view : view h (v_sl p') = pre ++ wire_struct f c ++ post;
  su_pre : exists l r, m = l ++ (f, VStruct c) :: r /\ allfst (fun i => i < f) l /\ allfst (fun i => f < i) r /\
     pre = hdr3 g ++ le_enc 5 (8 + len (wire_msg m)) ++ wire_msg l /\ post = wire_msg r;
  su_child : v_sl v = sub (v_sl p') (len pre) (len (wire_struct f c));
  su_sim : Sim (load h v) n' (hdr3 f) c [] /\ st_isSetOn (load h v) = false;
  su_g : 0 <= g < 2 ^ 16 }.

Lemma situation_of h p n g m f c n' :
  wf h (v_sl p) -> Sim (load h p) n (hdr3 g) m [] -> st_isSetOn (load h p) = false -> 0 <= g < 2 ^ 16 ->
  seen n m f = Some (VStruct c) ->
  exists p' v, m_GetNestedStruct h p f n' = Ok (p', Some v) /\
  exists pre post, situation h p' v n n' g f m c pre post /\ 0 <= f < Z.of_nat n /\
    v_sl p' = v_sl p /\ (forall q, answer (load h p') q = answer (load h p) q) /\
    GetNestedStruct (load h p) f n' = Ok (Some (load h v)).
Proof.
  intros W S F Hg HS.
  pose proof (seen_nonneg _ _ _ _ HS) as Hf.
  assert (Hn : f < Z.of_nat n).
  { unfold seen in HS. destruct (_ && _) eqn:Q; [|discriminate]. lia. }
  assert (HL : flook f m = Some (VStruct c)).
  { unfold seen in HS. replace (_ && _) with true in HS by lia. exact HS. }
  assert (SO : fsorted m) by apply S.
  destruct (flook_split f m _ SO HL) as (l & r & Em & Hl & Hr).
  set (pre := hdr3 g ++ le_enc 5 (8 + len (wire_msg m)) ++ wire_msg l).
  set (post := wire_msg r).
  assert (VP : view h (v_sl p) = pre ++ wire_struct f c ++ post).
  { change (view h (v_sl p)) with (st_data (load h p)). rewrite (Sim_data_f _ _ _ _ S).
    rewrite <- (Sim_data_f _ _ _ _ S). rewrite (rep_data _ _ _ _ _ (proj1 S)), body_enc, app_nil_r.
    change (len (@nil Z)) with 0. rewrite Z.add_0_r. unfold pre, post. rewrite <- !app_assoc. do 2 f_equal.
    rewrite Em. unfold wire_msg. rewrite map_app, concat_app. cbn [map concat fst snd].
    reflexivity. }
  destruct (Sim_parsed _ _ _ _ _ S) as (s1 & E1 & S1 & Es1).
  assert (EO : FieldOffset (load h p) f = Ok (len pre, len (wire_struct f c))).
  { unfold FieldOffset. rewrite E1, bind_Ok, Es1. cbn [st_index with_parsed with_index].
    rewrite len_index_of. replace (f >=? Z.of_nat n) with false by lia.
    rewrite index_index_of by lia. rewrite bind_Ok. unfold entry.
    assert (Ee : enc m = enc l ++ (f, wire_struct f c) :: enc r).
    { rewrite Em. unfold enc, fmap_val. now rewrite map_app. }
    rewrite Ee, locate_app, locate_none.
    - cbn [locate]. rewrite Z.eqb_refl. cbn [entry_of fe_off fe_size]. do 2 f_equal.
      unfold pre. rewrite !len_app, len_le_enc, body_enc. change (len (hdr3 g)) with 3. lia.
    - unfold enc. rewrite flook_map.
      assert (flook f l = None) as ->; [|reflexivity].
      rewrite <- (app_nil_r l). apply flook_mid_none; auto. constructor. }
  unfold m_GetNestedStruct. rewrite EO, bind_Ok, E1, bind_Ok.
  destruct (Sim_fits _ _ _ _ _ S) as [FF V].
  assert (Vc : valid_msg c).
  { destruct V as [_ V]. rewrite Em in V. apply Forall_app in V. destruct V as [_ V]. inv V.
    cbn [snd] in *. destruct H1 as [_ H1]. now apply valid_VStruct in H1. }
  assert (Lw : len (wire_struct f c) = 8 + len (wire_msg c)) by apply len_wire_struct.
  pose proof (len_nonneg (wire_msg c)). pose proof (len_nonneg pre). pose proof (len_nonneg post).
  replace (len (wire_struct f c) =? 0) with false by lia.
  pose proof (len_view _ _ W) as LV. rewrite VP, !len_app in LV.
  assert (CC : sl_len (v_sl p) <= sl_cap (v_sl p)) by (destruct W as (_ & _ & W & _); lia).
  cbn [v_sl]. replace (_ && _) with true by lia.
  change (mkSl (sl_arr (v_sl p)) (sl_off (v_sl p) + len pre) (len (wire_struct f c)) (sl_cap (v_sl p) - len pre))
    with (sub (v_sl p) (len pre) (len (wire_struct f c))).
  destruct (sub_view h (v_sl p) pre (wire_struct f c) post W VP) as [SV SW].
  rewrite SV.
  assert (FC : fits 0 c).
  { unfold fits in *. rewrite Em in FF. unfold wire_msg in FF at 1. rewrite map_app, concat_app in FF.
    cbn [map concat fst snd] in FF. change (wire_value f (VStruct c)) with (wire_struct f c) in FF.
    rewrite !len_app in FF. change (len (@nil Z)) with 0 in FF.
    fold (wire_msg l) in FF. fold (wire_msg r) in FF.
    pose proof (len_nonneg (wire_msg l)). pose proof (len_nonneg (wire_msg r)).
    lia. }
  rewrite parse_wire by auto. rewrite bind_Ok.
  eexists _, _. split; [reflexivity|]. cbn [v_sl v_st] in *.
  assert (LP : load h (mkV (v_sl p) s1) = s1).
  { rewrite (load_eq _ _ _ _ eq_refl). rewrite Es1. unfold load. now destruct p as [? []]. }
  assert (LC : load h (mkV (sub (v_sl p) (len pre) (len (wire_struct f c)))
     (mkStruct [] (index_of n' (enc c)) false false None false [])) =
     mkStruct (wire_struct f c) (index_of n' (enc c)) false false None false []).
  { now rewrite (load_eq _ _ _ _ SV). }
  exists pre, post. split; [|split; [lia|split; [auto|split]]].
  - constructor; cbn [v_sl v_st]; auto.
    + now rewrite LP.
    + rewrite LP, Es1. cbn. exact F.
    + rewrite Es1. auto.
    + exists l, r. auto.
    + rewrite LC. split; [apply Sim_child; auto|reflexivity].
  - intros q. rewrite LP. eapply Sim_same_view; eauto.
  - rewrite LC. unfold GetNestedStruct. rewrite EO, bind_Ok.
    replace (len (wire_struct f c) =? 0) with false by lia.
    change (st_data (load h p)) with (view h (v_sl p)). rewrite VP, slice_field, bind_Ok.
    rewrite parse_wire by auto. reflexivity.
Qed.
Lemma child_situation h p n m f c n' p' v :
  child_of h p n m f c n' p' v ->
  exists g pre post, situation h p' v n n' g f m c pre post /\ 0 <= f < Z.of_nat n /\
    v_sl p' = v_sl p /\ (forall q, answer (load h p') q = answer (load h p) q) /\
    GetNestedStruct (load h p) f n' = Ok (Some (load h v)).
Proof.
  intros (W & HR & HS & HG). destruct (reached_good _ _ _ HR) as (g & Hg & S & F).
  destruct (situation_of h p n g m f c n' W S F Hg HS) as (p1 & v1 & E & H). rewrite HG in E.
  injection E as <- <-. now exists g.
Qed.

(** ** What is left alone *)
Definition framed (h0 : heap) (s0 : sl) (h : heap) (s : sl) : Prop :=
  (length h0 <= length h)%nat /\
  (forall a, (a < length h0)%nat -> a <> sl_arr s0 -> array h a = array h0 a) /\
  len (array h (sl_arr s0)) = len (array h0 (sl_arr s0)) /\
  take (sl_off s0) (array h (sl_arr s0)) = take (sl_off s0) (array h0 (sl_arr s0)) /\
  ((sl_arr s = sl_arr s0 /\ sl_off s = sl_off s0 /\ sl_cap s = sl_cap s0) \/ (length h0 <= sl_arr s)%nat).

Lemma framed_refl h s : framed h s h s.
Proof. repeat split; auto. Qed.
Lemma framed_step h0 s0 h s d h' s' :
  wf h0 s0 -> wf h s -> framed h0 s0 h s -> lands h s d h' s' -> framed h0 s0 h' s'.
Proof.
  intros W0 W (F1 & F2 & F3 & F4 & F5) [(L & -> & ->)|(L & z & -> & ->)].
  - assert (W' := W). destruct W' as (A & B & C & D). pose proof (len_nonneg d).
    assert (W0' := W0). destruct W0' as (A0 & B0 & C0 & D0).
    split; [now rewrite put_length|]. split; [|split; [now rewrite len_array_put|split; [|exact F5]]].
    + intros a Ha Na. rewrite array_put_ne; [auto|]. destruct F5 as [(E & _)|E]; [congruence|lia].
    + destruct F5 as [(E1 & E2 & E3)|E].
      * rewrite <- E1, <- E2. rewrite array_put_eq by auto. rewrite take_app_l by (rewrite len_take; lia).
        rewrite take_take by lia. rewrite E1, E2. exact F4.
      * rewrite array_put_ne by lia. exact F4.
  - destruct W0 as (A0 & _). split; [rewrite app_length; lia|]. split; [|split; [|split]].
    + intros a Ha Na. rewrite array_app by lia. auto.
    + now rewrite array_app by lia.
    + now rewrite array_app by lia.
    + right. cbn. lia.
Qed.
Lemma m_run_framed h0 s0 h v n g c l :
  wf h0 s0 -> wf h (v_sl v) -> Sim (load h v) n (hdr3 g) c [] -> st_isSetOn (load h v) = false ->
  Forall direct l -> ok_run n 0 c l -> framed h0 s0 h (v_sl v) ->
  exists h' v', m_run h v l = Ok (h', v') /\ framed h0 s0 h' (v_sl v').
Proof.
  intros W0. revert h v c. induction l as [|o l IH]; intros h v c W S F HD HO HF; cbn [m_run].
  - eexists _, _. split; [reflexivity|]. auto.
  - inv HD. destruct HO as [HO1 HO2].
    destruct (m_step h v n g c o) as (h1 & v1 & -> & W1 & S1 & F1 & L1); auto. rewrite bind_Ok.
    apply (IH h1 v1 (apply_op c o)); auto. eapply framed_step; [exact W0|exact W|exact HF|exact L1].
Qed.
Lemma framed_parent h0 s a k h s1 :
  wf h0 s -> 0 <= a <= sl_len s -> framed h0 (sub s a k) h s1 ->
  wf h s /\ take a (view h s) = take a (view h0 s).
Proof.
  intros W Ha (F1 & F2 & F3 & F4 & F5). cbn [sub sl_arr sl_off sl_cap] in *.
  assert (W' := W). destruct W' as (A & B & C & D). split.
  - split; [lia|]. split; [auto|]. split; [auto|]. now rewrite F3.
  - unfold view. rewrite !take_take by lia.
    set (x := array h (sl_arr s)) in *. set (y := array h0 (sl_arr s)) in *.
    assert (E : forall w : bytes, take a (drop (sl_off s) w) = drop (sl_off s) (take (sl_off s + a) w)).
    { intros w. unfold take, drop. rewrite firstn_skipn_comm. do 2 f_equal. lia. }
    now rewrite !E, F4.
Qed.

Lemma fpos_enc m : fpos (enc m).
Proof.
  unfold fpos, enc, fmap_val. apply Forall_map, Forall_forall. intros x _. cbn. apply len_wire_value_ge.
Qed.
Lemma earlier_fields h p' v n n' g f m c pre post h' s1 :
  situation h p' v n n' g f m c pre post -> framed h (v_sl v) h' s1 ->
  forall q r, query_field q < f -> expects n m q r -> answer (load h' p') q = r.
Proof.
  intros SU HF q r Hq HE. destruct SU as [SP SF [SI SQ] SW SV (l & r' & Em & Hl & Hr & Ep & Eq) SC SS SG].
  rewrite SC in HF. pose proof (len_view _ _ SW) as LV. rewrite SV, !len_app in LV.
  pose proof (len_nonneg pre). pose proof (len_nonneg post). pose proof (len_nonneg (wire_struct f c)).
  destruct (framed_parent h (v_sl p') (len pre) (len (wire_struct f c)) h' s1 SW ltac:(lia) HF) as [W' T].
  rewrite SV in T. rewrite (take_app_exact (len pre) pre) in T by auto.
  set (d := view h' (v_sl p')) in *.
  assert (Ld : len d = len pre + (len (wire_struct f c) + len post)) by (unfold d; rewrite len_view; auto).
  assert (Ed : d = pre ++ drop (len pre) d) by (rewrite <- T at 1; now rewrite take_drop).
  set (X := drop (len pre) d) in *.
  assert (LX : len X = len (wire_struct f c) + len post) by (unfold X; rewrite len_drop; lia).
  assert (Lm : len (wire_msg m) = len (wire_msg l) + len X).
  { rewrite LX. rewrite Em, Eq. unfold wire_msg. rewrite map_app, concat_app. cbn [map concat fst snd].
    rewrite !len_app, wire_VStruct. lia. }
  destruct SP as [R V].
  assert (Vl : valid_msg l).
  { destruct V as [V1 V2]. rewrite Em in V1, V2. split.
    - now apply fsorted_app_inv in V1.
    - apply Forall_app in V2. tauto. }
  set (t := with_index (load h' p') (index_of n (enc l))).
  assert (St : Sim t n (hdr3 g) l X).
  { split; auto. split.
    - unfold t. cbn [st_data with_index load with_data]. fold d. rewrite Ed, Ep, body_enc, <- !app_assoc.
      do 3 f_equal. lia.
    - exact (rep_h3 _ _ _ _ _ R).
    - apply fsorted_map. apply Vl.
    - apply allfst_map. eapply Forall_impl; [|exact (proj2 Vl)]. cbn. tauto.
    - apply fpos_enc.
    - rewrite body_enc. pose proof (rep_size _ _ _ _ _ R) as RZ. rewrite body_enc in RZ.
      change (len (@nil Z)) with 0 in RZ. lia.
    - eexists. split; [apply parsed_ensure; exact SQ|]. unfold t, load. cbn. destruct (v_st p'). cbn in *.
      now rewrite SQ. }
  assert (IX : forall i, 0 <= i < Z.of_nat n -> i < f ->
     index (index_of n (enc m)) i = index (index_of n (enc l)) i).
  { intros i Hi Hi2. rewrite !index_index_of by lia. f_equal. unfold entry.
    assert (Ee : enc m = enc l ++ (f, wire_struct f c) :: enc r').
    { rewrite Em. unfold enc, fmap_val. now rewrite map_app. }
    rewrite Ee, locate_app. destruct (locate 8 (enc l) i); auto.
    cbn [locate]. replace (i =? f) with false by lia. rewrite locate_none; auto.
    unfold enc. rewrite flook_map. rewrite <- (app_nil_l r'). rewrite flook_mid_none; [reflexivity|constructor|].
    eapply allfst_impl; [|exact Hr]. cbn. intros. lia. }
  assert (PE : ensureFieldIndexParsed (load h' p') = Ok (load h' p')) by (apply parsed_ensure; exact SQ).
  assert (PT : ensureFieldIndexParsed t = Ok t) by (apply parsed_ensure; exact SQ).
  assert (EN : 0 <= query_field q) by (destruct q; cbn in HE |- *; tauto).
  transitivity (answer t q).
  - apply answer_view; [reflexivity| |].
    + unfold FieldOffset. rewrite PE, PT, !bind_Ok. unfold t. cbn [st_index with_index load with_data].
      rewrite SI, !len_index_of. destruct (query_field q >=? Z.of_nat n) eqn:Q; auto.
      rewrite IX by lia. reflexivity.
    + unfold HasField. rewrite PE, PT, !bind_Ok. unfold t. cbn [st_index with_index load with_data].
      rewrite SI, !len_index_of. destruct (query_field q >=? Z.of_nat n) eqn:Q; auto.
      rewrite IX by lia. reflexivity.
  - eapply answer_expects; [exact St|]. unfold expects in *. eapply reads_seen; [|exact HE].
    unfold seen. destruct (_ && _); auto. rewrite Em. apply flook_app_l.
    apply Forall_cons; [cbn; lia|]. eapply allfst_impl; [|exact Hr]. cbn. intros. lia.
Qed.

(** ** Calls that keep the size *)
Lemma m_run_same h v n f c l :
  wf h (v_sl v) -> Sim (load h v) n (hdr3 f) c [] -> st_isSetOn (load h v) = false ->
  Forall direct l -> ok_run n 0 c l -> keeps_size c l ->
  exists h' v', m_run h v l = Ok (h', v') /\ v_sl v' = v_sl v /\
    h' = put h (v_sl v) (wire_struct f (sem c l)) /\ size (sem c l) = size c.
Proof.
  revert h v c. induction l as [|o l IH]; intros h v c W S F HD HO HK; cbn [m_run].
  - eexists _, _. split; [reflexivity|]. split; auto. split; auto.
    cbn [sem]. rewrite <- (Sim_data_f _ _ _ _ S). change (st_data (load h v)) with (view h (v_sl v)).
    now rewrite put_view.
  - inv HD. destruct HO as [HO1 HO2]. destruct HK as [HK1 HK2].
    destruct (m_step h v n f c o) as (h1 & v1 & -> & W1 & S1 & F1 & L1); auto. rewrite bind_Ok.
    assert (LC : sl_len (v_sl v) = size c).
    { rewrite <- (len_view _ _ W). change (view h (v_sl v)) with (st_data (load h v)).
      rewrite (Sim_data_f _ _ _ _ S). apply len_wire_struct. }
    assert (LD : len (wire_struct f (apply_op c o)) = size c) by (rewrite len_wire_struct; exact HK1).
    destruct L1 as [(L & E1 & E2)|(L & _)].
    2:{ destruct W as (_ & _ & W & _). lia. }
    assert (E2' : v_sl v1 = v_sl v) by (rewrite E2, LD, <- LC; apply reslice_len).
    destruct (IH h1 v1 (apply_op c o)) as (h' & v' & E & Ev & Eh & Es); auto.
    exists h', v'. split; auto. split; [congruence|]. cbn [sem]. split; [|congruence].
    rewrite Eh, E2', E1. apply put_put; [exact W|lia|]. rewrite LD, len_wire_struct.
    unfold size in *. lia.
Qed.

Lemma index_resized n l f b b' r :
  len b = len b' -> index_of n (l ++ (f, b) :: r) = index_of n (l ++ (f, b') :: r).
Proof.
  intros E. unfold index_of. apply map_ext. intros i. unfold entry. f_equal. rewrite !locate_app.
  destruct (locate 8 l (Z.of_nat i)); auto. cbn [locate]. rewrite E. reflexivity.
Qed.

Lemma parent_updated h p' v n n' g f m c pre post c' :
  situation h p' v n n' g f m c pre post -> valid_msg c' -> size c' = size c ->
  Sim (load (put h (v_sl v) (wire_struct f c')) p') n (hdr3 g) (fput f (VStruct c') m) [] /\
  st_isSetOn (load (put h (v_sl v) (wire_struct f c')) p') = false.
Proof.
  intros SU Vc Hs. destruct SU as [SP SF [SI SQ] SW SV (l & r' & Em & Hl & Hr & Ep & Eq) SC SS SG].
  split; [|exact SF].
  pose proof (len_view _ _ SW) as LV. rewrite SV, !len_app in LV.
  pose proof (len_nonneg pre). pose proof (len_nonneg post). pose proof (len_nonneg (wire_struct f c)).
  assert (LW : len (wire_struct f c') = len (wire_struct f c)) by (rewrite !len_wire_struct; exact Hs).
  assert (CS : sl_len (v_sl p') <= sl_cap (v_sl p')) by (destruct SW as (_ & _ & SW & _); lia).
  assert (VN : view (put h (v_sl v) (wire_struct f c')) (v_sl p') = pre ++ wire_struct f c' ++ post).
  { rewrite SC, sub_put by (auto; lia). rewrite SV.
    rewrite (take_app_exact (len pre) pre) by auto.
    rewrite (app_assoc pre (wire_struct f c)), drop_app_exact by (rewrite len_app; lia).
    apply take_all. rewrite !len_app. lia. }
  destruct SP as [R V].
  assert (Lm : len (wire_msg (l ++ (f, VStruct c') :: r')) = len (wire_msg m)).
  { rewrite Em. unfold wire_msg. rewrite !map_app, !concat_app. cbn [map concat fst snd].
    rewrite !len_app, !wire_VStruct. lia. }
  assert (EF : fput f (VStruct c') m = l ++ (f, VStruct c') :: r') by (rewrite Em; now apply fput_mid).
  assert (Hf : 0 <= f < 2 ^ 16).
  { destruct V as [_ V]. rewrite Em in V. apply Forall_app in V. destruct V as [_ V]. inv V. cbn in *. tauto. }
  assert (V' : valid_msg (fput f (VStruct c') m)).
  { apply valid_put; auto. now apply valid_VStruct. }
  split; [|exact V']. rewrite EF in *. split.
  - cbn [st_data load with_data]. rewrite VN, body_enc, app_nil_r, Ep, Eq, <- !app_assoc.
    change (len (@nil Z)) with 0. rewrite Z.add_0_r, Lm. do 2 f_equal.
    unfold wire_msg. rewrite map_app, concat_app. cbn [map concat fst snd].
    now rewrite wire_VStruct.
  - exact (rep_h3 _ _ _ _ _ R).
  - apply fsorted_map. apply V'.
  - apply allfst_map. eapply Forall_impl; [|exact (proj2 V')]. cbn. tauto.
  - apply fpos_enc.
  - rewrite body_enc, Lm. pose proof (rep_size _ _ _ _ _ R) as RZ. now rewrite body_enc in RZ.
  - assert (EI : index_of n (enc (l ++ (f, VStruct c') :: r')) = index_of n (enc m)).
    { rewrite Em. unfold enc, fmap_val. rewrite !map_app. cbn [map fst snd]. apply index_resized.
      rewrite !wire_VStruct. lia. }
    rewrite EI. eexists. split; [apply parsed_ensure; exact SQ|]. unfold load. cbn. rewrite <- SI.
    destruct (v_st p'). cbn in *. now rewrite SQ.
Qed.

(** ** A view that has outgrown its capacity *)
Lemma m_run_elsewhere h v n g c l s :
  wf h (v_sl v) -> Sim (load h v) n (hdr3 g) c [] -> st_isSetOn (load h v) = false ->
  Forall direct l -> ok_run n 0 c l ->
  (sl_arr s < length h)%nat -> sl_arr s <> sl_arr (v_sl v) ->
  exists h' v', m_run h v l = Ok (h', v') /\ view h' s = view h s.
Proof.
  revert h v c. induction l as [|o l IH]; intros h v c W S F HD HO HL HN; cbn [m_run].
  - eexists _, _. split; [reflexivity|]. auto.
  - inv HD. destruct HO as [HO1 HO2].
    destruct (m_step h v n g c o) as (h1 & v1 & -> & W1 & S1 & F1 & L1); auto. rewrite bind_Ok.
    destruct (IH h1 v1 (apply_op c o)) as (h' & v' & E & Ev); auto.
    + destruct L1 as [(_ & -> & _)|(_ & z & -> & _)]; [now rewrite put_length|]. rewrite app_length. lia.
    + destruct L1 as [(_ & _ & ->)|(_ & z & _ & ->)]; cbn; auto. lia.
    + exists h', v'. split; auto. rewrite Ev.
      destruct L1 as [(_ & -> & _)|(_ & z & -> & _)]; [now apply view_put_other|now apply view_app].
Qed.

(** ** Programs on memory compute the same structs as on values *)
Lemma m_New_ok h n : exists h' v s, m_New h n = Ok (h', v) /\ New n = Ok s /\ load h' v = s /\ wf h' (v_sl v).
Proof.
  pose proof (New_spec n) as N. unfold New in N. unfold m_New, m_NewSegment. change (Z.max 64 64) with 64.
  rewrite view_fresh. change (take 8 (zeros 64)) with NewSegment.
  assert (LZ : 64 = len (zeros 64)) by reflexivity. revert LZ. generalize (zeros 64). intros z LZ.
  apply bind_Ok_inv in N. destruct N as (d & E & N). injection N as Ed.
  assert (Ld : len d = 8) by (rewrite Ed; apply len_hdr).
  assert (W : wf (h ++ [z]) (mkSl (length h) 0 8 64)) by (apply wf_fresh; auto; lia).
  eexists _, _, _. rewrite E, bind_Ok. split; [reflexivity|]. split; [apply New_spec|]. split.
  - unfold load. cbn [v_sl v_st]. rewrite view_put_same by auto. unfold with_data. rewrite Ed. reflexivity.
  - cbn [v_sl]. apply wf_put; auto. cbn [sl_cap]. lia.
Qed.
Lemma m_step_reached h v n m o :
  wf h (v_sl v) -> reached n (load h v) m -> direct o -> ok_op n 0 m o ->
  exists h' v', m_do_op h v o = Ok (h', v') /\ do_op (load h v) o = Ok (load h' v') /\
    wf h' (v_sl v') /\ reached n (load h' v') (apply_op m o).
Proof.
  intros W HR HD HO. destruct (reached_good _ _ _ HR) as (g & Hg & S & F).
  destruct (op_sim_all o _ _ _ _ [] S HO (fun _ => F)) as (s' & E & S' & F').
  destruct (m_do_op_ok _ _ _ _ _ _ _ _ W S F HD E) as (h' & v' & E2 & L & A).
  exists h', v'. rewrite L. split; auto. split; auto. split; [eapply lands_view; eauto|].
  eapply R_op; eauto.
Qed.
Lemma m_run_reached h v n m l :
  wf h (v_sl v) -> reached n (load h v) m -> Forall direct l -> ok_run n 0 m l ->
  exists h' v', m_run h v l = Ok (h', v') /\ run (load h v) l = Ok (load h' v') /\
    wf h' (v_sl v') /\ reached n (load h' v') (sem m l).
Proof.
  revert h v m. induction l as [|o l IH]; intros h v m W HR HD HO; cbn [m_run run].
  - eexists _, _. split; [reflexivity|]. auto.
  - inv HD. destruct HO as [HO1 HO2].
    destruct (m_step_reached h v n m o) as (h1 & v1 & -> & -> & W1 & R1); auto. rewrite !bind_Ok.
    apply (IH h1 v1 (apply_op m o)); auto.
Qed.
