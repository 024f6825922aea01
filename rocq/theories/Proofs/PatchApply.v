(** What Apply does with the operations of Diff. *)
From Verif.Proofs Require Export PatchDiff.

(** ** Setting or deleting one field of a message *)
Definition fset (f : Z) (o : option value) (m : msg) : msg :=
  match o with Some v => fput f v m | None => fdel f m end.
Lemma fset_sorted f o m : fsorted m -> fsorted (fset f o m).
Proof. destruct o; cbn; auto using fput_sorted, fdel_sorted. Qed.
Lemma flook_fset f o m g : fsorted m -> flook g (fset f o m) = if g =? f then o else flook g m.
Proof. intros S. destruct o; cbn [fset]; [now apply flook_fput|now apply flook_fdel]. Qed.
Lemma fset_same f m : fsorted m -> fset f (flook f m) m = m.
Proof.
  intros S. destruct (flook f m) as [v|] eqn:E; cbn [fset].
  - destruct (flook_split f m v S E) as (l & r & -> & Hl & Hr). now apply fput_mid.
  - now apply fdel_none.
Qed.
Lemma fdel_fset f o m : fsorted m -> fdel f (fset f o m) = fdel f m.
Proof.
  intros S. apply fdel_sorted_ext; auto using fset_sorted. intros g N. rewrite flook_fset by auto.
  now replace (g =? f) with false by lia.
Qed.
Lemma len_fset f o m : fsorted m -> len (wire_msg (fset f o m)) = len (wire_msg (fdel f m)) + vsize f o.
Proof.
  intros S. rewrite <- (vsize_del f (fset f o m)) by auto using fset_sorted.
  rewrite fdel_fset, flook_fset, Z.eqb_refl by auto. lia.
Qed.
Lemma size_fset f o m : fsorted m -> vsize f o = vsize f (flook f m) -> size (fset f o m) = size m.
Proof. intros S E. unfold size. rewrite len_fset, E by auto. pose proof (vsize_del f m S). lia. Qed.
Lemma mset_fset b f v m : mset b f v m = fset f (if b then None else Some v) m.
Proof. now destruct b. Qed.

(** ** Numbers as bytes *)
Lemma num_of_data k v : in_range k v -> num_of k (num_data k v) = v.
Proof.
  intros R. unfold num_of. rewrite <- (num_data_len k v), take_all by lia.
  destruct k; cbn [num_data in_range] in *; unfold u8, u16, u32, u64, s8, s16, s32, s64;
    rewrite ?le_dec_enc.
  - cbn. destruct (Z.eqb_spec v 0); cbn; lia.
  - change (256 ^ Z.of_nat 1) with (2 ^ 8). rewrite Zmod_mod. apply sN_mod; [lia|]. cbn. lia.
  - change (256 ^ Z.of_nat 2) with (2 ^ 16). rewrite Zmod_mod. apply sN_mod; [lia|]. cbn. lia.
  - change (256 ^ Z.of_nat 4) with (2 ^ 32). rewrite Zmod_mod. apply sN_mod; [lia|]. cbn. lia.
  - change (256 ^ Z.of_nat 8) with (2 ^ 64). rewrite Zmod_mod. apply sN_mod; [lia|]. cbn. lia.
  - apply Z.mod_small. exact R.
  - apply Z.mod_small. exact R.
  - apply Z.mod_small. exact R.
  - apply Z.mod_small. exact R.
  - apply Z.mod_small. exact R.
  - apply Z.mod_small. exact R.
Qed.
Lemma num_equal_refl k v : num_equal k v v = true.
Proof.
  unfold num_equal, go_eq. rewrite Z.eqb_refl. destruct (is_nan k v); reflexivity.
Qed.

(** ** Writes into a part of a slice *)
Lemma put_sub h s pre x post d :
  wf h s -> view h s = pre ++ x ++ post -> len d = len x ->
  put h (sub s (len pre) (len x)) d = put h s (pre ++ d ++ post).
Proof.
  intros W V L. assert (W' := W). destruct W' as (A & B & C & D).
  pose proof (len_view _ _ W) as LV. rewrite V, !len_app in LV.
  pose proof (len_nonneg pre). pose proof (len_nonneg x). pose proof (len_nonneg post).
  unfold put. cbn [sub sl_arr sl_off]. f_equal. set (a := array h (sl_arr s)) in *.
  assert (E : a = take (sl_off s) a ++ (pre ++ x ++ post) ++ drop (sl_off s + sl_len s) a).
  { rewrite <- V. unfold view. fold a. replace (sl_off s + sl_len s) with (sl_len s + sl_off s) by lia.
    rewrite <- drop_drop by lia. now rewrite !take_drop. }
  assert (LT : len (take (sl_off s) a) = sl_off s) by (rewrite len_take by lia; lia).
  assert (E1 : take (sl_off s + len pre) a = take (sl_off s) a ++ pre).
  { rewrite E at 1. rewrite take_app_r by lia. rewrite LT. f_equal.
    replace (sl_off s + len pre - sl_off s) with (len pre) by lia. rewrite <- app_assoc. now apply take_app_exact. }
  assert (E2 : drop (sl_off s + len pre + len d) a = post ++ drop (sl_off s + sl_len s) a).
  { rewrite E at 1. rewrite drop_app_r by lia. rewrite LT.
    replace (sl_off s + len pre + len d - sl_off s) with (len (pre ++ x)) by (rewrite len_app; lia).
    rewrite <- !app_assoc, (app_assoc pre x). now apply drop_app_exact. }
  rewrite E1, E2. rewrite !len_app, <- !app_assoc. repeat f_equal. lia.
Qed.

(** ** One call *)
Definition stands (h : heap) (v : vst) (n : nat) (g : Z) (c : msg) : Prop :=
  wf h (v_sl v) /\ Sim (load h v) n (hdr3 g) c [] /\ st_isSetOn (load h v) = false /\ 0 <= g < 2 ^ 16.
Definition in_place (h : heap) (v : vst) (g : Z) (c : msg) (h' : heap) (v' : vst) (c' : msg) : Prop :=
  v_sl v' = v_sl v /\ h' = put h (v_sl v) (wire_struct g c') /\ size c' = size c.
Lemma stands_sorted h v n g c : stands h v n g c -> fsorted c.
Proof. intros (_ & S & _). apply S. Qed.
Lemma stands_len h v n g c : stands h v n g c -> sl_len (v_sl v) = size c.
Proof.
  intros (W & S & _). rewrite <- (len_view _ _ W). change (view h (v_sl v)) with (st_data (load h v)).
  rewrite (Sim_data_f _ _ _ _ S). apply len_wire_struct.
Qed.
Lemma in_place_refl h v n g c : stands h v n g c -> in_place h v g c h v c.
Proof.
  intros (W & S & _). split; auto. split; auto. rewrite <- (Sim_data_f _ _ _ _ S).
  symmetry. now apply put_view.
Qed.
Lemma in_place_trans h v n g c h1 v1 c1 h2 v2 c2 :
  stands h v n g c -> in_place h v g c h1 v1 c1 -> in_place h1 v1 g c1 h2 v2 c2 -> in_place h v g c h2 v2 c2.
Proof.
  intros ST (A1 & A2 & A3) (B1 & B2 & B3). pose proof (stands_len _ _ _ _ _ ST) as L.
  split; [congruence|]. split; [|congruence]. rewrite B2, A1, A2.
  assert (W : wf h (v_sl v)) by apply ST. assert (W' := W). destruct W' as (_ & _ & C & _).
  unfold size in *. apply put_put; auto; rewrite !len_wire_struct; lia.
Qed.
Lemma lands_in_place h v n g c h' v' c' :
  stands h v n g c -> lands h (v_sl v) (wire_struct g c') h' (v_sl v') -> size c' = size c ->
  in_place h v g c h' v' c'.
Proof.
  intros ST L E. pose proof (stands_len _ _ _ _ _ ST) as LC. destruct ST as (W & _).
  assert (W' := W). destruct W' as (_ & _ & C & _). unfold size in *.
  destruct L as [(L & E1 & E2)|(L & _)]; rewrite len_wire_struct in *; [|lia].
  split; [|split; auto]. rewrite E2. rewrite <- (reslice_len (v_sl v)) at 2. f_equal. lia.
Qed.
Lemma do_step h v n g c o :
  stands h v n g c -> direct o -> ok_op n 0 c o ->
  exists h' v', m_do_op h v o = Ok (h', v') /\ stands h' v' n g (apply_op c o) /\
    (size (apply_op c o) = size c -> in_place h v g c h' v' (apply_op c o)).
Proof.
  intros ST HD HO. assert (ST' := ST). destruct ST' as (W & S & F & G).
  destruct (m_step h v n g c o W S F HD HO) as (h' & v' & E & W' & S' & F' & L).
  exists h', v'. split; auto. split; [repeat (split; auto)|]. intros Es. eapply lands_in_place; eauto.
Qed.
Lemma nested_step h v n g c f n' s gc mc :
  stands h v n g c -> Sim s n' (hdr3 gc) mc [] -> 0 <= f < Z.of_nat n -> f < 2 ^ 16 ->
  fits 0 (mset (nil_b mc) f (VStruct mc) c) ->
  exists h' v', m_SetNestedStruct h v f (Some s) = Ok (h', v') /\
    stands h' v' n g (mset (nil_b mc) f (VStruct mc) c).
Proof.
  intros (W & S & F & G) SC Hf Hf' HF. pose proof (Sim_sizes _ _ _ _ _ _ S) as N.
  destruct (Sim_SetNested _ _ _ _ _ _ _ _ _ _ S SC Hf Hf' HF) as (s' & E & S' & F').
  assert (H : exists h' v', m_SetNestedStruct h v f (Some s) = Ok (h', v') /\ stores h v s' h' v').
  { unfold SetNestedStruct in E. unfold m_SetNestedStruct.
    destruct (len (st_data s) <=? HeaderSize); [now apply m_clear_ok|].
    apply bind_Ok_inv in E. destruct E as (d & E2 & E). rewrite E2, bind_Ok.
    apply bind_Ok_inv in E. destruct E as (d2 & E3 & E). rewrite E3, bind_Ok. now apply m_store_ok. }
  destruct H as (h' & v' & E2 & L & A). exists h', v'. split; auto. unfold stands. rewrite L.
  split; [eapply lands_view; eauto|]. split; auto. split; auto. destruct F' as [F' _]. congruence.
Qed.

(** ** The operations of Diff on one field *)
Definition room (d : fdesc) (f : Z) (o' : option value) (c : msg) : Prop :=
  match d, flook f c, o' with
  | DStruct _, Some _, Some _ => True
  | _, _, _ => fits 0 (fset f o' c)
  end.
Definition applies (d : fdesc) : Prop := forall fuel h v n g c l f o',
  (depth d <= fuel)%nat -> numbered_ok d -> stands h v n g c -> descr l f = Some d ->
  0 <= f < Z.of_nat n -> f < 2 ^ 16 -> typed_field d (flook f c) -> typed_field d o' -> valid_opt o' ->
  overhead d + vsize f o' < 2 ^ 32 - 64 -> nested_same_size d (flook f c) o' -> room d f o' c ->
  exists h' v' o'', m_apply_ops fuel h v l (mdiff_field f d (flook f c) o') = Ok (h', v') /\
    stands h' v' n g (fset f o'' c) /\ same_field d o'' o' /\ typed_field d o'' /\
    len (wire_msg (fset f o'' c)) <= len (wire_msg c) + vsize f o' /\
    (same_size d (flook f c) o' -> in_place h v g c h' v' (fset f o'' c)).

Lemma fset_le f o' m : fsorted m -> len (wire_msg (fset f o' m)) <= len (wire_msg m) + vsize f o'.
Proof.
  intros S. rewrite len_fset by auto. pose proof (len_wire_del f m S). lia.
Qed.
Lemma nothing_applied d fuel h v n g c l f o' :
  stands h v n g c -> same_field d (flook f c) o' -> typed_field d (flook f c) ->
  exists h' v' o'', m_apply_ops fuel h v l [] = Ok (h', v') /\
    stands h' v' n g (fset f o'' c) /\ same_field d o'' o' /\ typed_field d o'' /\
    len (wire_msg (fset f o'' c)) <= len (wire_msg c) + vsize f o' /\
    (same_size d (flook f c) o' -> in_place h v g c h' v' (fset f o'' c)).
Proof.
  intros ST SF TF. exists h, v, (flook f c). split; auto. rewrite fset_same by (eapply stands_sorted; eauto).
  split; auto. split; auto. split; auto. pose proof (vsize_nonneg f o'). split; [lia|]. intros _. now apply (in_place_refl h v n).
Qed.
Lemma one_applied d fuel h v n g c l f o' op call :
  stands h v n g c -> direct call -> ok_op n 0 c call -> apply_op c call = fset f o' c ->
  (forall h v, m_apply_op fuel h v l op = m_do_op h v call) ->
  same_field d o' o' -> typed_field d o' -> (same_size d (flook f c) o' -> vsize f o' = vsize f (flook f c)) ->
  exists h' v' o'', m_apply_ops fuel h v l [op] = Ok (h', v') /\
    stands h' v' n g (fset f o'' c) /\ same_field d o'' o' /\ typed_field d o'' /\
    len (wire_msg (fset f o'' c)) <= len (wire_msg c) + vsize f o' /\
    (same_size d (flook f c) o' -> in_place h v g c h' v' (fset f o'' c)).
Proof.
  intros ST HD HO EA EO SF TF SZ. pose proof (stands_sorted _ _ _ _ _ ST) as SO.
  destruct (do_step h v n g c call ST HD HO) as (h' & v' & E & ST' & IP). rewrite EA in *.
  exists h', v', o'. cbn [m_apply_ops]. rewrite EO, E, bind_Ok. split; auto. split; auto. split; auto. split; auto.
  split; [now apply fset_le|]. intros SS. apply IP. apply size_fset; auto.
Qed.
Lemma apply_scalar k : applies (DScalar k).
Proof.
  intros fuel h v n g c l f o' Hd HN ST HL Hf Hf' HT HT' HV HB _ HR.
  pose proof (stands_sorted _ _ _ _ _ ST) as SO. cbn [mdiff_field].
  destruct (num_equal k (num_in (flook f c)) (num_in o')) eqn:E; [now apply nothing_applied|].
  assert (Rg : in_range k (num_in o')).
  { cbn [typed_field] in HT'. destruct o' as [[]|]; try contradiction; cbn [num_in valid_opt valid_value] in *.
    - destruct HT' as [-> _]. exact HV.
    - destruct k; cbn; lia. }
  assert (EA : apply_op c (OScalar f k (num_in o')) = fset f o' c).
  { cbn [apply_op]. rewrite mset_fset. f_equal. cbn [typed_field] in HT'.
    destruct o' as [[]|]; try contradiction; cbn [num_in] in *.
    - destruct HT' as [-> ->]. reflexivity.
    - now destruct k. }
  apply (one_applied _ _ _ _ _ _ _ _ _ _ _ (OScalar f k (num_in o'))); auto.
  - cbn [ok_op valid_value]. rewrite EA. repeat (split; auto).
  - intros h0 v0. destruct fuel; cbn [m_apply_op r_type r_fn r_data]; change (OpSet =? OpSet) with true; cbv iota;
      rewrite HL; cbn [m_applySet]; rewrite num_data_len, Z.ltb_irrefl, num_of_data by auto; reflexivity.
  - cbn. apply num_equal_refl.
  - cbn [same_size typed_field] in *. destruct (flook f c) as [[]|], o' as [[]|]; try contradiction; try tauto.
    intros _. cbn [vsize]. rewrite !len_wire_value. cbn [v_rest].
    destruct HT as [-> _]. destruct HT' as [-> _]. destruct (is_wide k); rewrite ?len_le_enc; reflexivity.
Qed.
Lemma apply_bytes str : applies (DBytes str).
Proof.
  intros fuel h v n g c l f o' Hd HN ST HL Hf Hf' HT HT' HV HB _ HR.
  pose proof (stands_sorted _ _ _ _ _ ST) as SO. cbn [mdiff_field]. unfold bytes_equal.
  destruct (list_eq_dec Z.eq_dec (bytes_in (flook f c)) (bytes_in o')) as [E|E]; [now apply nothing_applied|].
  assert (SZ : same_size (DBytes str) (flook f c) o' -> vsize f o' = vsize f (flook f c)).
  { cbn [same_size typed_field] in *. destruct (flook f c) as [[]|], o' as [[]|]; try contradiction; try tauto.
    intros SS. cbn [vsize]. rewrite !len_wire_blob. lia. }
  assert (RF : fits 0 (fset f o' c)) by (unfold room in HR; destruct (flook f c); exact HR).
  cbn [typed_field] in *. destruct o' as [[]|]; try contradiction; cbn [bytes_in] in *.
  - destruct HT' as [-> HT']. destruct b as [|x b]; [congruence|].
    rewrite len_cons. pose proof (len_nonneg b). replace (1 + len b =? 0) with false by lia. cbn [andb].
    apply (one_applied (DBytes str) _ _ _ _ _ _ _ _ _ _ (OBytes f str (x :: b))); auto.
    + cbn [ok_op valid_value]. repeat (split; auto); try lia.
    + intros h0 v0. destruct fuel; cbn [m_apply_op r_type r_fn r_data]; change (OpSet =? OpSet) with true; cbv iota;
        rewrite HL; reflexivity.
    + reflexivity.
    + cbn. auto.
  - change (len [] =? 0) with true. cbn [andb].
    assert (0 <? len (bytes_in (flook f c)) = true) as ->.
    { destruct (bytes_in (flook f c)) as [|x b]; [congruence|]. rewrite len_cons. pose proof (len_nonneg b). lia. }
    apply (one_applied (DBytes str) _ _ _ _ _ _ _ _ _ _ (OClear f)); auto.
    + intros h0 v0. destruct fuel; cbn [m_apply_op r_type r_fn r_data];
        change (OpClear =? OpSet) with false; change (OpClear =? OpClear) with true; cbv iota; rewrite HL; reflexivity.
    + reflexivity.
Qed.

(** ** All fields *)
Lemma m_apply_app fuel l a b h v :
  m_apply_ops fuel h v l (a ++ b) = ('(h, v) <- m_apply_ops fuel h v l a ;; m_apply_ops fuel h v l b).
Proof.
  revert h v. induction a as [|o r IH]; intros h v; cbn [app m_apply_ops]; auto.
  destruct (m_apply_op fuel h v l o) as [[h1 v1]| | |]; cbn [bind]; auto.
Qed.
Lemma descr_app l1 d l2 : descr (l1 ++ Some d :: l2) (len l1) = Some d.
Proof.
  unfold descr. pose proof (len_nonneg l1). pose proof (len_nonneg l2). rewrite len_app, len_cons.
  replace (_ && _) with true by lia. unfold len. rewrite Nat2Z.id, nth_error_app2 by lia.
  now rewrite Nat.sub_diag.
Qed.
Lemma depths_cons d l : depths (Some d :: l) = Nat.max (depth d) (depths l).
Proof. reflexivity. Qed.

(** Either every field keeps its size, or there is room for all the new values. *)
Definition roomy (i : Z) (l : mapping) (m m' c : msg) : Prop :=
  each (fun d j => same_size d (flook j m) (flook j m')) i l \/
  8 + len (wire_msg c) + vsizes i l m' < 2 ^ 32.
Definition plain (d : fdesc) (o o' : option value) : Prop :=
  match d, o, o' with DStruct _, Some _, Some _ => False | _, _, _ => True end.
Lemma same_size_vsize d f o o' :
  plain d o o' ->
  typed_field d o -> typed_field d o' -> same_size d o o' -> vsize f o' = vsize f o.
Proof.
  destruct d; unfold plain; cbn [typed_field same_size]; destruct o as [[]|], o' as [[]|]; try tauto; cbn [vsize].
  - intros _ [-> _] [-> _] _. rewrite !len_wire_value. cbn [v_rest]. destruct (is_wide k); rewrite ?len_le_enc; reflexivity.
  - intros. rewrite !len_wire_blob. lia.
Qed.
Lemma roomy_field i d r m m' h v n g c :
  stands h v n g c -> flook i c = flook i m -> typed_field d (flook i m) -> typed_field d (flook i m') ->
  roomy i (Some d :: r) m m' c -> room d i (flook i m') c.
Proof.
  intros ST E HT HT' HR. pose proof (stands_sorted _ _ _ _ _ ST) as SO.
  assert (F : fits 0 c) by (destruct ST as (_ & S & _); apply (Sim_fits _ _ _ _ _ S)). unfold fits in F.
  unfold room. rewrite E.
  assert (G : plain d (flook i m) (flook i m') -> fits 0 (fset i (flook i m') c)).
  { intros Q. destruct HR as [[HR _]|HR].
    - pose proof (same_size_vsize d i _ _ Q HT HT' HR) as Z. unfold fits.
      assert (size (fset i (flook i m') c) = size c) by (apply size_fset; auto; congruence). unfold size in *. lia.
    - cbn [vsizes] in HR. pose proof (vsizes_nonneg (i + 1) r m'). unfold fits.
      pose proof (fset_le i (flook i m') c SO). lia. }
  unfold plain in G.
  destruct d; try (apply G; exact I); destruct (flook i m), (flook i m'); try (apply G; exact I); exact I.
Qed.

Lemma fields_applied l0 fuel l2 :
  Forall (fun x => match x with Some d => applies d | None => True end) l2 ->
  forall l1 m m' h v n g c,
  l0 = l1 ++ l2 -> len l0 <= 2 ^ 16 -> len l0 <= Z.of_nat n ->
  (depths l2 <= fuel)%nat -> each (fun d _ => numbered_ok d) (len l1) l2 -> stands h v n g c ->
  (forall j, len l1 <= j -> flook j c = flook j m) ->
  each (fun d j => typed_field d (flook j m)) (len l1) l2 ->
  each (fun d j => typed_field d (flook j m')) (len l1) l2 -> valid_msg m' ->
  overheads l2 + vsizes (len l1) l2 m' < 2 ^ 32 - 64 ->
  each (fun d j => nested_same_size d (flook j m) (flook j m')) (len l1) l2 -> roomy (len l1) l2 m m' c ->
  exists h' v' c', m_apply_ops fuel h v l0 (mdiff (len l1) l2 m m') = Ok (h', v') /\
    stands h' v' n g c' /\ each (fun d j => same_field d (flook j c') (flook j m')) (len l1) l2 /\
    each (fun d j => typed_field d (flook j c')) (len l1) l2 /\
    (forall j, j < len l1 \/ len l0 <= j -> flook j c' = flook j c) /\
    len (wire_msg c') <= len (wire_msg c) + vsizes (len l1) l2 m' /\
    (each (fun d j => same_size d (flook j m) (flook j m')) (len l1) l2 -> in_place h v g c h' v' c').
Proof.
  induction 1 as [|x r Hx Hr IH]; intros l1 m m' h v n g c E0 HL Hn HD HN ST HE HT HT' V HB HS HR; cbn [mdiff].
  - exists h, v, c. split; [reflexivity|]. split; auto. split; [exact I|]. split; [exact I|]. split; auto. split; [cbn; lia|].
    intros _. now apply (in_place_refl h v n).
  - assert (E1 : l0 = (l1 ++ [x]) ++ r) by (rewrite <- app_assoc; exact E0).
    assert (L1 : len (l1 ++ [x]) = len l1 + 1) by (rewrite len_app; reflexivity).
    pose proof (len_nonneg l1). pose proof (len_nonneg r).
    assert (LL : len l0 = len l1 + 1 + len r) by (rewrite E0, len_app, len_cons; lia).
    pose proof (stands_sorted _ _ _ _ _ ST) as SO.
    destruct x as [d|].
    + destruct HN as [HN1 HN2]. destruct HT as [HT1 HT2]. destruct HT' as [HT1' HT2']. destruct HS as [HS1 HS2].
      pose proof (HE (len l1) ltac:(lia)) as EF.
      pose proof (roomy_field _ _ _ _ _ _ _ _ _ _ ST EF HT1 HT1' HR) as RM.
      cbn [vsizes] in HB. change (overheads (Some d :: r)) with (overhead d + overheads r) in *.
      rewrite depths_cons in HD. pose proof (overheads_nonneg r). pose proof (overhead_pos d).
      pose proof (vsize_nonneg (len l1) (flook (len l1) m')). pose proof (vsizes_nonneg (len l1 + 1) r m').
      destruct (Hx fuel h v n g c l0 (len l1) (flook (len l1) m')) as (h1 & v1 & o1 & A1 & A2 & A3 & AT & A4 & A5);
        try rewrite EF; auto; try lia.
      { rewrite E0. apply descr_app. }
      { apply valid_flook; auto. }
      rewrite EF in A1, A5.
      assert (FN : forall j, j <> len l1 -> flook j (fset (len l1) o1 c) = flook j c).
      { intros j Hj. rewrite flook_fset by auto. now replace (j =? len l1) with false by lia. }
      rewrite <- L1 in *.
      destruct (IH (l1 ++ [Some d]) m m' h1 v1 n g (fset (len l1) o1 c)) as (h2 & v2 & c2 & B1 & B2 & B3 & BT & B4 & B5 & B6); auto; try lia.
      { intros j Hj. rewrite FN by lia. apply HE. lia. }
      { destruct HR as [[_ HR]|HR].
        - left. rewrite L1. exact HR.
        - right. cbn [vsizes] in HR. rewrite L1 in *. lia. }
      exists h2, v2, c2. rewrite m_apply_app, A1, bind_Ok. split; [exact B1|]. split; auto. split; [|split; [|split; [|split]]].
      * split; [|rewrite <- L1; exact B3]. rewrite B4 by lia. rewrite flook_fset, Z.eqb_refl by auto. exact A3.
      * split; [|rewrite <- L1; exact BT]. rewrite B4 by lia. rewrite flook_fset, Z.eqb_refl by auto. exact AT.
      * intros j Hj. rewrite B4 by lia. apply FN. lia.
      * cbn [vsizes]. rewrite <- L1. lia.
      * intros [SS1 SS2]. eapply in_place_trans; [exact ST|apply A5; exact SS1|]. apply B6. rewrite L1. exact SS2.
    + change (overheads (None :: r)) with (overheads r) in *. cbn [vsizes] in *. rewrite <- L1 in *.
      destruct (IH (l1 ++ [None]) m m' h v n g c) as (h2 & v2 & c2 & B1 & B2 & B3 & BT & B4 & B5 & B6); auto; try (rewrite L1; assumption); try lia.
      { intros j Hj. apply HE. lia. }
      exists h2, v2, c2. split; [exact B1|]. split; auto. split; [cbn [each]; rewrite <- L1; exact B3|].
      split; [cbn [each]; rewrite <- L1; exact BT|]. split; [|split].
      * intros j Hj. apply B4. lia.
      * lia.
      * intros SS. apply B6. rewrite L1. exact SS.
Qed.

(** ** Nested structs *)
Lemma no_diff_same d : forall f o o', typed_field d o -> typed_field d o' -> mdiff_field f d o o' = [] -> same_field d o o'.
Proof.
  induction d using fdesc_rect'; intros f o o' HT HT' E; cbn [same_field].
  - cbn [mdiff_field] in E. now destruct (num_equal _ _ _).
  - cbn [mdiff_field] in E. unfold bytes_equal in E. destruct (list_eq_dec _ _ _); auto.
    destruct (_ && _); discriminate.
  - cbn [typed_field] in HT, HT'. destruct o as [[]|], o' as [[]|]; try contradiction; try discriminate; auto.
    rewrite mdiff_struct in E. destruct (mdiff 0 l m m0) eqn:EM; [|discriminate].
    destruct HT as [_ HT]. destruct HT' as [_ HT']. clear E. revert EM HT HT'. generalize 0.
    induction H as [|x r Hx Hr IH]; intros i EM HT HT'; cbn [each]; auto.
    destruct x as [d|]; cbn [mdiff] in EM.
    + apply app_eq_nil in EM. destruct EM as [EM1 EM2]. destruct HT as [HT1 HT2]. destruct HT' as [HT1' HT2'].
      split; [eapply Hx; eauto|auto].
    + auto.
  - contradiction.
Qed.
Lemma same_field_refl d : forall o, typed_field d o -> same_field d o o.
Proof.
  induction d using fdesc_rect'; intros o HT; cbn [same_field].
  - apply num_equal_refl.
  - reflexivity.
  - cbn [typed_field] in HT. destruct o as [[]|]; try contradiction; auto. destruct HT as [_ HT].
    revert HT. generalize 0. induction H as [|x r Hx Hr IH]; intros i HT; cbn [each]; auto.
    destruct x as [d|]; [|auto]. destruct HT as [HT1 HT2]. split; auto.
  - contradiction.
Qed.

Lemma applied_struct_patch fuel h v l f l' data :
  descr l f = Some (DStruct l') ->
  m_apply_op (S fuel) h v l (mkRop f OpStructPatch NoListIndex data) =
  ('(v, c) <- m_GetNestedStruct h v f (length l') ;;
   '(h, v, w) <- match c with
                 | Some w => Ok (h, v, w)
                 | None =>
                     '(h, w) <- m_New h (length l') ;;
                     '(h, v) <- m_SetNestedStruct h v f (Some (load h w)) ;;
                     Ok (h, v, w)
                 end ;;
   '(_, ops) <- read_patch data ;;
   '(h, _) <- m_apply_ops fuel h w l' ops ;;
   Ok (h, v)).
Proof.
  intros E. cbn [m_apply_op r_fn r_type r_data]. change (OpStructPatch =? OpSet) with false.
  change (OpStructPatch =? OpClear) with false. change (OpStructPatch =? OpStructPatch) with true. cbv iota.
  rewrite E.
  assert (G : forall ops h w, (fix go (h : heap) (w : vst) (ops : list rop) : res (heap * vst) :=
                      match ops with
                      | [] => Ok (h, w)
                      | o :: r => '(h, w) <- m_apply_op fuel h w l' o ;; go h w r
                      end) h w ops = m_apply_ops fuel h w l' ops).
  { induction ops as [|o r IH]; intros h0 w0; cbn [m_apply_ops]; auto.
    destruct (m_apply_op fuel h0 w0 l' o) as [[h1 w1]| | |]; cbn [bind]; auto. }
  destruct (m_GetNestedStruct h v f (length l')) as [[v1 [w|]]| | |]; cbn [bind]; auto.
  - destruct (read_patch data) as [[x ops]| | |]; cbn [bind]; auto. now rewrite G.
  - destruct (m_New h (length l')) as [[h1 w]| | |]; cbn [bind]; auto.
    destruct (m_SetNestedStruct h1 v1 f (Some (load h1 w))) as [[h2 v2]| | |]; cbn [bind]; auto.
    destruct (read_patch data) as [[x ops]| | |]; cbn [bind]; auto. now rewrite G.
Qed.

Lemma depth_struct l : depth (DStruct l) = S (depths l).
Proof. reflexivity. Qed.
Lemma apply_struct l' : Forall (fun x => match x with Some d => applies d | None => True end) l' -> applies (DStruct l').
Proof.
  intros HF fuel h v n g c l f o' Hd HN ST HL Hf Hf' HT HT' HV HB HS HR.
  pose proof (stands_sorted _ _ _ _ _ ST) as SO.
  pose proof (no_diff_same (DStruct l') f _ _ HT HT') as NS.
  assert (Hc : forall g0 m0, stands h v n g0 m0 -> 0 <= f < Z.of_nat n) by auto. clear Hc.
  destruct (mdiff_field f (DStruct l') (flook f c) o') as [|o0 r0] eqn:EM0; [now apply nothing_applied; auto|].
  rewrite <- EM0. clear NS. cbn [typed_field] in HT, HT'.
  destruct (flook f c) as [[]|] eqn:EC; try contradiction; destruct o' as [[]|]; try contradiction.
  - (* patched in place *)
    clear HR. destruct HT as [HT0 HT]. destruct HT' as [HT0' HT'].
    assert (EM : struct_ops f (mdiff 0 l' m m0) <> []) by (rewrite <- mdiff_struct, EM0; discriminate).
    rewrite mdiff_struct. apply (valid_VStruct m0) in HV. destruct HN as [HN1 HN2].
    rewrite overhead_struct in HB. cbn [vsize] in HB. rewrite wire_VStruct, len_wire_struct in HB.
    pose proof (vsizes_le 0 l' m0 (proj1 HV)). pose proof (len_nonneg (wire_msg m0)).
    destruct (mdiff_bounded l' 0 m m0) as [VO VS]; auto; try lia.
    pose proof (patch_read _ VO ltac:(lia)) as PR.
    unfold struct_ops in *. destruct (mdiff 0 l' m m0) as [|o1 r1] eqn:E1; [congruence|].
    rewrite <- E1 in *. clear EM EM0 o0 r0.
    rewrite depth_struct in Hd. destruct fuel as [|fuel]; [lia|].
    cbn [m_apply_ops]. rewrite applied_struct_patch with (l' := l') by auto.
    assert (ST' := ST). destruct ST' as (W & S & F & G).
    assert (SE : seen n c f = Some (VStruct m)) by (rewrite seen_lt by lia; exact EC).
    destruct (situation_of h v n g c f m (length l') W S F G SE) as (p' & w & EG & pre & post & SU & _ & EP & _ & _).
    rewrite EG, bind_Ok. cbn [bind]. rewrite PR, bind_Ok.
    assert (SU' := SU). destruct SU' as [SP SF SI SW SV SPR SC [SS SB] SG].
    assert (SW' : wf h (v_sl w)) by (rewrite SC; eapply sub_view; eauto).
    assert (STw : stands h w (length l') f m) by (repeat (split; auto); lia).
    cbn [nested_same_size same_size] in HS.
    assert (LN : len l' = Z.of_nat (length l')) by reflexivity.
    destruct (fields_applied l' fuel l' HF [] m m0 h w (length l') f m) as (h1 & w1 & c1 & A1 & A2 & A3 & AT & A4 & A5 & A6);
      auto; try (change (len (@nil (option fdesc))) with 0; auto; lia); try lia.
    { eapply each_impl; [|exact HS]. intros d j _ _. destruct d; cbn [nested_same_size]; auto.
      destruct (flook j m) as [[]|]; auto. destruct (flook j m0) as [[]|]; auto. }
    { left. exact HS. }
    change (len (@nil (option fdesc))) with 0 in *.
    rewrite A1, !bind_Ok. destruct (A6 HS) as (I1 & I2 & I3).
    destruct A2 as (_ & S1 & _). assert (V1 : valid_msg c1) by apply S1.
    destruct (parent_updated _ _ _ _ _ _ _ _ _ _ _ c1 SU V1 I3) as [PU PF]. rewrite <- I2 in PU, PF.
    exists h1, p', (Some (VStruct c1)). cbn [fset]. split; auto.
    assert (LW : len (wire_struct f c1) = len (wire_struct f m)) by (rewrite !len_wire_struct; exact I3).
    assert (EH : h1 = put h (v_sl v) (wire_struct g (fput f (VStruct c1) c))).
    { rewrite I2, SC, (put_sub h (v_sl p') pre (wire_struct f m) post) by auto. rewrite EP. f_equal.
      destruct SPR as (a & b & Em & Ha & Hb & E2 & E3). rewrite E2, E3.
      rewrite Em at 2. rewrite fput_mid by auto. unfold wire_struct at 2. unfold header, hdr3.
      assert (Lm : len (wire_msg (a ++ (f, VStruct c1) :: b)) = len (wire_msg c)).
      { rewrite Em. unfold wire_msg. rewrite !map_app, !concat_app. cbn [map concat fst snd].
        rewrite !len_app, !wire_VStruct. lia. }
      rewrite Lm, <- !app_assoc. do 3 f_equal.
      unfold wire_msg. rewrite map_app, concat_app. cbn [map concat fst snd].
      now rewrite wire_VStruct. }
    assert (SZ : size (fput f (VStruct c1) c) = size c).
    { apply (size_fset f (Some (VStruct c1)) c SO). rewrite EC. cbn [vsize]. rewrite !wire_VStruct. exact LW. }
    split; [|split; [|split; [|split]]].
    + split; [|auto]. rewrite EH, EP. apply wf_put; auto. rewrite len_wire_struct.
      pose proof (stands_len _ _ _ _ _ ST) as LC. destruct W as (_ & _ & W & _). unfold size in *. lia.
    + cbn [same_field]. exact A3.
    + cbn [typed_field]. split; [|exact AT]. intros ->. destruct m as [|[i x] m]; [congruence|].
      unfold size in I3. change (wire_msg ((i, x) :: m)) with (wire_value i x ++ wire_msg m) in I3.
      rewrite len_app in I3. pose proof (len_wire_value_ge i x). pose proof (len_nonneg (wire_msg m)).
      change (len (wire_msg [])) with 0 in I3. lia.
    + unfold size in SZ. pose proof (vsize_nonneg f (Some (VStruct m0))). lia.
    + intros _. split; [exact EP|]. split; [exact EH|exact SZ].
  - (* cleared *)
    cbn [mdiff_field]. rewrite <- EC.
    apply (one_applied (DStruct l') _ _ _ _ _ _ _ _ _ _ (OClear f)); auto.
    + intros h0 v0. destruct fuel; cbn [m_apply_op r_type r_fn r_data];
        change (OpClear =? OpSet) with false; change (OpClear =? OpClear) with true; cbv iota; rewrite HL; reflexivity.
    + rewrite EC. cbn. tauto.
  - (* set *)
    destruct HT' as [HT0' HT']. cbn [mdiff_field]. apply (valid_VStruct m) in HV.
    unfold room in HR. rewrite EC in HR. cbn [fset] in HR.
    assert (SN := New_spec (length l')).
    assert (FM : fits 0 m).
    { unfold fits in *. rewrite overhead_struct in HB. pose proof (overheads_nonneg l').
      cbn [vsize] in HB. rewrite wire_VStruct, len_wire_struct in HB. lia. }
    destruct (Unmarshal_wire_struct (mkStruct (hdr 0 FTStruct 8) (repeat fe_zero (length l')) false false None false [])
               (length l') f m []) as (t & E & S & _); auto; [lia|apply stale_ok_zero|].
    rewrite app_nil_r in E.
    destruct (nested_step h v n g c f (length l') t f m ST S Hf Hf') as (h1 & v1 & E1 & ST1).
    { destruct m; [congruence|]. exact HR. }
    assert (EM : mset (nil_b m) f (VStruct m) c = fset f (Some (VStruct m)) c) by (destruct m; [congruence|reflexivity]).
    rewrite EM in ST1.
    exists h1, v1, (Some (VStruct m)). split; [|split; [|split; [|split; [|split]]]]; auto.
    + cbn [m_apply_ops]. assert (m_apply_op fuel h v l (mkRop f OpSet NoListIndex (wire_struct f m)) = Ok (h1, v1)) as ->.
      { destruct fuel; cbn [m_apply_op r_type r_fn r_data]; change (OpSet =? OpSet) with true; cbv iota;
          rewrite HL; cbn [m_applySet]; rewrite SN, bind_Ok, E, bind_Ok; exact E1. }
      reflexivity.
    + apply same_field_refl. cbn. auto.
    + cbn. auto.
    + now apply fset_le.
    + cbn. tauto.
  - discriminate EM0.
Qed.
Lemma all_apply d : applies d.
Proof.
  induction d using fdesc_rect'; auto using apply_scalar, apply_bytes, apply_struct.
  intros fuel h v n g c l f o' _ _ _ _ _ _ [].
Qed.

(** Apply of Diff. *)
Lemma apply_diff l h v g c m' :
  len l <= 2 ^ 16 -> (depths l <= MaxPatchNestingDepth)%nat -> each_field (fun d _ => numbered_ok d) l ->
  stands h v (length l) g c -> typed l c -> typed l m' -> valid_msg m' ->
  overheads l + len (wire_msg m') < 2 ^ 32 - 64 -> 8 + len (wire_msg c) + len (wire_msg m') < 2 ^ 32 ->
  each_field (fun d j => nested_same_size d (flook j c) (flook j m')) l ->
  exists h' v' c', m_apply_ops MaxPatchNestingDepth h v l (mdiff 0 l c m') = Ok (h', v') /\
    stands h' v' (length l) g c' /\ same_message l c' m' /\ typed l c' /\
    (forall j, j < 0 \/ len l <= j -> flook j c' = flook j c).
Proof.
  intros HL HD HN ST HT HT' V HB HR HS. pose proof (vsizes_le 0 l m' (proj1 V)).
  assert (LN : len l = Z.of_nat (length l)) by reflexivity.
  destruct (fields_applied l MaxPatchNestingDepth l) with (l1 := @nil (option fdesc)) (m := c) (m' := m') (h := h) (v := v)
     (n := length l) (g := g) (c := c) as (h1 & w1 & c1 & A1 & A2 & A3 & AT & A4 & A5 & A6); auto;
     try (change (len (@nil (option fdesc))) with 0; auto; lia); try lia.
  - apply Forall_forall. intros [d|] _; [apply all_apply|exact I].
  - right. change (len (@nil (option fdesc))) with 0. lia.
  - exists h1, w1, c1. auto.
Qed.
