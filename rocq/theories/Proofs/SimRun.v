(** The simulation for whole histories. *)
From Verif.Proofs Require Export SimLemmas.

Lemma nil_b_len {A} (l : list A) : (len l =? 0) = nil_b l.
Proof. destruct l; cbn [nil_b]; [reflexivity|]. rewrite len_cons. pose proof (len_nonneg l). lia. Qed.

Lemma Sim_data s n m : Sim s n root3 m [] -> st_data s = wire m.
Proof.
  intros [R _]. rewrite (rep_data _ _ _ _ _ R), body_enc, app_nil_r.
  change (len (@nil Z)) with 0. rewrite Z.add_0_r.
  unfold wire, wire_struct, header, root3. now rewrite <- !app_assoc.
Qed.
Lemma Sim_New n : exists s, New n = Ok s /\ Sim s n root3 [] [] /\ st_isSetOn s = false.
Proof.
  rewrite New_spec. eexists. split; [reflexivity|]. split; [|reflexivity].
  split; [|split; constructor]. apply Rep_New, New_spec.
Qed.
Lemma wire_msg_nil_iff m : (len (wire m) <=? HeaderSize) = nil_b m.
Proof.
  unfold wire. rewrite len_wire_struct. change HeaderSize with 8. destruct m as [|[f v] m]; auto.
  cbn [nil_b wire_msg map concat fst snd]. rewrite len_app.
  pose proof (len_wire_value_ge f v). pose proof (len_nonneg (concat (map (fun p => wire_value (fst p) (snd p)) m))). lia.
Qed.
Lemma drop_wire f m : drop 8 (wire_struct f m) = wire_msg m.
Proof. rewrite wire_struct_hdr. apply drop_app_exact. now rewrite len_hdr. Qed.

Definition op_sim (o : op) : Prop :=
  forall s n h3 m tail,
    Sim s n h3 m tail -> ok_op n (len tail) m o -> (o = OMarshal -> st_isSetOn s = false) ->
    exists s', do_op s o = Ok s' /\ Sim s' n h3 (apply_op m o) tail /\ same_flags s s'.

Lemma run_sim_of l :
  Forall op_sim l ->
  forall s n h3 m tail,
    Sim s n h3 m tail -> ok_run n (len tail) m l ->
    (In OMarshal l -> st_isSetOn s = false) ->
    exists s', run s l = Ok s' /\ Sim s' n h3 (sem m l) tail /\ same_flags s s'.
Proof.
  induction 1 as [|o l Ho Hl IH]; intros s n h3 m tail HS HK HM.
  - exists s. cbn. split; auto. split; auto. apply same_flags_refl.
  - cbn [ok_run] in HK. destruct HK as [HK1 HK2]. cbn [run sem].
    destruct (Ho s n h3 m tail HS HK1) as (s1 & E1 & S1 & F1).
    { intros ->. apply HM. now left. }
    rewrite E1, bind_Ok.
    destruct (IH s1 n h3 _ tail S1 HK2) as (s2 & E2 & S2 & F2).
    { intros. destruct F1 as [-> _]. apply HM. now right. }
    exists s2. split; auto. split; auto. eapply same_flags_trans; eauto.
Qed.
Lemma build_sim_of n l :
  Forall op_sim l -> ok_run n 0 [] l ->
  exists s, build n l = Ok s /\ Sim s n root3 (sem [] l) [] /\ st_isSetOn s = false.
Proof.
  intros HF HK. destruct (Sim_New n) as (s0 & E0 & S0 & F0). unfold build. rewrite E0, bind_Ok.
  destruct (run_sim_of l HF s0 n root3 [] [] S0 HK) as (s & E & S & F & _); auto.
  exists s. split; auto. split; auto. congruence.
Qed.
Lemma build_all_sim_of n l :
  Forall (Forall op_sim) l -> Forall (ok_run n 0 []) l ->
  exists items, build_all n l = Ok items /\
    Forall2 (fun s c => Sim s n root3 (sem [] c) [] /\ st_isSetOn s = false) items l.
Proof.
  intros HF HK. induction HF as [|c r Hc Hr IH]; inv HK.
  - exists []. split; auto.
  - destruct (build_sim_of n c Hc H1) as (s & E & S). destruct (IH H2) as (ss & E' & SS).
    exists (s :: ss). change (build_all n (c :: r)) with (x <- build n c ;; xs <- build_all n r ;; Ok (x :: xs)).
    rewrite E, bind_Ok, E', bind_Ok.
    split; auto.
Qed.

Lemma Sim_set (s : strct) n h3 m tail f v (b : bool) (r : res strct) w :
  Sim s n h3 m tail -> 0 <= f < Z.of_nat n -> f < 2 ^ 16 -> valid_value v ->
  fits (len tail) (mset b f v m) ->
  (b = true -> r = removeField s f) ->
  (b = false -> len (wire_value f v) < 2 ^ 32 -> w = Ok (wire_value f v)) ->
  (b = false -> r = (x <- w ;; insertField s f x)) ->
  exists s', r = Ok s' /\ Sim s' n h3 (mset b f v m) tail /\ same_flags s s'.
Proof.
  intros HS Hf Hf' HV HF H1 H2 H3. destruct b; cbn [mset] in *.
  - rewrite H1 by auto. destruct (Sim_remove _ _ _ _ _ _ HS Hf) as (s' & E & S & F & _).
    exists s'. auto.
  - rewrite H3 by auto. rewrite H2; auto.
    + rewrite bind_Ok. destruct (Sim_insert s n h3 m tail f v) as (s' & E & S & F & _); auto.
      exists s'. auto.
    + eapply fits_value; eauto. { destruct HS as [_ [? _]]; auto. } apply len_nonneg.
Qed.
Lemma Sim_set' (s : strct) n h3 m tail f v (b : bool) (r : res strct) rec w :
  Sim s n h3 m tail -> 0 <= f < Z.of_nat n -> f < 2 ^ 16 -> valid_value v ->
  fits (len tail) (mset b f v m) ->
  (b = true -> r = clear_scalar s f) ->
  (b = false -> len (wire_value f v) < 2 ^ 32 -> w = Ok (wire_value f v)) ->
  (b = false -> r = (x <- w ;; store_field s f x (rec x))) ->
  exists s', r = Ok s' /\ Sim s' n h3 (mset b f v m) tail /\ same_flags s s'.
Proof.
  intros HS Hf Hf' HV HF H1 H2 H3. destruct b; cbn [mset] in *.
  - rewrite H1 by auto. apply Sim_clear; auto.
  - rewrite H3 by auto. rewrite H2; auto.
    + rewrite bind_Ok. apply Sim_store; auto.
    + eapply fits_value; eauto. { destruct HS as [_ [? _]]; auto. } apply len_nonneg.
Qed.

Theorem op_sim_all o : op_sim o.
Proof.
  induction o using op_ind'; intros s n0 h3 m tail HS HK HM.
  - (* ONested *)
    apply ok_ONested in HK. destruct HK as ((Hf & Hf' & HF) & HR).
    destruct (build_sim_of n l H HR) as (c & EC & SC & _).
    rewrite do_ONested, EC, bind_Ok. rewrite apply_ONested in *.
    set (mc := sem [] l) in *.
    pose proof (Sim_data c n mc SC) as ED. cbn [SetNestedStruct]. rewrite ED, wire_msg_nil_iff.
    eapply (Sim_set' s n0 h3 m tail f (VStruct mc) (nil_b mc) _ (fun _ => wire mc)
             (data <- EncodeHeader (zeros (len (drop 8 (wire mc)) + 8)) f FTStruct (len (drop 8 (wire mc)) + 8) ;;
              copy_at data 8 (drop 8 (wire mc)))); auto.
    + destruct SC as [_ V]. now apply valid_VStruct.
    + intros ->. reflexivity.
    + intros _ HL. rewrite len_wire_value in HL. cbn [v_rest] in HL. unfold wire. rewrite drop_wire.
      pose proof (len_nonneg (wire_msg mc)). rewrite EncodeHeader_zeros by lia. rewrite bind_Ok.
      replace (len (wire_msg mc) + 8 - 8) with (len (wire_msg mc)) by lia.
      rewrite copy_at_all by (rewrite ?len_hdr; auto).
      rewrite wire_VStruct, wire_struct_hdr. now rewrite Z.add_comm.
    + intros ->. change HeaderSize with 8.
      destruct (EncodeHeader _ _ _ _) as [d| | |]; cbn [bind]; auto.
  - (* OStructs *)
    apply ok_OStructs in HK. destruct HK as ((Hf & Hf' & HF) & HR).
    destruct (build_all_sim_of n l H HR) as (items & EI & SI).
    rewrite do_OStructs, EI, bind_Ok. rewrite apply_OStructs in *.
    set (ms := map (sem []) l) in *.
    assert (ED : map st_data items = map (fun p => wire_struct (fst p) (snd p)) (combine (repeat 0 (length ms)) ms)).
    { unfold ms. clear - SI. induction SI as [|a c ra rc [Ha _] Hr IH]; auto.
      cbn. rewrite (Sim_data _ _ _ Ha), IH. reflexivity. }
    assert (LI : nil_b items = nil_b l) by (inv SI; auto).
    assert (VM : Forall valid_msg ms).
    { unfold ms. clear - SI. apply Forall_map. induction SI as [|a c ra rc [[_ V] _] Hr IH]; auto. }
    eapply (Sim_set s n0 h3 m tail f (VStructs ms) (nil_b l) _
             (p <- structs_field f (map st_data items) ;; Ok (snd p))); auto.
    + now apply valid_VStructs.
    + intros E. unfold sync_structs. rewrite nil_b_len, LI, E.
      destruct (removeField s f); reflexivity.
    + intros E HL. rewrite ED.
      destruct (structs_field_spec f ms (repeat 0 (length ms))) as (i' & Ei & _); auto.
      { apply repeat_length. }
      rewrite Ei, bind_Ok. reflexivity.
    + intros E. unfold sync_structs. rewrite nil_b_len, LI, E.
      destruct (structs_field f (map st_data items)) as [[a b]| | |]; cbn [bind snd]; auto.
      destruct (insertField s f b); reflexivity.
  - (* OAny *)
    apply ok_OAny in HK. destruct HK as ((Hf & Hf' & H16 & HB & HF) & HR).
    destruct (build_sim_of n l H HR) as (c & EC & SC & _).
    rewrite do_OAny, EC, bind_Ok. rewrite apply_OAny in *. set (mc := sem [] l) in *.
    pose proof (Sim_data c n mc SC) as ED. cbn [SetAny]. rewrite ED.
    eapply (Sim_set' s n0 h3 m tail f (VAny h (wire mc)) false _ _ (any_field f h (wire mc))); auto.
    + cbn [valid_value]. repeat split; auto. destruct SC as [_ V]. apply wire_struct_bytes; auto.
    + discriminate.
    + intros _ HL. apply any_field_spec; auto.
    + intros _. reflexivity.
  - (* OScalar *)
    cbn [ok_op apply_op do_op] in *. destruct HK as (Hf & Hf' & HV & HF). cbn [valid_value] in HV.
    destruct (set_scalar_spec s f k v HV) as (rec & E). rewrite E.
    eapply (Sim_set' s n0 h3 m tail f (VScalar k v) _ _ (fun _ => rec) (Ok (wire_value f (VScalar k v)))); auto.
    + intros ->; reflexivity.
    + intros ->. reflexivity.
  - (* OBytes *)
    cbn [ok_op apply_op do_op] in *. destruct HK as (Hf & Hf' & HV & HF).
    assert (E : (if str then SetStringAsBytes s f b else SetBytes s f b) =
       if nil_b b then clear_scalar s f else
         (data <- bytes_field f (if str then FTString else FTBytes) b ;; store_field s f data b)).
    { unfold SetStringAsBytes, SetBytes. rewrite nil_b_len. destruct str; reflexivity. }
    rewrite E.
    eapply (Sim_set' s n0 h3 m tail f (VBytes str b) _ _ (fun _ => b) (bytes_field f (if str then FTString else FTBytes) b)); auto.
    + intros ->; reflexivity.
    + intros _ HL. now apply bytes_field_spec.
    + intros ->. reflexivity.
  - (* OClear *)
    cbn [ok_op apply_op do_op] in *. destruct (Sim_remove s n0 h3 m tail f HS HK) as (s' & E & S & F & _).
    exists s'; auto.
  - (* ORead *)
    cbn [ok_op apply_op do_op] in *. destruct HS as [R V].
    destruct (rep_index _ _ _ _ _ R) as (s' & E & Es). exists s'. split; auto.
    split; [split; auto; eapply Rep_ensure; eauto|].
    subst s'. split; auto. cbn. destruct (st_isSet s); auto.
  - (* OMarshal *)
    cbn [ok_op apply_op do_op] in *. unfold Marshal. rewrite (HM eq_refl).
    destruct HS as [R V]. pose proof (rep_data _ _ _ _ _ R) as ED.
    rewrite ED. destruct (rep_h3 _ _ _ _ _ R) as [H3 H3'].
    pose proof (rep_size _ _ _ _ _ R).
    rewrite updateHeaderSize_spec; auto; [|rewrite len_app; lia].
    rewrite bind_Ok. rewrite len_app, Z.add_assoc, bind_Ok.
    eexists. split; [reflexivity|]. split.
    + split; auto. eapply Rep_ext; eauto.
    + split; auto. cbn. destruct (st_isSet s); auto.
  - (* ORecord *)
    cbn [ok_op apply_op do_op] in *. eexists. split; [reflexivity|]. split.
    + eapply Sim_ext; eauto.
    + split; auto. cbn. destruct (st_isSet s); auto.
  - (* ODrain *)
    cbn [ok_op apply_op do_op] in *. eexists. split; [reflexivity|]. split.
    + eapply Sim_ext; eauto.
    + split; auto. cbn. destruct (st_isSet s); auto.
  - (* ONil *)
    cbn [ok_op apply_op do_op SetNestedStruct] in *. now apply Sim_clear.
  - (* OBools *)
    cbn [ok_op apply_op do_op] in *. destruct HK as (Hf & Hf' & HV & HF).
    unfold sync_bools. rewrite nil_b_len.
    eapply (Sim_set s n0 h3 m tail f (VBools l) _ _ (bools_field f l)); auto.
    + intros ->; reflexivity.
    + intros _ HL. now apply bools_field_spec.
    + intros ->; reflexivity.
  - (* ONums *)
    cbn [ok_op apply_op do_op] in *. destruct HK as (Hf & Hf' & HV & HF).
    unfold sync_numbers. unfold nu_setall. cbn [nu_len nu_data]. rewrite nil_b_len.
    rewrite append_items_spec. cbn [app].
    eapply (Sim_set s n0 h3 m tail f (VNums k l) _ _ (numbers_field f k (nums_data k l))); auto.
    + intros ->; reflexivity.
    + intros _ HL. apply numbers_field_spec; auto. apply HV.
    + intros ->; reflexivity.
  - (* OBlobs *)
    cbn [ok_op apply_op do_op] in *. destruct HK as (Hf & Hf' & HV & HF).
    unfold sync_blobs. rewrite nil_b_len.
    eapply (Sim_set s n0 h3 m tail f (VBlobs str l) _ _ (blobs_field f (if str then FTListStrings else FTListBytes) l)); auto.
    + intros ->; reflexivity.
    + intros _ HL. now apply blobs_field_spec.
    + intros ->; reflexivity.
  - (* OAnyRaw *)
    cbn [ok_op apply_op do_op] in *. destruct HK as (Hf & Hf' & HV & HF).
    unfold SetAnyRaw. rewrite nil_b_len. pose proof HV as (H16 & _).
    change AnyHashSize with 16. rewrite H16. cbn [Z.eqb Pos.eqb negb].
    eapply (Sim_set' s n0 h3 m tail f (VAny h r) _ _ _ (any_field f h r)); auto.
    + intros ->; reflexivity.
    + intros _ HL. now apply any_field_spec.
    + intros ->. reflexivity.
  - (* OAnys *)
    cbn [ok_op apply_op do_op] in *. destruct HK as (Hf & Hf' & HV & HF).
    unfold SetListAnyRaw. rewrite nil_b_len.
    assert (EA : forallb (fun it : bytes * bytes => len (fst it) =? AnyHashSize) l = true).
    { apply forallb_forall. intros x Hx. cbn [valid_value] in HV. rewrite Forall_forall in HV.
      destruct (HV x Hx) as (E & _). rewrite E. reflexivity. }
    rewrite EA.
    eapply (Sim_set' s n0 h3 m tail f (VAnys l) _ _ _ (anys_field f l)); auto.
    + intros ->; reflexivity.
    + intros _ HL. now apply anys_field_spec.
    + intros ->. reflexivity.
  - (* OMap *)
    cbn [ok_op apply_op do_op] in *. destruct HK as (Hf & Hf' & HV & HF).
    unfold sync_map. rewrite nil_b_len.
    eapply (Sim_set s n0 h3 m tail f (VMap kt vt e) _ _ (map_field f kt vt e)); auto.
    + intros ->; reflexivity.
    + intros _ _. now apply map_field_spec.
    + intros ->; reflexivity.
Qed.

Lemma all_op_sim l : Forall op_sim l.
Proof. apply Forall_forall. intros. apply op_sim_all. Qed.
Lemma run_sim l s n h3 m tail :
  Sim s n h3 m tail -> ok_run n (len tail) m l -> (In OMarshal l -> st_isSetOn s = false) ->
  exists s', run s l = Ok s' /\ Sim s' n h3 (sem m l) tail /\ same_flags s s'.
Proof. apply run_sim_of, all_op_sim. Qed.
Lemma build_sim n l :
  ok_run n 0 [] l -> exists s, build n l = Ok s /\ Sim s n root3 (sem [] l) [] /\ st_isSetOn s = false.
Proof. apply build_sim_of, all_op_sim. Qed.
