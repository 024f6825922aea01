(** Every API call refines its abstract effect on the message. *)
From Verif.Proofs Require Export BuildLemmas.

(** Bytes written are bytes. *)
Lemma is_bytes_concat (l : list bytes) : Forall is_bytes l -> is_bytes (concat l).
Proof. induction 1; cbn; [constructor|]. apply is_bytes_app; auto. Qed.
Lemma padded_bytes b : is_bytes b -> is_bytes (padded b).
Proof. intros. apply is_bytes_app. split; auto. apply is_bytes_zeros. Qed.
Lemma bit_bytes_bytes l : is_bytes (bit_bytes l).
Proof.
  unfold bit_bytes, is_bytes. apply Forall_map, Forall_forall. intros i _.
  pose proof (bits_byte_range (firstn 8 (skipn (8 * i) l))) as R.
  rewrite firstn_length in R.
  assert (2 ^ Z.of_nat (Nat.min 8 (length (skipn (8 * i) l))) <= 2 ^ 8)
    by (apply Z.pow_le_mono_r; lia).
  unfold is_byte. change (2 ^ 8) with 256 in *. lia.
Qed.
Lemma wire_bytes f v : valid_value v -> is_bytes (wire_value f v).
Proof.
  revert f. induction v using value_ind'; intros f HV; rewrite wire_form;
    apply is_bytes_app; (split; [apply hdr_bytes|]); cbn [v_rest]; cbn [valid_value] in HV.
  - destruct (is_wide k); [apply le_enc_bytes|constructor].
  - apply padded_bytes, HV.
  - apply padded_bytes, bit_bytes_bytes.
  - unfold nums_data. apply is_bytes_concat, Forall_map, Forall_forall. intros. apply le_enc_bytes.
  - apply padded_bytes, is_bytes_concat, Forall_map. eapply Forall_impl; [|exact HV].
    intros b Hb. apply is_bytes_app. split; [apply le_enc_bytes|auto].
  - change (valid_value (VStruct m)) in HV. apply valid_VStruct in HV. destruct HV as [_ HV].
    unfold wire_msg. apply is_bytes_concat, Forall_map.
    rewrite Forall_forall in *. intros p Hp. apply H; auto. apply HV; auto.
  - change (valid_value (VStructs l)) in HV. apply valid_VStructs in HV.
    generalize 0 as i. induction l as [|m l IH]; intros i; cbn [wire_items]; [constructor|].
    inv HV. inv H. apply is_bytes_app. split; auto.
    rewrite wire_struct_hdr. apply is_bytes_app. split; [apply hdr_bytes|].
    destruct H2 as [_ H2]. unfold wire_msg. apply is_bytes_concat, Forall_map.
    rewrite Forall_forall in *. intros p Hp. apply H4; auto. apply H2; auto.
  - apply is_bytes_app. destruct HV as (? & ? & ?). split; assumption.
  - apply is_bytes_concat, Forall_map. eapply Forall_impl; [|exact HV].
    intros p (? & ? & ? & _). apply is_bytes_app. split; assumption.
  - apply padded_bytes. destruct HV as (? & ? & ? & _). assumption.
Qed.
Lemma wire_msg_bytes m : valid_msg m -> is_bytes (wire_msg m).
Proof.
  intros HV. apply valid_VStruct in HV. pose proof (wire_bytes 0 _ HV) as H.
  rewrite wire_VStruct, wire_struct_hdr in H. apply is_bytes_app in H. apply H.
Qed.
Lemma wire_struct_bytes f m : valid_msg m -> is_bytes (wire_struct f m).
Proof. intros. rewrite <- wire_VStruct. apply wire_bytes, valid_VStruct; auto. Qed.

(** ** The simulation relation *)

Definition Sim (s : strct) (n : nat) (h3 : bytes) (m : msg) (tail : bytes) : Prop :=
  Rep s n h3 (enc m) tail /\ valid_msg m.

Lemma valid_sorted m : valid_msg m -> fsorted m.
Proof. now intros [H _]. Qed.
Lemma valid_put f v m : 0 <= f < 2 ^ 16 -> valid_value v -> valid_msg m -> valid_msg (fput f v m).
Proof.
  intros Hf HV [HS HA]. split; [now apply fput_sorted|].
  destruct (fput_form f v m HS) as (l & r & old & E1 & E2 & _). rewrite E2.
  rewrite E1 in HA. apply Forall_app in HA. destruct HA as [HA HB]. apply Forall_app in HB.
  apply Forall_app. split; auto. constructor; [cbn; auto|]. apply HB.
Qed.
Lemma valid_del f m : valid_msg m -> valid_msg (fdel f m).
Proof.
  intros [HS HA]. split; [now apply fdel_sorted|].
  rewrite Forall_forall in *. intros x Hx. apply HA.
  clear - Hx. induction m as [|[g c] m IH]; cbn in *; auto.
  destruct (f =? g); cbn in *; tauto.
Qed.
Lemma enc_put f v m : enc (fput f v m) = fput f (wire_value f v) (enc m).
Proof. apply fput_map. Qed.
Lemma enc_del f m : enc (fdel f m) = fdel f (enc m).
Proof. apply fdel_map. Qed.
Lemma rsize_enc m tail : rsize (enc m) tail = 8 + len (wire_msg m) + len tail.
Proof. unfold rsize. now rewrite body_enc. Qed.

Lemma fits_value f v m t :
  fsorted m -> fits t (fput f v m) -> 0 <= t -> len (wire_value f v) < 2 ^ 32.
Proof.
  unfold fits. intros HS H Ht. destruct (fput_form f v m HS) as (l & r & old & _ & E & _).
  rewrite E in H. rewrite <- body_enc in H. unfold enc, fmap_val in H. rewrite map_app in H.
  rewrite body_app, len_app in H. cbn [map] in H. rewrite body_cons, len_app in H. cbn [fst snd] in H.
  match type of H with 8 + (len ?a + (_ + len ?b)) + _ < _ =>
    pose proof (len_nonneg a); pose proof (len_nonneg b) end. lia.
Qed.

(** What a call leaves alone besides the message. *)
Definition same_flags (s s' : strct) : Prop :=
  st_isSetOn s' = st_isSetOn s /\
  match st_isSet s, st_isSet s' with
  | Some a, Some b => len a = len b /\ (is_bytes a -> is_bytes b)
  | None, None => True
  | _, _ => False
  end.
Lemma same_flags_refl s : same_flags s s.
Proof. split; auto. destruct (st_isSet s); auto. Qed.
Lemma same_flags_trans a b c : same_flags a b -> same_flags b c -> same_flags a c.
Proof.
  intros [H1 H2] [H3 H4]. split; [congruence|].
  destruct (st_isSet a), (st_isSet b), (st_isSet c); try tauto.
  destruct H2, H4. split; [congruence|auto].
Qed.

Lemma markFieldSet_parts s f :
  st_data (markFieldSet s f) = st_data s /\ st_index (markFieldSet s f) = st_index s /\
  st_parsed (markFieldSet s f) = st_parsed s /\ st_recording (markFieldSet s f) = st_recording s /\
  st_ops (markFieldSet s f) = st_ops s /\
  same_flags s (markFieldSet s f).
Proof.
  unfold markFieldSet, same_flags.
  destruct (st_isSetOn s) eqn:E0, (st_isSet s) as [l|] eqn:E1;
    try (rewrite ?E0, ?E1; repeat split; auto; fail).
  destruct (f / 7 <? len l) eqn:E2; [|rewrite ?E0, ?E1; repeat split; auto].
  destruct (nth_error l (Z.to_nat (f / 7))) eqn:E3; [|rewrite ?E0, ?E1; repeat split; auto].
  cbn. repeat split; auto.
  - now rewrite len_upd.
  - intros HB. unfold is_bytes, upd in *.
    assert (Hz : is_byte z).
    { rewrite Forall_forall in HB. apply HB. eapply nth_error_In; eauto. }
    assert (is_byte (Z.lor z (u8 (Z.shiftl 1 (f mod 7))))).
    { unfold is_byte, u8 in *. set (w := Z.shiftl 1 (f mod 7) mod 2 ^ 8).
      assert (0 <= w < 2 ^ 8) by (apply Z.mod_pos_bound; lia).
      change 256 with (2 ^ 8) in *. split; [apply Z.lor_nonneg; lia|].
      destruct (Z.eq_dec (Z.lor z w) 0) as [->|N]; [lia|].
      assert (0 <= Z.lor z w) by (apply Z.lor_nonneg; lia).
      apply Z.log2_lt_pow2; [lia|]. rewrite Z.log2_lor by lia.
      apply Z.max_lub_lt.
      - destruct (Z.eq_dec z 0) as [->|]; [cbn; lia|]. apply Z.log2_lt_pow2; lia.
      - destruct (Z.eq_dec w 0) as [->|]; [cbn; lia|]. apply Z.log2_lt_pow2; lia. }
    clear - HB H. revert HB. generalize (Z.to_nat (f / 7)) as k. revert l.
    induction l as [|x l IH]; intros k HB.
    { destruct k; constructor. }
    inv HB. destruct k; constructor; auto.
Qed.

Lemma RecordOp_parts s o :
  st_data (RecordOp s o) = st_data s /\ st_index (RecordOp s o) = st_index s /\
  st_parsed (RecordOp s o) = st_parsed s /\ same_flags s (RecordOp s o).
Proof.
  unfold RecordOp, same_flags. destruct (st_recording s); cbn; repeat split; auto; destruct (st_isSet s); auto.
Qed.

Lemma Sim_ext s s' n h3 m tail :
  Sim s n h3 m tail -> st_data s' = st_data s -> st_index s' = st_index s ->
  st_parsed s' = st_parsed s -> Sim s' n h3 m tail.
Proof. intros [H V] A B C. split; auto. eapply Rep_ext; eauto. Qed.

Lemma Sim_insert s n h3 m tail f v :
  Sim s n h3 m tail -> 0 <= f < Z.of_nat n -> f < 2 ^ 16 -> valid_value v ->
  fits (len tail) (fput f v m) ->
  exists s', insertField s f (wire_value f v) = Ok s' /\ Sim s' n h3 (fput f v m) tail /\ same_flags s s'
    /\ st_recording s' = st_recording s /\ st_ops s' = st_ops s.
Proof.
  intros [HR HV] Hf Hf' Hv Hs.
  destruct (Rep_insertField s n h3 (enc m) tail f (wire_value f v)) as (s' & E & R & Es); auto.
  { apply len_wire_value_ge. }
  { rewrite <- enc_put, rsize_enc. exact Hs. }
  exists s'. split; auto. split; [|split].
  - split; [rewrite enc_put; auto|]. apply valid_put; auto; lia.
  - rewrite Es. split; auto. cbn. destruct (st_isSet s); auto.
  - rewrite Es. auto.
Qed.
Lemma Sim_remove s n h3 m tail f :
  Sim s n h3 m tail -> 0 <= f < Z.of_nat n ->
  exists s', removeField s f = Ok s' /\ Sim s' n h3 (fdel f m) tail /\ same_flags s s'
    /\ st_recording s' = st_recording s /\ st_ops s' = st_ops s.
Proof.
  intros [HR HV] Hf.
  destruct (Rep_removeField s n h3 (enc m) tail f) as (s' & E & R & Es); auto; [lia|].
  replace (f <? Z.of_nat n) with true in * by lia.
  exists s'. split; auto. split; [|split].
  - split; [rewrite enc_del; auto|]. apply valid_del; auto.
  - rewrite Es. split; auto. cbn. destruct (st_isSet s); auto.
  - rewrite Es. auto.
Qed.

Lemma Sim_clear s n h3 m tail f :
  Sim s n h3 m tail -> 0 <= f < Z.of_nat n ->
  exists s', clear_scalar s f = Ok s' /\ Sim s' n h3 (fdel f m) tail /\ same_flags s s'.
Proof.
  intros HS Hf. destruct (Sim_remove s n h3 m tail f HS Hf) as (s' & E & S' & F & _).
  unfold clear_scalar. rewrite E, bind_Ok.
  destruct (st_recording s'); [|exists s'; auto].
  destruct (RecordOp_parts s' (mkRop f OpClear NoListIndex [])) as (A & B & C & D).
  eexists. split; [reflexivity|]. split; [eapply Sim_ext; eauto|eapply same_flags_trans; eauto].
Qed.
Lemma Sim_store s n h3 m tail f v rec :
  Sim s n h3 m tail -> 0 <= f < Z.of_nat n -> f < 2 ^ 16 -> valid_value v ->
  fits (len tail) (fput f v m) ->
  exists s', store_field s f (wire_value f v) rec = Ok s' /\ Sim s' n h3 (fput f v m) tail /\ same_flags s s'.
Proof.
  intros HS Hf Hf' Hv Hs.
  destruct (Sim_insert s n h3 m tail f v HS Hf Hf' Hv Hs) as (s' & E & S' & F & _).
  unfold store_field. rewrite E, bind_Ok.
  destruct (markFieldSet_parts s' f) as (A1 & A2 & A3 & _ & _ & A5).
  set (s1 := markFieldSet s' f) in *.
  assert (S1 : Sim s1 n h3 (fput f v m) tail) by (eapply Sim_ext; eauto).
  destruct (st_recording s1).
  - destruct (RecordOp_parts s1 (mkRop f OpSet NoListIndex rec)) as (A & B & C & D).
    eexists. split; [reflexivity|]. split; [eapply Sim_ext; eauto|].
    eapply same_flags_trans; [exact F|]. eapply same_flags_trans; eauto.
  - eexists. split; [reflexivity|]. split; auto. eapply same_flags_trans; eauto.
Qed.

(** ** Scalars *)
Lemma u_small n v : 0 <= v < 2 ^ n -> v mod 2 ^ n = v.
Proof. intros. now apply Z.mod_small. Qed.

Lemma EncodeHeader_hdr f ft x :
  0 <= x < 2 ^ 40 -> EncodeHeader (zeros HeaderSize) f ft x = Ok (hdr f ft x).
Proof. intros. rewrite EncodeHeader_zeros by (auto; change HeaderSize with 8; lia). now rewrite app_nil_r. Qed.

(** Each scalar setter is: clear on zero, otherwise store the wire form. *)
Lemma set_scalar_spec s f k v :
  in_range k v ->
  exists rec, set_scalar s f k v =
    if is_zero k v then clear_scalar s f else store_field s f (wire_value f (VScalar k v)) rec.
Proof.
  intros HR.
  assert (W : forall ft w, hdr f ft 0 ++ le_enc 8 (w mod 2 ^ 64) = hdr f ft 0 ++ le_enc 8 w).
  { intros. f_equal. change (2 ^ 64) with (256 ^ Z.of_nat 8). apply le_enc_mod. }
  destruct k; cbn [in_range] in HR; cbn [set_scalar is_zero wire_value is_wide kind_size Nat.eqb scalar_type];
    rewrite ?header_hdr.
  - exists [1]. unfold SetBool. destruct (Z.eqb_spec v 1) as [->|].
    + cbn [negb]. change (1 =? 0) with false. now rewrite EncodeHeader_hdr.
    + replace v with 0 by lia. reflexivity.
  - exists (le_enc 1 v). unfold SetInt8. destruct (v =? 0); auto.
    unfold u8. rewrite EncodeHeader_hdr; [reflexivity|]. pose proof (Z.mod_pos_bound v (2 ^ 8)). lia.
  - exists (le_enc 2 v). unfold SetInt16. destruct (v =? 0); auto.
    unfold u16. rewrite EncodeHeader_hdr; [reflexivity|]. pose proof (Z.mod_pos_bound v (2 ^ 16)). lia.
  - exists (le_enc 4 v). unfold SetInt32. destruct (v =? 0); auto.
    unfold u32. rewrite EncodeHeader_hdr; [reflexivity|]. pose proof (Z.mod_pos_bound v (2 ^ 32)). lia.
  - exists (le_enc 8 v). unfold SetInt64. destruct (v =? 0); auto.
    unfold u64. rewrite wide_field_spec, W. reflexivity.
  - exists (le_enc 1 v). unfold SetUint8. destruct (v =? 0); auto.
    rewrite EncodeHeader_hdr by lia. rewrite Z.mod_small by (cbn; lia). reflexivity.
  - exists (le_enc 2 v). unfold SetUint16. destruct (v =? 0); auto.
    rewrite EncodeHeader_hdr by lia. rewrite Z.mod_small by (cbn; lia). reflexivity.
  - exists (le_enc 4 v). unfold SetUint32. destruct (v =? 0); auto.
    rewrite EncodeHeader_hdr by lia. rewrite Z.mod_small by (cbn; lia). reflexivity.
  - exists (le_enc 8 v). unfold SetUint64. destruct (v =? 0); auto.
    rewrite wide_field_spec. reflexivity.
  - exists (le_enc 4 v). unfold SetFloat32, f32_is_zero. destruct ((v =? 0) || (v =? 2 ^ 31)); auto.
    rewrite EncodeHeader_hdr by lia. rewrite Z.mod_small by (cbn; lia). reflexivity.
  - exists (le_enc 8 v). unfold SetFloat64, f64_is_zero. destruct ((v =? 0) || (v =? 2 ^ 63)); auto.
    rewrite wide_field_spec. reflexivity.
Qed.

(** ** Induction over operations *)
Section OpInd.
Variable P : op -> Prop.
Hypothesis HNested : forall f n l, Forall P l -> P (ONested f n l).
Hypothesis HStructs : forall f n l, Forall (Forall P) l -> P (OStructs f n l).
Hypothesis HAny : forall f h n l, Forall P l -> P (OAny f h n l).
Hypothesis HScalar : forall f k v, P (OScalar f k v).
Hypothesis HBytes : forall f str b, P (OBytes f str b).
Hypothesis HClear : forall f, P (OClear f).
Hypothesis HRead : P ORead.
Hypothesis HMarshal : P OMarshal.
Hypothesis HRecord : forall b, P (ORecord b).
Hypothesis HDrain : P ODrain.
Hypothesis HNil : forall f, P (ONil f).
Hypothesis HBools : forall f l, P (OBools f l).
Hypothesis HNums : forall f k l, P (ONums f k l).
Hypothesis HBlobs : forall f str l, P (OBlobs f str l).
Hypothesis HAnyRaw : forall f h r, P (OAnyRaw f h r).
Hypothesis HAnys : forall f l, P (OAnys f l).
Hypothesis HMap : forall f kt vt e, P (OMap f kt vt e).
Fixpoint op_ind' (o : op) : P o :=
  let all := (fix all (l : list op) : Forall P l :=
                match l with
                | [] => Forall_nil _
                | o :: r => Forall_cons o (op_ind' o) (all r)
                end) in
  match o with
  | OScalar f k v => HScalar f k v
  | OBytes f s b => HBytes f s b
  | OClear f => HClear f
  | ORead => HRead
  | OMarshal => HMarshal
  | ORecord b => HRecord b
  | ODrain => HDrain
  | ONested f n l => HNested f n l (all l)
  | ONil f => HNil f
  | OBools f l => HBools f l
  | ONums f k l => HNums f k l
  | OBlobs f s l => HBlobs f s l
  | OStructs f n l =>
      HStructs f n l ((fix go (l : list (list op)) : Forall (Forall P) l :=
                         match l with
                         | [] => Forall_nil _
                         | c :: r => Forall_cons c (all c) (go r)
                         end) l)
  | OAny f h n l => HAny f h n l (all l)
  | OAnyRaw f h r => HAnyRaw f h r
  | OAnys f l => HAnys f l
  | OMap f kt vt e => HMap f kt vt e
  end.
End OpInd.

(** The nested fixpoints are the top-level functions. *)
Lemma do_ONested s f n l : do_op s (ONested f n l) = (c <- build n l ;; SetNestedStruct s f (Some c)).
Proof. reflexivity. Qed.
Lemma do_OAny s f h n l : do_op s (OAny f h n l) = (c <- build n l ;; SetAny s f (Some (h, c))).
Proof. reflexivity. Qed.
Definition build_all (n : nat) := fix all (l : list (list op)) : res (list strct) :=
  match l with
  | [] => Ok []
  | c :: r => x <- build n c ;; xs <- all r ;; Ok (x :: xs)
  end.
Lemma do_OStructs s f n l :
  do_op s (OStructs f n l) = (items <- build_all n l ;; '(s, _) <- sync_structs s f items ;; Ok s).
Proof. reflexivity. Qed.
Lemma ok_ONested n t m f n' l :
  ok_op n t m (ONested f n' l) <->
  (0 <= f < Z.of_nat n /\ f < 2 ^ 16 /\ fits t (apply_op m (ONested f n' l))) /\ ok_run n' 0 [] l.
Proof.
  assert (E : forall l m, (fix ok_run (n : nat) (m : msg) (l : list op) : Prop :=
                   match l with
                   | [] => True
                   | o :: r => ok_op n 0 m o /\ ok_run n (apply_op m o) r
                   end) n' m l <-> ok_run n' 0 m l).
  { induction l0 as [|o r IH]; intros; cbn; [tauto|]. now rewrite IH. }
  cbn [ok_op]. rewrite E. clear E.
  assert (valid_value (VStruct [])).
  { apply valid_VStruct. split; constructor. }
  tauto.
Qed.
Lemma ok_OAny n t m f h n' l :
  ok_op n t m (OAny f h n' l) <->
  (0 <= f < Z.of_nat n /\ f < 2 ^ 16 /\ len h = 16 /\ byte_list h /\ fits t (apply_op m (OAny f h n' l))) /\ ok_run n' 0 [] l.
Proof.
  assert (E : forall l m, (fix ok_run (n : nat) (m : msg) (l : list op) : Prop :=
                   match l with
                   | [] => True
                   | o :: r => ok_op n 0 m o /\ ok_run n (apply_op m o) r
                   end) n' m l <-> ok_run n' 0 m l).
  { induction l0 as [|o r IH]; intros; cbn; [tauto|]. now rewrite IH. }
  cbn [ok_op]. rewrite E. clear E. cbn [valid_value].
  assert (byte_list []) by constructor.
  tauto.
Qed.
Lemma ok_OStructs n t m f n' l :
  ok_op n t m (OStructs f n' l) <->
  (0 <= f < Z.of_nat n /\ f < 2 ^ 16 /\ fits t (apply_op m (OStructs f n' l))) /\ Forall (ok_run n' 0 []) l.
Proof.
  assert (E : forall l m, (fix ok_run (n : nat) (m : msg) (l : list op) : Prop :=
                   match l with
                   | [] => True
                   | o :: r => ok_op n 0 m o /\ ok_run n (apply_op m o) r
                   end) n' m l <-> ok_run n' 0 m l).
  { induction l0 as [|o r IH]; intros; cbn; [tauto|]. now rewrite IH. }
  assert (E2 : forall l, (fix all (l : list (list op)) : Prop :=
         match l with [] => True | c :: r => (fix ok_run (n : nat) (m : msg) (l : list op) : Prop :=
                   match l with
                   | [] => True
                   | o :: r => ok_op n 0 m o /\ ok_run n (apply_op m o) r
                   end) n' [] c /\ all r end) l <-> Forall (ok_run n' 0 []) l).
  { induction l0 as [|c r IH]; intros; [split; auto|]. rewrite Forall_cons_iff, <- IH, <- E. tauto. }
  cbn [ok_op]. rewrite E2. clear E E2.
  assert (valid_value (VStruct [])).
  { apply valid_VStruct. split; constructor. }
  tauto.
Qed.
Lemma apply_ONested m f n l :
  apply_op m (ONested f n l) = mset (nil_b (sem [] l)) f (VStruct (sem [] l)) m.
Proof. reflexivity. Qed.
Lemma apply_OAny m f h n l : apply_op m (OAny f h n l) = fput f (VAny h (wire (sem [] l))) m.
Proof. reflexivity. Qed.
Lemma apply_OStructs m f n l :
  apply_op m (OStructs f n l) = mset (nil_b l) f (VStructs (map (sem []) l)) m.
Proof. reflexivity. Qed.
