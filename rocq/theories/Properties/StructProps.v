(** C03-C09, C12, C13: reading and writing the fields of one struct. *)
From Verif.Proofs Require Import Demo.

(** Every legal call on a reached struct succeeds (it neither fails, nor panics, nor hangs). *)
Theorem C06_legal_calls_succeed :
  forall n s m o, reached n s m -> ok_op n 0 m o -> exists s', do_op s o = Ok s'.
Proof. intros n s m o HR HO. destruct (reached_op _ _ _ _ HR HO) as (s' & E & _). eauto. Qed.

(** ** C03 *)
(** SetX(f, v) then GetX(f) returns v, for each of the eleven scalar types (kinds) and every
    value of the type, on any reached struct with 16 bytes to spare below 4 GiB.  Floats are
    bit patterns: only -0 (which the code treats as the zero value) reads back as +0. *)
Theorem C03_scalar_read_your_write :
  forall n s m f k v,
    reached n s m -> 0 <= f < Z.of_nat n -> f < 2 ^ 16 -> in_range k v ->
    len (st_data s) + 16 < 2 ^ 32 ->
    exists s', set_scalar s f k v = Ok s' /\
      get_scalar s' f k = Ok (if is_zero k v then 0 else v) /\
      HasField s' f = Ok (negb (is_zero k v)).
Proof.
  intros n s m f k v HR Hf Hf' HV HL.
  assert (HO : ok_op n 0 m (OScalar f k v)).
  { cbn [ok_op valid_value apply_op]. repeat split; auto; try lia. eapply fits_mset; eauto.
    rewrite len_wire_value. cbn [v_rest]. unfold is_wide. destruct k; cbn [kind_size Nat.eqb];
      rewrite ?len_le_enc, ?len_nil; lia. }
  destruct (reached_op _ _ _ _ HR HO) as (s' & E & HR'). exists s'. split; [exact E|].
  destruct (reached_sorted _ _ _ HR) as (S & _).
  assert (ES : seen n (apply_op m (OScalar f k v)) f = if is_zero k v then None else Some (VScalar k v)).
  { unfold seen. replace (_ && _) with true by lia. cbn [apply_op]. unfold mset.
    destruct (is_zero k v); rewrite ?flook_fdel, ?flook_fput, Z.eqb_refl; auto. }
  split.
  - assert (EA : answer s' (QScalar f k) = Ok (ANum (if is_zero k v then 0 else v))).
    { eapply reached_answer; eauto. split; [lia|]. rewrite ES. destruct (is_zero k v); auto. }
    cbn [answer] in EA. destruct (get_scalar s' f k); cbn in EA; congruence.
  - assert (EA : answer s' (QHas f) = Ok (ABool (negb (is_zero k v)))).
    { eapply reached_answer; eauto. split; [lia|]. rewrite ES. destruct (is_zero k v); auto. }
    cbn [answer] in EA. destruct (HasField s' f); cbn in EA; congruence.
Qed.
(** The zero value of a type reads back as itself, except for the bit pattern of -0. *)
Theorem C03_zero_values :
  forall k v, in_range k v -> is_zero k v = true ->
    v = 0 \/ (k = KF32 /\ v = 2 ^ 31) \/ (k = KF64 /\ v = 2 ^ 63).
Proof.
  intros k v _. destruct k; cbn [is_zero]; rewrite ?orb_true_iff, ?Z.eqb_eq; intuition.
Qed.
Example C03_ex :
  exists s, build 12 demo = Ok s /\ reached 12 s (sem [] demo) /\ len (st_data s) + 16 < 2 ^ 32 /\
    match set_scalar s 4 KI64 (- 2 ^ 63) with Ok s' => get_scalar s' 4 KI64 = Ok (- 2 ^ 63) | _ => False end /\
    match set_scalar s 4 KF32 (2 ^ 31) with Ok s' => get_scalar s' 4 KF32 = Ok 0 | _ => False end.
Proof.
  destruct demo_reached as (s & E & HR). exists s. split; auto. split; auto.
  vm_compute in E. inv E. split; [vm_compute; reflexivity|]. split; vm_compute; reflexivity.
Qed.

(** ** C04 *)
(** A call on one field leaves every answer about another field as it was: [q] is any
    question (also deep inside nested structs, struct lists and Any values) that fits the
    types of the message. *)
Theorem C04_field_independence :
  forall n s m o s' q r,
    reached n s m -> ok_op n 0 m o -> do_op s o = Ok s' ->
    op_field o <> Some (query_field q) -> actual n m q r ->
    answer s q = r /\ answer s' q = r.
Proof.
  intros n s m o s' q r HR HO E HN HE.
  destruct (reached_good _ _ _ HR) as (g & _ & S & _).
  split; [eapply answer_actual; eauto|].
  assert (HR' : reached n s' (apply_op m o)) by (econstructor; eauto).
  destruct (reached_good _ _ _ HR') as (g' & _ & S' & _).
  eapply answer_actual; eauto. eapply reads_seen; [|exact HE].
  unfold seen. destruct (_ && _); auto. rewrite flook_apply_ne; auto. apply (reached_sorted _ _ _ HR).
Qed.
(** In particular its bytes stay the same, wherever they move. *)
Theorem C04_field_bytes :
  forall n s m o s' f,
    reached n s m -> ok_op n 0 m o -> do_op s o = Ok s' ->
    0 <= f < Z.of_nat n -> op_field o <> Some f ->
    exists off off' sz, FieldOffset s f = Ok (off, sz) /\ FieldOffset s' f = Ok (off', sz) /\
      slice (st_data s) off (off + sz) = slice (st_data s') off' (off' + sz).
Proof.
  intros n s m o s' f HR HO E Hf HN.
  assert (HR' : reached n s' (apply_op m o)) by (econstructor; eauto).
  destruct (reached_good _ _ _ HR) as (g & _ & S & _).
  destruct (reached_good _ _ _ HR') as (g' & _ & S' & _).
  pose proof (Sim_seen _ _ _ _ _ f S ltac:(lia)) as L. pose proof (Sim_seen _ _ _ _ _ f S' ltac:(lia)) as L'.
  replace (seen n (apply_op m o) f) with (seen n m f) in L'.
  2:{ unfold seen. destruct (_ && _); auto. rewrite flook_apply_ne; auto. apply (reached_sorted _ _ _ HR). }
  destruct (seen n m f) as [v|].
  - destruct L as (p & q & EO & ED & Hp & _). destruct L' as (p' & q' & EO' & ED' & Hp' & _).
    do 3 eexists. split; [exact EO|]. split; [exact EO'|]. rewrite ED, ED'.
    rewrite !slice_field; auto.
  - do 3 eexists. split; [exact L|]. split; [exact L'|]. cbn.
    destruct (st_data s), (st_data s'); reflexivity.
Qed.
Example C04_ex :
  (* one field is set, one cleared, and a nested question about a third is answered as before *)
  exists s s1 s2, build 12 demo = Ok s /\ do_op s (OBytes 0 true [1; 2; 3; 4; 5; 6; 7; 8; 9]) = Ok s1 /\
    do_op s1 (OClear 1) = Ok s2 /\
    answer s (QIn 2 3 (QBytes 1)) = Ok (ABytes [1; 2; 3]) /\ answer s2 (QIn 2 3 (QBytes 1)) = Ok (ABytes [1; 2; 3]) /\
    actual 12 (sem [] demo) (QIn 2 3 (QBytes 1)) (Ok (ABytes [1; 2; 3])).
Proof.
  do 3 eexists. split; [vm_compute; reflexivity|]. split; [vm_compute; reflexivity|].
  split; [vm_compute; reflexivity|]. split; [vm_compute; reflexivity|]. split; [vm_compute; reflexivity|].
  vm_compute. repeat split; discriminate.
Qed.

(** ** C05 *)
(** After any history, giving a field its zero value makes the struct's bytes (its own and
    those Marshal returns) the ones of the same history without any call on that field, and
    the field is absent. *)
Theorem C05_sparse_encoding :
  forall n l o f,
    zero_op o -> op_field o = Some f -> ok_run n 0 [] (l ++ [o]) ->
    exists s s' t t' b,
      build n (l ++ [o]) = Ok s /\ build n (without f l) = Ok s' /\
      st_data s = st_data s' /\ Marshal s = Ok (t, b) /\ Marshal s' = Ok (t', b) /\
      HasField s f = Ok false.
Proof.
  intros n l o f HZ Hf HK. destruct (reached_build _ _ HK) as (s & E & HR).
  destruct (zero_apply o (sem [] l) HZ) as (f' & Hf' & EA).
  assert (f' = f) by congruence. subst f'.
  destruct (without_sem f l []) as [ES EK]; [constructor|].
  apply ok_run_app in HK. destruct HK as [HK HO].
  destruct (reached_build n (without f l)) as (s' & E' & HR'); [now apply EK|].
  exists s, s'. rewrite sem_app in HR. cbn [sem] in HR. rewrite EA in HR.
  change (fdel f (@nil (Z * value))) with (@nil (Z * value)) in ES. rewrite ES in HR'.
  destruct (build_sim n (l ++ [o])) as (s1 & E1 & S1 & _).
  { apply ok_run_app. auto. }
  destruct (build_sim n (without f l)) as (s2 & E2 & S2 & _).
  { apply EK. exact HK. }
  assert (s1 = s) by congruence. assert (s2 = s') by congruence. subst s1 s2.
  assert (ED : st_data s = st_data s').
  { rewrite (Sim_data _ _ _ S1), (Sim_data _ _ _ S2). rewrite sem_app. cbn [sem]. now rewrite EA, ES. }
  destruct (reached_marshal _ _ _ HR) as (t & _ & M & _).
  destruct (reached_marshal _ _ _ HR') as (t' & _ & M' & _).
  exists t, t', (st_data s). rewrite ED at 3. repeat split; auto.
  assert (HA : answer s (QHas f) = Ok (ABool false)).
  { eapply reached_answer; eauto. cbn [ok_run] in HO. destruct HO as [HO _].
    assert (0 <= f). { destruct o; cbn [zero_op op_field ok_op] in *; try tauto; inv Hf; lia. }
    split; auto. unfold seen. destruct (_ && _); auto. rewrite flook_fdel by (apply sem_sorted; constructor).
    now rewrite Z.eqb_refl. }
  cbn [answer] in HA. destruct (HasField s f); cbn in HA; congruence.
Qed.
Example C05_ex :
  zero_op (OBytes 3 false []) /\ ok_run 12 0 [] (demo ++ [OBytes 3 false []]) /\
  zero_op (OScalar 11 KF64 (2 ^ 63)) /\ ok_run 12 0 [] (demo ++ [OScalar 11 KF64 (2 ^ 63)]) /\
  length (without 3 demo) = 17%nat.
Proof.
  split; [reflexivity|]. split; [unfold demo, demo_child; cbn [app]; legal|].
  split; [reflexivity|]. split; [unfold demo, demo_child; cbn [app]; legal|]. reflexivity.
Qed.

(** ** C06 *)
(** The buffer of a reached struct is the documented layout of a message: header with the
    exact size, the fields one after the other in increasing order; and the position of
    every field as the code knows it is exact. *)
Theorem C06_wire_layout :
  forall n s m,
    reached n s m ->
    exists g,
      0 <= g < 2 ^ 16 /\
      st_data s = header g FTStruct (len (st_data s)) ++ concat (map (fun p => wire_value (fst p) (snd p)) m) /\
      StronglySorted (fun p q => fst p < fst q) m /\
      DecodeHeader (take 8 (st_data s)) = Ok (g, FTStruct, len (st_data s)) /\
      (forall f, 0 <= f < Z.of_nat n ->
         match flook f m with
         | Some v => exists off, FieldOffset s f = Ok (off, len (wire_value f v)) /\
             off = 8 + len (concat (map (fun p => wire_value (fst p) (snd p)) (filter (fun p => fst p <? f) m))) /\
             slice (st_data s) off (off + len (wire_value f v)) = Ok (wire_value f v)
         | None => FieldOffset s f = Ok (0, 0)
         end).
Proof.
  intros n s m HR. destruct (reached_good _ _ _ HR) as (g & Hg & S & _).
  pose proof (Sim_data_f _ _ _ _ S) as ED. destruct (Sim_fits _ _ _ _ _ S) as [FI V]. unfold fits in FI.
  pose proof (len_nonneg (wire_msg m)).
  exists g. split; auto. rewrite ED, len_wire_struct. split; [reflexivity|]. split; [apply V|]. split.
  { rewrite wire_struct_hdr, take_app_exact by (now rewrite len_hdr).
    apply DecodeHeader_hdr; [lia|split; [discriminate|reflexivity]|]. change (len (@nil Z)) with 0 in FI. lia. }
  intros f Hf. pose proof (Sim_FieldOffset _ _ _ _ _ f S) as EF. rewrite Z.geb_leb in EF.
  replace (Z.of_nat n <=? f) with false in EF by lia. rewrite index_index_of, bind_Ok in EF by lia.
  destruct (flook f m) as [v|] eqn:E.
  - destruct (flook_split f m v (proj1 V) E) as (l & r & -> & Hl & Hr).
    assert (EL : locate 8 (enc (l ++ (f, v) :: r)) f = Some (8 + len (wire_msg l), len (wire_value f v))).
    { unfold enc, fmap_val. rewrite map_app. rewrite locate_app. rewrite locate_none.
      - fold (fmap_val wire_value l). change (fmap_val wire_value l) with (enc l). rewrite body_enc.
        cbn [map locate fst snd]. now rewrite Z.eqb_refl.
      - change (map (fun p => (fst p, wire_value (fst p) (snd p))) l) with (fmap_val wire_value l).
        rewrite flook_map. replace (flook f l) with (@None value); auto. symmetry.
        clear - Hl. induction l as [|[k w] l IH]; auto. inv Hl. cbn in *.
        destruct (Z.eqb_spec f k); [lia|]. auto. }
    unfold entry in EF. rewrite EL in EF. cbn [entry_of fe_off fe_size] in EF.
    eexists. split; [exact EF|]. split.
    + do 2 f_equal. rewrite filter_app. cbn [filter fst]. rewrite Z.ltb_irrefl.
      replace (filter (fun p : Z * value => fst p <? f) l) with l.
      2:{ clear - Hl. induction Hl as [|x l Hx Hl IH]; auto. cbn [filter].
          replace (fst x <? f) with true by lia. now rewrite <- IH. }
      replace (filter (fun p : Z * value => fst p <? f) r) with (@nil (Z * value)).
      2:{ clear - Hr. induction Hr as [|x l Hx Hl IH]; auto. cbn [filter].
          replace (fst x <? f) with false by lia. auto. }
      now rewrite app_nil_r.
    + rewrite wire_struct_hdr. unfold wire_msg at 2. rewrite map_app, concat_app. cbn [map concat fst snd].
      rewrite app_assoc. apply slice_app; rewrite len_app, len_hdr; reflexivity.
  - unfold entry in EF. rewrite locate_none in EF; [exact EF|].
    unfold enc. rewrite flook_map, E. reflexivity.
Qed.
(** For a struct made with New the struct header's field number is 0, and Marshal returns
    exactly the buffer. *)
Theorem C06_marshal_is_wire_format :
  forall n l, ok_run n 0 [] l ->
    exists s s', build n l = Ok s /\ Marshal s = Ok (s', wire (sem [] l)) /\ st_data s' = wire (sem [] l).
Proof.
  intros n l HK. destruct (build_sim n l HK) as (s & E & S & F).
  destruct (Sim_marshal _ _ _ _ _ S F) as (s' & EM & S' & _). exists s, s'.
  rewrite (Sim_data _ _ _ S) in EM. rewrite (Sim_data _ _ _ S'). auto.
Qed.
Example C06_ex :
  exists s s' b, build 12 demo = Ok s /\ Marshal s = Ok (s', b) /\ len b = 294 /\
    take 32 b = [0; 0; 14; 38; 1; 0; 0; 0;  1; 0; 1; 1; 0; 0; 0; 0;
                 2; 0; 14; 40; 0; 0; 0; 0;  0; 0; 6; 7; 0; 0; 0; 0] /\
    FieldOffset s 1 = Ok (8, 8) /\ FieldOffset s 2 = Ok (16, 40) /\ FieldOffset s 4 = Ok (0, 0).
Proof. do 3 eexists. split; [vm_compute; reflexivity|]. split; [vm_compute; reflexivity|]. vm_compute. repeat split. Qed.

(** ** C07 *)
(** Two histories, possibly of two versions of the type, that leave every field with the same
    value give the same bytes. *)
Theorem C07_canonical_encoding :
  forall n1 l1 n2 l2,
    ok_run n1 0 [] l1 -> ok_run n2 0 [] l2 ->
    (forall f, flook f (sem [] l1) = flook f (sem [] l2)) ->
    exists s1 s2 t1 t2 b, build n1 l1 = Ok s1 /\ build n2 l2 = Ok s2 /\
      Marshal s1 = Ok (t1, b) /\ Marshal s2 = Ok (t2, b).
Proof.
  intros n1 l1 n2 l2 H1 H2 HE.
  destruct (C06_marshal_is_wire_format _ _ H1) as (s1 & t1 & E1 & M1 & _).
  destruct (C06_marshal_is_wire_format _ _ H2) as (s2 & t2 & E2 & M2 & _).
  exists s1, s2, t1, t2, (wire (sem [] l1)). repeat split; auto. rewrite M2. do 2 f_equal. f_equal.
  symmetry. apply fsorted_ext; auto; apply sem_sorted; constructor.
Qed.
(** The same for any two reached structs: only the field number in the struct header, which
    says where the struct was read from, can differ. *)
Theorem C07_canonical_reached :
  forall n1 s1 m1 n2 s2 m2,
    reached n1 s1 m1 -> reached n2 s2 m2 -> (forall f, flook f m1 = flook f m2) ->
    drop 2 (st_data s1) = drop 2 (st_data s2).
Proof.
  intros n1 s1 m1 n2 s2 m2 H1 H2 HE.
  destruct (reached_good _ _ _ H1) as (g1 & _ & S1 & _). destruct (reached_good _ _ _ H2) as (g2 & _ & S2 & _).
  rewrite (Sim_data_f _ _ _ _ S1), (Sim_data_f _ _ _ _ S2).
  replace m2 with m1.
  2:{ apply fsorted_ext; auto; [apply (reached_sorted _ _ _ H1)|apply (reached_sorted _ _ _ H2)]. }
  unfold wire_struct, header. rewrite <- !app_assoc.
  rewrite !drop_app_exact; auto.
Qed.
Example C07_ex :
  sem [] [OScalar 0 KU8 3; OScalar 1 KBool 1; OBytes 2 true [65]; OScalar 0 KU8 9]
  = sem [] [OBytes 2 true [65; 66]; OScalar 0 KU8 9; ORead; OBytes 2 true [65]; OScalar 1 KBool 0; OScalar 1 KBool 1] /\
  ok_run 3 0 [] [OScalar 0 KU8 3; OScalar 1 KBool 1; OBytes 2 true [65]; OScalar 0 KU8 9] /\
  ok_run 4 0 [] [OBytes 2 true [65; 66]; OScalar 0 KU8 9; ORead; OBytes 2 true [65]; OScalar 1 KBool 0; OScalar 1 KBool 1].
Proof. split; [reflexivity|]. split; legal. Qed.

(** ** C08 *)
(** Marshal then Unmarshal into a fresh struct: every question whatever (also one that does
    not fit the type of the field) gets the same answer as on the original. *)
Theorem C08_roundtrip :
  forall n s m,
    reached n s m ->
    exists s' b s0 t, Marshal s = Ok (s', b) /\ New n = Ok s0 /\ Unmarshal s0 b = Ok t /\
      forall q, answer t q = answer s q.
Proof.
  intros n s m HR. destruct (reached_marshal _ _ _ HR) as (s' & g & EM & _ & Hg & ED).
  destruct (reached_good _ _ _ HR) as (g' & Hg' & S & F). destruct (Sim_fits _ _ _ _ _ S) as [FI V].
  pose proof (Sim_data_f _ _ _ _ S) as ED'.
  destruct (Unmarshal_wire_struct (mkStruct (hdr 0 FTStruct 8) (repeat fe_zero n) false false None false [])
             n g' m []) as (t & E & S' & _); auto.
  { apply stale_ok_zero. }
  rewrite app_nil_r, <- ED' in E. eexists s', _, _, t. split; [exact EM|]. split; [apply New_spec|].
  split; [exact E|]. intros q. symmetry. eapply Sim_same_view; eauto.
Qed.
(** And the answers are the ones the message prescribes. *)
Theorem C08_answers :
  forall n s m q r, reached n s m -> expects n m q r -> answer s q = r.
Proof. exact reached_answer. Qed.
Example C08_ex :
  exists s s' b s0 t, build 12 demo = Ok s /\ Marshal s = Ok (s', b) /\ New 12 = Ok s0 /\ Unmarshal s0 b = Ok t /\
    answer t (QAt 8 3 0 (QScalar 0 KU8)) = Ok (ANum 7) /\ answer t (QBools 5) = answer s (QBools 5).
Proof.
  do 5 eexists. split; [vm_compute; reflexivity|]. split; [vm_compute; reflexivity|].
  split; [vm_compute; reflexivity|]. split; [vm_compute; reflexivity|]. split; vm_compute; reflexivity.
Qed.

(** ** C09 *)
(** A reader with n' fields of what a writer with n fields marshalled (followed by anything
    in the buffer): the fields both know read the same, in every question; and every field
    the writer's message does not have reads as unset. *)
Theorem C09_schema_evolution :
  forall n n' s m rest,
    reached n s m ->
    exists s' b s0 t, Marshal s = Ok (s', b) /\ New n' = Ok s0 /\ Unmarshal s0 (b ++ rest) = Ok t /\
      (forall q, query_field q < Z.of_nat n -> query_field q < Z.of_nat n' -> answer t q = answer s q) /\
      (forall q r, expects n' m q r -> answer t q = r) /\
      (forall f, 0 <= f -> flook f m = None -> HasField t f = Ok false).
Proof.
  intros n n' s m rest HR. destruct (reached_marshal _ _ _ HR) as (s' & g & EM & _ & Hg & ED).
  destruct (reached_good _ _ _ HR) as (g' & Hg' & S & F). destruct (Sim_fits _ _ _ _ _ S) as [FI V].
  pose proof (Sim_data_f _ _ _ _ S) as ED'.
  destruct (Unmarshal_wire_struct (mkStruct (hdr 0 FTStruct 8) (repeat fe_zero n') false false None false [])
             n' g' m rest) as (t & E & S' & _); auto.
  { apply stale_ok_zero. }
  rewrite <- ED' in E. eexists s', _, _, t. split; [exact EM|]. split; [apply New_spec|].
  split; [exact E|]. split; [|split].
  - intros q H1 H2. symmetry. eapply Sim_shared_view; eauto.
  - intros q r HE. eapply answer_expects; eauto.
  - intros f Hf HN. rewrite (Sim_HasField _ _ _ _ _ f S' Hf). unfold seen. rewrite HN. now destruct (_ && _).
Qed.
(** A writer with n fields only writes fields below n, so what a newer reader adds is unset. *)
Theorem C09_writer_fields :
  forall n l, ok_run n 0 [] l -> forall f, f < 0 \/ Z.of_nat n <= f -> flook f (sem [] l) = None.
Proof.
  intros n l HK f Hf.
  assert (G : forall l m, ok_run n 0 m l -> fsorted m -> flook f m = None -> flook f (sem m l) = None).
  { clear HK l. induction l as [|o l IH]; intros m HK S E; auto. destruct HK as [HO HK]. cbn [sem].
    apply IH; auto using apply_sorted. rewrite flook_apply_ne; auto.
    intros Ho. destruct o; cbn [op_field ok_op] in *; try discriminate; inv Ho; lia. }
  apply G; auto. constructor.
Qed.
(** A proxy with fewer fields that reads and re-marshals a message loses nothing. *)
Theorem C09_unknown_fields_preserved :
  forall n n' s m,
    reached n s m ->
    exists s' b s0 t t', Marshal s = Ok (s', b) /\ New n' = Ok s0 /\ Unmarshal s0 b = Ok t /\
      Marshal t = Ok (t', b).
Proof.
  intros n n' s m HR.
  destruct (reached_good _ _ _ HR) as (g' & Hg' & S & F). destruct (Sim_fits _ _ _ _ _ S) as [FI V].
  pose proof (Sim_data_f _ _ _ _ S) as ED'.
  destruct (Sim_marshal _ _ _ _ _ S F) as (s' & EM & _).
  destruct (Unmarshal_wire_struct (mkStruct (hdr 0 FTStruct 8) (repeat fe_zero n') false false None false [])
             n' g' m []) as (t & E & S' & _ & [FT _] & _); auto.
  { apply stale_ok_zero. }
  rewrite app_nil_r, <- ED' in E. destruct (Sim_marshal _ _ _ _ _ S' FT) as (t' & EM' & _).
  eexists s', _, _, t, t'. split; [exact EM|]. split; [apply New_spec|]. split; [exact E|].
  rewrite EM', (Sim_data_f _ _ _ _ S'), ED'. reflexivity.
Qed.
Example C09_ex :
  exists s s' b s0 t, build 12 demo = Ok s /\ Marshal s = Ok (s', b) /\ New 3 = Ok s0 /\
    Unmarshal s0 (b ++ [7; 7]) = Ok t /\ answer t (QScalar 1 KBool) = Ok (ANum 1) /\ HasField t 11 = Ok false.
Proof.
  do 5 eexists. split; [vm_compute; reflexivity|]. split; [vm_compute; reflexivity|].
  split; [vm_compute; reflexivity|]. split; [vm_compute; reflexivity|]. split; vm_compute; reflexivity.
Qed.

(** ** C12 *)
(** SetBytes/SetString (and SetStringAsBytes) then GetBytes/GetString; the length limit is
    that the message with its 8-byte field header and padding stays below 4 GiB. *)
Theorem C12_bytes_read_your_write :
  forall n s m f b,
    reached n s m -> 0 <= f < Z.of_nat n -> f < 2 ^ 16 -> byte_list b ->
    len (st_data s) + len b + 15 < 2 ^ 32 ->
    forall str : bool, exists s',
      (if str then SetStringAsBytes s f b else SetBytes s f b) = Ok s' /\
      GetBytes s' f = Ok b /\ HasField s' f = Ok (match b with [] => false | _ => true end).
Proof.
  intros n s m f b HR Hf Hf' HB HL str.
  assert (HO : ok_op n 0 m (OBytes f str b)).
  { cbn [ok_op valid_value apply_op]. repeat split; auto; try lia. eapply fits_mset; eauto.
    rewrite len_wire_value. cbn [v_rest]. rewrite len_padded. pose proof (pad_len_range (len b)). lia. }
  destruct (reached_op _ _ _ _ HR HO) as (s' & E & HR'). exists s'. split; [exact E|].
  destruct (reached_sorted _ _ _ HR) as (S & _).
  assert (ES : seen n (apply_op m (OBytes f str b)) f = if nil_b b then None else Some (VBytes str b)).
  { unfold seen. replace (_ && _) with true by lia. cbn [apply_op]. unfold mset.
    destruct (nil_b b); rewrite ?flook_fdel, ?flook_fput, Z.eqb_refl; auto. }
  split.
  - assert (EA : answer s' (QBytes f) = Ok (ABytes b)).
    { eapply reached_answer; eauto. split; [lia|]. rewrite ES. destruct b; cbn [nil_b]; reflexivity. }
    cbn [answer] in EA. destruct (GetBytes s' f); cbn in EA; congruence.
  - assert (EA : answer s' (QHas f) = Ok (ABool (match b with [] => false | _ => true end))).
    { eapply reached_answer; eauto. split; [lia|]. rewrite ES. destruct b; cbn [nil_b]; reflexivity. }
    cbn [answer] in EA. destruct (HasField s' f); cbn in EA; congruence.
Qed.
Example C12_ex :
  exists s s', build 12 demo = Ok s /\ SetBytes s 3 [0; 255; 0; 7; 0] = Ok s' /\ GetBytes s' 3 = Ok [0; 255; 0; 7; 0].
Proof. do 2 eexists. split; [vm_compute; reflexivity|]. split; [vm_compute; reflexivity|]. vm_compute; reflexivity. Qed.

(** ** C13 *)
(** SetNestedStruct(p, f, c) for any two reached structs: reading the field back gives a
    struct in which every question gets c's answer; an empty or nil child makes the field
    absent. *)
Theorem C13_nested_roundtrip :
  forall n p m n' c mc f,
    reached n p m -> reached n' c mc -> 0 <= f < Z.of_nat n -> f < 2 ^ 16 ->
    len (st_data p) + len (st_data c) < 2 ^ 32 ->
    exists p', SetNestedStruct p f (Some c) = Ok p' /\
      (mc = [] -> HasField p' f = Ok false /\ GetNestedStruct p' f n' = Ok None) /\
      (mc <> [] -> HasField p' f = Ok true /\
         exists c', GetNestedStruct p' f n' = Ok (Some c') /\ reached n' c' mc /\
           drop 2 (st_data c') = drop 2 (st_data c) /\
           forall q r, actual n' mc q r -> answer c' q = r /\ answer c q = r).
Proof.
  intros n p m n' c mc f HP HC Hf Hf' HL.
  destruct (reached_good _ _ _ HP) as (g & Hg & S & F). destruct (reached_good _ _ _ HC) as (g' & Hg' & S' & F').
  destruct (reached_sorted _ _ _ HC) as (_ & _ & _ & LC).
  assert (HF : fits 0 (mset (nil_b mc) f (VStruct mc) m)).
  { eapply fits_mset; eauto. rewrite wire_VStruct, len_wire_struct. lia. }
  destruct (Sim_SetNested p n _ m [] f n' c g' mc S S' Hf Hf' HF) as (p' & E & SP & FP).
  assert (HR : reached n p' (mset (nil_b mc) f (VStruct mc) m)) by (eapply R_set_nested; eauto; repeat split; auto; lia).
  exists p'. split; auto.
  assert (ES : seen n (mset (nil_b mc) f (VStruct mc) m) f = if nil_b mc then None else Some (VStruct mc)).
  { destruct (reached_sorted _ _ _ HP) as (SO & _). unfold seen. replace (_ && _) with true by lia. unfold mset.
    destruct (nil_b mc); rewrite ?flook_fdel, ?flook_fput, Z.eqb_refl; auto. }
  pose proof (Sim_HasField _ _ _ _ _ f SP ltac:(lia)) as HH.
  pose proof (GetNestedStruct_spec _ _ _ _ _ f n' SP ltac:(lia)) as HG. rewrite ES in *.
  split.
  - intros ->. cbn [nil_b] in *. auto.
  - intros HN. assert (EB : nil_b mc = false) by (destruct mc; [congruence|reflexivity]). rewrite EB in *. split; auto.
    destruct HG as (c' & EG & SC & ED). exists c'. split; auto. split.
    { eapply R_nested; eauto. }
    split.
    { rewrite ED, (Sim_data_f _ _ _ _ S'). unfold wire_struct, header. rewrite <- !app_assoc.
      rewrite !drop_app_exact; auto. }
    intros q r HE. split; eapply answer_actual; eauto.
Qed.
Theorem C13_nil_child :
  forall n p m f, reached n p m -> 0 <= f < Z.of_nat n ->
    exists p', SetNestedStruct p f None = Ok p' /\ HasField p' f = Ok false /\
      forall n', GetNestedStruct p' f n' = Ok None.
Proof.
  intros n p m f HR Hf. destruct (reached_op n p m (ONil f) HR Hf) as (p' & E & HR'). exists p'. split; auto.
  destruct (reached_good _ _ _ HR') as (g & _ & S & _).
  assert (ES : seen n (apply_op m (ONil f)) f = None).
  { unfold seen. destruct (_ && _); auto. cbn [apply_op].
    rewrite flook_fdel by apply (reached_sorted _ _ _ HR). now rewrite Z.eqb_refl. }
  pose proof (Sim_HasField _ _ _ _ _ f S ltac:(lia)) as HH. rewrite ES in HH. split; auto.
  intros n'. pose proof (GetNestedStruct_spec _ _ _ _ _ f n' S ltac:(lia)) as HG. now rewrite ES in HG.
Qed.
Example C13_ex :
  exists p c p' c', build 12 demo = Ok p /\ build 3 demo_child = Ok c /\ SetNestedStruct p 0 (Some c) = Ok p' /\
    GetNestedStruct p' 0 3 = Ok (Some c') /\ answer c' (QBytes 1) = Ok (ABytes [1; 2; 3]).
Proof.
  do 4 eexists. split; [vm_compute; reflexivity|]. split; [vm_compute; reflexivity|].
  split; [vm_compute; reflexivity|]. split; [vm_compute; reflexivity|]. vm_compute; reflexivity.
Qed.

Print Assumptions C06_legal_calls_succeed.
Print Assumptions C03_scalar_read_your_write.
Print Assumptions C03_zero_values.
Print Assumptions C04_field_independence.
Print Assumptions C04_field_bytes.
Print Assumptions C05_sparse_encoding.
Print Assumptions C06_wire_layout.
Print Assumptions C06_marshal_is_wire_format.
Print Assumptions C07_canonical_encoding.
Print Assumptions C07_canonical_reached.
Print Assumptions C08_roundtrip.
Print Assumptions C08_answers.
Print Assumptions C09_schema_evolution.
Print Assumptions C09_writer_fields.
Print Assumptions C09_unknown_fields_preserved.
Print Assumptions C12_bytes_read_your_write.
Print Assumptions C13_nested_roundtrip.
Print Assumptions C13_nil_child.
