(** Patches as messages: what is written is what is read. *)
From Verif.Spec Require Export Patches.
From Verif.Proofs Require Export ViewProofs.

(** ** Getters of structs that stand for a message *)
Definition scalar_or_none (k : kind) (o : option value) : Prop :=
  match o with None => True | Some (VScalar k' _) => k' = k | _ => False end.
Definition bytes_or_none (o : option value) : Prop :=
  match o with None => True | Some (VBytes _ _) => True | _ => False end.
Lemma Sim_get_scalar s n h3 m tail f k :
  Sim s n h3 m tail -> 0 <= f -> scalar_or_none k (seen n m f) ->
  get_scalar s f k = Ok (num_in (seen n m f)).
Proof.
  intros S Hf HT.
  assert (E : answer s (QScalar f k) = Ok (ANum (num_in (seen n m f)))).
  { eapply answer_expects; eauto. cbn. split; auto.
    destruct (seen n m f) as [[]|]; cbn in *; auto; tauto. }
  cbn [answer] in E. destruct (get_scalar s f k); cbn [bind] in E; congruence.
Qed.
Lemma Sim_GetBytes s n h3 m tail f :
  Sim s n h3 m tail -> 0 <= f -> bytes_or_none (seen n m f) ->
  GetBytes s f = Ok (bytes_in (seen n m f)).
Proof.
  intros S Hf HT.
  assert (E : answer s (QBytes f) = Ok (ABytes (bytes_in (seen n m f)))).
  { eapply answer_expects; eauto. cbn. split; auto.
    destruct (seen n m f) as [[]|]; cbn in *; auto; tauto. }
  cbn [answer] in E. destruct (GetBytes s f); cbn [bind] in E; congruence.
Qed.

(** ** Operations *)
Definition op_calls (o : rop) : list op :=
  [OScalar 0 KU16 (r_fn o); OScalar 1 KU8 (r_type o); OScalar 2 KI32 (r_index o); OBytes 3 false (r_data o)].
Definition op_msg (o : rop) : msg := sem [] (op_calls o).
Definition patch_calls (ops : list rop) : list op :=
  [OScalar 0 KU8 PatchVersion; OStructs 1 4 (map op_calls ops)].
Definition patch_msg (ops : list rop) : msg := sem [] (patch_calls ops).

Lemma op_struct_build o : op_struct o = build 4 (op_calls o).
Proof.
  unfold op_struct, build. cbn [op_calls run do_op set_scalar].
  destruct (New 4) as [s| | |]; auto. cbn [bind].
  destruct (SetUint16 s 0 (r_fn o)) as [s1| | |]; auto. cbn [bind].
  destruct (SetUint8 s1 1 (r_type o)) as [s2| | |]; auto. cbn [bind].
  destruct (SetInt32 s2 2 (r_index o)) as [s3| | |]; auto. cbn [bind].
  now destruct (SetBytes s3 3 (r_data o)).
Qed.
Lemma op_structs_build ops : op_structs ops = build_all 4 (map op_calls ops).
Proof.
  induction ops as [|o r IH]; [reflexivity|]. cbn [op_structs map build_all]. now rewrite op_struct_build, IH.
Qed.
Lemma patch_bytes_build ops :
  patch_bytes ops = (s <- build 2 (patch_calls ops) ;; '(_, b) <- Marshal s ;; Ok b).
Proof.
  unfold patch_bytes, build. cbn [patch_calls run]. rewrite op_structs_build.
  destruct (New 2) as [s| | |]; auto. cbn [bind].
  change (do_op s (OScalar 0 KU8 PatchVersion)) with (SetUint8 s 0 PatchVersion).
  destruct (SetUint8 s 0 PatchVersion) as [s1| | |]; auto. cbn [bind]. rewrite do_OStructs.
  destruct (build_all 4 (map op_calls ops)) as [items| | |]; auto. cbn [bind].
  destruct (sync_structs s1 1 items) as [[s2 x]| | |]; auto.
Qed.

(** Sizes. *)
Lemma pad_len_le n : 0 <= pad_len n < 8.
Proof. unfold pad_len. apply Z.mod_pos_bound. lia. Qed.
Lemma len_padded_le b : len b <= len (padded b) <= len b + 7.
Proof.
  unfold padded. rewrite len_app, len_zeros; pose proof (pad_len_le (len b)); lia.
Qed.
Lemma len_wire_mset b f v m :
  fsorted m -> len (wire_msg (mset b f v m)) <= len (wire_msg m) + len (wire_value f v).
Proof.
  intros S. unfold mset. pose proof (len_nonneg (wire_value f v)).
  destruct b; [pose proof (len_wire_del f m S)|pose proof (len_wire_put f v m S)]; lia.
Qed.
Lemma fsorted_nil : fsorted ([] : msg).
Proof. constructor. Qed.
Lemma len_wire_scalar f k v : len (wire_value f (VScalar k v)) <= 16.
Proof. rewrite len_wire_value. cbn [v_rest]. destruct k; cbn; lia. Qed.
Lemma len_wire_narrow f k v :
  match k with KI64 | KU64 | KF64 => False | _ => True end -> len (wire_value f (VScalar k v)) = 8.
Proof. rewrite len_wire_value. cbn [v_rest]. destruct k; cbn; tauto. Qed.
Lemma len_wire_blob f s b : len (wire_value f (VBytes s b)) = 8 + len (padded b).
Proof. rewrite len_wire_value. reflexivity. Qed.

Lemma op_sorted o : fsorted (op_msg o).
Proof. apply sem_sorted, fsorted_nil. Qed.
Lemma fits_small m : len (wire_msg m) < 2 ^ 32 - 8 -> fits 0 m.
Proof. unfold fits. lia. Qed.

(** The four calls are legal and the message has these fields. *)
Lemma op_run o : valid_rop o -> len (padded (r_data o)) < 2 ^ 32 - 64 ->
  ok_run 4 0 [] (op_calls o) /\ 8 + len (wire_msg (op_msg o)) <= op_size o.
Proof.
  intros (V1 & V2 & V3 & V4) HL. unfold op_msg, op_size. cbn [op_calls ok_run sem].
  set (m1 := apply_op [] (OScalar 0 KU16 (r_fn o))).
  assert (S1 : fsorted m1) by (apply apply_sorted, fsorted_nil).
  assert (L1 : len (wire_msg m1) <= 8).
  { unfold m1. cbn [apply_op]. pose proof (len_wire_mset (is_zero KU16 (r_fn o)) 0 (VScalar KU16 (r_fn o)) [] fsorted_nil) as L.
    rewrite len_wire_narrow in L by exact I. change (len (wire_msg [])) with 0 in L. lia. }
  set (m2 := apply_op m1 (OScalar 1 KU8 (r_type o))).
  assert (S2 : fsorted m2) by now apply apply_sorted.
  assert (L2 : len (wire_msg m2) <= 16).
  { unfold m2. cbn [apply_op]. pose proof (len_wire_mset (is_zero KU8 (r_type o)) 1 (VScalar KU8 (r_type o)) m1 S1) as L.
    rewrite len_wire_narrow in L by exact I. lia. }
  set (m3 := apply_op m2 (OScalar 2 KI32 (r_index o))).
  assert (S3 : fsorted m3) by now apply apply_sorted.
  assert (L3 : len (wire_msg m3) <= 24).
  { unfold m3. cbn [apply_op]. pose proof (len_wire_mset (is_zero KI32 (r_index o)) 2 (VScalar KI32 (r_index o)) m2 S2) as L.
    rewrite len_wire_narrow in L by exact I. lia. }
  set (m4 := apply_op m3 (OBytes 3 false (r_data o))).
  assert (L4 : len (wire_msg m4) <= 32 + len (padded (r_data o))).
  { unfold m4. cbn [apply_op]. pose proof (len_wire_mset (nil_b (r_data o)) 3 (VBytes false (r_data o)) m3 S3) as L.
    rewrite len_wire_blob in L. lia. }
  assert (N : 0 <= len (padded (r_data o))) by apply len_nonneg.
  split; [|lia]. split; [|split; [|split; [|split; [|exact I]]]]; cbn [ok_op valid_value];
    (split; [change (Z.of_nat 4) with 4; lia|split; [lia|split; [assumption|apply fits_small]]]);
    fold m1 m2 m3 m4; lia.
Qed.
Lemma op_fields o : valid_rop o ->
  scalar_or_none KU16 (flook 0 (op_msg o)) /\ num_in (flook 0 (op_msg o)) = r_fn o /\
  scalar_or_none KU8 (flook 1 (op_msg o)) /\ num_in (flook 1 (op_msg o)) = r_type o /\
  scalar_or_none KI32 (flook 2 (op_msg o)) /\ num_in (flook 2 (op_msg o)) = r_index o /\
  bytes_or_none (flook 3 (op_msg o)) /\ bytes_in (flook 3 (op_msg o)) = r_data o.
Proof.
  intros _. unfold op_msg. cbn [op_calls sem apply_op].
  assert (S0 := fsorted_nil).
  set (m1 := mset (is_zero KU16 (r_fn o)) 0 (VScalar KU16 (r_fn o)) []).
  assert (S1 : fsorted m1) by now apply mset_sorted.
  set (m2 := mset (is_zero KU8 (r_type o)) 1 (VScalar KU8 (r_type o)) m1).
  assert (S2 : fsorted m2) by now apply mset_sorted.
  set (m3 := mset (is_zero KI32 (r_index o)) 2 (VScalar KI32 (r_index o)) m2).
  assert (S3 : fsorted m3) by now apply mset_sorted.
  assert (H : forall k b f v m, fsorted m -> (b = true -> v = 0) ->
     scalar_or_none k (flook f (mset b f (VScalar k v) m)) /\ num_in (flook f (mset b f (VScalar k v) m)) = v).
  { intros k b f v m S Hb. unfold mset. destruct b; rewrite ?flook_fdel, ?flook_fput, Z.eqb_refl by auto; cbn; auto.
    split; auto. now rewrite Hb. }
  assert (B : bytes_or_none (flook 3 (mset (nil_b (r_data o)) 3 (VBytes false (r_data o)) m3)) /\
              bytes_in (flook 3 (mset (nil_b (r_data o)) 3 (VBytes false (r_data o)) m3)) = r_data o).
  { unfold mset. destruct (r_data o) as [|x d] eqn:E; cbn [nil_b];
      rewrite ?flook_fdel, ?flook_fput, Z.eqb_refl by auto; cbn; auto. }
  rewrite !(flook_mset_ne (nil_b (r_data o))) by (auto; lia).
  unfold m3 at 1 2 3 4. rewrite !(flook_mset_ne (is_zero KI32 (r_index o))) by (auto; lia).
  unfold m2 at 1 2. rewrite !(flook_mset_ne (is_zero KU8 (r_type o))) by (auto; lia).
  destruct (H KU16 (is_zero KU16 (r_fn o)) 0 (r_fn o) []) as [A1 A2]; [auto|apply Z.eqb_eq|]. fold m1 in A1, A2.
  destruct (H KU8 (is_zero KU8 (r_type o)) 1 (r_type o) m1) as [B1 B2]; [auto|apply Z.eqb_eq|]. fold m2 in B1, B2.
  destruct (H KI32 (is_zero KI32 (r_index o)) 2 (r_index o) m2) as [C1 C2]; [auto|apply Z.eqb_eq|]. fold m3 in C1, C2.
  tauto.
Qed.

Lemma op_size_pos o : 48 <= op_size o.
Proof. unfold op_size. pose proof (len_nonneg (padded (r_data o))). lia. Qed.
Lemma ops_size_app a b : ops_size (a ++ b) = ops_size a + ops_size b.
Proof. unfold ops_size. induction a; cbn [app fold_right]; lia. Qed.
Lemma ops_size_nonneg a : 0 <= ops_size a.
Proof.
  induction a as [|o r IH]; [cbn; lia|]. change (ops_size (o :: r)) with (op_size o + ops_size r).
  pose proof (op_size_pos o). lia.
Qed.
Lemma ops_items i ops :
  Forall valid_rop ops -> ops_size ops < 2 ^ 32 - 64 ->
  Forall (ok_run 4 0 []) (map op_calls ops) /\
  len (wire_items i (map (sem []) (map op_calls ops))) <= ops_size ops.
Proof.
  intros V. revert i. induction V as [|o r Vo Vr IH]; intros i HL; cbn [map wire_items]; [split; [constructor|reflexivity]|].
  assert (E : ops_size (o :: r) = op_size o + ops_size r) by reflexivity.
  pose proof (ops_size_nonneg r). pose proof (op_size_pos o).
  destruct (IH (i + 1) ltac:(lia)) as [A B].
  destruct (op_run o Vo) as [C D]. { unfold op_size in *. lia. }
  split; [now constructor|]. rewrite len_app, len_wire_struct. fold (op_msg o). lia.
Qed.

Lemma patch_run ops :
  Forall valid_rop ops -> ops_size ops < 2 ^ 32 - 64 ->
  ok_run 2 0 [] (patch_calls ops) /\ 8 + len (wire_msg (patch_msg ops)) <= 24 + ops_size ops.
Proof.
  intros V HL. destruct (ops_items 0 ops V HL) as [OK L]. pose proof (ops_size_nonneg ops).
  unfold patch_msg. cbn [patch_calls sem ok_run].
  set (m1 := apply_op [] (OScalar 0 KU8 PatchVersion)).
  assert (S1 : fsorted m1) by (apply apply_sorted, fsorted_nil).
  assert (L1 : len (wire_msg m1) <= 8) by (vm_compute; discriminate).
  set (m2 := apply_op m1 (OStructs 1 4 (map op_calls ops))).
  assert (L2 : len (wire_msg m2) <= 16 + ops_size ops).
  { unfold m2. rewrite apply_OStructs.
    pose proof (len_wire_mset (nil_b (map op_calls ops)) 1 (VStructs (map (sem []) (map op_calls ops))) m1 S1) as L2.
    rewrite len_wire_value in L2. cbn [v_rest] in L2. lia. }
  split; [|lia]. split; [|split; [|exact I]].
  - cbn [ok_op valid_value]. change (Z.of_nat 2) with 2. split; [lia|]. split; [lia|].
    split; [vm_compute; split; congruence|apply fits_small; fold m1; lia].
  - apply ok_OStructs. split; auto. change (Z.of_nat 2) with 2. split; [lia|]. split; [lia|].
    apply fits_small. fold m2. lia.
Qed.
Lemma patch_written ops :
  Forall valid_rop ops -> ops_size ops < 2 ^ 32 - 64 ->
  patch_bytes ops = Ok (wire (patch_msg ops)) /\ valid_msg (patch_msg ops) /\ fits 0 (patch_msg ops).
Proof.
  intros V HL. destruct (patch_run ops V HL) as [OK L].
  rewrite patch_bytes_build. destruct (build_sim _ _ OK) as (s & -> & S & F). rewrite bind_Ok.
  destruct (Sim_marshal _ _ _ _ _ S F) as (s' & -> & _). rewrite bind_Ok.
  destruct (Sim_fits _ _ _ _ _ S) as [F0 V0]. split; [|split; assumption].
  change root3 with (hdr3 0) in S. f_equal. eapply Sim_data_f; eauto; lia.
Qed.
Lemma read_op_item i o :
  valid_rop o -> valid_msg (op_msg o) -> fits 0 (op_msg o) -> read_op (item_struct 4 (i, op_msg o)) = Ok o.
Proof.
  intros V VM F. destruct (op_fields o V) as (A1 & A2 & B1 & B2 & C1 & C2 & D1 & D2).
  assert (S : Sim (item_struct 4 (i, op_msg o)) 4 (hdr3 (i mod 2 ^ 16)) (op_msg o) []).
  { unfold item_struct. cbn [fst snd]. rewrite wire_struct_mod. apply Sim_child; auto. }
  unfold read_op.
  assert (E : forall f, 0 <= f < 4 -> seen 4 (op_msg o) f = flook f (op_msg o)).
  { intros f Hf. unfold seen. now replace (_ && _) with true by lia. }
  change GetUint16 with (fun s f => get_scalar s f KU16). change GetUint8 with (fun s f => get_scalar s f KU8).
  change GetInt32 with (fun s f => get_scalar s f KI32). cbv beta.
  rewrite !(Sim_get_scalar _ _ _ _ _ _ _ S), (Sim_GetBytes _ _ _ _ _ _ S) by (try lia; rewrite E by lia; assumption).
  rewrite !bind_Ok, !E by lia. rewrite A2, B2, C2, D2. now destruct o.
Qed.
Lemma read_ops_items i ops :
  Forall valid_rop ops -> Forall (fun c => valid_msg c /\ fits 0 c) (map (sem []) (map op_calls ops)) ->
  read_ops (map (item_struct 4) (numbered i (map (sem []) (map op_calls ops)))) = Ok ops.
Proof.
  intros V. revert i. induction V as [|o r Vo Vr IH]; intros i HF; cbn [map numbered read_ops]; auto.
  inv HF. destruct H1 as [A B]. fold (op_msg o) in *. rewrite read_op_item by auto. rewrite bind_Ok, IH by auto. reflexivity.
Qed.
Lemma patch_read ops :
  Forall valid_rop ops -> ops_size ops < 2 ^ 32 - 64 ->
  read_patch (wire (patch_msg ops)) = Ok (PatchVersion, ops).
Proof.
  intros V HL. destruct (patch_written ops V HL) as (_ & VM & F).
  unfold read_patch. rewrite New_spec, bind_Ok.
  destruct (Unmarshal_wire_struct (mkStruct (hdr 0 FTStruct 8) (repeat fe_zero 2) false false None false [])
             2 0 (patch_msg ops) []) as (t & E & S & _); auto; [lia|apply stale_ok_zero|].
  rewrite app_nil_r in E. unfold wire. rewrite E, bind_Ok.
  assert (L0 : flook 0 (patch_msg ops) = Some (VScalar KU8 PatchVersion)).
  { unfold patch_msg. cbn [patch_calls sem]. rewrite apply_OStructs, flook_mset_ne by (try lia; apply apply_sorted, fsorted_nil).
    reflexivity. }
  assert (L1 : flook 1 (patch_msg ops) = match ops with [] => None | _ => Some (VStructs (map (sem []) (map op_calls ops))) end).
  { unfold patch_msg. cbn [patch_calls sem]. rewrite apply_OStructs.
    assert (S1 : fsorted (apply_op [] (OScalar 0 KU8 PatchVersion))) by (apply apply_sorted, fsorted_nil).
    destruct ops as [|o r]; cbn [map nil_b mset]; rewrite ?flook_fdel, ?flook_fput by auto; reflexivity. }
  change GetUint8 with (fun s f => get_scalar s f KU8). cbv beta.
  rewrite (Sim_get_scalar _ _ _ _ _ _ _ S); [|lia|unfold seen; cbn [andb]; rewrite L0; reflexivity].
  rewrite bind_Ok. unfold seen at 1. rewrite L0.
  change ((0 <=? 0) && (0 <? Z.of_nat 2)) with true. cbv iota. cbn [num_in].
  pose proof (get_structs_spec _ _ _ _ _ 1 4 S ltac:(lia)) as G. unfold seen in G.
  change ((0 <=? 1) && (1 <? Z.of_nat 2)) with true in G. cbv iota in G. rewrite L1 in G.
  destruct ops as [|o r].
  - rewrite G. reflexivity.
  - destruct G as [-> HF]. rewrite bind_Ok, read_ops_items by auto. reflexivity.
Qed.
