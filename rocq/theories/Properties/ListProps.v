(** C14-C17, C22, C23: lists and Any values through Marshal and Unmarshal. *)
From Verif.Proofs Require Import Demo NumList.

(** A legal call, Marshal, and Unmarshal by a reader with n' fields. *)
Lemma write_read n n' s m o rest :
  reached n s m -> ok_op n 0 m o ->
  exists s1 s2 b s0 t, do_op s o = Ok s1 /\ Marshal s1 = Ok (s2, b) /\ New n' = Ok s0 /\
    Unmarshal s0 (b ++ rest) = Ok t /\ reached n' t (apply_op m o) /\ reached n s1 (apply_op m o).
Proof.
  intros HR HO. destruct (reached_op _ _ _ _ HR HO) as (s1 & E & HR').
  destruct (reached_unmarshal n n' s1 _ rest HR') as (s2 & b & s0 & t & EM & EN & EU & HT).
  exists s1, s2, b, s0, t. auto 10.
Qed.
Lemma seen_mset n m f b v :
  fsorted m -> 0 <= f < Z.of_nat n -> seen n (mset b f v m) f = if b then None else Some v.
Proof.
  intros S Hf. unfold seen. replace (_ && _) with true by lia. unfold mset.
  destruct b; rewrite ?flook_fdel, ?flook_fput, Z.eqb_refl; auto.
Qed.
Lemma seen_mset_ne n m f b v g : fsorted m -> g <> f -> seen n (mset b f v m) g = seen n m g.
Proof. intros S N. unfold seen. destruct (_ && _); auto. now apply flook_mset_ne. Qed.

(** ** C14 *)
Theorem C14_bool_list_roundtrip :
  forall n n' s m f l rest,
    reached n s m -> 0 <= f < Z.of_nat n -> f < 2 ^ 16 -> f < Z.of_nat n' ->
    len (st_data s) + 8 + (len l + 7) / 8 + 7 < 2 ^ 32 ->
    exists s1 s2 b s0 t,
      sync_bools s f l = Ok s1 /\ Marshal s1 = Ok (s2, b) /\ New n' = Ok s0 /\ Unmarshal s0 (b ++ rest) = Ok t /\
      get_bools t f = Ok (match l with [] => None | _ => Some l end) /\ get_bools s1 f = get_bools t f.
Proof.
  intros n n' s m f l rest HR Hf Hf' Hn HL.
  assert (HO : ok_op n 0 m (OBools f l)).
  { cbn [ok_op valid_value apply_op]. repeat split; auto; try lia. eapply fits_mset; eauto.
    rewrite len_wire_value. cbn [v_rest]. rewrite len_padded, len_bit_bytes.
    pose proof (pad_len_range ((len l + 7) / 8)). lia. }
  destruct (write_read n n' s m _ rest HR HO) as (s1 & s2 & b & s0 & t & E1 & E2 & E3 & E4 & HT & HS).
  exists s1, s2, b, s0, t. destruct (reached_sorted _ _ _ HR) as (S & _).
  assert (EX : forall k u, reached k u (apply_op m (OBools f l)) -> f < Z.of_nat k ->
     get_bools u f = Ok (match l with [] => None | _ => Some l end)).
  { intros k u HU Hk. assert (EA : answer u (QBools f) = Ok (ABools (match l with [] => None | _ => Some l end))).
    { eapply reached_answer; eauto. split; [lia|]. cbn [apply_op]. rewrite seen_mset by (auto; lia).
      destruct l; cbn [nil_b]; reflexivity. }
    cbn [answer] in EA. destruct (get_bools u f); cbn in EA; congruence. }
  rewrite (EX _ _ HT), (EX _ _ HS) by lia. auto 10.
Qed.
Example C14_ex :
  exists s s1 s2 b s0 t, build 12 demo = Ok s /\ sync_bools s 0 (repeat true 65 ++ [false; true]) = Ok s1 /\
    Marshal s1 = Ok (s2, b) /\ New 1 = Ok s0 /\ Unmarshal s0 b = Ok t /\
    get_bools t 0 = Ok (Some (repeat true 65 ++ [false; true])).
Proof.
  do 6 eexists. split; [vm_compute; reflexivity|]. split; [vm_compute; reflexivity|].
  split; [vm_compute; reflexivity|]. split; [vm_compute; reflexivity|].
  split; [vm_compute; reflexivity|]. vm_compute; reflexivity.
Qed.

(** ** C15 *)
(** A numeric list filled by any sequence of Append, Set and SetAll calls, synchronised,
    marshalled and read back (Slice of the reader's list) has the items the calls describe. *)
Theorem C15_number_list_roundtrip :
  forall n n' s m f k os rest,
    let l := lops_sem [] os in
    reached n s m -> 0 <= f < Z.of_nat n -> f < 2 ^ 16 -> f < Z.of_nat n' -> k <> KBool -> lops_ok k [] os ->
    len (st_data s) + 8 + Z.of_nat (kind_size k) * len l < 2 ^ 32 ->
    exists nu s1 s2 b s0 t,
      lops_do k nu_empty os = Ok nu /\
      sync_numbers s f k nu = Ok s1 /\ Marshal s1 = Ok (s2, b) /\ New n' = Ok s0 /\ Unmarshal s0 (b ++ rest) = Ok t /\
      match l with
      | [] => get_numbers t f k = Ok None
      | _ => exists nu', get_numbers t f k = Ok (Some nu') /\ nu_slice k nu' = Ok l /\ nu_len nu' = len l
      end.
Proof.
  intros n n' s m f k os rest l HR Hf Hf' Hn HK HOK HL.
  destruct (nu_rep_ops k os nu_empty []) as (nu & EN & ED & ELen); [split; reflexivity|auto|].
  fold l in ED, ELen.
  assert (HRG : Forall (in_range k) l) by (apply lops_range; auto).
  assert (HO : ok_op n 0 m (ONums f k l)).
  { cbn [ok_op valid_value apply_op]. repeat split; auto; try lia. eapply fits_mset; eauto.
    rewrite len_wire_value. cbn [v_rest]. unfold nums_data. rewrite len_items. lia. }
  destruct (write_read n n' s m _ rest HR HO) as (s1 & s2 & b & s0 & t & E1 & E2 & E3 & E4 & HT & HS).
  exists nu, s1, s2, b, s0, t. split; auto. split.
  { cbn [do_op] in E1. unfold sync_numbers, nu_setall in *. cbn [nu_len nu_data] in E1. rewrite ELen, ED.
    rewrite append_items_spec in E1. exact E1. }
  split; auto. split; auto. split; auto.
  destruct (reached_sorted _ _ _ HR) as (S & _).
  assert (EA : answer t (QNums f k) = Ok (ANums (match l with [] => None | _ => Some l end))).
  { eapply reached_answer; eauto. split; [lia|]. cbn [apply_op]. rewrite seen_mset by (auto; lia).
    destruct l; cbn [nil_b]; auto. }
  cbn [answer] in EA. destruct (get_numbers t f k) as [o| | |] eqn:EG; try discriminate EA. cbn [bind] in EA.
  destruct o as [nu'|].
  - destruct (nu_slice k nu') as [l'| | |] eqn:ES; cbn [bind] in EA; try discriminate EA. inv EA.
    assert (El : l' = l) by (destruct l; congruence). subst l'.
    assert (LL : forall cnt i r, nu_slice_from k nu' cnt i = Ok r -> length r = cnt).
    { clear. induction cnt as [|c IH]; intros i r H; cbn [nu_slice_from] in H; [inv H; auto|].
      apply bind_Ok_inv in H. destruct H as (v & _ & H). apply bind_Ok_inv in H. destruct H as (r' & H1 & H).
      inv H. cbn. f_equal. eauto. }
    unfold nu_slice in ES. pose proof (LL _ _ _ ES) as LX.
    assert (0 <= nu_len nu').
    { unfold get_numbers in EG. apply bind_Ok_inv in EG. destruct EG as ([o z] & _ & EG).
      destruct (z =? 0); [discriminate|]. apply bind_Ok_inv in EG. destruct EG as (d & _ & EG).
      destruct (len d <? HeaderSize); [discriminate|]. apply bind_Ok_inv in EG. destruct EG as (h & _ & EG).
      apply bind_Ok_inv in EG. destruct EG as ([[q1 q2] q3] & _ & EG).
      destruct (Z.ltb_spec (Z.quot (q3 - HeaderSize) (Z.of_nat (item_size k)) * Z.of_nat (item_size k)) 0); [discriminate|].
      apply bind_Ok_inv in EG. destruct EG as (d' & _ & EG). inv EG. cbn [nu_len].
      apply Z.div_pos; auto. destruct k; cbn; lia. }
    destruct l as [|z l]; [discriminate|]. exists nu'. repeat split; auto. unfold len. lia.
  - destruct l; [reflexivity|discriminate].
Qed.
Example C15_ex :
  exists nu, lops_ok KI16 [] [LAppend [1; -2]; LSet 1 300; LAppend [-32768]] /\
    lops_do KI16 nu_empty [LAppend [1; -2]; LSet 1 300; LAppend [-32768]] = Ok nu /\
    nu_data nu = [1; 0; 44; 1; 0; 128] /\ lops_sem [] [LAppend [1; -2]; LSet 1 300; LAppend [-32768]] = [1; 300; -32768].
Proof.
  eexists. split.
  { cbn. repeat (split || constructor); try lia. }
  split; [vm_compute; reflexivity|]. split; vm_compute; reflexivity.
Qed.
(** Reading an item by index agrees with the list, and an index out of range panics. *)
Theorem C15_number_list_get :
  forall k os nu, k <> KBool -> lops_ok k [] os -> lops_do k nu_empty os = Ok nu ->
    nu_len nu = len (lops_sem [] os) /\
    (forall i v, nth_error (lops_sem [] os) i = Some v -> nu_get k nu (Z.of_nat i) = Ok v) /\
    (forall i v, ~ (0 <= i < len (lops_sem [] os)) -> nu_get k nu i = Panic /\ nu_set k nu i v = Panic).
Proof.
  intros k os nu HK HO E. destruct (nu_rep_ops k os nu_empty []) as (nu1 & E1 & R); [split; reflexivity|auto|].
  assert (nu1 = nu) by congruence. subst nu1. split; [apply R|]. split.
  - intros i v EV. eapply nu_get_rep; eauto. apply lops_range; auto.
  - intros i v Hi. split; [eapply nu_get_out; eauto|]. unfold nu_set. destruct R as [_ R]. rewrite R.
    replace (_ || _) with true by lia. reflexivity.
Qed.

(** ** C16 *)
(** What a reader gets for a string or bytes list, exactly: the items, and one empty item
    more when the list needs four or more bytes of padding. *)
Theorem C16_blob_list_exact :
  forall n n' s m f (str : bool) l rest,
    reached n s m -> 0 <= f < Z.of_nat n -> f < 2 ^ 16 -> f < Z.of_nat n' -> Forall byte_list l -> l <> [] ->
    len (st_data s) + 15 + len (concat (map blob l)) < 2 ^ 32 ->
    exists s1 s2 b s0 t,
      sync_blobs s f (if str then FTListStrings else FTListBytes) l = Ok s1 /\
      Marshal s1 = Ok (s2, b) /\ New n' = Ok s0 /\ Unmarshal s0 (b ++ rest) = Ok t /\
      get_blobs t f = Ok (Some (l ++ if 4 <=? pad_len (len (concat (map blob l))) then [[]] else [])).
Proof.
  intros n n' s m f str l rest HR Hf Hf' Hn HB HN HL.
  assert (HO : ok_op n 0 m (OBlobs f str l)).
  { cbn [ok_op valid_value apply_op]. repeat split; auto; try lia. eapply fits_mset; eauto.
    rewrite len_wire_value. cbn [v_rest]. rewrite len_padded.
    pose proof (pad_len_range (len (concat (map blob l)))). lia. }
  destruct (write_read n n' s m _ rest HR HO) as (s1 & s2 & b & s0 & t & E1 & E2 & E3 & E4 & HT & HS).
  exists s1, s2, b, s0, t. repeat split; auto.
  destruct (reached_sorted _ _ _ HR) as (S & _). destruct (reached_good _ _ _ HT) as (g & _ & ST & _).
  apply (get_blobs_exact _ _ _ _ _ f str l ST); [lia|]. cbn [apply_op]. rewrite seen_mset by (auto; lia).
  destruct l; [congruence|reflexivity].
Qed.
(** The round trip, for lists with less than four bytes of padding (and for the empty list). *)
Theorem C16_blob_list_roundtrip_partial :
  forall n n' s m f (str : bool) l rest,
    reached n s m -> 0 <= f < Z.of_nat n -> f < 2 ^ 16 -> f < Z.of_nat n' -> Forall byte_list l ->
    pad_len (len (concat (map blob l))) < 4 ->
    len (st_data s) + 15 + len (concat (map blob l)) < 2 ^ 32 ->
    exists s1 s2 b s0 t,
      sync_blobs s f (if str then FTListStrings else FTListBytes) l = Ok s1 /\
      Marshal s1 = Ok (s2, b) /\ New n' = Ok s0 /\ Unmarshal s0 (b ++ rest) = Ok t /\
      get_blobs t f = Ok (match l with [] => None | _ => Some l end).
Proof.
  intros n n' s m f str l rest HR Hf Hf' Hn HB HP HL.
  assert (HO : ok_op n 0 m (OBlobs f str l)).
  { cbn [ok_op valid_value apply_op]. repeat split; auto; try lia. eapply fits_mset; eauto.
    rewrite len_wire_value. cbn [v_rest]. rewrite len_padded.
    pose proof (pad_len_range (len (concat (map blob l)))). lia. }
  destruct (write_read n n' s m _ rest HR HO) as (s1 & s2 & b & s0 & t & E1 & E2 & E3 & E4 & HT & HS).
  exists s1, s2, b, s0, t. repeat split; auto.
  destruct (reached_sorted _ _ _ HR) as (S & _).
  assert (EA : answer t (QBlobs f) = Ok (ABlobs (match l with [] => None | _ => Some l end))).
  { eapply reached_answer; eauto. split; [lia|]. cbn [apply_op]. rewrite seen_mset by (auto; lia).
    destruct l; cbn [nil_b]; auto. }
  cbn [answer] in EA. destruct (get_blobs t f); cbn in EA; congruence.
Qed.
(** The full property is false: one string of eight bytes is read back as two strings. *)
Theorem C16_blob_list_roundtrip_refuted :
  exists s0 l s1 s2 b t,
    New 1 = Ok s0 /\ l = [[97; 98; 99; 100; 101; 102; 103; 104]] /\
    sync_blobs s0 0 FTListStrings l = Ok s1 /\ Marshal s1 = Ok (s2, b) /\
    Unmarshal s0 b = Ok t /\ get_blobs t 0 = Ok (Some (l ++ [[]])).
Proof.
  do 6 eexists. split; [vm_compute; reflexivity|]. split; [reflexivity|].
  split; [vm_compute; reflexivity|]. split; [vm_compute; reflexivity|].
  split; [vm_compute; reflexivity|]. vm_compute; reflexivity.
Qed.
(** In fact every one-item list whose item has a length of 0..., that is 8k bytes, is affected. *)
Theorem C16_blob_list_refuted_class :
  forall it, byte_list it -> len it mod 8 = 0 -> len it < 2 ^ 31 ->
    exists s0 s1 s2 b t,
      New 1 = Ok s0 /\ sync_blobs s0 0 FTListBytes [it] = Ok s1 /\ Marshal s1 = Ok (s2, b) /\
      Unmarshal s0 b = Ok t /\ get_blobs t 0 = Ok (Some [it; []]).
Proof.
  intros it HB HM HL. pose proof (len_nonneg it).
  assert (EL : len (concat (map blob [it])) = 4 + len it).
  { cbn [map concat]. rewrite app_nil_r. unfold blob. now rewrite len_app, len_le_enc. }
  destruct (C16_blob_list_exact 1 1 _ [] 0 false [it] [] (R_new _ _ (New_spec 1))) as (s1 & s2 & b & s0 & t & E1 & E2 & E3 & E4 & E5);
    try lia; auto; try discriminate.
  { cbn [st_data]. rewrite len_hdr, EL. lia. }
  rewrite New_spec in E3. injection E3 as <-. rewrite app_nil_r in E4.
  eexists _, s1, s2, b, t. split; [apply New_spec|]. repeat split; auto.
  rewrite E5, EL. unfold pad_len. replace (4 <=? (- (4 + len it)) mod 8) with true by lia. reflexivity.
Qed.

Print Assumptions C14_bool_list_roundtrip.
Print Assumptions C15_number_list_roundtrip.
Print Assumptions C15_number_list_get.
Print Assumptions C16_blob_list_exact.
Print Assumptions C16_blob_list_roundtrip_partial.
Print Assumptions C16_blob_list_roundtrip_refuted.
Print Assumptions C16_blob_list_refuted_class.
