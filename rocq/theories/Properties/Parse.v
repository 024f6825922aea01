(** C10, C11, C24: decoding arbitrary bytes, the IsSet trailer, decoding into a used struct. *)
From Verif.Spec Require Import IsSet Parse.
From Verif.Proofs Require Import IsSetLemmas Demo.

(** ** C10 *)
(** Unmarshal itself always returns.  After it succeeds, reading a field either ends within
    len(data)+1 rounds of the parser's loop, or never ends, whatever the number of rounds;
    and it never ends only if the bytes contain a struct, list or map header of size zero. *)
Theorem parse_hang_forever :
  forall data idx,
    byte_list data ->
    (exists idx', length idx' = length idx /\ forall k, parse_with (S (length data) + k) data idx = Ok idx') \/
    (forall k, parse_with k data idx = Hang) /\
    (exists q fn ft f40, 8 <= q /\ header_at data q fn ft f40 /\ zero_sized ft f40 = true).
Proof. intros. now apply parse_total. Qed.

Theorem C10_decoding_terminates_partial :
  forall s data t,
    byte_list data -> Unmarshal s data = Ok t ->
    (forall q fn ft f40, 8 <= q -> header_at data q fn ft f40 -> zero_sized ft f40 = false) ->
    forall f, 0 <= f -> exists b o z, HasField t f = Ok b /\ FieldOffset t f = Ok (o, z).
Proof.
  intros s data t HB HU HZ f Hf.
  assert (HT : byte_list (st_data t) /\ st_parsed t = false /\ exists rest, data = st_data t ++ rest).
  { unfold Unmarshal in HU. destruct (len data <? HeaderSize); [discriminate|].
    apply bind_Ok_inv in HU. destruct HU as (h & _ & HU). apply bind_Ok_inv in HU. destruct HU as (((a & b) & c) & _ & HU).
    destruct (negb _); [discriminate|]. destruct (_ >? _) eqn:E; [discriminate|].
    apply bind_Ok_inv in HU. destruct HU as (d & ED & HU). inv HU. cbn [st_data with_parsed with_data st_parsed].
    unfold slice in ED. destruct (_ && _); [|discriminate]. inv ED. rewrite drop_0, Z.sub_0_r. split; [|split; auto].
    - now apply is_bytes_take.
    - exists (drop c data). now rewrite take_drop. }
  destruct HT as (HBT & HP & rest & HD).
  destruct (parse_hang_forever (st_data t) (st_index t) HBT) as [(idx & L & E)|(E & q & fn & ft & f40 & Hq & HA & HX)].
  - specialize (E 0%nat). rewrite Nat.add_0_r in E.
    unfold HasField, FieldOffset, ensureFieldIndexParsed. rewrite HP. unfold parseFieldIndex. rewrite E. rewrite !bind_Ok.
    cbn [with_parsed with_index st_index]. destruct (Z.geb_spec f (len idx)).
    + exists false, 0, 0. auto.
    + destruct (index_ok_ex idx f) as [e Ee]; [lia|]. rewrite Ee. do 3 eexists. split; reflexivity.
  - exfalso. rewrite (HZ q fn ft f40) in HX; [discriminate|lia|].
    destruct HA as (H1 & H2 & H3 & H4 & H5 & H6). pose proof (len_nonneg rest).
    repeat split; try tauto; try lia.
    + rewrite HD, len_app. lia.
    + rewrite HD, drop_app_l by lia. rewrite take_app_l; auto. rewrite len_drop; lia.
Qed.
(** Every message this library writes is decoded in finitely many steps by every reader. *)
Theorem C10_own_messages_terminate :
  forall n n' s m rest,
    reached n s m ->
    exists s' b s0 t, Marshal s = Ok (s', b) /\ New n' = Ok s0 /\ Unmarshal s0 (b ++ rest) = Ok t /\
      forall f, 0 <= f -> exists v, HasField t f = Ok v.
Proof.
  intros n n' s m rest HR. destruct (reached_unmarshal n n' s m rest HR) as (s' & b & s0 & t & E1 & E2 & E3 & HT).
  exists s', b, s0, t. repeat split; auto. intros f Hf. destruct (reached_good _ _ _ HT) as (g & _ & S & _).
  destruct S as [R _]. eexists. eapply Rep_HasField; eauto.
Qed.
(** The full property is false: sixteen bytes on which Unmarshal succeeds and every access
    to the struct then loops for ever, for every type with any number of fields. *)
Definition loop_bytes : bytes := [0; 0; 14; 16; 0; 0; 0; 0; 0; 0; 14; 0; 0; 0; 0; 0].
Theorem C10_decoding_terminates_refuted :
  byte_list loop_bytes /\
  forall n, exists s0 t, New n = Ok s0 /\ Unmarshal s0 loop_bytes = Ok t /\
    (forall f, HasField t f = Hang) /\
    forall rounds, parse_with rounds (st_data t) (st_index t) = Hang.
Proof.
  split. { unfold loop_bytes. repeat constructor; discriminate. }
  intros n. rewrite New_spec. do 2 eexists. split; [reflexivity|]. split; [reflexivity|].
  cbn [st_data st_index with_parsed with_data].
  assert (HP : forall k idx, parse_with k loop_bytes idx = Hang).
  { intros k. unfold parse_with. change (len loop_bytes <=? HeaderSize) with false. cbv iota.
    induction k as [|k IH]; intros idx; [reflexivity|]. cbn [parse_loop].
    change (HeaderSize + HeaderSize <=? len loop_bytes) with true. cbv iota.
    change (slice loop_bytes HeaderSize (HeaderSize + HeaderSize)) with (Ok (hdr 0 14 0)). rewrite bind_Ok.
    rewrite DecodeHeader_hdr by lia. rewrite bind_Ok. change (14 =? 0) with false. cbv iota.
    change (field_size loop_bytes HeaderSize 14 0) with (@Ok Z 0). rewrite bind_Ok.
    change (HeaderSize + 0) with HeaderSize. apply IH. }
  split; [|intros; apply HP].
  intros f. unfold HasField, ensureFieldIndexParsed, parseFieldIndex. cbn [st_parsed with_parsed with_data st_data st_index].
  change (slice loop_bytes 0 16) with (Ok loop_bytes). now rewrite HP.
Qed.
Example C10_ex : exists s, build 12 demo = Ok s /\ reached 12 s (sem [] demo).
Proof. exact demo_reached. Qed.
(** The hypothesis of the partial theorem on a message that is not one of ours. *)
Example C10_ex_partial : forall q fn ft f40, 8 <= q ->
  header_at [0; 0; 14; 16; 0; 0; 0; 0; 3; 0; 200; 9; 0; 0; 0; 0] q fn ft f40 -> zero_sized ft f40 = false.
Proof.
  intros q fn ft f40 Hq (H1 & H2 & H3 & H4 & H5 & H6). change (len _) with 16 in H2.
  assert (q = 8) by lia. subst q. cbn in H6. inv H6. assert (ft = 200) by lia. subst ft. reflexivity.
Qed.

(** ** C11 *)
(** A history of calls on a new struct with IsSet tracking on, then Marshal: exactly the
    bytes of the message followed by the trailer, whose length is in the header. *)
Definition tracked (n : nat) (l : list op) : res (strct * bytes) :=
  s <- New n ;; s <- run (SetIsSetEnabled s true) l ;; Marshal s.

Lemma marked_fields o n t m : ok_op n t m o -> Forall (fun f => 0 <= f < Z.of_nat n) (marked o).
Proof.
  assert (X : forall (b : bool) f, 0 <= f < Z.of_nat n -> Forall (fun f => 0 <= f < Z.of_nat n) (if b then [] else [f])).
  { intros [] f Hf; repeat constructor; lia. }
  destruct o; cbn [marked]; intros HK; auto; try apply X; try (destruct HK as (H & _); exact H).
  - apply ok_ONested in HK. tauto.
  - cbn [ok_op] in HK. apply (X false). tauto.
Qed.
Lemma marks_fields l : forall n t m, ok_run n t m l -> Forall (fun f => 0 <= f < Z.of_nat n) (marks l).
Proof.
  induction l as [|o l IH]; intros n t m HK; [constructor|]. destruct HK as [HO HK].
  unfold marks. cbn [map concat]. apply Forall_app. split; eauto using marked_fields.
Qed.
Lemma Sim_nfields s n h3 m tail : Sim s n h3 m tail -> nfields s = Z.of_nat n.
Proof.
  intros [R _]. destruct (rep_index _ _ _ _ _ R) as (s' & E & ->). unfold ensureFieldIndexParsed in E. unfold nfields.
  destruct (st_parsed s).
  - assert (X : st_index s = index_of n (enc m)) by (injection E as E; rewrite E; reflexivity).
    rewrite X. apply len_index_of.
  - apply bind_Ok_inv in E. destruct E as (idx & EI & E). assert (X : idx = index_of n (enc m)) by (now inv E).
    destruct (parse_writes (st_data s)) as [r Hr]. rewrite Hr in EI. destruct r as [ws| | |]; try discriminate.
    cbn in EI. inv EI. unfold len. rewrite <- (length_apply ws). rewrite H0. apply len_index_of.
Qed.

Theorem C11_trailer_bytes :
  forall n l,
    ok_run n 0 [] l -> ~ In OMarshal l -> Z.of_nat n <= 65536 ->
    fits (trailer_len (Z.of_nat n)) (sem [] l) ->
    exists s, tracked n l = Ok (s,
      header 0 FTStruct (8 + len (wire_msg (sem [] l)) + trailer_len (Z.of_nat n)) ++
      wire_msg (sem [] l) ++ trailer n (marks l)).
Proof.
  intros n l HK HM Hn HF. unfold tracked. rewrite New_spec, bind_Ok.
  set (s0 := mkStruct _ _ _ _ _ _ _).
  assert (S0 : Sim (SetIsSetEnabled s0 true) n root3 [] []).
  { split; [|split; constructor]. eapply Rep_ext; [apply Rep_New, New_spec| | |]; reflexivity. }
  destruct (run_sim l _ n root3 [] [] S0) as (s1 & E1 & S1 & F1); auto.
  { intros X. contradiction. }
  rewrite E1, bind_Ok. apply iview_run with (n := n) (m := []) (t := 0) in E1 as IV; auto.
  pose proof (trailer_len_pos (Z.of_nat n)) as HL.
  assert (I0 : iview (SetIsSetEnabled s0 true) = (true, Some (bits_of (Z.to_nat (trailer_len (Z.of_nat n))) []))).
  { rewrite bits_of_nil. unfold iview, SetIsSetEnabled. cbn [with_isSetOn st_isSet st_isSetOn s0 with_isSet].
    f_equal. f_equal. unfold zeros, nfields, s0. cbn [st_index with_isSetOn]. f_equal. f_equal.
    rewrite len_repeat, isset_numbytes_eq by lia. reflexivity. }
  rewrite I0, mark_all in IV.
  2:{ pose proof (marks_fields l n 0 [] HK) as MF. pose proof (trailer_fields n). eapply Forall_impl; [|exact MF]. cbn. intros a Ha. lia. }
  cbn [app] in IV. unfold iview in IV. injection IV as IV1 IV2.
  unfold Marshal. rewrite IV1, IV2. unfold appendIsSetBitfield. rewrite IV1, IV2.
  rewrite (Sim_nfields _ _ _ _ _ S1), set_cont_trailer. cbn [with_isSetOn with_data with_isSet st_data]. unfold Append.
  destruct S1 as [R V]. rewrite (rep_data _ _ _ _ _ R), body_enc, app_nil_r.
  destruct (rep_h3 _ _ _ _ _ R) as [H3 H3']. rewrite <- !app_assoc.
  unfold fits in HF. rewrite updateHeaderSize_spec; auto; rewrite ?len_app, ?len_trailer; [|lia].
  rewrite bind_Ok. eexists. do 2 f_equal. unfold header, root3. rewrite <- !app_assoc. rewrite !Z.add_assoc. reflexivity.
Qed.

Lemma Unmarshal_root s m tail :
  fits (len tail) m ->
  Unmarshal s (header 0 FTStruct (8 + len (wire_msg m) + len tail) ++ wire_msg m ++ tail) =
  Ok (with_parsed (with_data s (header 0 FTStruct (8 + len (wire_msg m) + len tail) ++ wire_msg m ++ tail)) false).
Proof.
  intros F. unfold fits in F. pose proof (len_nonneg (wire_msg m)). pose proof (len_nonneg tail).
  set (d := header 0 FTStruct (8 + len (wire_msg m) + len tail) ++ wire_msg m ++ tail).
  assert (L : len d = 8 + len (wire_msg m) + len tail) by (unfold d; rewrite !len_app; change (header _ _ ?x) with (hdr 0 FTStruct x); rewrite len_hdr; lia).
  unfold Unmarshal. rewrite L. change HeaderSize with 8. replace (_ <? 8) with false by lia.
  assert (E1 : slice d 0 8 = Ok (hdr 0 FTStruct (8 + len (wire_msg m) + len tail))).
  { unfold d. change (header _ _ ?x) with (hdr 0 FTStruct x). apply slice_prefix. now rewrite len_hdr. }
  rewrite E1, bind_Ok. rewrite DecodeHeader_hdr; try lia. 2:{ split; [discriminate|reflexivity]. }
  rewrite bind_Ok, Z.eqb_refl. cbn [negb]. replace (_ >? _) with false by lia.
  rewrite slice_ok by lia. rewrite drop_0, Z.sub_0_r, take_all by lia. reflexivity.
Qed.
(** Every reader decodes the same fields, unless the type has 15 to 21 fields and the
    fields 14.. that are set together spell a struct, list or map type code. *)
Theorem C11_isset_transparent_partial :
  forall n n' l,
    ok_run n 0 [] l -> ~ In OMarshal l -> Z.of_nat n <= 65536 -> Z.of_nat n' <= 32896 ->
    fits (trailer_len (Z.of_nat n)) (sem [] l) ->
    (15 <= Z.of_nat n <= 21 -> clashes (marks l) = false) ->
    exists s b s0 t, tracked n l = Ok (s, b) /\ New n' = Ok s0 /\ Unmarshal s0 b = Ok t /\
      forall q r, expects n' (sem [] l) q r -> answer t q = r.
Proof.
  intros n n' l HK HM Hn Hn' HF HC. destruct (C11_trailer_bytes n l HK HM Hn HF) as (s & E).
  pose proof (trailer_len_pos (Z.of_nat n)) as HL. pose proof (len_trailer n (marks l)) as LT.
  destruct (build_sim n l HK) as (w & _ & [RW V] & _). rewrite <- LT in E, HF.
  eexists s, _, _, _. split; [exact E|]. split; [apply New_spec|]. split; [apply Unmarshal_root, HF|].
  intros q r HE. apply (answer_expects q _ n' root3 (sem [] l) (trailer n (marks l))); [|exact HE]. split; [|exact V].
  assert (HW : wf_fields (enc (sem [] l))) by (eapply wf_enc; eauto; lia).
  split; cbn [st_data with_parsed with_data].
  - unfold header. rewrite <- !app_assoc. rewrite body_enc. rewrite (app_assoc (le_enc 2 0)). reflexivity.
  - split; auto. apply is_bytes_app. split; apply le_enc_bytes.
  - apply RW.
  - apply RW.
  - apply RW.
  - rewrite body_enc. unfold fits in HF. lia.
  - eexists. split; [|reflexivity]. unfold ensureFieldIndexParsed. cbn [st_parsed with_parsed with_data st_data st_index].
    change (header _ _ ?x) with (hdr 0 FTStruct x). rewrite <- body_enc.
    rewrite (parse_skips (hdr 0 FTStruct _)); auto; try apply RW.
    + apply hdr_bytes.
    + rewrite body_enc. pose proof (wire_struct_bytes 0 _ V) as B. rewrite wire_struct_hdr in B. apply is_bytes_app in B. destruct B as [_ B]. exact B.
    + unfold rsize. rewrite body_enc. unfold fits in HF. lia.
    + apply trailer_skips; auto. eapply marks_fields; eauto.
    + lia.
Qed.
(** In the excluded case the message is not decodable at all: Unmarshal succeeds and every
    access then loops for ever. *)
Theorem C11_isset_hangs_refuted :
  forall n n' l,
    ok_run n 0 [] l -> ~ In OMarshal l -> 15 <= Z.of_nat n <= 21 -> clashes (marks l) = true ->
    fits (trailer_len (Z.of_nat n)) (sem [] l) ->
    exists s b s0 t, tracked n l = Ok (s, b) /\ New n' = Ok s0 /\ Unmarshal s0 b = Ok t /\
      (forall f, HasField t f = Hang) /\ forall rounds, parse_with rounds (st_data t) (st_index t) = Hang.
Proof.
  intros n n' l HK HM Hn HC HF. destruct (C11_trailer_bytes n l HK HM ltac:(lia) HF) as (s & E).
  pose proof (trailer_len_pos (Z.of_nat n)) as HL. pose proof (len_trailer n (marks l)) as LT.
  destruct (build_sim n l HK) as (w & _ & [RW V] & _). rewrite <- LT in E, HF.
  assert (HW : wf_fields (enc (sem [] l))) by (eapply wf_enc; eauto; lia).
  eexists s, _, _, _. split; [exact E|]. split; [apply New_spec|]. split; [apply Unmarshal_root, HF|].
  cbn [st_data st_index with_parsed with_data].
  assert (HP : forall k, parse_with k (header 0 FTStruct (8 + len (wire_msg (sem [] l)) + len (trailer n (marks l))) ++
     wire_msg (sem [] l) ++ trailer n (marks l)) (repeat fe_zero n') = Hang).
  { intros k. change (header _ _ ?x) with (hdr 0 FTStruct x). rewrite <- body_enc. apply parse_loops; auto; try apply RW.
    + apply hdr_bytes.
    + rewrite body_enc. pose proof (wire_struct_bytes 0 _ V) as B. rewrite wire_struct_hdr in B. apply is_bytes_app in B. destruct B as [_ B]. exact B.
    + unfold rsize. rewrite body_enc. unfold fits in HF. lia.
    + apply trailer_loops; auto. eapply marks_fields; eauto. }
  split; auto. intros f. unfold HasField, ensureFieldIndexParsed, parseFieldIndex. cbn [st_parsed with_parsed with_data st_data st_index].
  now rewrite HP.
Qed.
(** Both cases occur: setting the boolean fields 15, 16 and 17 of a type with 18 fields, and
    setting 14, 15 and 16. *)
Definition set_bools (fs : list Z) : list op := map (fun f => OScalar f KBool 1) fs.
Example C11_ex :
  (ok_run 18 0 [] (set_bools [15; 16; 17]) /\ ~ In OMarshal (set_bools [15; 16; 17]) /\
   clashes (marks (set_bools [15; 16; 17])) = true /\ fits (trailer_len 18) (sem [] (set_bools [15; 16; 17]))) /\
  (ok_run 18 0 [] (set_bools [14; 15; 16]) /\ ~ In OMarshal (set_bools [14; 15; 16]) /\
   clashes (marks (set_bools [14; 15; 16])) = false /\ fits (trailer_len 18) (sem [] (set_bools [14; 15; 16]))).
Proof.
  repeat split; try (vm_compute; congruence); try (vm_compute; reflexivity);
   intros X; vm_compute in X; intuition discriminate.
Qed.

(** ** C24 *)
(** Unmarshal into a struct that has been read before: the fields that then exist are those
    of the new message together with those of the old one. *)
Definition present (n : nat) (m : msg) (f : Z) : bool := match seen n m f with Some _ => true | None => false end.

Theorem C24_unmarshal_presence :
  forall n n2 s m s2 m2 s' s2' b rest t f,
    reached n s m -> reached n2 s2 m2 ->
    ensureFieldIndexParsed s = Ok s' ->        (* some field of s has been read or written *)
    Marshal s2 = Ok (s2', b) -> Unmarshal s' (b ++ rest) = Ok t -> 0 <= f ->
    HasField t f = Ok (present n m f || present n m2 f).
Proof.
  intros n n2 s m s2 m2 s' s2' b rest t f HR HR2 EE EM EU Hf.
  destruct (reached_good _ _ _ HR) as (g & Hg & [R V] & _).
  destruct (reached_marshal _ _ _ HR2) as (w & g2 & EM' & _ & Hg2 & ED2). rewrite EM' in EM. inv EM.
  destruct (reached_good _ _ _ HR2) as (g2' & _ & S2 & _). destruct (Sim_fits _ _ _ _ _ S2) as [F2 V2].
  destruct (rep_index _ _ _ _ _ R) as (s1 & E1 & ES1). rewrite EE in E1. injection E1 as <-.
  rewrite ED2 in *.
  assert (ET : t = with_parsed (with_data s' (wire_struct g2 m2)) false).
  { destruct (Unmarshal_wire_struct (mkStruct (hdr 0 FTStruct 8) (repeat fe_zero n) false false None false [])
             n g2 m2 rest) as (t0 & ET0 & _ & _ & _ & EQ); auto. { apply stale_ok_zero. }
    revert EU ET0. unfold Unmarshal. destruct (_ <? _); [discriminate|]. destruct (slice _ _ _); cbn [bind]; try discriminate.
    destruct (DecodeHeader _) as [[[? ?] ?]| | |]; cbn [bind]; try discriminate. destruct (negb _); [discriminate|].
    destruct (_ >? _); [discriminate|]. destruct (slice _ _ _) as [d| | |]; cbn [bind]; try discriminate.
    intros A B. injection A as <-. injection B as B. rewrite EQ in B. unfold with_parsed, with_data in B. cbn in B. injection B as ->. reflexivity. }
  assert (HP0 : parseFieldIndex (wire_struct g2 m2) (repeat fe_zero n) = Ok (index_of n (enc m2))).
  { pose proof (Sim_wire (mkStruct (wire_struct g2 m2) (repeat fe_zero n) false false None false []) n g2 m2
       eq_refl V2 F2 eq_refl (stale_ok_zero _ _)) as [R2 _].
    destruct (rep_index _ _ _ _ _ R2) as (x & EX & ->). unfold ensureFieldIndexParsed in EX. cbn [st_parsed st_data st_index] in EX.
    destruct (parseFieldIndex _ _) as [y| | |]; cbn [bind] in EX; try discriminate. now inv EX. }
  destruct (parse_writes_set (wire_struct g2 m2)) as (r & HSET & Hr). rewrite Hr in HP0. destruct r as [ws| | |]; try discriminate. cbn [bind] in HP0.
  assert (EW : apply_writes ws (repeat fe_zero n) = index_of n (enc m2)) by congruence. clear HP0.
  subst t. unfold HasField, ensureFieldIndexParsed. cbn [st_parsed with_parsed with_data st_data st_index]. rewrite Hr. cbn [bind].
  cbn [with_parsed with_index st_index].
  assert (LI : st_index s' = index_of n (enc m)) by (rewrite ES1; reflexivity). rewrite LI.
  assert (LL : len (apply_writes ws (index_of n (enc m))) = Z.of_nat n).
  { unfold len. rewrite length_apply, length_index_of. reflexivity. }
  rewrite LL. unfold present, seen. destruct (Z.geb_spec f (Z.of_nat n)) as [H|H].
  { replace ((0 <=? f) && (f <? Z.of_nat n)) with false by lia. reflexivity. }
  replace ((0 <=? f) && (f <? Z.of_nat n)) with true by lia.
  assert (EN : forall x, wf_fields (enc x) -> fsorted (enc x) -> nth_error (index_of n (enc x)) (Z.to_nat f) = Some (entry (enc x) f) /\
       (fe_size (entry (enc x) f) >? 0) = match flook f x with Some _ => true | None => false end /\
       (flook f x = None -> entry (enc x) f = fe_zero)).
  { intros x W SO. rewrite nth_error_index_of by lia. rewrite Z2Nat.id by lia. split; auto. unfold entry.
    destruct (flook f x) as [v|] eqn:EV.
    - assert (EV' : flook f (enc x) = Some (wire_value f v)) by (unfold enc; now rewrite flook_map, EV).
      destruct (flook_Some_locate f _ (enc x) 8 EV') as [o EL]. rewrite EL. cbn [entry_of fe_size].
      pose proof (len_wire_value_ge f v). split; [lia|discriminate].
    - assert (EV' : flook f (enc x) = None) by (unfold enc; now rewrite flook_map, EV).
      rewrite locate_none by auto. auto. }
  destruct (EN m) as (N1 & P1 & Z1).
  { destruct (Sim_fits s n (hdr3 g) m []) as [FF _]; [split; auto|]. apply (wf_enc _ 0); auto; lia. }
  { apply R. }
  destruct (EN m2) as (N2 & P2 & Z2). { apply (wf_enc _ 0); auto; lia. } { apply fsorted_map, V2. }
  destruct (apply_pointwise_set ws (HSET _ eq_refl) (index_of n (enc m)) (repeat fe_zero n)) with (i := Z.to_nat f) as [(e & He & Q1 & Q2)|[Q1 Q2]].
  { now rewrite length_index_of, repeat_length. }
  - rewrite (index_nth_error _ _ e); auto. cbn [bind]. rewrite EW, N2 in Q2. injection Q2 as <-. rewrite P2.
    destruct (flook f m2) eqn:E'; [now rewrite orb_true_r|]. rewrite Z2 in He by auto. discriminate.
  - rewrite N1 in Q1. rewrite (index_nth_error _ _ (entry (enc m) f)); auto. cbn [bind]. rewrite P1.
    destruct (flook f m2) eqn:E2; [|now rewrite orb_false_r]. exfalso.
    rewrite EW, N2 in Q2. rewrite (nth_error_nth' _ fe_zero), nth_repeat in Q2 by (rewrite repeat_length; lia).
    injection Q2 as Q2. rewrite Q2 in P2. discriminate.
Qed.

(** When every field present in the old content is present in the new message, Unmarshal
    does replace the content: every question is answered from the new message. *)
Theorem C24_unmarshal_replaces_partial :
  forall n n2 s m s2 m2 s' s2' b rest t,
    reached n s m -> reached n2 s2 m2 ->
    ensureFieldIndexParsed s = Ok s' -> Marshal s2 = Ok (s2', b) -> Unmarshal s' (b ++ rest) = Ok t ->
    (forall f, present n m f = true -> present n m2 f = true) ->
    forall q r, expects n m2 q r -> answer t q = r.
Proof.
  intros n n2 s m s2 m2 s' s2' b rest t HR HR2 EE EM EU HP q r HE.
  destruct (reached_good _ _ _ HR) as (g & Hg & [R V] & _).
  destruct (reached_marshal _ _ _ HR2) as (w & g2 & EM' & _ & Hg2 & ED2). rewrite EM' in EM. inv EM.
  destruct (reached_good _ _ _ HR2) as (g2' & _ & S2 & _). destruct (Sim_fits _ _ _ _ _ S2) as [F2 V2].
  destruct (rep_index _ _ _ _ _ R) as (s1 & E1 & ES1). rewrite EE in E1. injection E1 as <-.
  rewrite ED2 in *.
  destruct (Unmarshal_wire_struct s' n g2 m2 rest) as (t0 & ET0 & ST & _); auto.
  { assert (EI : st_index s' = index_of n (enc m)) by (rewrite ES1; reflexivity). rewrite EI.
    split; [apply length_index_of|]. intros i Hi EN.
    assert (EN2 : flook (Z.of_nat i) m2 = None).
    { unfold enc in EN. rewrite flook_map in EN. destruct (flook (Z.of_nat i) m2); [discriminate|reflexivity]. }
    assert (EM0 : flook (Z.of_nat i) m = None).
    { specialize (HP (Z.of_nat i)). unfold present, seen in HP. replace (_ && _) with true in HP by lia.
      rewrite EN2 in HP. destruct (flook (Z.of_nat i) m); auto. specialize (HP eq_refl). discriminate. }
    rewrite nth_error_index_of by auto. unfold entry. rewrite locate_none; auto.
    unfold enc. now rewrite flook_map, EM0. }
  rewrite ET0 in EU. inv EU. eapply answer_expects; eauto.
Qed.
(** The full property is false: field 0 of the old content survives an Unmarshal of a
    message that only has field 1, and reads as the low bytes of the new message's field. *)
Theorem C24_unmarshal_replaces_refuted :
  exists s s1 b t,
    build 2 [OScalar 0 KU32 7] = Ok s /\ build 2 [OScalar 1 KU32 9] = Ok s1 /\ Marshal s1 = Ok (s1, b) /\ Unmarshal s b = Ok t /\ HasField t 0 = Ok true /\ GetUint32 t 0 = Ok 9.
Proof.
  do 4 eexists. split; [vm_compute; reflexivity|]. split; [vm_compute; reflexivity|].
  split; [vm_compute; reflexivity|]. split; [vm_compute; reflexivity|]. split; vm_compute; reflexivity.
Qed.
Example C24_ex :
  exists s s2, reached 4 s (sem [] (set_bools [1; 3])) /\ reached 4 s2 (sem [] (set_bools [3; 0; 1])) /\
    forall f, present 4 (sem [] (set_bools [1; 3])) f = true -> present 4 (sem [] (set_bools [3; 0; 1])) f = true.
Proof.
  destruct (reached_build 4 (set_bools [1; 3])) as (s & _ & H1). { vm_compute. repeat split; congruence. }
  destruct (reached_build 4 (set_bools [3; 0; 1])) as (s2 & _ & H2). { vm_compute. repeat split; congruence. }
  exists s, s2. split; auto. split; auto. intros f. unfold present, seen. destruct ((0 <=? f) && (f <? Z.of_nat 4)) eqn:B; auto.
  assert (C : f = 0 \/ f = 1 \/ f = 2 \/ f = 3) by lia.
  destruct C as [->|[->|[->| ->]]]; vm_compute; auto.
Qed.

Print Assumptions parse_hang_forever.
Print Assumptions C10_decoding_terminates_partial.
Print Assumptions C10_own_messages_terminate.
Print Assumptions C10_decoding_terminates_refuted.
Print Assumptions C11_trailer_bytes.
Print Assumptions C11_isset_transparent_partial.
Print Assumptions C11_isset_hangs_refuted.
Print Assumptions C24_unmarshal_presence.
Print Assumptions C24_unmarshal_replaces_partial.
Print Assumptions C24_unmarshal_replaces_refuted.
