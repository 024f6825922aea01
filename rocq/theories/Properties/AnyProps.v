(* Struct lists, Any fields and lists of Any. *)
From Verif.Proofs Require Import Demo.
From Verif Require Import Properties.ListProps.

(** ** C17 *)
Theorem C17_struct_list_roundtrip :
  forall n n' k s m f items cs rest,
    reached n s m -> reached_all k items cs -> 0 <= f < Z.of_nat n -> f < 2 ^ 16 -> f < Z.of_nat n' ->
    len (st_data s) + 8 + fold_right (fun c x => len (st_data c) + x) 0 items < 2 ^ 32 ->
    exists s1 items1 s2 b s0 t items',
      sync_structs s f items = Ok (s1, items1) /\ Marshal s1 = Ok (s2, b) /\ New n' = Ok s0 /\
      Unmarshal s0 (b ++ rest) = Ok t /\ get_structs t f k = Ok items' /\
      length items' = length items /\
      forall i c, nth_error items i = Some c ->
        exists c' mc, nth_error items' i = Some c' /\ reached k c mc /\ reached k c' mc /\
          drop 2 (st_data c') = drop 2 (st_data c) /\
          forall q r, actual k mc q r -> answer c q = r /\ answer c' q = r.
Proof.
  intros n n' k s m f items cs rest HR HA Hf Hf' Hn HL.
  destruct (reached_good _ _ _ HR) as (g & Hg & S & F).
  assert (HF2 : Forall2 (reached k) items cs) by (clear - HA; induction HA; constructor; auto).
  assert (HF : fits 0 (mset (nil_b cs) f (VStructs cs) m)).
  { eapply fits_mset; eauto. rewrite len_wire_value. cbn [v_rest].
    replace (len (wire_items 0 cs)) with (fold_right (fun c x => len (st_data c) + x) 0 items); [lia|].
    clear - HF2. generalize 0 at 2. induction HF2 as [|c mc items cs H1 H2 IH]; intros z; auto.
    cbn [fold_right wire_items]. rewrite len_app, len_wire_struct, (IH (z + 1)).
    destruct (reached_sorted _ _ _ H1) as (_ & _ & _ & ->). reflexivity. }
  destruct (Sim_sync_structs s n _ m [] f k items cs S) as (s1 & items1 & E1 & S1 & F1); auto.
  { clear - HF2. induction HF2 as [|x y l l' H1 H2]; constructor; auto.
    destruct (reached_good _ _ _ H1) as (g & _ & HS & _). eauto. }
  assert (HR1 : reached n s1 (mset (nil_b cs) f (VStructs cs) m)).
  { eapply R_set_structs; eauto. repeat split; auto; lia. }
  destruct (reached_unmarshal n n' s1 _ rest HR1) as (s2 & b & s0 & t & EM & EN & EU & HT).
  destruct (reached_good _ _ _ HT) as (gt & _ & ST & _).
  destruct (reached_sorted _ _ _ HR) as (SO & _).
  pose proof (get_structs_spec _ _ _ _ _ f k ST ltac:(lia)) as G. rewrite seen_mset in G by (auto; lia).
  assert (LI : length items = length cs) by (clear - HF2; induction HF2; cbn; congruence).
  destruct cs as [|c0 cs0] eqn:Ecs; cbn [nil_b] in G.
  - destruct items; [|discriminate]. exists s1, items1, s2, b, s0, t, []. repeat split; auto.
    intros i c Hc. destruct i; discriminate.
  - rewrite <- Ecs in *. clear Ecs c0 cs0. destruct G as [G HV].
    exists s1, items1, s2, b, s0, t, (map (item_struct k) (numbered 0 cs)). repeat split; auto.
    { now rewrite map_length, numbered_length. }
    intros i c Hc.
    assert (HX : exists mc, nth_error cs i = Some mc /\ reached k c mc).
    { clear - HF2 Hc. revert i Hc. induction HF2; intros i Hc; destruct i; try discriminate; cbn in *; eauto.
      inv Hc. eauto. }
    destruct HX as (mc & Hmc & HRc).
    assert (HN : nth_error (map (item_struct k) (numbered 0 cs)) i = Some (item_struct k (0 + Z.of_nat i, mc))).
    { rewrite nth_error_map, nth_numbered. unfold msg in *. rewrite Hmc. reflexivity. }
    assert (HRc' : reached k (item_struct k (0 + Z.of_nat i, mc)) mc).
    { refine (R_item _ _ _ f cs i mc k _ _ HT _ Hmc G HN). rewrite seen_mset by (auto; lia).
      destruct cs; [destruct i; discriminate|reflexivity]. }
    exists (item_struct k (0 + Z.of_nat i, mc)), mc. repeat split; auto.
    + destruct (reached_good _ _ _ HRc) as (gc & _ & Sc & _). rewrite (Sim_data_f _ _ _ _ Sc).
      cbn [item_struct st_data fst snd]. unfold wire_struct, header. rewrite <- !app_assoc.
      rewrite !drop_app_exact; auto.
    + destruct (reached_good _ _ _ HRc) as (gc & _ & Sc & _). eapply answer_actual; eauto.
    + destruct (reached_good _ _ _ HRc') as (gc & _ & Sc & _). eapply answer_actual; eauto.
Qed.
Example C17_ex :
  exists s c, build 12 demo = Ok s /\ build 3 demo_child = Ok c /\ reached 12 s (sem [] demo) /\
    reached_all 3 [c; c; c] [sem [] demo_child; sem [] demo_child; sem [] demo_child] /\
    len (st_data s) + 8 + fold_right (fun c x => len (st_data c) + x) 0 [c; c; c] < 2 ^ 32.
Proof.
  destruct demo_reached as (s & E & HR).
  destruct (reached_build 3 demo_child) as (c & Ec & HC). { unfold demo_child. legal. }
  exists s, c. repeat split; auto.
  - repeat constructor; auto.
  - vm_compute in E, Ec. inv E. inv Ec. vm_compute. reflexivity.
Qed.

(** ** C22 *)
(** SetAny of any reached struct, marshalled and read back with GetAny into a fresh value of
    the same type: the same bytes, and every question whatever gets the same answer.  Any
    other type hash is refused. *)
Theorem C22_any_roundtrip :
  forall n n' k s m f h c mc rest,
    reached n s m -> reached k c mc -> len h = 16 -> byte_list h ->
    0 <= f < Z.of_nat n -> f < 2 ^ 16 -> f < Z.of_nat n' ->
    len (st_data s) + 24 + len (st_data c) < 2 ^ 32 ->
    exists s1 s2 b s0 t u0,
      SetAny s f (Some (h, c)) = Ok s1 /\ Marshal s1 = Ok (s2, b) /\ New n' = Ok s0 /\
      Unmarshal s0 (b ++ rest) = Ok t /\ New k = Ok u0 /\
      (exists u, GetAny t f h u0 = Ok u /\ st_data u = st_data c /\ forall q, answer u q = answer c q) /\
      (forall h', h' <> h -> GetAny t f h' u0 = Err) /\
      GetAnyRaw t f = Ok (Some (st_data c, h)).
Proof.
  intros n n' k s m f h c mc rest HR HC H16 HB Hf Hf' Hn HL.
  destruct (reached_good _ _ _ HR) as (g & Hg & S & F). destruct (reached_good _ _ _ HC) as (gc & Hgc & SC & _).
  assert (HF : fits 0 (mset false f (VAny h (st_data c)) m)).
  { eapply fits_mset; eauto. rewrite len_wire_value. cbn [v_rest]. rewrite len_app, H16. lia. }
  destruct (Sim_SetAny s n _ m [] f h k c gc mc S SC Hf Hf' H16 HB HF) as (s1 & E1 & S1 & F1).
  assert (HR1 : reached n s1 (fput f (VAny h (st_data c)) m)).
  { eapply R_set_any; eauto. repeat split; auto; lia. }
  destruct (reached_unmarshal n n' s1 _ rest HR1) as (s2 & b & s0 & t & EM & EN & EU & HT).
  destruct (reached_good _ _ _ HT) as (gt & _ & ST & _).
  destruct (reached_sorted _ _ _ HR) as (SO & _).
  pose proof (GetAnyRaw_spec _ _ _ _ _ f ST ltac:(lia)) as G.
  change (fput f (VAny h (st_data c)) m) with (mset false f (VAny h (st_data c)) m) in G.
  rewrite seen_mset in G by (auto; lia). destruct G as [G _].
  eexists s1, s2, b, s0, t, _. repeat (split; [first [eassumption|apply New_spec]|]).
  destruct (Sim_fits _ _ _ _ _ SC) as [FC VC]. pose proof (Sim_data_f _ _ _ _ SC) as EDC.
  split; [|split; auto].
  - destruct (Unmarshal_wire_struct (mkStruct (hdr 0 FTStruct 8) (repeat fe_zero k) false false None false [])
             k gc mc []) as (u & EUu & SU & EDu & _); auto.
    { apply stale_ok_zero. }
    rewrite app_nil_r in EUu. exists u. unfold GetAny. rewrite G, bind_Ok.
    replace (bytes_eqb h h) with true by (symmetry; now apply bytes_eqb_eq). cbn [negb].
    rewrite EDC. split; auto. split; auto. intros q. symmetry. eapply Sim_same_view; eauto.
  - intros h' HN. unfold GetAny. rewrite G, bind_Ok. rewrite bytes_eqb_neq by auto. reflexivity.
Qed.
(** GetAnyRaw then SetAnyRaw (into the same or another struct) writes the identical field. *)
Theorem C22_any_raw_copy :
  forall n s m f h d n2 s2 m2,
    reached n s m -> seen n m f = Some (VAny h d) -> d <> [] ->
    reached n2 s2 m2 -> f < Z.of_nat n2 -> len (st_data s2) + 24 + len d < 2 ^ 32 ->
    exists o1 sz s2' o2, GetAnyRaw s f = Ok (Some (d, h)) /\ SetAnyRaw s2 f d h = Ok s2' /\
      FieldOffset s f = Ok (o1, sz) /\ FieldOffset s2' f = Ok (o2, sz) /\
      slice (st_data s) o1 (o1 + sz) = slice (st_data s2') o2 (o2 + sz).
Proof.
  intros n s m f h d n2 s2 m2 HR ES HN HR2 Hf HL.
  destruct (reached_good _ _ _ HR) as (g & Hg & S & F).
  pose proof (seen_nonneg _ _ _ _ ES) as Hf0.
  pose proof (GetAnyRaw_spec _ _ _ _ _ f S Hf0) as G. rewrite ES in G. destruct G as [G _].
  pose proof (Sim_seen _ _ _ _ _ f S Hf0) as L. rewrite ES in L.
  destruct L as (p & q & EO & ED & Hp & HV & Hf16 & _).
  assert (HO : ok_op n2 0 m2 (OAnyRaw f h d)).
  { cbn [ok_op apply_op]. split; [lia|]. split; [lia|]. split; [exact HV|]. eapply fits_mset; eauto.
    rewrite len_wire_value. cbn [v_rest]. destruct HV as (H16 & _). rewrite len_app, H16. lia. }
  destruct (reached_op _ _ _ _ HR2 HO) as (s2' & E & HR2').
  destruct (reached_good _ _ _ HR2') as (g2 & _ & S2 & _).
  pose proof (Sim_seen _ _ _ _ _ f S2 Hf0) as L2. cbn [apply_op] in L2.
  rewrite seen_mset in L2 by (try lia; apply (reached_sorted _ _ _ HR2)).
  replace (nil_b d) with false in L2 by (destruct d; [congruence|reflexivity]).
  destruct L2 as (p2 & q2 & EO2 & ED2 & Hp2 & _).
  do 4 eexists. split; [exact G|]. split; [exact E|]. split; [exact EO|]. split; [exact EO2|].
  rewrite ED, ED2. rewrite !slice_field; auto.
Qed.
Example C22_ex :
  exists s c, build 12 demo = Ok s /\ build 3 demo_child = Ok c /\ reached 12 s (sem [] demo) /\ reached 3 c (sem [] demo_child) /\
    len (st_data s) + 24 + len (st_data c) < 2 ^ 32 /\
    exists d, seen 12 (sem [] demo) 9 = Some (VAny (map Z.of_nat (seq 1 16)) d) /\ d <> [].
Proof.
  destruct demo_reached as (s & E & HR).
  destruct (reached_build 3 demo_child) as (c & Ec & HC). { unfold demo_child. legal. }
  exists s, c. repeat split; auto.
  - vm_compute in E, Ec. inv E. inv Ec. vm_compute. reflexivity.
  - eexists. split; [vm_compute; reflexivity|discriminate].
Qed.

(** ** C23 *)
(** Lists of Any: the items (type hash, bytes) come back by position, any other position is
    nil, and every other field still answers as before. *)
Theorem C23_any_list_roundtrip :
  forall n n' s m f l rest,
    reached n s m -> 0 <= f < Z.of_nat n -> f < 2 ^ 16 -> f < Z.of_nat n' -> valid_value (VAnys l) ->
    len (st_data s) + 8 + len (concat (map (fun p => fst p ++ snd p) l)) < 2 ^ 32 ->
    exists s1 s2 b s0 t,
      SetListAnyRaw s f l = Ok s1 /\ Marshal s1 = Ok (s2, b) /\ New n' = Ok s0 /\ Unmarshal s0 (b ++ rest) = Ok t /\
      GetListAnyLen t f = Ok (len l) /\
      (forall i, GetListAnyRaw t f i =
         Ok (if i <? 0 then None else
             match nth_error l (Z.to_nat i) with Some (h, d) => Some (d, h) | None => None end)) /\
      (forall q r, query_field q <> f -> expects n' m q r -> answer t q = r).
Proof.
  intros n n' s m f l rest HR Hf Hf' Hn HV HL.
  assert (HO : ok_op n 0 m (OAnys f l)).
  { cbn [ok_op apply_op]. split; [lia|]. split; [lia|]. split; [exact HV|]. eapply fits_mset; eauto.
    rewrite len_wire_value. cbn [v_rest]. lia. }
  destruct (write_read n n' s m _ rest HR HO) as (s1 & s2 & b & s0 & t & E1 & E2 & E3 & E4 & HT & HS).
  exists s1, s2, b, s0, t. repeat (split; [eassumption|]).
  destruct (reached_sorted _ _ _ HR) as (SO & _). destruct (reached_good _ _ _ HT) as (g & _ & ST & _).
  cbn [apply_op] in *. split; [|split].
  - pose proof (list_any_field_spec _ _ _ _ _ f ST ltac:(lia)) as G. rewrite seen_mset in G by (auto; lia).
    unfold GetListAnyLen. destruct l; cbn [nil_b] in G.
    + rewrite G. reflexivity.
    + destruct G as [-> _]. reflexivity.
  - intros i. pose proof (GetListAnyRaw_spec _ _ _ _ _ f i ST ltac:(lia)) as G. rewrite seen_mset in G by (auto; lia).
    destruct l as [|a l]; cbn [nil_b] in G; rewrite G.
    + destruct (i <? 0); auto. now destruct (Z.to_nat i).
    + destruct (i <? 0); auto. destruct (nth_error (a :: l) (Z.to_nat i)) as [[h d]|]; reflexivity.
  - intros q r HQ HE. eapply reached_answer; eauto. eapply reads_seen; [|exact HE]. symmetry. now apply seen_mset_ne.
Qed.
(** SetListAny of reached structs is SetListAnyRaw of their type hashes and bytes, and these
    are valid items. *)
Theorem C23_set_list_any :
  forall s f k (values : list (bytes * strct)),
    Forall (fun v => len (fst v) = 16 /\ byte_list (fst v) /\ exists mc, reached k (snd v) mc) values ->
    let l := map (fun v => (fst v, st_data (snd v))) values in
    SetListAny s f values = SetListAnyRaw s f l /\ valid_value (VAnys l).
Proof.
  intros s f k values HF l. split.
  - unfold SetListAny, SetListAnyRaw. fold l. replace (len values) with (len l) by (unfold l, len; now rewrite map_length).
    destruct (len l =? 0); auto. replace (forallb _ l) with true; auto. symmetry. apply forallb_forall.
    intros x Hx. unfold l in Hx. apply in_map_iff in Hx. destruct Hx as (v & <- & Hv). cbn [fst].
    rewrite Forall_forall in HF. destruct (HF v Hv) as (-> & _). reflexivity.
  - cbn [valid_value]. unfold l. apply Forall_map. eapply Forall_impl; [|exact HF].
    intros v (H16 & HB & mc & HR). cbn [fst snd]. destruct (reached_good _ _ _ HR) as (g & Hg & S & _).
    pose proof (Sim_data_f _ _ _ _ S) as ED. split; auto. split; auto. split.
    + rewrite ED. apply wire_struct_bytes. apply S.
    + exists g, FTStruct, (wire_msg mc). rewrite ED, len_wire_struct. reflexivity.
Qed.
Example C23_ex :
  valid_value (VAnys [(map Z.of_nat (seq 1 16), wire (sem [] demo_child)); (map Z.of_nat (seq 7 16), wire [])]).
Proof.
  cbn [valid_value]. repeat constructor; cbn [fst snd]; try (vm_compute; reflexivity); try (vm_compute; discriminate).
  - exists 0, FTStruct, (wire_msg (sem [] demo_child)). vm_compute. reflexivity.
  - exists 0, FTStruct, []. vm_compute. reflexivity.
Qed.

Print Assumptions C17_struct_list_roundtrip.
Print Assumptions C22_any_roundtrip.
Print Assumptions C22_any_raw_copy.
Print Assumptions C23_any_list_roundtrip.
Print Assumptions C23_set_list_any.
