(** Apply on number lists: the operations work on the bytes in the segment. *)
From Coq Require Import List ZArith Lia.
From Verif.Proofs Require Export PatchListFrame.

Lemma kind_width_size k : kind_width k = Z.of_nat (kind_size k).
Proof. destruct k; reflexivity. Qed.

(** ** The item bytes *)
Lemma item_data_exact s n h3 m tail f k l :
  Sim s n h3 m tail -> 0 <= f -> seen n m f = Some (VNums k l) ->
  item_data s f (kind_width k) = Ok (Some (nums_data k l)).
Proof.
  intros HS Hf E. unfold item_data. pose proof (Sim_seen _ _ _ _ _ f HS Hf) as L. rewrite E in L.
  destruct L as (p & q & EO & ED & Hp & HV & Hf16 & HT). destruct HV as [NK HV].
  rewrite EO, bind_Ok. pose proof (len_wire_value_ge f (VNums k l)).
  replace (len (wire_value f (VNums k l)) =? 0) with false by lia.
  pose proof (len_nonneg p). pose proof (len_nonneg q).
  rewrite ED, slice_field, bind_Ok. change HeaderSize with 8.
  replace (len (wire_value f (VNums k l)) <? 8) with false by lia.
  assert (HD := decode_field f (VNums k l) ltac:(lia) (conj NK HV) ltac:(lia)).
  rewrite wire_form. rewrite slice_prefix by (now rewrite len_hdr). rewrite bind_Ok, HD, bind_Ok.
  cbn [v_f40 v_rest]. rewrite kind_width_size. pose proof (kind_size_pos k).
  pose proof (len_nonneg l). fold (nums_data k l).
  replace (8 + len (nums_data k l) - 8) with (len l * Z.of_nat (kind_size k))
    by (rewrite len_nums_data; lia).
  rewrite Z.quot_mul by lia.
  rewrite <- (app_nil_r (hdr _ _ _ ++ nums_data k l)), <- app_assoc.
  rewrite slice_app by (rewrite ?len_hdr, ?len_nums_data; lia). rewrite bind_Ok. reflexivity.
Qed.
Definition nums_in (m : msg) (f : Z) (k : kind) (l : list Z) : Prop := rd (LNums k) (flook f m) = VNums k l.
Lemma item_data_ok sch n h m f k l :
  schema_ok n sch -> hinv sch n h m -> sch f = Some (LNums k) -> nums_in m f k l ->
  Forall (in_range k) l /\
  (item_data (h_s h) f (kind_width k) = Ok (Some (nums_data k l)) \/
   (l = [] /\ item_data (h_s h) f (kind_width k) = Ok None)).
Proof.
  intros HS HI Hf HN. destruct (HS _ _ Hf) as (H1 & H2 & H3).
  destruct (reached_good _ _ _ (hi_reached _ _ _ _ HI)) as (g & Hg & S & _).
  pose proof (seen_in n sch f _ m HS Hf) as EV. unfold nums_in, rd in HN. destruct (flook f m) as [v|] eqn:EF.
  - pose proof (hi_typed _ _ _ _ HI _ _ _ Hf EF) as HV. destruct v; try discriminate HV. inv HV. cbn in HN. inv HN.
    pose proof (Sim_seen _ _ _ _ _ f S ltac:(lia)) as SS. rewrite EV in SS. destruct SS as (_ & _ & _ & _ & _ & VV & _).
    split; [apply VV|]. left. eapply item_data_exact; eauto; lia.
  - cbn in HN. inv HN. split; auto. right. split; auto. unfold item_data.
    pose proof (Sim_seen _ _ _ _ _ f S ltac:(lia)) as SS. rewrite EV in SS. now rewrite SS.
Qed.
Lemma nums_app k a b : nums_data k (a ++ b) = nums_data k a ++ nums_data k b.
Proof. unfold nums_data. now rewrite map_app, concat_app. Qed.
Lemma nums_take k l i : 0 <= i <= len l -> take (i * kind_width k) (nums_data k l) = nums_data k (take i l).
Proof.
  intros H. rewrite <- (take_drop i l) at 1. rewrite nums_app. apply take_app_exact.
  rewrite len_nums_data, len_take, kind_width_size by lia. lia.
Qed.
Lemma nums_drop k l i : 0 <= i <= len l -> drop (i * kind_width k) (nums_data k l) = nums_data k (drop i l).
Proof.
  intros H. rewrite <- (take_drop i l) at 1. rewrite nums_app. apply drop_app_exact.
  rewrite len_nums_data, len_take, kind_width_size by lia. lia.
Qed.
Lemma upd_split {A} (l : list A) i x : 0 <= i < len l -> upd l i x = take i l ++ x :: drop (i + 1) l.
Proof.
  intros H. unfold upd, take, drop. rewrite set_nth_split by (unfold len in H; lia).
  replace (Z.to_nat (i + 1)) with (S (Z.to_nat i)) by lia. reflexivity.
Qed.
Lemma drop_nth {A} (l : list A) i : 0 <= i < len l -> exists x, drop i l = x :: drop (i + 1) l.
Proof.
  intros H. unfold drop. replace (Z.to_nat (i + 1)) with (S (Z.to_nat i)) by lia.
  assert (L : (Z.to_nat i < length l)%nat) by (unfold len in H; lia). revert L. generalize (Z.to_nat i). clear. intros n. revert l.
  induction n; intros l L; destruct l; cbn in *; try lia; [eauto|]. apply IHn. lia.
Qed.

(** ** Writing the whole list *)
Definition base_size (f : Z) (m : msg) : Z := 8 + len (wire_msg (fdel f m)).
Lemma fdel_fput f v (m : msg) : fsorted m -> fdel f (fput f v m) = fdel f m.
Proof.
  intros S. apply fsorted_ext; auto using fdel_sorted, fput_sorted. intros g.
  rewrite !flook_fdel by auto using fput_sorted. destruct (Z.eqb_spec g f); auto.
  rewrite flook_fput by auto. replace (g =? f) with false by lia. reflexivity.
Qed.
Lemma fdel_idem f (m : msg) : fsorted m -> fdel f (fdel f m) = fdel f m.
Proof.
  intros S. apply fsorted_ext; auto using fdel_sorted. intros g.
  rewrite !flook_fdel by auto using fdel_sorted. destruct (g =? f); auto.
Qed.
Lemma fdel_mset b f v m : fsorted m -> fdel f (mset b f v m) = fdel f m.
Proof. intros S. unfold mset. destruct b; auto using fdel_idem, fdel_fput. Qed.
Lemma size_put f v m : fsorted m -> flook f m = Some v -> len (wire_msg m) = len (wire_msg (fdel f m)) + len (wire_value f v).
Proof.
  intros S E. destruct (flook_split f m v S E) as (l & r & -> & Hl & _). rewrite fdel_mid by auto.
  unfold wire_msg. rewrite !map_app, !concat_app, !len_app. cbn [map concat fst snd]. rewrite len_app. lia.
Qed.
Lemma fits_new b f v m : fsorted m -> base_size f m + len (wire_value f v) < 2 ^ 32 -> fits 0 (mset b f v m).
Proof.
  intros S H. unfold fits, base_size, mset in *. pose proof (len_nonneg (wire_value f v)). destruct b; [lia|].
  rewrite (size_put f v (fput f v m)); auto using fput_sorted.
  - rewrite fdel_fput by auto. lia.
  - rewrite flook_fput by auto. now rewrite Z.eqb_refl.
Qed.

Lemma hinv_raw sch n h m s f m' :
  hinv sch n h m -> reached n s m' -> typed_msg sch m' ->
  hinv sch n (mkH s (h_objs h) (ClearListCache f (h_lists h)) (h_dirty h)) m'.
Proof.
  intros HI HR HT. constructor; cbn [h_s h_objs h_lists h_dirty]; auto; try apply HI.
  intros g i. rewrite GetList_clear. destruct (g =? f); [discriminate|]. apply HI.
Qed.
Lemma raw_set_ok sch n h m f k l :
  schema_ok n sch -> hinv sch n h m -> sch f = Some (LNums k) -> Forall (in_range k) l ->
  base_size f m + 8 + Z.of_nat (kind_size k) * len l < 2 ^ 32 ->
  exists h', raw_set h f k (nums_data k l) = Ok h' /\
    hinv sch n h' (mset (nil_b l) f (VNums k l) m) /\ h_objs h' = h_objs h /\
    h_lists h' = ClearListCache f (h_lists h) /\ h_dirty h' = h_dirty h.
Proof.
  intros HS HI Hf HF HB. destruct (HS _ _ Hf) as (H1 & H2 & H3).
  destruct (reached_sorted _ _ _ (hi_reached _ _ _ _ HI)) as (S & _).
  assert (HO : ok_op n 0 m (ONums f k l)).
  { cbn [ok_op apply_op valid_value]. assert (k <> KBool) by congruence. repeat split; auto; try lia.
    apply fits_new; auto. rewrite len_wire_value. cbn [v_rest]. fold (nums_data k l). rewrite len_nums_data. lia. }
  destruct (reached_op _ _ _ _ (hi_reached _ _ _ _ HI) HO) as (s' & E & HR'). cbn [do_op apply_op] in E, HR'.
  assert (ER : raw_set h f k (nums_data k l) = Ok (mkH s' (h_objs h) (ClearListCache f (h_lists h)) (h_dirty h))).
  { unfold raw_set. unfold sync_numbers, nu_setall in E. cbn [nu_len nu_data] in E. rewrite append_items_spec in E. cbn [app] in E.
    pose proof (kind_size_pos k). replace (len (nums_data k l) =? 0) with (len l =? 0).
    2:{ rewrite len_nums_data. destruct (Z.eqb_spec (len l) 0) as [->|]; [now rewrite Z.mul_0_r|]. nia. }
    rewrite E. reflexivity. }
  eexists. split; [exact ER|]. split; [|auto]. apply (hinv_raw sch n h m); auto.
  intros g u v Hg. unfold mset. destruct (nil_b l).
  - rewrite flook_fdel by auto. destruct (g =? f); [discriminate|]. now apply (hi_typed _ _ _ _ HI).
  - rewrite flook_fput by auto. destruct (Z.eqb_spec g f) as [->|]; [|now apply (hi_typed _ _ _ _ HI)].
    intros X. inv X. cbn. congruence.
Qed.

(** ** State between the operations on one number field *)
Record numst (sch : schema) (n : nat) (f : Z) (k : kind) (h0 : hstruct) (m0 : msg) (h : hstruct) (m : msg) (l : list Z) : Prop := mkNumst {
  ns_inv : hinv sch n h m;
  ns_synced : synced h f;
  ns_in : nums_in m f k l;
  ns_frame : frame (eq f) h0 m0 h m;
  ns_base : fdel f m = fdel f m0;
  ns_shows : shows h m f (LNums k) (VNums k l) }.

Lemma nums_mset k f l m : fsorted m -> nums_in (mset (nil_b l) f (VNums k l) m) f k l.
Proof.
  intros S. unfold nums_in, mset. destruct l; cbn [nil_b].
  - rewrite flook_fdel, Z.eqb_refl by auto. reflexivity.
  - rewrite flook_fput, Z.eqb_refl by auto. reflexivity.
Qed.
Lemma on_not g f (l : list (Z * nat)) : g <> f -> on g (filter (fun p => negb (fst p =? f)) l) = on g l.
Proof.
  intros N. unfold on. induction l as [|[a i] l IH]; cbn; auto. destruct (Z.eqb_spec a f) as [->|NA]; cbn.
  - replace (f =? g) with false by lia. exact IH.
  - rewrite IH. reflexivity.
Qed.
Lemma frame_drop sch n h m h' m' f :
  hinv sch n h m -> h_objs h' = h_objs h -> h_lists h' = ClearListCache f (h_lists h) ->
  (h_dirty h' = h_dirty h \/ h_dirty h' = filter (fun p => negb (fst p =? f)) (h_dirty h)) ->
  (forall g, g <> f -> flook g m' = flook g m) -> frame (eq f) h m h' m'.
Proof.
  intros HI EO EL ED EM. constructor; auto.
  - intros g N. rewrite EL, GetList_clear. destruct (Z.eqb_spec g f); congruence.
  - intros g N. destruct ED as [->| ->]; auto. apply on_not. auto.
  - intros i o E _. congruence.
Qed.
Lemma mset_ne b f v m g : fsorted m -> g <> f -> flook g (mset b f v m) = flook g m.
Proof. intros S N. now apply flook_mset_ne. Qed.

Lemma raw_numst sch n f k h0 m0 h m l l' N :
  schema_ok n sch -> sch f = Some (LNums k) -> numst sch n f k h0 m0 h m l ->
  Forall (in_range k) l' -> len l' <= N -> base_size f m0 + 8 + Z.of_nat (kind_size k) * N < 2 ^ 32 ->
  exists h', raw_set h f k (nums_data k l') = Ok h' /\ exists m', numst sch n f k h0 m0 h' m' l'.
Proof.
  intros HS Hf [HI HY HN HF HB HW] HR HL HS32. destruct (reached_sorted _ _ _ (hi_reached _ _ _ _ HI)) as (S & _).
  destruct (raw_set_ok sch n h m f k l' HS HI Hf HR) as (h' & E & HI' & EO & EL & ED).
  { unfold base_size in *. rewrite HB. nia. }
  exists h'. split; auto. exists (mset (nil_b l') f (VNums k l') m). constructor; auto.
  - intros i o Hi EI. rewrite ED in Hi. rewrite EO in EI. eauto.
  - now apply nums_mset.
  - apply (frame_trans (eq f) (eq f) (eq f) _ _ h m); auto. eapply (frame_drop sch n); eauto. intros g Ng. now apply mset_ne.
  - rewrite fdel_mset by auto. auto.
  - unfold shows. rewrite EL, GetList_clear, Z.eqb_refl. symmetry. now apply (nums_mset k f l' m).
Qed.
Lemma clear_numst sch n f k h0 m0 h m l :
  schema_ok n sch -> sch f = Some (LNums k) -> numst sch n f k h0 m0 h m l ->
  exists h', h_Clear h f = Ok h' /\ exists m', numst sch n f k h0 m0 h' m' [].
Proof.
  intros HS Hf [HI HY HN HF HB HW]. destruct (reached_sorted _ _ _ (hi_reached _ _ _ _ HI)) as (S & _).
  destruct (HS _ _ Hf) as (H1 & _).
  destruct (reached_op n (h_s h) m (OClear f) (hi_reached _ _ _ _ HI) H1) as (s' & E & HR). cbn [do_op] in E. unfold ClearField in E.
  assert (EC : h_Clear h f = Ok (mkH s' (h_objs h) (ClearListCache f (h_lists h)) (filter (fun p => negb (fst p =? f)) (h_dirty h)))).
  { unfold h_Clear. now rewrite E. }
  eexists. split; [exact EC|]. exists (fdel f m). constructor.
  - eapply (hinv_call sch n h m (CClear f)); eauto. econstructor; eauto.
  - intros i o Hi _. cbn [h_dirty] in Hi. apply filter_In in Hi. cbn in Hi. rewrite Z.eqb_refl in Hi. destruct Hi; discriminate.
  - unfold nums_in. rewrite flook_fdel, Z.eqb_refl by auto. reflexivity.
  - apply (frame_trans (eq f) (eq f) (eq f) _ _ h m); auto. eapply (frame_drop sch n); eauto.
    intros g Ng. rewrite flook_fdel by auto. destruct (Z.eqb_spec g f); congruence.
  - rewrite fdel_idem by auto. auto.
  - unfold shows. cbn [h_lists]. rewrite GetList_clear, Z.eqb_refl, flook_fdel, Z.eqb_refl by auto. reflexivity.
Qed.
Lemma sync_none sch n h m f : hinv sch n h m -> synced h f ->
  SyncDirtyListsForField h f = Ok (with_dirty h (filter (fun p => negb (fst p =? f)) (h_dirty h))).
Proof.
  intros HI HY. unfold SyncDirtyListsForField.
  assert (E : sync_all h (filter (fun p => fst p =? f) (h_dirty h)) = Ok h).
  { assert (G : forall g i, In (g, i) (filter (fun p => fst p =? f) (h_dirty h)) ->
      exists o, nth_error (h_objs h) i = Some o /\ is_dirty (lo_c o) = false).
    { intros g i Hi. apply filter_In in Hi. cbn in Hi. destruct Hi as [Hi Hg]. assert (g = f) by lia. subst g.
      destruct (hi_dirty _ _ _ _ HI _ _ Hi) as (o & EO & _). eauto. }
    revert G. generalize (filter (fun p => fst p =? f) (h_dirty h)). intros l. induction l as [|[g i] l IH]; intros G; auto.
    cbn [sync_all snd]. destruct (G g i (or_introl eq_refl)) as (o & EO & HD). unfold SyncToSegment. rewrite EO, HD, bind_Ok.
    apply IH. intros a j Hj. apply (G a j). now right. }
  rewrite E. reflexivity.
Qed.
Lemma sync_numst sch n f k h0 m0 h m l :
  numst sch n f k h0 m0 h m l ->
  numst sch n f k h0 m0 (with_dirty h (filter (fun p => negb (fst p =? f)) (h_dirty h))) m l.
Proof.
  intros [HI HY HN HF HB HW]. constructor; auto.
  - constructor; cbn [with_dirty h_s h_objs h_lists h_dirty]; try apply HI. intros g i Hi. apply filter_In in Hi.
    exact (hi_dirty _ _ _ _ HI _ _ (proj1 Hi)).
  - intros i o Hi _. cbn [with_dirty h_dirty] in Hi. apply filter_In in Hi. cbn in Hi. rewrite Z.eqb_refl in Hi. destruct Hi; discriminate.
  - apply (frame_trans (eq f) (eq f) (eq f) _ _ h m); auto. constructor; auto. intros g Ng. apply on_not. auto.
Qed.

(** ** One operation *)
Lemma num_step lm sch n f k h0 m0 h m l o l' N :
  schema_ok n sch -> describes lm sch -> sch f = Some (LNums k) -> numst sch n f k h0 m0 h m l ->
  iop f (le_enc (kind_size k)) (nums_rep k) (in_range k) l o l' -> len l' <= N ->
  base_size f m0 + 8 + Z.of_nat (kind_size k) * N < 2 ^ 32 ->
  exists h', apply_list_op lm h o = Ok h' /\ exists m', numst sch n f k h0 m0 h' m' l'.
Proof.
  intros HS HD Hf HNS HO HL HN. pose proof (kind_size_pos k) as KP. pose proof (kind_width_size k) as KW.
  inversion HO; subst; unfold apply_list_op; cbn [r_fn r_type r_index r_data]; rewrite HD, Hf;
    change (OpListSet =? OpClear) with false; change (OpListSet =? OpListReplace) with false; change (OpListSet =? OpListSet) with true;
    change (OpListInsert =? OpClear) with false; change (OpListInsert =? OpListReplace) with false;
    change (OpListInsert =? OpListSet) with false; change (OpListInsert =? OpListInsert) with true;
    change (OpListRemove =? OpClear) with false; change (OpListRemove =? OpListReplace) with false;
    change (OpListRemove =? OpListSet) with false; change (OpListRemove =? OpListInsert) with false; change (OpListRemove =? OpListRemove) with true;
    change (OpListReplace =? OpClear) with false; change (OpListReplace =? OpListReplace) with true; cbv iota.
  - unfold apply_set. replace (i <? 0) with false by lia.
    rewrite (sync_none sch n h m f (ns_inv _ _ _ _ _ _ _ _ _ HNS) (ns_synced _ _ _ _ _ _ _ _ _ HNS)), bind_Ok.
    apply sync_numst in HNS. set (h1 := with_dirty _ _) in *.
    destruct (item_data_ok sch n h1 m f k l HS (ns_inv _ _ _ _ _ _ _ _ _ HNS) Hf (ns_in _ _ _ _ _ _ _ _ _ HNS)) as [HR [ED|[-> _]]]; [|cbn in H; lia].
    rewrite ED, bind_Ok. rewrite len_nums_data. replace (i * kind_width k >=? _) with false by nia.
    rewrite len_le_enc. replace (_ <? kind_width k) with false by lia. rewrite take_all by (rewrite len_le_enc; lia).
    destruct (drop_nth l i H) as (y & EY).
    assert (EL : nums_data k l = nums_data k (take i l) ++ le_enc (kind_size k) y ++ nums_data k (drop (i + 1) l)).
    { rewrite <- (take_drop i l) at 1. rewrite EY, nums_app. reflexivity. }
    rewrite EL. rewrite copy_at_split.
    2:{ rewrite len_nums_data, len_take by lia. lia. }
    2:{ now rewrite !len_le_enc. }
    rewrite bind_Ok.
    replace (nums_data k (take i l) ++ le_enc (kind_size k) x ++ nums_data k (drop (i + 1) l)) with (nums_data k (upd l i x)).
    2:{ rewrite upd_split, nums_app by auto. reflexivity. }
    apply (raw_numst sch n f k h0 m0 h1 m l (upd l i x) N); auto.
    rewrite upd_split by auto. rewrite <- (take_drop i l) in HR. apply Forall_app in HR. destruct HR as [R1 R2]. rewrite EY in R2.
    inversion R2; subst. apply Forall_app. split; auto.
  - unfold apply_insert. replace (i <? 0) with false by lia. rewrite len_le_enc. replace (_ <? kind_width k) with false by lia.
    destruct (item_data_ok sch n h m f k l HS (ns_inv _ _ _ _ _ _ _ _ _ HNS) Hf (ns_in _ _ _ _ _ _ _ _ _ HNS)) as [HR HE].
    assert (ED : exists d, item_data (h_s h) f (kind_width k) = Ok d /\ match d with Some d => d | None => [] end = nums_data k l).
    { destruct HE as [HE|[-> HE]]; rewrite HE; eexists; split; reflexivity. }
    destruct ED as (d & ED & EX). rewrite ED, bind_Ok. cbv zeta. rewrite EX.
    rewrite len_nums_data, <- KW, (Z.mul_comm (kind_width k)), Z.div_mul by lia. replace (i >? len l) with false by lia.
    rewrite nums_take, nums_drop by lia. rewrite (take_all (kind_width k) (le_enc (kind_size k) x)) by (rewrite len_le_enc; lia).
    replace (nums_data k (take i l) ++ le_enc (kind_size k) x ++ nums_data k (drop i l)) with (nums_data k (ins l i x)).
    2:{ unfold ins. rewrite nums_app. reflexivity. }
    apply (raw_numst sch n f k h0 m0 h m l (ins l i x) N); auto.
    unfold ins. rewrite <- (take_drop i l) in HR. apply Forall_app in HR. destruct HR. apply Forall_app. split; auto.
  - unfold apply_remove. replace (i <? 0) with false by lia.
    rewrite (sync_none sch n h m f (ns_inv _ _ _ _ _ _ _ _ _ HNS) (ns_synced _ _ _ _ _ _ _ _ _ HNS)), bind_Ok.
    apply sync_numst in HNS. set (h1 := with_dirty _ _) in *.
    destruct (item_data_ok sch n h1 m f k l HS (ns_inv _ _ _ _ _ _ _ _ _ HNS) Hf (ns_in _ _ _ _ _ _ _ _ _ HNS)) as [HR [ED|[-> _]]]; [|cbn in H; lia].
    rewrite ED, bind_Ok. cbv zeta. rewrite len_nums_data, <- KW, (Z.mul_comm (kind_width k)), Z.div_mul by lia.
    replace (i >=? len l) with false by lia. destruct (Z.eqb_spec (len l) 1) as [E1|E1].
    + assert (EDL : del l i = []).
      { assert (i = 0) by lia. subst i. unfold del. rewrite take_0, drop_all by lia. reflexivity. }
      rewrite EDL. eapply clear_numst; eauto.
    + replace (i * kind_width k + kind_width k) with ((i + 1) * kind_width k) by lia.
      rewrite nums_take, nums_drop by lia. rewrite <- nums_app. fold (del l i).
      apply (raw_numst sch n f k h0 m0 h1 m l (del l i) N); auto.
      unfold del. pose proof HR as HR'. rewrite <- (take_drop i l) in HR. rewrite <- (take_drop (i + 1) l) in HR'.
      apply Forall_app in HR, HR'. apply Forall_app. tauto.
  - unfold apply_replace. unfold nums_rep in H. subst d. rewrite len_nums_data.
    destruct (Z.eqb_spec (Z.of_nat (kind_size k) * len l') 0) as [E0|E0].
    + assert (l' = []) by (apply len_0; nia). subst l'. eapply clear_numst; eauto.
    + apply (raw_numst sch n f k h0 m0 h m l l' N); auto.
Qed.
Lemma num_steps lm sch n f k h0 m0 N l ops l' :
  schema_ok n sch -> describes lm sch -> sch f = Some (LNums k) ->
  base_size f m0 + 8 + Z.of_nat (kind_size k) * N < 2 ^ 32 ->
  iops f (le_enc (kind_size k)) (nums_rep k) (in_range k) N l ops l' ->
  forall h m, numst sch n f k h0 m0 h m l ->
  exists h', apply_list_ops lm h ops = Ok h' /\ exists m', numst sch n f k h0 m0 h' m' l'.
Proof.
  intros HS HD Hf HN H. induction H; intros h m HNS; [exists h; split; [reflexivity|eauto]|].
  destruct (num_step lm sch n f k h0 m0 h m l o l1 N HS HD Hf HNS H H0 HN) as (h1 & E1 & m1 & H1').
  destruct (IHiops h1 m1 H1') as (h2 & E2 & m2 & H2). exists h2. cbn [apply_list_ops]. rewrite E1. eauto.
Qed.
