(** Invariants of a struct with list objects. *)
From Verif.Proofs Require Export NumList.
From Verif.Spec Require Export ListReach.

(** The value a list object stands for. *)
Definition cval (c : content) (v : value) : Prop :=
  match c with
  | CBools l _ => v = VBools l
  | CNums k nu => exists l, v = VNums k l /\ nu_rep k nu l /\ k <> KBool /\ Forall (in_range k) l
  | CBlobs b l _ => v = VBlobs b l /\ Forall byte_list l
  end.
Lemma cval_fun c v v' : cval c v -> cval c v' -> v = v'.
Proof.
  destruct c; cbn; intros; try intuition congruence.
  destruct H as (l & -> & R & HK & HF), H0 as (l' & -> & R' & _ & HF').
  pose proof (nu_slice_rep _ _ _ R HK HF). pose proof (nu_slice_rep _ _ _ R' HK HF'). congruence.
Qed.
Lemma read_cval c v : cval c v -> read_content c = Ok v.
Proof.
  destruct c; cbn; intros.
  - now subst.
  - destruct H as (l & -> & R & HK & HF). rewrite (nu_slice_rep _ _ _ R HK HF). reflexivity.
  - now destruct H as [-> _].
Qed.
Lemma cval_type c v : cval c v -> lty_of v = Some (c_type c).
Proof. destruct c; cbn; intros; [now subst| |]; [destruct H as (l & -> & _)|destruct H as [-> _]]; reflexivity. Qed.
Lemma cval_clean c v : cval c v -> cval (clean c) v.
Proof. destruct c; cbn; auto. Qed.
Lemma clean_type c : c_type (clean c) = c_type c. Proof. destruct c; reflexivity. Qed.
Lemma clean_dirty c : is_dirty (clean c) = false. Proof. destruct c; reflexivity. Qed.
Lemma clean_size c : content_size (clean c) = content_size c. Proof. destruct c; reflexivity. Qed.
Lemma size_nonneg c : 0 <= content_size c.
Proof.
  destruct c; cbn [content_size].
  - assert (0 <= (len items + 7) / 8) by (apply Z.div_pos; pose proof (len_nonneg items); lia). lia.
  - pose proof (len_nonneg (nu_data nu)). lia.
  - pose proof (len_nonneg (concat (map blob items))). lia.
Qed.

(** One object is written. *)
Lemma sync_content_ok n s m f c v :
  reached n s m -> cval c v -> 0 <= f < Z.of_nat n -> f < 2 ^ 16 ->
  len (st_data s) + content_size c < 2 ^ 32 ->
  exists s', sync_content s f c = Ok s' /\ reached n s' (mset (list_empty v) f v m) /\
    len (st_data s') <= len (st_data s) + content_size c.
Proof.
  intros HR HC Hf Hf' HL.
  assert (HW : len (wire_value f v) <= content_size c).
  { destruct c; cbn [cval content_size] in *.
    - subst v. rewrite len_wire_value. cbn [v_rest]. rewrite len_padded, len_bit_bytes.
      pose proof (pad_len_range ((len items + 7) / 8)). lia.
    - destruct HC as (l & -> & [ED EL] & _). rewrite len_wire_value. cbn [v_rest]. unfold nums_data. rewrite ED. lia.
    - destruct HC as [-> _]. rewrite len_wire_value. cbn [v_rest]. rewrite len_padded.
      pose proof (pad_len_range (len (concat (map blob items)))). lia. }
  assert (FI : fits 0 (mset (list_empty v) f v m)) by (eapply fits_mset; eauto; lia).
  assert (G : exists o, ok_op n 0 m o /\ apply_op m o = mset (list_empty v) f v m /\ do_op s o = sync_content s f c).
  { destruct c; cbn [cval sync_content] in *.
    - subst v. exists (OBools f items). cbn [ok_op apply_op do_op valid_value].
      assert (E : list_empty (VBools items) = nil_b items) by (destruct items; reflexivity).
      rewrite E in *. repeat split; auto; lia.
    - destruct HC as (l & -> & [ED EL] & HK & HF). exists (ONums f k l). cbn [ok_op apply_op do_op valid_value].
      assert (E : list_empty (VNums k l) = nil_b l) by (destruct l; reflexivity).
      rewrite E in *. repeat split; auto; try lia.
      unfold sync_numbers, nu_setall. cbn [nu_len nu_data]. rewrite append_items_spec, ED, EL. reflexivity.
    - destruct HC as [-> HB]. exists (OBlobs f str items). cbn [ok_op apply_op do_op valid_value].
      assert (E : list_empty (VBlobs str items) = nil_b items) by (destruct items; reflexivity).
      rewrite E in *. repeat split; auto; lia. }
  destruct G as (o & HO & EA & ED). destruct (reached_op _ _ _ _ HR HO) as (s' & E & HR').
  rewrite EA in HR'. rewrite ED in E. exists s'. split; auto. split; auto.
  destruct (reached_sorted _ _ _ HR) as (S & _ & _ & L). destruct (reached_sorted _ _ _ HR') as (_ & _ & _ & L').
  rewrite L, L'. unfold mset. pose proof (len_wire_put f v m S). pose proof (len_wire_del f m S).
  pose proof (size_nonneg c). destruct (list_empty v); lia.
Qed.

(** ** The invariant *)
Definition obj_ok (sch : schema) (o : lobj) : Prop :=
  sch (lo_f o) = Some (c_type (lo_c o)) /\ exists v, cval (lo_c o) v.
Record hinv (sch : schema) (n : nat) (h : hstruct) (m : msg) : Prop := mkHinv {
  hi_reached : reached n (h_s h) m;
  hi_typed : typed_msg sch m;
  hi_objs : forall i o, nth_error (h_objs h) i = Some o -> obj_ok sch o;
  hi_lists : forall f i, GetList f (h_lists h) = Some i -> exists o, nth_error (h_objs h) i = Some o /\ lo_f o = f;
  hi_dirty : forall f i, In (f, i) (h_dirty h) -> exists o, nth_error (h_objs h) i = Some o /\ lo_f o = f }.
(** Only the cached list of a field is registered. *)
Definition single (h : hstruct) : Prop := forall f i, In (f, i) (h_dirty h) -> GetList f (h_lists h) = Some i.

Lemma GetList_clear f g l : GetList g (ClearListCache f l) = if g =? f then None else GetList g l.
Proof.
  unfold ClearListCache. induction l as [|[a i] l IH]; cbn; [destruct (g =? f); auto|].
  destruct (Z.eqb_spec a f) as [->|N]; cbn.
  - rewrite IH. destruct (Z.eqb_spec g f); auto.
  - destruct (Z.eqb_spec g a) as [->|N2].
    + destruct (Z.eqb_spec a f); [congruence|auto].
    + exact IH.
Qed.
Lemma GetList_set f i g l : GetList g (SetList f i l) = if g =? f then Some i else GetList g l.
Proof. unfold SetList. cbn. rewrite GetList_clear. destruct (g =? f); auto. Qed.

Lemma typed_put sch m f v t : fsorted m -> sch f = Some t -> lty_of v = Some t -> typed_msg sch m ->
  typed_msg sch (mset (list_empty v) f v m).
Proof.
  intros S HF HV HT g u w EG. unfold mset. destruct (list_empty v); rewrite ?flook_fdel, ?flook_fput by auto;
    destruct (Z.eqb_spec g f) as [->|N]; intros EW; try discriminate; eauto; congruence.
Qed.

(** Replacing the content of one object. *)
Lemma hinv_put sch n h m s' i o m' o' :
  hinv sch n h m -> nth_error (h_objs h) i = Some o -> reached n s' m' -> typed_msg sch m' ->
  obj_ok sch o' -> lo_f o' = lo_f o ->
  hinv sch n (mkH s' (set_nth i o' (h_objs h)) (h_lists h) (h_dirty h)) m'.
Proof.
  intros HI EO HR HT HO EF.
  constructor; cbn [h_s h_objs h_lists h_dirty]; auto; try apply HI.
  - intros j x E. destruct (Nat.eq_dec j i) as [->|N].
    + rewrite nth_error_set_nth_eq in E by (apply nth_error_Some; congruence). inv E. auto.
    + rewrite nth_error_set_nth_neq in E by auto. now apply (hi_objs _ _ _ _ HI) in E.
  - intros f j Ej. destruct (hi_lists _ _ _ _ HI _ _ Ej) as (x & E1 & E2).
    destruct (Nat.eq_dec j i) as [->|N].
    + rewrite nth_error_set_nth_eq by (apply nth_error_Some; congruence).
      assert (x = o) by congruence. subst. eauto.
    + rewrite nth_error_set_nth_neq by auto. eauto.
  - intros f j Ej. destruct (hi_dirty _ _ _ _ HI _ _ Ej) as (x & E1 & E2).
    destruct (Nat.eq_dec j i) as [->|N].
    + rewrite nth_error_set_nth_eq by (apply nth_error_Some; congruence).
      assert (x = o) by congruence. subst. eauto.
    + rewrite nth_error_set_nth_neq by auto. eauto.
Qed.

(** Writing the registered objects. *)
Lemma sync_one sch n h m i o :
  schema_ok n sch -> hinv sch n h m -> nth_error (h_objs h) i = Some o ->
  len (st_data (h_s h)) + content_size (lo_c o) < 2 ^ 32 ->
  exists h' v, SyncToSegment h i = Ok h' /\ cval (lo_c o) v /\
    h_lists h' = h_lists h /\ h_dirty h' = h_dirty h /\
    (if is_dirty (lo_c o)
     then hinv sch n h' (mset (list_empty v) (lo_f o) v m) /\ h_objs h' = set_nth i (mkL (lo_f o) (clean (lo_c o))) (h_objs h)
     else h' = h) /\
    len (st_data (h_s h')) <= len (st_data (h_s h)) + content_size (lo_c o).
Proof.
  intros HS HI EO HL. destruct (hi_objs _ _ _ _ HI _ _ EO) as (HT & v & HV).
  destruct (HS _ _ HT) as (Hf & Hf' & _).
  unfold SyncToSegment. rewrite EO. destruct (is_dirty (lo_c o)) eqn:ED.
  - destruct (sync_content_ok n (h_s h) m (lo_f o) (lo_c o) v) as (s' & E & HR & HL'); auto; try apply HI.
    rewrite E, bind_Ok. eexists _, v. split; [reflexivity|]. cbn [h_lists h_dirty h_s h_objs].
    split; auto. split; auto. split; auto. split; [split; auto|lia].
    apply (hinv_put sch n h m s' i o); auto.
    + destruct (reached_sorted _ _ _ (hi_reached _ _ _ _ HI)) as (S & _).
      eapply typed_put; eauto; [eapply cval_type; eauto|apply HI].
    + split; cbn [lo_f lo_c]; [now rewrite clean_type|]. exists v. now apply cval_clean.
  - exists h, v. repeat split; auto. pose proof (size_nonneg (lo_c o)). lia.
Qed.

Lemma pending_nonneg h l : 0 <= pending_size h l.
Proof.
  unfold pending_size. induction l as [|p l IH]; cbn; [lia|].
  destruct (nth_error (h_objs h) (snd p)) as [o|]; [pose proof (size_nonneg (lo_c o))|]; lia.
Qed.
Lemma pending_set s' h i o l d d' :
  nth_error (h_objs h) i = Some o ->
  pending_size (mkH s' (set_nth i (mkL (lo_f o) (clean (lo_c o))) (h_objs h)) d d') l = pending_size h l.
Proof.
  intros E. unfold pending_size. f_equal. apply map_ext. intros [f j]. cbn [snd h_objs].
  destruct (Nat.eq_dec j i) as [->|N].
  - rewrite nth_error_set_nth_eq by (apply nth_error_Some; congruence). rewrite E. apply clean_size.
  - now rewrite nth_error_set_nth_neq by auto.
Qed.
Definition regs (h : hstruct) (l : list (Z * nat)) : Prop :=
  forall f i, In (f, i) l -> exists o, nth_error (h_objs h) i = Some o /\ lo_f o = f.
Lemma regs_set h h1 i o l : regs h l -> nth_error (h_objs h) i = Some o ->
  h_objs h1 = set_nth i (mkL (lo_f o) (clean (lo_c o))) (h_objs h) -> regs h1 l.
Proof.
  intros HR EO E f j Hj. destruct (HR f j Hj) as (x & X1 & X2). rewrite E. destruct (Nat.eq_dec j i) as [->|N].
  - rewrite nth_error_set_nth_eq by (apply nth_error_Some; congruence). eexists. split; [reflexivity|].
    assert (x = o) by congruence. now subst.
  - rewrite nth_error_set_nth_neq by auto. eauto.
Qed.

Lemma sync_all_ok sch n l : forall h m,
  schema_ok n sch -> hinv sch n h m -> regs h l ->
  len (st_data (h_s h)) + pending_size h l < 2 ^ 32 ->
  exists h', sync_all h l = Ok h' /\ hinv sch n h' (flush (h_objs h) l m) /\
    h_lists h' = h_lists h /\ h_dirty h' = h_dirty h /\
    len (st_data (h_s h')) <= len (st_data (h_s h)) + pending_size h l.
Proof.
  induction l as [|[f i] l IH]; intros h m HS HI HG HL.
  - exists h. cbn. split; auto. split; auto. split; auto. split; auto. cbn. lia.
  - destruct (HG f i) as (o & EO & EF); [left; auto|].
    cbn [pending_size map fold_right snd] in HL. unfold pending_size in HL. cbn [map fold_right snd] in HL.
    rewrite EO in HL. fold (pending_size h l) in HL. pose proof (pending_nonneg h l) as PN.
    destruct (sync_one sch n h m i o) as (h1 & v & E1 & HV & EL & ED & HC & HL1); auto; [lia|].
    cbn [sync_all snd]. rewrite E1, bind_Ok.
    assert (PL : pending_size h ((f, i) :: l) = content_size (lo_c o) + pending_size h l).
    { unfold pending_size. cbn [map fold_right snd]. now rewrite EO. }
    rewrite PL. cbn [flush]. rewrite EO, (read_cval _ _ HV). destruct (is_dirty (lo_c o)) eqn:Ed.
    + destruct HC as [HI1 EO1].
      assert (P1 : pending_size h1 l = pending_size h l).
      { pose proof (pending_set (h_s h1) h i o l (h_lists h1) (h_dirty h1) EO) as P. rewrite <- P.
        unfold pending_size. cbn [h_objs]. now rewrite EO1. }
      destruct (IH h1 _ HS HI1) as (h2 & E2 & HI2 & EL2 & ED2 & HL2).
      { eapply regs_set; eauto. intros g j Hj. apply HG. now right. }
      { rewrite P1. lia. }
      rewrite EO1 in HI2. exists h2. split; auto. split; auto. split; [congruence|]. split; [congruence|]. lia.
    + subst h1. destruct (IH h _ HS HI) as (h2 & E2 & HI2 & EL2 & ED2 & HL2).
      { intros g j Hj. apply HG. now right. }
      { lia. }
      exists h2. split; auto. split; auto. split; auto. split; auto. lia.
Qed.

Definition prod_eq_dec' : forall a b : Z * nat, {a = b} + {a <> b}.
Proof. decide equality; [apply Nat.eq_dec|apply Z.eq_dec]. Defined.
(** What the flush does to a field. *)
Definition knows (objs : list lobj) (l : list (Z * nat)) : Prop :=
  forall f i, In (f, i) l -> exists o v, nth_error objs i = Some o /\ lo_f o = f /\ cval (lo_c o) v.
Lemma knows_set objs i o l : knows objs l -> nth_error objs i = Some o ->
  knows (set_nth i (mkL (lo_f o) (clean (lo_c o))) objs) l.
Proof.
  intros K E f j Hj. destruct (K f j Hj) as (x & v & E1 & E2 & E3). destruct (Nat.eq_dec j i) as [->|N].
  - rewrite nth_error_set_nth_eq by (apply nth_error_Some; congruence). assert (x = o) by congruence. subst x.
    eexists _, v. split; [reflexivity|]. split; auto. now apply cval_clean.
  - rewrite nth_error_set_nth_neq by auto. eauto.
Qed.
Lemma flush_sorted l : forall objs m, fsorted m -> fsorted (flush objs l m).
Proof.
  induction l as [|[f i] l IH]; intros objs m S; cbn [flush]; auto.
  destruct (nth_error objs i); auto. destruct (is_dirty _); auto. destruct (read_content _); auto.
  apply IH. now apply mset_sorted.
Qed.
Lemma flush_other l : forall objs m f, fsorted m -> knows objs l -> (forall i, ~ In (f, i) l) ->
  flook f (flush objs l m) = flook f m.
Proof.
  induction l as [|[g i] l IH]; intros objs m f S K NI; auto. cbn [flush].
  destruct (K g i) as (o & v & E1 & E2 & E3); [now left|]. rewrite E1, (read_cval _ _ E3).
  assert (K' : knows objs l) by (intros a b Hb; apply K; now right).
  assert (NI' : forall j, ~ In (f, j) l) by (intros j Hj; apply (NI j); now right).
  destruct (is_dirty (lo_c o)); [|now apply IH].
  rewrite IH; auto using mset_sorted.
  - apply flook_mset_ne; auto. rewrite E2. intros ->. apply (NI i). now left.
  - now apply knows_set.
Qed.
Lemma flook_mset_eq m f v : fsorted m -> flook f (mset (list_empty v) f v m) = written v.
Proof.
  intros S. unfold mset, written. destruct (list_empty v); rewrite ?flook_fdel, ?flook_fput, Z.eqb_refl by auto; auto.
Qed.
Lemma flush_field l : forall objs m f i o v, fsorted m -> knows objs l -> (forall j, In (f, j) l -> j = i) ->
  In (f, i) l -> nth_error objs i = Some o -> cval (lo_c o) v ->
  flook f (flush objs l m) = if is_dirty (lo_c o) then written v else flook f m.
Proof.
  induction l as [|[g j] l IH]; intros objs m f i o v S K U HIn EO HV; [destruct HIn|]. cbn [flush].
  destruct (K g j) as (x & w & E1 & E2 & E3); [now left|]. rewrite E1, (read_cval _ _ E3).
  assert (K' : knows objs l) by (intros a b Hb; apply K; now right).
  assert (U' : forall k, In (f, k) l -> k = i) by (intros k Hk; apply U; now right).
  destruct (Z.eq_dec g f) as [->|NG].
  - assert (j = i) by (apply U; now left). subst j. assert (x = o) by congruence. subst x.
    assert (w = v) by (eapply cval_fun; eauto). subst w.
    destruct (is_dirty (lo_c o)) eqn:ED.
    + rewrite E2. destruct (in_dec (prod_eq_dec' ) (f, i) l) as [HI|NI].
      * rewrite (IH _ _ f i (mkL (lo_f o) (clean (lo_c o))) v); auto using mset_sorted.
        { cbn [lo_c]. rewrite clean_dirty. now apply flook_mset_eq. }
        { rewrite <- E2. now apply knows_set. }
        { rewrite <- E2 at 1. rewrite nth_error_set_nth_eq by (apply nth_error_Some; congruence). reflexivity. }
        { cbn [lo_c]. now apply cval_clean. }
      * rewrite flush_other; auto using mset_sorted; [now apply flook_mset_eq| |].
        { rewrite <- E2. now apply knows_set. }
        { intros k Hk. assert (k = i) by auto. subst. auto. }
    + destruct (in_dec prod_eq_dec' (f, i) l) as [HI|NI].
      * rewrite (IH _ _ f i o v); auto. now rewrite ED.
      * apply flush_other; auto. intros k Hk. assert (k = i) by auto. subst. auto.
  - destruct HIn as [HIn|HIn]; [congruence|].
    destruct (is_dirty (lo_c x)) eqn:ED; [|now apply (IH _ _ f i o v)].
    assert (j <> i).
    { intros ->. assert (x = o) by congruence. subst x. destruct (K' f i HIn) as (y & _ & E4 & E5 & _).
      assert (y = o) by congruence. subst y. congruence. }
    rewrite (IH _ _ f i o v); auto using mset_sorted.
    + destruct (is_dirty (lo_c o)); auto. apply flook_mset_ne; auto. congruence.
    + now apply knows_set.
    + rewrite nth_error_set_nth_neq by auto. auto.
Qed.

(** ** The accessor *)
(** What a list read from the wire contains: the stored list, with the padding of a string
    list taken for one more item as described in C16. *)
Lemma actual_bytes l : Forall byte_list l -> Forall byte_list (actual_blobs l).
Proof.
  intros H. unfold actual_blobs. apply Forall_app. split; auto. destruct (_ <=? _); repeat constructor.
Qed.
Lemma seen_in n sch f t m : schema_ok n sch -> sch f = Some t -> seen n m f = flook f m.
Proof. intros HS HT. destruct (HS _ _ HT) as (H & _). unfold seen. replace (_ && _) with true by lia. reflexivity. Qed.
Lemma parse_ok sch n s m f t :
  schema_ok n sch -> reached n s m -> typed_msg sch m -> sch f = Some t ->
  match flook f m with
  | None => parse_list s f t = Ok None
  | Some v => exists c, parse_list s f t = Ok (Some c) /\ c_type c = t /\ cval c (as_read v) /\ is_dirty c = false
  end.
Proof.
  intros HS HR HT Hf. destruct (HS _ _ Hf) as (H1 & H2 & H3).
  destruct (reached_good _ _ _ HR) as (g & Hg & S & _).
  pose proof (seen_in n sch f t m HS Hf) as EV. pose proof (Sim_seen _ _ _ _ _ f S ltac:(lia)) as SS.
  rewrite EV in SS. destruct (flook f m) as [v|] eqn:EF.
  - pose proof (HT _ _ _ Hf EF) as HV. destruct SS as (_ & _ & _ & _ & _ & VV & _).
    destruct v; try discriminate HV; inv HV; cbn [parse_list as_read].
    + assert (G : answer s (QBools f) = Ok (ABools (Some l))).
      { eapply get_bools_spec; eauto. split; [lia|]. rewrite EV. reflexivity. }
      cbn [answer] in G. destruct (get_bools s f) as [o| | |]; cbn in G; try discriminate G.
      assert (o = Some l) by congruence. subst o. cbn. eexists. repeat split; reflexivity.
    + destruct (get_numbers_exact _ _ _ _ _ f k l S ltac:(lia)) as (d & E & ->); [exact EV|].
      rewrite E. cbn. eexists. split; [reflexivity|]. split; auto. split; auto. exists l. split; auto.
      split; [split; reflexivity|]. exact VV.
    + rewrite (get_blobs_exact _ _ _ _ _ f strings l S) by (auto; lia). cbn.
      eexists. split; [reflexivity|]. split; auto. split; auto. split; auto. apply actual_bytes. exact VV.
  - destruct t; cbn [parse_list]; unfold get_bools, get_numbers, get_blobs; rewrite SS; reflexivity.
Qed.
Lemma set_nth_split {A} (l : list A) n x : (n < length l)%nat -> set_nth n x l = firstn n l ++ x :: skipn (S n) l.
Proof.
  revert n. induction l as [|a l IH]; intros n H; [cbn in H; lia|].
  destruct n as [|n]; [reflexivity|]. cbn [length] in H. cbn [set_nth firstn skipn app]. rewrite IH by lia. reflexivity.
Qed.
Lemma edit_items_spec {A} (l : list A) e :
  edit_items l e = match after_edit l e with Some l' => Ok l' | None => Panic end.
Proof.
  destruct e; cbn [edit_items after_edit]; auto.
  destruct (Z.ltb_spec i 0), (Z.leb_spec 0 i); try lia; cbn [orb andb]; auto.
  destruct (Z.geb_spec i (len l)), (Z.ltb_spec i (len l)); try lia; auto.
  unfold upd. rewrite set_nth_split; auto. unfold len in *. lia.
Qed.
Lemma after_items {A} (P : A -> Prop) (l : list A) e l' :
  Forall P l -> Forall P (items_of e) -> after_edit l e = Some l' -> Forall P l'.
Proof.
  intros H HE E. destruct e; cbn [after_edit items_of] in *.
  - inv E. apply Forall_app; auto.
  - destruct (_ && _); [|discriminate]. inv E. apply Forall_app. split.
    + rewrite <- (firstn_skipn (Z.to_nat i) l) in H. apply Forall_app in H. tauto.
    + constructor; [now inv HE|]. rewrite <- (firstn_skipn (S (Z.to_nat i)) l) in H. apply Forall_app in H. tauto.
  - now inv E.
Qed.
Definition to_lop (e : ledit Z) : lop :=
  match e with EAppend l => LAppend l | ESet i x => LSet i x | ESetAll l => LSetAll l end.
Lemma edit_ok c v e :
  cval c v -> edit_typed (c_type c) e ->
  match edited v e with
  | Some v' => exists c', edit_content c e = Ok c' /\ cval c' v' /\ c_type c' = c_type c /\ is_dirty c' = true
  | None => edit_content c e = Panic
  end.
Proof.
  intros HC HT. destruct c as [l d|k nu|b l d], e as [e|e|e]; cbn [cval c_type edit_typed] in *; try contradiction.
  - subst v. cbn [edited edit_content]. rewrite edit_items_spec. destruct (after_edit l e); cbn [option_map bind]; auto.
    eexists. repeat split; reflexivity.
  - destruct HC as (l & -> & R & HK & HF). cbn [edited edit_content].
    destruct (after_edit l e) as [l'|] eqn:EA; cbn [option_map].
    + assert (HL : lop_ok k l (to_lop e) /\ lop_sem l (to_lop e) = l').
      { destruct e; cbn [to_lop lop_ok lop_sem after_edit items_of] in *.
        - inv EA. auto.
        - destruct (Z.leb_spec 0 i), (Z.ltb_spec i (len l)); cbn in EA; try discriminate. inv EA. inv HT. auto.
        - inv EA. auto. }
      destruct HL as [HL ES]. destruct (nu_rep_op _ _ _ _ R HL) as (nu' & E & R'). rewrite ES in R'.
      assert (EE : edit_numbers k nu e = Ok nu') by (destruct e; exact E). rewrite EE. cbn [bind].
      eexists. split; [reflexivity|]. split.
      { exists l'. split; [reflexivity|]. split; [exact R'|]. split; [exact HK|]. exact (after_items (in_range k) l e l' HF HT EA). }
      split; auto. cbn [is_dirty]. destruct e; cbn [edit_numbers] in EE; [inv EE; reflexivity| |inv EE; reflexivity].
      unfold nu_set in EE. destruct (_ || _); [discriminate|]. apply bind_Ok_inv in EE. destruct EE as (dd & _ & EE). now inv EE.
    + destruct e; cbn [after_edit] in EA; try discriminate. cbn [edit_numbers].
      unfold nu_set. destruct R as [_ R]. rewrite R.
      destruct (Z.leb_spec 0 i), (Z.ltb_spec i (len l)); cbn in EA; try discriminate;
        replace (_ || _) with true by lia; reflexivity.
  - destruct HC as [-> HB]. cbn [edited edit_content]. rewrite edit_items_spec.
    destruct (after_edit l e) as [l'|] eqn:EA; cbn [option_map bind]; auto.
    eexists. split; [reflexivity|]. split; [split; [reflexivity|exact (after_items byte_list l e l' HB HT EA)]|]. split; reflexivity.
Qed.

Lemma record_all n m ops : forall s, reached n s m -> reached n (fold_left RecordOp ops s) m.
Proof. induction ops as [|o ops IH]; intros s HR; cbn; auto. apply IH. now constructor. Qed.
Lemma record_data ops : forall s, st_data (fold_left RecordOp ops s) = st_data s.
Proof.
  induction ops as [|o ops IH]; intros s; cbn; auto. rewrite IH. unfold RecordOp. destruct (st_recording s); reflexivity.
Qed.
Lemma new_ok t : t <> LNums KBool -> cval (new_content t) (empty_list t) /\ c_type (new_content t) = t /\ is_dirty (new_content t) = false.
Proof.
  intros H. destruct t; cbn; auto. split; auto. exists []. repeat split; auto. congruence.
Qed.
Lemma parsed_ok n s m : reached n s m -> exists s', ensureFieldIndexParsed s = Ok s' /\ reached n s' m /\ st_data s' = st_data s.
Proof.
  intros HR. destruct (reached_op n s m ORead HR I) as (s' & E & HR'). exists s'. split; auto. split; auto.
  cbn [do_op] in E. unfold ensureFieldIndexParsed in E. destruct (st_parsed s); [now inv E|].
  apply bind_Ok_inv in E. destruct E as (ix & _ & E). now inv E.
Qed.

Lemma h_list_ok sch n h m f t :
  schema_ok n sch -> hinv sch n h m -> sch f = Some t ->
  exists h' i o, h_list h f t = Ok (h', i) /\ hinv sch n h' m /\ GetList f (h_lists h') = Some i /\
    nth_error (h_objs h') i = Some o /\ c_type (lo_c o) = t /\ st_data (h_s h') = st_data (h_s h) /\
    (forall g, g <> f -> GetList g (h_lists h') = GetList g (h_lists h)) /\
    (forall j x, nth_error (h_objs h) j = Some x -> nth_error (h_objs h') j = Some x) /\
    match GetList f (h_lists h) with
    | Some j => h' = h /\ i = j
    | None => i = length (h_objs h) /\ h_objs h' = h_objs h ++ [o] /\ is_dirty (lo_c o) = false /\
        match flook f m with
        | None => h_dirty h' = h_dirty h ++ [(f, i)] /\ cval (lo_c o) (empty_list t)
        | Some v => h_dirty h' = h_dirty h /\ cval (lo_c o) (as_read v)
        end
    end.
Proof.
  intros HS HI Hf. unfold h_list. destruct (GetList f (h_lists h)) as [j|] eqn:EG.
  - destruct (hi_lists _ _ _ _ HI _ _ EG) as (o & EO & EF). rewrite EO.
    destruct (hi_objs _ _ _ _ HI _ _ EO) as (HT & v & HV). rewrite EF, Hf in HT. inv HT.
    destruct (lty_eq_dec (c_type (lo_c o)) (c_type (lo_c o))); [|congruence].
    exists h, j, o. repeat (split; [auto; fail|]). auto.
  - pose proof (parse_ok sch n (h_s h) m f t HS (hi_reached _ _ _ _ HI) (hi_typed _ _ _ _ HI) Hf) as HP.
    destruct (parsed_ok n (h_s h) m (hi_reached _ _ _ _ HI)) as (s' & ES & HR & ED).
    destruct (HS _ _ Hf) as (H1 & H2 & H3).
    assert (APP : forall c ds, c_type c = t -> (exists v, cval c v) ->
       (forall g j, In (g, j) ds -> In (g, j) (h_dirty h) \/ (g = f /\ j = length (h_objs h))) ->
       hinv sch n (mkH s' (h_objs h ++ [mkL f c]) (SetList f (length (h_objs h)) (h_lists h)) ds) m).
    { intros c ds HC HV HD. constructor; cbn [h_s h_objs h_lists h_dirty]; auto; try apply HI.
      - intros i o E. destruct (Nat.lt_ge_cases i (length (h_objs h))) as [L|L].
        + rewrite nth_error_app1 in E by auto. now apply (hi_objs _ _ _ _ HI) in E.
        + rewrite nth_error_app2 in E by auto. destruct (i - length (h_objs h))%nat as [|q]; cbn in E; [|destruct q; discriminate].
          inv E. split; cbn [lo_f lo_c]; auto.
      - intros g i. rewrite GetList_set. destruct (Z.eqb_spec g f) as [->|N]; intros E.
        + inv E. exists (mkL f c). rewrite nth_error_app2, Nat.sub_diag by lia. auto.
        + destruct (hi_lists _ _ _ _ HI _ _ E) as (o & E1 & E2). exists o. split; auto.
          rewrite nth_error_app1; auto. apply nth_error_Some. congruence.
      - intros g i HIn. destruct (HD _ _ HIn) as [H|[-> ->]].
        + destruct (hi_dirty _ _ _ _ HI _ _ H) as (o & E1 & E2). exists o. split; auto.
          rewrite nth_error_app1; auto. apply nth_error_Some. congruence.
        + exists (mkL f c). rewrite nth_error_app2, Nat.sub_diag by lia. auto. }
    assert (OLD : forall c j x, nth_error (h_objs h) j = Some x -> nth_error (h_objs h ++ [mkL f c]) j = Some x).
    { intros c j x E. rewrite nth_error_app1; auto. apply nth_error_Some. congruence. }
    assert (NEW : forall c, nth_error (h_objs h ++ [mkL f c]) (length (h_objs h)) = Some (mkL f c)).
    { intros c. rewrite nth_error_app2, Nat.sub_diag by lia. reflexivity. }
    destruct (flook f m) as [v|] eqn:EF.
    + destruct HP as (c & EP & CT & CV & CD). rewrite EP, bind_Ok, ES, bind_Ok.
      eexists _, _, (mkL f c). split; [reflexivity|]. cbn [h_lists h_objs h_s h_dirty lo_c].
      split; [apply APP; eauto|]. split; [now rewrite GetList_set, Z.eqb_refl|]. split; auto. split; auto. split; auto.
      split. { intros g N. rewrite GetList_set. destruct (Z.eqb_spec g f); congruence. }
      split; auto.
    + rewrite HP, bind_Ok, ES, bind_Ok. destruct (new_ok t H3) as (N1 & N2 & N3).
      eexists _, _, (mkL f (new_content t)). split; [reflexivity|]. cbn [h_lists h_objs h_s h_dirty lo_c].
      split. { apply APP; eauto. intros g j HIn. apply in_app_iff in HIn. destruct HIn as [|[E|[]]]; auto. inv E. auto. }
      split; [now rewrite GetList_set, Z.eqb_refl|]. split; auto. split; auto. split; auto.
      split. { intros g N. rewrite GetList_set. destruct (Z.eqb_spec g f); congruence. }
      split; auto.
Qed.

Lemma h_edit_ok sch n h m i o v e :
  hinv sch n h m -> nth_error (h_objs h) i = Some o -> cval (lo_c o) v -> edit_typed (c_type (lo_c o)) e ->
  match edited v e with
  | Some v' => exists h' c, h_edit h i e = Ok h' /\ hinv sch n h' m /\ cval c v' /\ is_dirty c = true /\
      c_type c = c_type (lo_c o) /\
      h_objs h' = set_nth i (mkL (lo_f o) c) (h_objs h) /\ h_lists h' = h_lists h /\ h_dirty h' = h_dirty h /\
      st_data (h_s h') = st_data (h_s h)
  | None => h_edit h i e = Panic
  end.
Proof.
  intros HI EO HV HT. pose proof (edit_ok _ _ _ HV HT) as E. unfold h_edit. rewrite EO.
  destruct (edited v e) as [v'|].
  - destruct E as (c & E & HV' & ET & ED). rewrite E, bind_Ok. eexists _, c. split; [reflexivity|].
    split. { eapply hinv_put; eauto; try apply HI.
             - apply record_all, HI.
             - split; cbn [lo_f lo_c]; [|eauto]. rewrite ET. apply (hi_objs _ _ _ _ HI _ _ EO). }
    cbn [h_objs h_lists h_dirty h_s]. repeat (split; [auto; fail|]). apply record_data.
  - rewrite E. reflexivity.
Qed.

Lemma typed_ext sch m m' : (forall f t, sch f = Some t -> flook f m' = flook f m \/ flook f m' = None) -> typed_msg sch m -> typed_msg sch m'.
Proof. intros H HT f t v Hf E. destruct (H _ _ Hf) as [H1|H1]; [|congruence]. rewrite H1 in E. eauto. Qed.

Lemma pending_filter h p l : pending_size h (filter p l) <= pending_size h l.
Proof.
  induction l as [|x l IH]; cbn [filter]; [lia|].
  assert (A : pending_size h (x :: l) = match nth_error (h_objs h) (snd x) with Some o => content_size (lo_c o) | None => 0 end + pending_size h l) by reflexivity.
  assert (B : 0 <= match nth_error (h_objs h) (snd x) with Some o => content_size (lo_c o) | None => 0 end).
  { destruct (nth_error (h_objs h) (snd x)) as [o|]; [apply size_nonneg|lia]. }
  destruct (p x); [|lia].
  assert (C : pending_size h (x :: filter p l) = match nth_error (h_objs h) (snd x) with Some o => content_size (lo_c o) | None => 0 end + pending_size h (filter p l)) by reflexivity.
  lia.
Qed.

Lemma h_Marshal_ok sch n h m :
  schema_ok n sch -> hinv sch n h m -> room h ->
  exists h' b g, h_Marshal h = Ok (h', b) /\ hinv sch n h' (flush (h_objs h) (h_dirty h) m) /\
    0 <= g < 2 ^ 16 /\ b = wire_struct g (flush (h_objs h) (h_dirty h) m) /\ h_dirty h' = [] /\
    h_lists h' = h_lists h /\ b = st_data (h_s h').
Proof.
  intros HS HI HR. destruct (sync_all_ok sch n (h_dirty h) h m HS HI) as (h1 & E1 & HI1 & EL & ED & _).
  { exact (hi_dirty _ _ _ _ HI). }
  { exact HR. }
  unfold h_Marshal, syncDirtyLists. rewrite E1. cbn [bind].
  destruct (reached_marshal _ _ _ (hi_reached _ _ _ _ HI1)) as (s2 & g & EM & HR2 & Hg & EW).
  cbn [with_dirty h_s]. rewrite EM. cbn [bind]. eexists _, _, g. split; [reflexivity|].
  split. { constructor; cbn [with_s with_dirty h_s h_objs h_lists h_dirty]; auto; try apply HI1. intros f i []. }
  split; auto. split; auto. cbn [with_s with_dirty h_s h_objs h_lists h_dirty]. split; auto. split; auto.
  destruct (reached_good _ _ _ (hi_reached _ _ _ _ HI1)) as (g1 & Hg1 & S1 & F1).
  destruct (Sim_marshal _ _ _ _ _ S1 F1) as (s' & E' & S' & _). assert (s' = s2) by congruence. subst s'.
  rewrite (Sim_data_f _ _ _ _ S1), (Sim_data_f _ _ _ _ S'). reflexivity.
Qed.

Lemma plain_field sch m o f t : fsorted m -> plain sch o -> sch f = Some t -> flook f (apply_op m o) = flook f m.
Proof.
  intros S [_ HP] Hf. destruct (op_field o) as [g|] eqn:E.
  - apply flook_apply_ne; auto. rewrite E. intros X. inv X. congruence.
  - now rewrite apply_none.
Qed.
Lemma hinv_call sch n h m c h' m' :
  schema_ok n sch -> hinv sch n h m -> hcall sch n h m c h' m' -> hinv sch n h' m'.
Proof.
  intros HS HI HC. destruct (reached_sorted _ _ _ (hi_reached _ _ _ _ HI)) as (S & _). destruct HC.
  - constructor; cbn [with_s h_s h_objs h_lists h_dirty]; try apply HI.
    + econstructor; eauto. apply HI.
    + eapply typed_ext; [|apply HI]. intros f t Hf. left. eapply plain_field; eauto.
  - destruct (h_list_ok sch n h m f t HS HI H) as (h1 & j & o & E & HI' & _). rewrite H0 in E. now inv E.
  - destruct (hi_objs _ _ _ _ HI _ _ H) as (_ & v & HV). pose proof (h_edit_ok sch n h m i o v e HI H HV H0) as E.
    destruct (edited v e); [|congruence]. destruct E as (h1 & c & E & HI' & _). rewrite H1 in E. now inv E.
  - destruct (HS _ _ H) as (H1 & _). destruct (reached_op n (h_s h) m (OClear f) (hi_reached _ _ _ _ HI)) as (s' & E & HR).
    { exact H1. }
    unfold h_Clear in H0. cbn [do_op] in E. unfold ClearField in E.
    apply bind_Ok_inv in H0. destruct H0 as (s1 & E1 & H0). inv H0.
    constructor; cbn [h_s h_objs h_lists h_dirty]; try apply HI.
    + cbn [apply_op] in HR. assert (s1 = s') by congruence. now subst.
    + eapply typed_ext; [|apply HI]. intros g u Hg. rewrite flook_fdel by auto. destruct (g =? f); auto.
    + intros g i. rewrite GetList_clear. destruct (g =? f); [discriminate|]. apply HI.
    + intros g i HIn. apply filter_In in HIn. destruct HIn as [HIn _]. exact (hi_dirty _ _ _ _ HI _ _ HIn).
  - assert (RG : regs h (filter (fun p => fst p =? f) (h_dirty h))).
    { intros g i HIn. apply filter_In in HIn. exact (hi_dirty _ _ _ _ HI _ _ (proj1 HIn)). }
    destruct (sync_all_ok sch n _ h m HS HI RG) as (h1 & E1 & HI1 & EL & ED & _).
    { unfold room in H. pose proof (pending_filter h (fun p => fst p =? f) (h_dirty h)). lia. }
    unfold SyncDirtyListsForField in H0. rewrite E1 in H0. cbn [bind] in H0. inv H0.
    constructor; cbn [with_dirty h_s h_objs h_lists h_dirty]; try apply HI1.
    intros g i HIn. apply filter_In in HIn. exact (hi_dirty _ _ _ _ HI1 _ _ (proj1 HIn)).
  - destruct (h_Marshal_ok sch n h m HS HI H) as (h1 & b1 & g & E & HI1 & _). rewrite H0 in E. now inv E.
Qed.
Lemma hinv_calls sch n h m cs h' m' :
  schema_ok n sch -> hcalls sch n h m cs h' m' -> hinv sch n h m -> hinv sch n h' m'.
Proof. intros HS HC. induction HC; auto. intros HI. apply IHHC. eapply hinv_call; eauto. Qed.
Lemma hreached_inv sch n h m : schema_ok n sch -> hreached sch n h m -> hinv sch n h m.
Proof.
  intros HS (s & m0 & cs & HR & HT & HC). eapply hinv_calls; eauto.
  constructor; cbn; auto; try contradiction; try discriminate. intros i o E. destruct i; discriminate.
Qed.

(** ** A list that is cached but not registered is never written *)
Definition quiet (f : Z) (h : hstruct) : Prop :=
  (exists i, GetList f (h_lists h) = Some i) /\ forall i, ~ In (f, i) (h_dirty h).

Lemma hinv_knows sch n h m p : hinv sch n h m -> knows (h_objs h) (filter p (h_dirty h)).
Proof.
  intros HI f i HIn. apply filter_In in HIn. destruct HIn as [HIn _].
  destruct (hi_dirty _ _ _ _ HI _ _ HIn) as (o & EO & EF).
  destruct (hi_objs _ _ _ _ HI _ _ EO) as (_ & v & HV). eauto.
Qed.
Lemma filter_all {A} (l : list A) : filter (fun _ => true) l = l.
Proof. induction l; cbn; congruence. Qed.
Lemma hinv_knows_all sch n h m : hinv sch n h m -> knows (h_objs h) (h_dirty h).
Proof. intros HI. rewrite <- filter_all. eapply hinv_knows; eauto. Qed.

Lemma sync_inv sch n h m p h' : schema_ok n sch -> hinv sch n h m -> room h ->
  sync_all h (filter p (h_dirty h)) = Ok h' ->
  hinv sch n h' (flush (h_objs h) (filter p (h_dirty h)) m) /\ h_lists h' = h_lists h /\ h_dirty h' = h_dirty h.
Proof.
  intros HS HI HR E. destruct (sync_all_ok sch n (filter p (h_dirty h)) h m HS HI) as (h1 & E1 & HI1 & EL & ED & _).
  - intros f i HIn. apply filter_In in HIn. exact (hi_dirty _ _ _ _ HI _ _ (proj1 HIn)).
  - unfold room in HR. pose proof (pending_filter h p (h_dirty h)). lia.
  - rewrite E in E1. now inv E1.
Qed.

Lemma h_list_dirty sch n h m f t h' i :
  schema_ok n sch -> hinv sch n h m -> sch f = Some t -> h_list h f t = Ok (h', i) ->
  (GetList f (h_lists h) = Some i /\ h' = h) \/
  (GetList f (h_lists h) = None /\ i = length (h_objs h) /\
   (forall g, g <> f -> GetList g (h_lists h') = GetList g (h_lists h)) /\
   (h_dirty h' = h_dirty h \/ h_dirty h' = h_dirty h ++ [(f, i)])).
Proof.
  intros HS HI Hf E. destruct (h_list_ok sch n h m f t HS HI Hf) as (h1 & j & o & E1 & _ & _ & _ & _ & _ & HG & _ & HM).
  rewrite E in E1. inv E1. destruct (GetList f (h_lists h)).
  - destruct HM; subst; auto.
  - destruct HM as (? & _ & _ & HM). right. repeat (split; [auto; fail|]). destruct (flook f m); destruct HM; auto.
Qed.

Lemma quiet_call sch n h m c h' m' f t :
  schema_ok n sch -> hinv sch n h m -> quiet f h -> sch f = Some t -> c <> CClear f ->
  hcall sch n h m c h' m' -> quiet f h' /\ flook f m' = flook f m.
Proof.
  intros HS HI [[k HQ] HD] Hf HN HC. destruct (reached_sorted _ _ _ (hi_reached _ _ _ _ HI)) as (S & _). destruct HC.
  - split; [split; cbn [with_s h_lists h_dirty]; eauto|]. eapply plain_field; eauto.
  - split; auto. destruct (h_list_dirty _ _ _ _ _ _ _ _ HS HI H H0) as [[_ ->]|(EG & EI & HO & HDD)]; [split; eauto|].
    assert (f0 <> f) by congruence. split; [exists k; rewrite HO; auto|].
    intros j. destruct HDD as [->| ->]; auto. rewrite in_app_iff. intros [X|[X|[]]]; [eapply HD; eauto|congruence].
  - split; auto. unfold h_edit in H1. rewrite H in H1. apply bind_Ok_inv in H1. destruct H1 as (c & _ & H1). inv H1. split; cbn; eauto.
  - unfold h_Clear in H0. apply bind_Ok_inv in H0. destruct H0 as (s1 & E1 & H0). inv H0.
    assert (f0 <> f) by congruence. split.
    + split; cbn [h_lists h_dirty].
      * exists k. rewrite GetList_clear. destruct (Z.eqb_spec f f0); congruence.
      * intros j HIn. apply filter_In in HIn. destruct HIn. eapply HD; eauto.
    + rewrite flook_fdel by auto. destruct (Z.eqb_spec f f0); congruence.
  - unfold SyncDirtyListsForField in H0. apply bind_Ok_inv in H0. destruct H0 as (h1 & E1 & H0). inv H0.
    destruct (sync_inv _ _ _ _ _ _ HS HI H E1) as (_ & EL & ED). split.
    + split; cbn [with_dirty h_lists h_dirty]; [rewrite EL; eauto|]. intros j HIn. apply filter_In in HIn. rewrite ED in HIn.
      eapply HD. apply HIn.
    + apply flush_other; auto. { eapply hinv_knows; eauto. } intros j HIn. apply filter_In in HIn. eapply HD. apply HIn.
  - destruct (h_Marshal_ok sch n h m HS HI H) as (h1 & b1 & g & E & _ & _ & _ & ED & EL & _). rewrite H0 in E. inv E. split.
    + split; [rewrite EL; eauto|]. rewrite ED. auto.
    + apply flush_other; auto. eapply hinv_knows_all; eauto.
Qed.
Lemma quiet_calls sch n h m cs h' m' f t :
  schema_ok n sch -> hcalls sch n h m cs h' m' -> hinv sch n h m -> quiet f h -> sch f = Some t -> ~ In (CClear f) cs ->
  quiet f h' /\ flook f m' = flook f m.
Proof.
  intros HS HC. induction HC; auto. intros HI HQ Hf HN.
  assert (NC : c <> CClear f) by (intros ->; apply HN; now left).
  destruct (quiet_call _ _ _ _ _ _ _ _ _ HS HI HQ Hf NC H) as [HQ1 E1].
  destruct IHHC as [HQ2 E2]; auto.
  - eapply hinv_call; eauto.
  - intros X. apply HN. now right.
  - split; auto. congruence.
Qed.

Lemma single_call sch n h m c h' m' :
  schema_ok n sch -> hinv sch n h m -> hcall sch n h m c h' m' -> single h -> single h'.
Proof.
  intros HS HI HC HU. destruct HC; auto.
  - destruct (h_list_dirty _ _ _ _ _ _ _ _ HS HI H H0) as [[_ ->]|(EG & EI & HO & HDD)]; auto.
    destruct (h_list_ok sch n h m f t HS HI H) as (h1 & j & o & E & _ & GL & _). rewrite H0 in E. inv E.
    intros g k HIn. assert (X : In (g, k) (h_dirty h) \/ (g, k) = (f, length (h_objs h))).
    { destruct HDD as [E|E]; rewrite E in HIn; auto. apply in_app_iff in HIn. destruct HIn as [|[Y|[]]]; auto. }
    destruct X as [X|X]; [|congruence]. apply HU in X. rewrite HO by congruence. auto.
  - unfold h_edit in H1. rewrite H in H1. apply bind_Ok_inv in H1. destruct H1 as (c & _ & H1). inv H1. exact HU.
  - unfold h_Clear in H0. apply bind_Ok_inv in H0. destruct H0 as (s1 & E1 & H0). inv H0.
    intros g i HIn. cbn [h_dirty h_lists] in *. apply filter_In in HIn. destruct HIn as [HIn HN].
    rewrite GetList_clear. cbn [fst] in HN. destruct (g =? f); [discriminate|]. now apply HU.
  - unfold SyncDirtyListsForField in H0. apply bind_Ok_inv in H0. destruct H0 as (h1 & E1 & H0). inv H0.
    destruct (sync_inv _ _ _ _ _ _ HS HI H E1) as (_ & EL & ED).
    intros g i HIn. cbn [with_dirty h_dirty h_lists] in *. apply filter_In in HIn. rewrite EL. rewrite ED in HIn. now apply HU.
  - destruct (h_Marshal_ok sch n h m HS HI H) as (h1 & b1 & g & E & _ & _ & _ & ED & _). rewrite H0 in E. inv E.
    intros f i. rewrite ED. intros [].
Qed.
Lemma single_calls sch n h m cs h' m' :
  schema_ok n sch -> hcalls sch n h m cs h' m' -> hinv sch n h m -> single h -> single h'.
Proof.
  intros HS HC. induction HC; auto. intros HI HU. apply IHHC; [eapply hinv_call|eapply single_call]; eauto.
Qed.
Lemma hreached_single sch n h m : schema_ok n sch -> hreached sch n h m -> single h.
Proof.
  intros HS (s & m0 & cs & HR & HT & HC). eapply single_calls; eauto; [|intros f i []].
  apply hreached_inv; auto. exists s, m0, []. repeat split; auto. constructor.
Qed.

(** ** A list created by the accessor is written by the next Marshal *)
Definition fresh (f : Z) (i : nat) (v : value) (h : hstruct) (m : msg) : Prop :=
  In (f, i) (h_dirty h) /\ flook f m = None /\
  exists o, nth_error (h_objs h) i = Some o /\ cval (lo_c o) v /\ (is_dirty (lo_c o) = true \/ list_empty v = true).

Lemma sync_all_nth i l : forall h h', sync_all h l = Ok h' -> (forall f, ~ In (f, i) l) ->
  nth_error (h_objs h') i = nth_error (h_objs h) i.
Proof.
  induction l as [|[g j] l IH]; intros h h' E HN; cbn [sync_all] in E; [now inv E|].
  apply bind_Ok_inv in E. destruct E as (h1 & E1 & E). rewrite (IH _ _ E) by (intros f X; eapply HN; right; eauto).
  cbn [snd] in E1. unfold SyncToSegment in E1. destruct (nth_error (h_objs h) j) as [o|] eqn:EO; [|discriminate].
  destruct (is_dirty (lo_c o)); [|now inv E1]. apply bind_Ok_inv in E1. destruct E1 as (s & _ & E1). inv E1. cbn [h_objs].
  apply nth_error_set_nth_neq. intros ->. eapply HN. now left.
Qed.

Lemma fresh_call sch n h m c h' m' f t i v :
  schema_ok n sch -> hinv sch n h m -> fresh f i v h m -> sch f = Some t ->
  c <> CClear f -> c <> CSync f -> (forall b, c <> CMarshal b) ->
  hcall sch n h m c h' m' -> exists v', edited_all v (edits_of i [c]) = Some v' /\ fresh f i v' h' m'.
Proof.
  intros HS HI (HD & HF & o & EO & HV & HB) Hf N1 N2 N3 HC.
  destruct (reached_sorted _ _ _ (hi_reached _ _ _ _ HI)) as (S & _). destruct HC; cbn [edits_of edited_all].
  - exists v. split; auto. split; [|split]; cbn [with_s h_dirty h_objs]; auto; [|eauto]. rewrite <- HF. eapply plain_field; eauto.
  - exists v. split; auto. destruct (h_list_ok sch n h m f0 t0 HS HI H) as (h1 & j & x & E1 & _ & _ & _ & _ & _ & _ & HX & _).
    rewrite H0 in E1. inv E1. destruct (h_list_dirty _ _ _ _ _ _ _ _ HS HI H H0) as [[_ ->]|(EG & EI & HO & HDD)].
    + split; eauto.
    + split; [|split; eauto]. destruct HDD as [->| ->]; auto. rewrite in_app_iff. auto.
  - destruct (hi_objs _ _ _ _ HI _ _ H) as (_ & w & HW). pose proof (h_edit_ok sch n h m i0 o0 w e HI H HW H0) as E.
    destruct (edited w e) as [w'|] eqn:EE; [|congruence]. destruct E as (h1 & c & E & _ & HC & HDc & _ & EOB & _ & EDD & _).
    rewrite H1 in E. inv E. destruct (Nat.eqb_spec i i0) as [<-|NI]; cbn [edited_all].
    + assert (o0 = o) by congruence. subst o0. assert (w = v) by (eapply cval_fun; eauto). subst w.
      rewrite EE. exists w'. split; auto. split; [rewrite EDD; auto|]. split; auto. rewrite EOB.
      rewrite nth_error_set_nth_eq by (apply nth_error_Some; congruence). eexists. split; [reflexivity|]. cbn. auto.
    + exists v. split; auto. split; [rewrite EDD; auto|]. split; auto. rewrite EOB, nth_error_set_nth_neq by auto. eauto.
  - unfold h_Clear in H0. apply bind_Ok_inv in H0. destruct H0 as (s1 & E1 & H0). inv H0.
    assert (f0 <> f) by congruence. exists v. split; auto. split; [|split; [|eauto]].
    + cbn [h_dirty]. apply filter_In. split; auto. cbn. destruct (Z.eqb_spec f f0); auto.
    + rewrite flook_fdel by auto. destruct (f =? f0); auto.
  - unfold SyncDirtyListsForField in H0. apply bind_Ok_inv in H0. destruct H0 as (h1 & E1 & H0). inv H0.
    assert (f0 <> f) by congruence. destruct (sync_inv _ _ _ _ _ _ HS HI H E1) as (_ & EL & ED).
    exists v. split; auto. split; [|split].
    + cbn [with_dirty h_dirty]. rewrite ED. apply filter_In. split; auto. cbn. destruct (Z.eqb_spec f f0); auto.
    + rewrite flush_other; auto. { eapply hinv_knows; eauto. } intros j HIn. apply filter_In in HIn. cbn in HIn. lia.
    + cbn [with_dirty h_objs]. rewrite (sync_all_nth i _ _ _ E1); [eauto|]. intros g HIn. apply filter_In in HIn.
      destruct HIn as [HIn Hg]. cbn in Hg. assert (g = f0) by lia. subst g.
      destruct (hi_dirty _ _ _ _ HI _ _ HIn) as (x & X1 & X2).
      destruct (hi_dirty _ _ _ _ HI _ _ HD) as (y & Y1 & Y2). congruence.
  - edestruct N3; eauto.
Qed.
Lemma edits_cons i c cs : edits_of i (c :: cs) = edits_of i [c] ++ edits_of i cs.
Proof. destruct c; cbn [edits_of app]; auto. destruct (Nat.eqb i i0); auto. Qed.
Lemma edited_app a : forall v b, edited_all v (a ++ b) = match edited_all v a with Some v => edited_all v b | None => None end.
Proof. induction a as [|e a IH]; intros v b; cbn [app edited_all]; auto. destruct (edited v e); auto. Qed.
Lemma fresh_calls sch n h m cs h' m' f t i : forall v,
  schema_ok n sch -> hcalls sch n h m cs h' m' -> hinv sch n h m -> fresh f i v h m -> sch f = Some t ->
  ~ In (CClear f) cs -> ~ In (CSync f) cs -> (forall b, ~ In (CMarshal b) cs) ->
  exists v', edited_all v (edits_of i cs) = Some v' /\ fresh f i v' h' m'.
Proof.
  intros v HS HC. revert v. induction HC; intros v HI HF Hf N1 N2 N3; [exists v; auto|].
  destruct (fresh_call sch n h m c h1 m1 f t i v) as (v1 & E1 & F1); auto.
  { intros ->; apply N1; now left. } { intros ->; apply N2; now left. } { intros b ->; eapply N3; now left. }
  destruct (IHHC v1) as (v2 & E2 & F2); auto.
  { eapply hinv_call; eauto. } { intros X; apply N1; now right. } { intros X; apply N2; now right. } { intros b X; eapply N3; right; eauto. }
  exists v2. split; auto. rewrite edits_cons, edited_app, E1. auto.
Qed.
Lemma fresh_marshal sch n h m f t i v :
  schema_ok n sch -> hinv sch n h m -> single h -> fresh f i v h m -> sch f = Some t ->
  flook f (flush (h_objs h) (h_dirty h) m) = written v.
Proof.
  intros HS HI HU (HD & HF & o & EO & HV & HB) Hf. destruct (reached_sorted _ _ _ (hi_reached _ _ _ _ HI)) as (S & _).
  rewrite (flush_field (h_dirty h) (h_objs h) m f i o v); auto.
  - destruct HB as [->|HB]; auto. unfold written. rewrite HB. destruct (is_dirty (lo_c o)); auto.
  - eapply hinv_knows_all; eauto.
  - intros j HIn. pose proof (HU _ _ HD). pose proof (HU _ _ HIn). congruence.
Qed.

(** What a reader of the bytes sees, from the message they encode. *)
Lemma marshal_reader sch n h m h' b f t :
  schema_ok n sch -> hinv sch n h m -> room h -> h_Marshal h = Ok (h', b) -> sch f = Some t ->
  reader_sees f t b
    (match flook f (flush (h_objs h) (h_dirty h) m) with Some v => as_read v | None => empty_list t end).
Proof.
  intros HS HI HR EM Hf n' rest Hn.
  destruct (sync_all_ok sch n (h_dirty h) h m HS HI (hi_dirty _ _ _ _ HI) HR) as (h1 & E1 & HI1 & _).
  unfold h_Marshal, syncDirtyLists in EM. rewrite E1 in EM. cbn [bind with_dirty h_s] in EM.
  destruct (reached_unmarshal n n' (h_s h1) _ rest (hi_reached _ _ _ _ HI1)) as (s' & b' & s0 & r & EM' & EN & EU & HT).
  rewrite EM' in EM. cbn [bind] in EM. inv EM.
  set (mm := flush (h_objs h) (h_dirty h) m) in *. pose (sch' := fun g => if g =? f then Some t else None).
  assert (HS' : schema_ok n' sch').
  { intros g u Hg. unfold sch' in Hg. destruct (Z.eqb_spec g f); [subst g; inv Hg|discriminate].
    destruct (HS _ _ Hf) as (A & B & C). repeat split; auto; lia. }
  assert (HI' : hinv sch' n' (hstart r) mm).
  { apply hreached_inv; auto. exists r, mm, []. repeat split; auto; [|constructor].
    intros g u v Hg. unfold sch' in Hg. destruct (Z.eqb_spec g f); [subst g; inv Hg|discriminate].
    now apply (hi_typed _ _ _ _ HI1). }
  assert (Hf' : sch' f = Some t) by (unfold sch'; now rewrite Z.eqb_refl).
  destruct (h_list_ok sch' n' (hstart r) mm f t HS' HI' Hf') as (r' & i & o & E & _ & _ & EO & _ & _ & _ & _ & HM).
  exists s0, r, r', i. repeat (split; [auto; fail|]). unfold h_read. rewrite EO. cbn [hstart h_lists GetList] in HM.
  destruct HM as (_ & _ & _ & HM). destruct (flook f mm); destruct HM as [_ HM]; now apply read_cval.
Qed.

Lemma hcalls_app sch n h m a h1 m1 b h2 m2 :
  hcalls sch n h m a h1 m1 -> hcalls sch n h1 m1 b h2 m2 -> hcalls sch n h m (a ++ b) h2 m2.
Proof. intros H. induction H; cbn [app]; auto. intros X. econstructor; eauto. Qed.
