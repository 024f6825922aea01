(** C27 on list fields: Diff makes a patch that leads from the lists of one struct to those
    of another, and where it does not. *)
From Verif.Proofs Require Import Demo PatchListProofs.

Lemma has_not_nil sch n h m f t : schema_ok n sch -> hinv sch n h m -> sch f = Some t -> has_list h f t -> ~ nil_list h m f.
Proof. intros HS HI Hf H. now apply (has_list_iff sch n h m f t). Qed.

(** Diff. *)
Lemma diff_run lm sch n from mf to mt :
  schema_ok n sch -> describes lm sch -> hreached sch n from mf -> hreached sch n to mt ->
  bytes_present sch from -> bytes_present sch to ->
  exists from' to', DiffLists lm from to = Ok (from', to', all_ops (read_list sch from) (read_list sch to) 0 lm) /\
    hreached sch n from' mf /\ hreached sch n to' mt /\ same_lists sch from from' /\ same_lists sch to to'.
Proof.
  intros HS HD RF RT BF BT. pose proof (hreached_inv _ _ _ _ HS RF) as IF. pose proof (hreached_inv _ _ _ _ HS RT) as IT.
  destruct (diff_all sch n (read_list sch from) (read_list sch to) HS lm 0 from mf to mt) as (f' & t' & E & RF' & RT' & KF & KT); auto.
  - now apply describes_suffix.
  - intros f t _ Hf. apply (shown_shows sch n); auto. now apply (read_shown sch n from mf).
  - intros f t _ Hf. apply (shown_shows sch n); auto. now apply (read_shown sch n to mt).
  - intros f _ Hf. split; [apply (has_not_nil sch n from mf f (LBlobs false))|apply (has_not_nil sch n to mt f (LBlobs false))]; auto.
  - exists f', t'. split; auto. split; auto. split; auto.
    pose proof (hreached_inv _ _ _ _ HS RF') as IF'. pose proof (hreached_inv _ _ _ _ HS RT') as IT'. split; intros f t v Hf HV.
    + apply (shown_shows sch n f' mf); auto. apply (KF f t v Hf). apply (shown_shows sch n from mf); auto.
    + apply (shown_shows sch n t' mt); auto. apply (KT f t v Hf). apply (shown_shows sch n to mt); auto.
Qed.

(** The full property: base shows the lists of from; after Apply of the patch Diff makes it
    shows those of to, and so does a reader of its bytes. *)
Definition lists_apply_diff : Prop :=
  forall lm sch n from mf to mt base mb, schema_ok n sch -> describes lm sch ->
    hreached sch n from mf -> hreached sch n to mt -> hreached sch n base mb -> same_lists sch from base ->
    bytes_present sch from -> bytes_present sch to -> all_indexed sch from -> all_indexed sch to ->
    len (st_data (h_s base)) + new_numbers (fun f => items (read_list sch to f)) 0 lm < 2 ^ 32 ->
    exists from' to' ops, DiffLists lm from to = Ok (from', to', ops) /\
      (len ops <= MaxPatchOps ->
       exists base', ApplyLists lm base PatchVersion ops = Ok base' /\
         forall f t w, sch f = Some t -> shown to f t w ->
           exists v, shown base' f t v /\ same_list v w /\
             (room base' -> exists h b, h_Marshal base' = Ok (h, b) /\ reader_sees f t b (received v))).

(** What holds.  Missing: number lists of base that are not written yet, where Apply fails or
    Marshal loses the change, and for the reader of the bytes the lists of bools, strings and
    bytes whose number of items does not change; for those the property is false (below). *)
Theorem C27_lists_apply_diff_partial :
  forall lm sch n from mf to mt base mb, schema_ok n sch -> describes lm sch ->
    hreached sch n from mf -> hreached sch n to mt -> hreached sch n base mb -> same_lists sch from base ->
    bytes_present sch from -> bytes_present sch to -> all_indexed sch from -> all_indexed sch to ->
    numbers_written sch base ->
    len (st_data (h_s base)) + new_numbers (fun f => items (read_list sch to f)) 0 lm < 2 ^ 32 ->
    exists from' to' ops, DiffLists lm from to = Ok (from', to', ops) /\
      hreached sch n from' mf /\ hreached sch n to' mt /\ same_lists sch from from' /\ same_lists sch to to' /\
      Forall valid_rop ops /\
      (len ops <= MaxPatchOps ->
       exists base', ApplyLists lm base PatchVersion ops = Ok base' /\
         forall f t u w, sch f = Some t -> shown from f t u -> shown to f t w ->
           exists v, shown base' f t v /\ same_list v w /\
             (room base' -> is_number_list t \/ items u <> items w \/ waiting base f ->
              exists h b, h_Marshal base' = Ok (h, b) /\ reader_sees f t b (received v)) /\
             (** what is lost *)
             (room base' -> ~ is_number_list t -> items u = items w ->
              GetList f (h_lists base) = None -> forall x, flook f mb = Some x ->
              exists h b, h_Marshal base' = Ok (h, b) /\ reader_sees f t b (as_read x))).
Proof.
  intros lm sch n from mf to mt base mb HS HD RF RT RB SL BF BT XF XT NW HL.
  destruct (diff_run lm sch n from mf to mt HS HD RF RT BF BT) as (from' & to' & ED & RF' & RT' & K1 & K2).
  pose proof (hreached_inv _ _ _ _ HS RF) as IF. pose proof (hreached_inv _ _ _ _ HS RT) as IT. pose proof (hreached_inv _ _ _ _ HS RB) as IB.
  pose proof (hreached_single _ _ _ _ HS RB) as UB. pose proof (hreached_clean _ _ _ _ HS RB) as CB.
  set (fv := read_list sch from) in *. set (tv := read_list sch to) in *.
  assert (TF : forall f t, sch f = Some t -> list_ok (fv f) /\ lty_of (fv f) = Some t /\ indexed (fv f)).
  { intros f t Hf. destruct (read_shown sch n from mf f t HS IF Hf) as [A _]. pose proof (XF f t _ Hf A).
    apply (shown_shows sch n from mf) in A; auto. destruct (shows_typed sch n from mf f t _ HS IF Hf A). auto. }
  assert (TT : forall f t, sch f = Some t -> list_ok (tv f) /\ lty_of (tv f) = Some t /\ indexed (tv f)).
  { intros f t Hf. destruct (read_shown sch n to mt f t HS IT Hf) as [A _]. pose proof (XT f t _ Hf A).
    apply (shown_shows sch n to mt) in A; auto. destruct (shows_typed sch n to mt f t _ HS IT Hf A). auto. }
  assert (SB : forall f t, sch f = Some t -> shows base mb f t (fv f)).
  { intros f t Hf. apply (shown_shows sch n); auto. apply SL; auto. now apply (read_shown sch n from mf). }
  exists from', to', (all_ops fv tv 0 lm). split; auto. split; auto. split; auto. split; auto. split; auto.
  split. { apply (all_ops_valid sch n); auto. now apply describes_suffix. }
  intros HM.
  destruct (apply_all lm sch n fv tv HS HD) with (r := lm) (i := 0) (h := base) (m := mb) as (base' & mb' & EA & IB' & FR & HP); auto.
  { intros f t Hf. destruct (TF f t Hf) as (? & ? & ?), (TT f t Hf) as (? & ? & ?). auto. }
  { now apply describes_suffix. }
  { intros f t _ Hf. split; [auto|]. destruct t as [|k|]; cbn [is_nums]; try contradiction. intros _. split.
    - intros i o Hi EO. apply UB in Hi. exact (NW f k Hf i o Hi EO).
    - specialize (SB f _ Hf). unfold shows in SB. destruct (GetList f (h_lists base)) as [i|] eqn:EG.
      + destruct SB as (o & EO & HV). apply (CB f (LNums k) i o); auto. exact I. exact (NW f k Hf i o EG EO).
      + symmetry. exact SB. }
  exists base'. split. { unfold ApplyLists. replace (PatchVersion =? PatchVersion) with true by reflexivity. cbn [negb].
    replace (MaxPatchOps <? _) with false by lia. exact EA. }
  intros f t u w Hf HU HW. destruct (read_shown sch n from mf f t HS IF Hf) as [_ QU]. destruct (read_shown sch n to mt f t HS IT Hf) as [_ QW].
  apply QU in HU. apply QW in HW. subst u w. fold (fv f) (tv f).
  destruct (HS _ _ Hf) as (B0 & _). destruct (HP f t ltac:(lia) Hf) as (v & P1 & P2 & P3 & P4).
  exists v. split; [apply (shown_shows sch n base' mb'); auto|]. split; auto.
  assert (MR : room base' -> exists h b, h_Marshal base' = Ok (h, b) /\ reader_sees f t b (rd t (wr base' mb' f))).
  { intros HR. destruct (h_Marshal_ok sch n base' mb' HS IB' HR) as (h3 & b & g & EM & _). exists h3, b. split; auto.
    exact (marshal_reader _ _ _ _ _ _ _ _ HS IB' HR EM Hf). }
  split.
  - intros HR HC. rewrite <- P3; auto. destruct HC as [(k & ->)|[HC|HC]]; [left; exact I|auto|].
    right. right. apply waiting_live; auto.
  - intros HR NN EI EG x EX. assert (E : wr base' mb' f = Some x).
    { rewrite P4; auto.
      - intros NT. apply NN. destruct t; try contradiction. eexists; reflexivity.
      - destruct (on f (h_dirty base)) as [|[g i] r] eqn:EO; auto. exfalso.
        assert (HIn : In (g, i) (on f (h_dirty base))) by (rewrite EO; now left).
        pose proof HIn as HIn'. apply filter_In in HIn'. cbn in HIn'. assert (g = f) by lia. subst g. apply in_on in HIn. apply UB in HIn. congruence. }
    rewrite <- (f_equal (rd t) E : _ = as_read x). auto.
Qed.
Print Assumptions C27_lists_apply_diff_partial.

(** Diff of two structs succeeds if all lists of bytes are set in both, and panics if one is
    not set in one of them. *)
Lemma diff_panics sch n f : schema_ok n sch -> sch f = Some (LBlobs false) -> forall r i from mf to mt,
  suffix sch i r -> i <= f -> hinv sch n from mf -> hinv sch n to mt -> nil_list from mf f \/ nil_list to mt f ->
  diff_lists from to i r = Panic.
Proof.
  intros HS Hf. induction r as [|d r IH]; intros i from mf to mt SF Hi IF IT HN.
  - rewrite (suffix_nil _ _ _ SF Hi) in Hf. discriminate.
  - pose proof (suffix_head _ _ _ _ SF) as EH. pose proof (suffix_tail _ _ _ _ SF) as ST. cbn [diff_lists].
    destruct d as [t|]; [|apply (IH (i + 1) from mf to mt); auto; destruct (Z.eq_dec i f); [congruence|lia]].
    destruct (get_list_kept sch n from mf i t HS IF EH) as (f1 & o1 & v1 & E1 & IF1 & V1 & S1 & K1 & N1 & M1 & _).
    destruct (get_list_kept sch n to mt i t HS IT EH) as (t1 & o2 & v2 & E2 & IT1 & V2 & S2 & K2 & N2 & M2 & _).
    unfold diff_list. rewrite E1, bind_Ok, E2, bind_Ok. destruct (Z.eq_dec i f) as [->|NE].
    + rewrite Hf in EH. inv EH. destruct HN as [HN|HN]; [apply N1 in HN|apply N2 in HN]; subst; [reflexivity|destruct o1; reflexivity].
    + destruct (match t with LBlobs false => _ | _ => _ end); [reflexivity|]. rewrite S1, bind_Ok, S2, bind_Ok, bind_Ok.
      rewrite (IH (i + 1) f1 mf t1 mt); auto; [lia|]. rewrite M1, M2 by auto. exact HN.
Qed.
Theorem C27_lists_diff_defined :
  forall lm sch n from mf to mt, schema_ok n sch -> describes lm sch -> hreached sch n from mf -> hreached sch n to mt ->
    (bytes_present sch from /\ bytes_present sch to -> exists from' to' ops, DiffLists lm from to = Ok (from', to', ops)) /\
    (forall f, sch f = Some (LBlobs false) -> ~ has_list from f (LBlobs false) \/ ~ has_list to f (LBlobs false) ->
       DiffLists lm from to = Panic).
Proof.
  intros lm sch n from mf to mt HS HD RF RT. split.
  - intros [BF BT]. destruct (diff_run lm sch n from mf to mt HS HD RF RT BF BT) as (f' & t' & E & _). eauto.
  - intros f Hf HN. pose proof (hreached_inv _ _ _ _ HS RF) as IF. pose proof (hreached_inv _ _ _ _ HS RT) as IT.
    destruct (HS _ _ Hf) as (B & _). apply (diff_panics sch n f HS Hf lm 0 from mf to mt); auto; [now apply describes_suffix|lia|].
    assert (D : forall h m, nil_list h m f \/ ~ nil_list h m f).
    { intros h m. unfold nil_list. destruct (GetList f (h_lists h)), (flook f m); auto; right; intros []; congruence. }
    destruct HN as [HN|HN].
    + left. destruct (D from mf) as [|X]; auto. exfalso. apply HN. now apply (has_list_iff sch n from mf).
    + right. destruct (D to mt) as [|X]; auto. exfalso. apply HN. now apply (has_list_iff sch n to mt).
Qed.
Print Assumptions C27_lists_diff_defined.

(** A number list of base that is not written yet wins over the patch: after a ListReplace
    the getter gives the new numbers, but the next Marshal writes the old ones. *)
Theorem C27_replace_overwritten :
  forall lm sch n base mb f k a l, schema_ok n sch -> describes lm sch -> hreached sch n base mb ->
    sch f = Some (LNums k) -> shown base f (LNums k) (VNums k a) -> waiting base f ->
    Forall (in_range k) l -> l <> [] -> len (st_data (h_s base)) + 8 + 8 * len l < 2 ^ 32 ->
    exists base', ApplyLists lm base PatchVersion [mkRop f OpListReplace NoListIndex (concat (map (num_data k) l))] = Ok base' /\
      shown base' f (LNums k) (VNums k l) /\
      (room base' -> exists h b, h_Marshal base' = Ok (h, b) /\ reader_sees f (LNums k) b (VNums k a)).
Proof.
  intros lm sch n base mb f k a l HS HD RB Hf HV HW HL NE HZ. pose proof (hreached_inv _ _ _ _ HS RB) as IB.
  destruct (reached_sorted _ _ _ (hi_reached _ _ _ _ IB)) as (S & _ & _ & LD).
  assert (NK : k <> KBool) by (destruct (HS _ _ Hf) as (_ & _ & X); congruence).
  destruct (raw_set_ok sch n base mb f k l HS IB Hf HL) as (base' & E & IB' & EO & EL & ED).
  { unfold base_size. pose proof (len_wire_del f mb S). pose proof (kind_size_8 k). pose proof (len_nonneg l). nia. }
  exists base'. assert (ND : concat (map (num_data k) l) = nums_data k l).
  { unfold nums_data. f_equal. apply map_ext. intros x. now apply num_data_item. }
  rewrite ND. split.
  { unfold ApplyLists. change (negb (PatchVersion =? PatchVersion)) with false.
    change (MaxPatchOps <? len [mkRop f OpListReplace NoListIndex (nums_data k l)]) with false. cbn [apply_list_ops].
    unfold apply_list_op. cbn [r_fn r_type r_data r_index]. rewrite (HD f), Hf. change (OpListReplace =? OpClear) with false.
    change (OpListReplace =? OpListReplace) with true. cbn iota. unfold apply_replace.
    replace (len (nums_data k l) =? 0) with false. { now rewrite E. }
    symmetry. apply Z.eqb_neq. rewrite len_nums_data. destruct l; [congruence|]. rewrite len_cons. pose proof (len_nonneg l). pose proof (kind_size_pos k). nia. }
  set (m' := mset (nil_b l) f (VNums k l) mb) in *.
  split. { apply (shown_shows sch n base' m'); auto. unfold shows. rewrite EL, GetList_clear, Z.eqb_refl. symmetry. exact (nums_mset k f l mb S). }
  intros HR. destruct (h_Marshal_ok sch n base' m' HS IB' HR) as (h3 & b & g & EM & _). exists h3, b. split; auto.
  pose proof (marshal_reader _ _ _ _ _ _ _ _ HS IB' HR EM Hf) as RS. rewrite EO, ED in RS.
  destruct HW as (i & o & EG & HIn & EOb & HDr). apply (shown_shows sch n base mb) in HV; auto. unfold shows in HV. rewrite EG in HV.
  destruct HV as (o' & EO' & HV). assert (o' = o) by congruence. subst o'.
  rewrite (flush_field _ _ _ f i o (VNums k a)) in RS; auto.
  - rewrite HDr in RS. change (match written (VNums k a) with Some v => as_read v | None => empty_list (LNums k) end) with (rd (LNums k) (written (VNums k a))) in RS.
    rewrite rd_written in RS by reflexivity. rewrite (received_id _ (LNums k)) in RS; auto; reflexivity.
  - apply mset_sorted; auto.
  - eapply hinv_knows_all; eauto.
  - intros j Hj. apply (hreached_single _ _ _ _ HS RB) in Hj. congruence.
Qed.
Print Assumptions C27_replace_overwritten.

(** ** A concrete type: field 1 a list of strings, field 2 a list of uint16 *)
Definition pl_sch : schema := fun f => if f =? 1 then Some (LBlobs true) else if f =? 2 then Some (LNums KU16) else None.
Definition pl_map : lmapping := [None; Some (LBlobs true); Some (LNums KU16)].
Lemma pl_schema : schema_ok 3 pl_sch.
Proof.
  intros f t. unfold pl_sch. destruct (Z.eqb_spec f 1); [|destruct (Z.eqb_spec f 2); [|discriminate]];
  intros E; inv E; repeat split; try lia; discriminate.
Qed.
Lemma pl_describes : describes pl_map pl_sch.
Proof.
  intros f. unfold ldescr, pl_sch. change (len pl_map) with 3.
  destruct (Z.eqb_spec f 1); [subst; reflexivity|]. destruct (Z.eqb_spec f 2); [subst; reflexivity|].
  destruct (Z.leb_spec 0 f); [|reflexivity]. destruct (Z.ltb_spec f 3); [|reflexivity]. cbn [andb].
  assert (f = 0) by lia. subst. reflexivity.
Qed.
Lemma pl_no_bytes h : bytes_present pl_sch h.
Proof. intros f. unfold pl_sch. destruct (f =? 1); [discriminate|]. destruct (f =? 2); discriminate. Qed.
Definition pl_new : strct := match New 3 with Ok s => s | _ => mkStruct [] [] false false None false [] end.
(** One edit through the accessor. *)
Definition pl_put (h : hstruct) (f : Z) (t : lty) (e : edit) : hstruct :=
  match h_list h f t with
  | Ok (h1, i) => match h_edit h1 i e with Ok h2 => h2 | _ => h end
  | _ => h
  end.
Definition pl_write (h : hstruct) : hstruct := match h_Marshal h with Ok (h', _) => h' | _ => h end.
Lemma pl_start : hreached pl_sch 3 (hstart pl_new) [].
Proof. exists pl_new, [], []. split; [apply R_new; reflexivity|]. split; [intros f t v _ E; discriminate|constructor]. Qed.
Lemma pl_put_reached h m f t e : hreached pl_sch 3 h m -> pl_sch f = Some t -> edit_typed t e -> hreached pl_sch 3 (pl_put h f t e) m.
Proof.
  intros R Hf HE. pose proof (hreached_inv _ _ _ _ pl_schema R) as HI.
  destruct (h_list_ok pl_sch 3 h m f t pl_schema HI Hf) as (h1 & i & o & E & _ & _ & EO & HT & _).
  unfold pl_put. rewrite E. destruct (h_edit h1 i e) as [h2| | |] eqn:E2; auto.
  pose proof (hreached_call _ _ _ _ _ _ _ R (H_list pl_sch 3 _ _ _ _ _ _ Hf E)) as R1. rewrite <- HT in HE.
  exact (hreached_call _ _ _ _ _ _ _ R1 (H_edit pl_sch 3 _ _ _ _ _ _ EO HE E2)).
Qed.
Lemma pl_write_reached h m : hreached pl_sch 3 h m -> room h -> hreached pl_sch 3 (pl_write h) (flush (h_objs h) (h_dirty h) m).
Proof.
  intros R A. destruct (h_Marshal_ok pl_sch 3 h m pl_schema (hreached_inv _ _ _ _ pl_schema R) A) as (h' & b & g & E & _).
  unfold pl_write. rewrite E. exact (hreached_call _ _ _ _ _ _ _ R (H_marshal pl_sch 3 _ _ _ _ A E)).
Qed.
Definition pl_made (a : list bytes) (b : list Z) : hstruct :=
  pl_put (pl_put (hstart pl_new) 1 (LBlobs true) (EBlobs (EAppend a))) 2 (LNums KU16) (ENums (EAppend b)).
Lemma pl_made_reached a b : Forall byte_list a -> Forall (in_range KU16) b -> hreached pl_sch 3 (pl_made a b) [].
Proof. intros Ha Hb. unfold pl_made. apply pl_put_reached; auto. apply pl_put_reached; auto. apply pl_start. Qed.
Ltac typed := repeat (apply Forall_cons || apply Forall_nil); try (vm_compute; split; congruence).
(** [only v]: what is shown there is v. *)
Lemma pl_fields (P : Z -> lty -> Prop) : P 1 (LBlobs true) -> P 2 (LNums KU16) -> forall f t, pl_sch f = Some t -> P f t.
Proof.
  intros A B f t. unfold pl_sch. destruct (Z.eqb_spec f 1); [intros E; inv E; auto|]. destruct (Z.eqb_spec f 2); [intros E; inv E; auto|discriminate].
Qed.
Lemma shown_is h f t v :
  match h_list h f t with Ok (h', i) => h_read h' i | _ => Err end = Ok v -> shown h f t v /\ forall w, shown h f t w -> w = v.
Proof.
  destruct (h_list h f t) as [[h' i]| | |] eqn:A; try discriminate. intros B. split; [exists h', i; auto|].
  intros w (h2 & j & C & D). congruence.
Qed.
Ltac show_is := apply shown_is; vm_compute; reflexivity.
Lemma small_indexed v : items v < 100 -> match v with VBlobs _ l => Forall (fun b => len b < 100) l | _ => True end -> indexed v.
Proof. intros H1 H2. split; [lia|]. destruct v; auto. eapply Forall_impl; [|exact H2]. intros b Hb. cbn in Hb. lia. Qed.
Definition pl_a := Eval vm_compute in pl_made [[97]] [1].
Definition pl_b := Eval vm_compute in pl_made [[97]] [1; 2].
Lemma pl_a_reached : hreached pl_sch 3 pl_a [].
Proof. change pl_a with (pl_made [[97]] [1]). apply pl_made_reached; typed. Qed.
Lemma pl_b_reached : hreached pl_sch 3 pl_b [].
Proof. change pl_b with (pl_made [[97]] [1; 2]). apply pl_made_reached; typed. Qed.
Lemma pl_a_1 : shown pl_a 1 (LBlobs true) (VBlobs true [[97]]) /\ forall w, shown pl_a 1 (LBlobs true) w -> w = VBlobs true [[97]].
Proof. show_is. Qed.
Lemma pl_a_2 : shown pl_a 2 (LNums KU16) (VNums KU16 [1]) /\ forall w, shown pl_a 2 (LNums KU16) w -> w = VNums KU16 [1].
Proof. show_is. Qed.
Lemma pl_b_1 : shown pl_b 1 (LBlobs true) (VBlobs true [[97]]) /\ forall w, shown pl_b 1 (LBlobs true) w -> w = VBlobs true [[97]].
Proof. show_is. Qed.
Lemma pl_b_2 : shown pl_b 2 (LNums KU16) (VNums KU16 [1; 2]) /\ forall w, shown pl_b 2 (LNums KU16) w -> w = VNums KU16 [1; 2].
Proof. show_is. Qed.
Lemma pl_a_indexed : all_indexed pl_sch pl_a.
Proof.
  intros f t v Hf. revert f t Hf v. apply (pl_fields (fun f t => forall v, shown pl_a f t v -> indexed v)); intros v HV;
    [apply pl_a_1 in HV|apply pl_a_2 in HV]; subst; apply small_indexed; cbn; try lia; auto. repeat constructor.
Qed.
Lemma pl_b_indexed : all_indexed pl_sch pl_b.
Proof.
  intros f t v Hf. revert f t Hf v. apply (pl_fields (fun f t => forall v, shown pl_b f t v -> indexed v)); intros v HV;
    [apply pl_b_1 in HV|apply pl_b_2 in HV]; subst; apply small_indexed; cbn; try lia; auto. repeat constructor.
Qed.

(** The property as stated is false: the base has the number 1 in a list that is not written
    yet, the patch inserts another, and Apply fails. *)
Theorem C27_lists_apply_diff_refuted : ~ lists_apply_diff.
Proof.
  intros H. destruct (H pl_map pl_sch 3%nat pl_a [] pl_b [] pl_a [] pl_schema pl_describes pl_a_reached pl_b_reached pl_a_reached
    (fun f t v _ X => X) (pl_no_bytes _) (pl_no_bytes _) pl_a_indexed pl_b_indexed) as (f' & t' & ops & ED & HA).
  { vm_compute. reflexivity. }
  vm_compute in ED. inv ED. destruct HA as (b' & EA & _); [vm_compute; congruence|]. vm_compute in EA. discriminate.
Qed.
Print Assumptions C27_lists_apply_diff_refuted.

(** ** The hypotheses of the theorems are met *)
Definition pl_c := Eval vm_compute in pl_write pl_a.
Lemma pl_c_reached : exists m, hreached pl_sch 3 pl_c m.
Proof. eexists. change pl_c with (pl_write pl_a). apply pl_write_reached; [apply pl_a_reached|vm_compute; reflexivity]. Qed.
Lemma pl_c_1 : shown pl_c 1 (LBlobs true) (VBlobs true [[97]]) /\ forall w, shown pl_c 1 (LBlobs true) w -> w = VBlobs true [[97]].
Proof. show_is. Qed.
Lemma pl_c_2 : shown pl_c 2 (LNums KU16) (VNums KU16 [1]) /\ forall w, shown pl_c 2 (LNums KU16) w -> w = VNums KU16 [1].
Proof. show_is. Qed.
(** from has ["a"] and [1], just appended; base has the same and was marshalled; to has ["a"]
    and [1; 2]. *)
Example lists_case :
  schema_ok 3 pl_sch /\ describes pl_map pl_sch /\ hreached pl_sch 3 pl_a [] /\ hreached pl_sch 3 pl_b [] /\
  (exists m, hreached pl_sch 3 pl_c m) /\ same_lists pl_sch pl_a pl_c /\ all_indexed pl_sch pl_a /\ all_indexed pl_sch pl_b /\
  numbers_written pl_sch pl_c /\
  len (st_data (h_s pl_c)) + new_numbers (fun f => items (read_list pl_sch pl_b f)) 0 pl_map < 2 ^ 32 /\
  (exists a b, DiffLists pl_map pl_a pl_b = Ok (a, b, [mkRop 2 OpListInsert 1 [2; 0]])).
Proof.
  split; [apply pl_schema|]. split; [apply pl_describes|]. split; [apply pl_a_reached|]. split; [apply pl_b_reached|].
  split; [apply pl_c_reached|]. split.
  { intros f t v Hf. revert f t Hf v. apply (pl_fields (fun f t => forall v, shown pl_a f t v -> shown pl_c f t v)); intros v HV;
      [apply pl_a_1 in HV|apply pl_a_2 in HV]; subst; [apply pl_c_1|apply pl_c_2]. }
  split; [apply pl_a_indexed|]. split; [apply pl_b_indexed|]. split.
  { intros f k Hf. unfold pl_sch in Hf. destruct (Z.eqb_spec f 1); [discriminate|]. destruct (Z.eqb_spec f 2); [subst|discriminate].
    intros i o EG EO. assert (E : match GetList 2 (h_lists pl_c) with Some i => option_map (fun o => is_dirty (lo_c o)) (nth_error (h_objs pl_c) i) | None => None end = Some false) by reflexivity.
    rewrite EG, EO in E. cbn in E. congruence. }
  split; [vm_compute; reflexivity|]. eexists; eexists. vm_compute. reflexivity.
Qed.
Example waiting_case : waiting pl_a 2.
Proof.
  exists 1%nat. destruct (nth_error (h_objs pl_a) 1) as [o|] eqn:E; [|discriminate]. exists o.
  split; [reflexivity|]. split; [right; left; reflexivity|]. split; auto. vm_compute in E. inv E. reflexivity.
Qed.
(** A list of bytes that is not set. *)
Example no_bytes_case :
  ~ has_list (hstart pl_new) 0 (LBlobs false) /\ DiffLists [Some (LBlobs false)] (hstart pl_new) (hstart pl_new) = Panic.
Proof. split; [|reflexivity]. intros (h & i & E). vm_compute in E. discriminate. Qed.
