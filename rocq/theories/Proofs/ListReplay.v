(** Recorded edits of lists: what is recorded, and what applying it does. *)
From Coq Require Import List ZArith Lia.
From Verif.Spec Require Export ListRecording.
From Verif.Proofs Require Export PatchListProofs RecordProofs.

Lemma width_size k : width k = kind_size k.
Proof. destruct k; reflexivity. Qed.
Lemma put_little k v : put_item k v = little_endian (width k) v.
Proof. unfold put_item. replace (item_size k) with (width k) by (destruct k; reflexivity). apply le_enc_little. Qed.
Lemma s32_id i : 0 <= i < 2 ^ 31 -> s32 i = i.
Proof. intros H. unfold s32, sN. change (2 ^ (32 - 1)) with (2 ^ 31). rewrite Z.mod_small by lia. destruct (Z.ltb_spec i (2 ^ 31)); lia. Qed.
Lemma rec_appends {A} f (enc : A -> bytes) x : forall start j, 0 <= start -> start + Z.of_nat j + len x <= 2 ^ 31 ->
  map (fun p => mkRop f OpListInsert (s32 (start + Z.of_nat (fst p))) (enc (snd p))) (combine (seq j (length x)) x) =
  inserts_at f enc (start + Z.of_nat j) x.
Proof.
  induction x as [|y x IH]; intros start j Hs Hl; auto. rewrite len_cons in Hl. pose proof (len_nonneg x).
  cbn [length seq combine map inserts_at fst snd]. rewrite s32_id by lia. f_equal. rewrite IH by lia. f_equal. lia.
Qed.
Lemma inserts_ext {A} f (enc enc' : A -> bytes) x : (forall y, enc y = enc' y) -> forall i, inserts_at f enc i x = inserts_at f enc' i x.
Proof. intros H. induction x; intros i; cbn; auto. now rewrite H, IHx. Qed.
Lemma rec_ops {A} f (enc enc' : A -> bytes) (all all' : list A -> bytes) (l : list A) e l' :
  (forall y, enc y = enc' y) -> (forall x, e = ESetAll x -> all x = all' x) -> after_edit l e = Some l' -> len l < 2 ^ 31 -> len l' < 2 ^ 31 ->
  rec_edit f (len l) enc all e = ops_of f enc' all' l e.
Proof.
  intros HE HA E HL HL'. destruct e; cbn [rec_edit ops_of after_edit] in *.
  - inv E. rewrite len_app in HL'. pose proof (len_nonneg l). rewrite rec_appends by lia. rewrite Z.add_0_r. now apply inserts_ext.
  - destruct ((0 <=? i) && (i <? len l)) eqn:EB; [|discriminate]. rewrite s32_id by lia. now rewrite HE.
  - now rewrite (HA l0 eq_refl).
Qed.
Lemma u32_small i : 0 <= i < 2 ^ 32 -> u32 i = i.
Proof. intros H. unfold u32. now apply Z.mod_small. Qed.
Lemma encode_counted x : len x < 2 ^ 31 -> Forall (fun b => len b < 2 ^ 32) x ->
  encodeForPatch x = little_endian 4 (len x) ++ concat (map counted x).
Proof.
  intros HL HF. pose proof (len_nonneg x). unfold encodeForPatch. rewrite u32_small, le_enc_little by lia. f_equal. clear HL.
  induction HF as [|b x Hb HF IH]; [reflexivity|]. cbn [map concat]. rewrite IH by apply len_nonneg. f_equal. unfold counted.
  pose proof (len_nonneg b). now rewrite u32_small, le_enc_little by lia.
Qed.

(** The content of an object and the operations an edit of it records. *)
Lemma recorded_ops f c v e v' : cval c v -> edited v e = Some v' -> short_items e -> items v < 2 ^ 31 -> items v' < 2 ^ 31 ->
  recorded f c e = edit_ops f v e.
Proof.
  intros HC HE HS HI HI'. destruct c; cbn [cval] in HC.
  - subst v. destruct e as [e| |]; try discriminate. cbn [edited] in HE. destruct (after_edit items e) eqn:E; [|discriminate]. inv HE.
    cbn [recorded edit_ops]. cbn in HI, HI'. eapply rec_ops; eauto.
  - destruct HC as (l & -> & [_ EL] & _). destruct e as [|e|]; try discriminate. cbn [edited] in HE. destruct (after_edit l e) eqn:E; [|discriminate]. inv HE.
    cbn [recorded edit_ops]. rewrite EL. cbn in HI, HI'. eapply rec_ops; eauto.
    + intros y. apply put_little.
    + intros x _. f_equal. apply map_ext. intros y. apply put_little.
  - destruct HC as [-> _]. destruct e as [| |e]; try discriminate. cbn [edited] in HE. destruct (after_edit items e) eqn:E; [|discriminate]. inv HE.
    cbn [recorded edit_ops]. cbn in HI, HI'. eapply rec_ops; eauto. intros x ->. cbn in E. inv E. now apply encode_counted.
Qed.

(** ** The struct that is edited *)
Lemma ensure_flags s s' : ensureFieldIndexParsed s = Ok s' -> st_recording s' = st_recording s /\ st_ops s' = st_ops s.
Proof.
  unfold ensureFieldIndexParsed. destruct (st_parsed s); intros E; [inv E; auto|].
  unfold parseFieldIndex in E. repeat (apply bind_Ok_inv in E; destruct E as (? & ? & E)). inv E. auto.
Qed.
Lemma h_list_flags h f t h' i : h_list h f t = Ok (h', i) -> st_recording (h_s h') = st_recording (h_s h) /\ st_ops (h_s h') = st_ops (h_s h).
Proof.
  unfold h_list. destruct (GetList f (h_lists h)) as [j|].
  - destruct (nth_error (h_objs h) j); [|discriminate]. destruct (lty_eq_dec _ _); [|discriminate]. intros E. inv E. auto.
  - intros E. apply bind_Ok_inv in E. destruct E as (c & _ & E). apply bind_Ok_inv in E. destruct E as (s & ES & E).
    apply ensure_flags in ES. destruct c; inv E; exact ES.
Qed.
Lemma record_all l : forall s, st_recording (fold_left RecordOp l s) = st_recording s /\
  st_ops (fold_left RecordOp l s) = st_ops s ++ (if st_recording s then l else []).
Proof.
  induction l as [|o l IH]; intros s; cbn [fold_left].
  - destruct (st_recording s); now rewrite app_nil_r.
  - destruct (IH (RecordOp s o)) as [A B]. rewrite A, B. unfold RecordOp. destruct (st_recording s) eqn:E; cbn; rewrite ?E; auto.
    split; auto. now rewrite <- app_assoc.
Qed.
Lemma edit_flags h i e h' o : nth_error (h_objs h) i = Some o -> h_edit h i e = Ok h' ->
  st_recording (h_s h') = st_recording (h_s h) /\
  st_ops (h_s h') = st_ops (h_s h) ++ (if st_recording (h_s h) then recorded (lo_f o) (lo_c o) e else []).
Proof.
  intros EO. unfold h_edit. rewrite EO. intros E. apply bind_Ok_inv in E. destruct E as (c & _ & E). inv E. cbn [h_s]. apply record_all.
Qed.
(** One edit. *)
Lemma edit_step sch n h m f t e h1 i h2 v :
  schema_ok n sch -> hreached sch n h m -> sch f = Some t -> shows h m f t v -> edit_typed t e ->
  h_list h f t = Ok (h1, i) -> h_edit h1 i e = Ok h2 ->
  exists v', edited v e = Some v' /\ hreached sch n h2 m /\ shows h2 m f t v' /\
    (forall g u w, g <> f -> sch g = Some u -> shows h m g u w -> shows h2 m g u w) /\
    st_recording (h_s h2) = st_recording (h_s h) /\
    (short_items e -> items v < 2 ^ 31 -> items v' < 2 ^ 31 ->
     st_ops (h_s h2) = st_ops (h_s h) ++ (if st_recording (h_s h) then edit_ops f v e else [])).
Proof.
  intros HS HR Hf HV HT EL EE. pose proof (hreached_inv _ _ _ _ HS HR) as HI.
  destruct (h_list_ok sch n h m f t HS HI Hf) as (h' & i' & o & E & HI' & HG & EO & CT & _ & HO & HX & HM).
  rewrite EL in E. inv E. destruct (hi_objs _ _ _ _ HI' _ _ EO) as (HF & w & HW).
  assert (w = v).
  { apply (shown_shows sch n h m) in HV; auto. destruct HV as (h0 & j & E1 & E2). rewrite EL in E1. inv E1.
    unfold h_read in E2. rewrite EO, (read_cval _ _ HW) in E2. now inv E2. }
  subst w. pose proof (h_edit_ok sch n h' m i' o v e HI' EO HW HT) as HE. destruct (edited v e) as [v'|] eqn:EV; [|congruence].
  destruct HE as (h3 & c & E3 & HI3 & HC & _ & CT' & EOB & ELL & _). rewrite EE in E3. inv E3. exists v'. split; auto.
  assert (R1 : hreached sch n h' m) by exact (hreached_call _ _ _ _ _ _ _ HR (H_list sch n _ _ _ _ _ _ Hf EL)).
  assert (LF : lo_f o = f) by (destruct (hi_lists _ _ _ _ HI' _ _ HG) as (x & X1 & X2); congruence).
  split; [exact (hreached_call _ _ _ _ _ _ _ R1 (H_edit sch n _ _ _ _ _ _ EO HT EE))|].
  split. { unfold shows. rewrite ELL, HG. eexists. rewrite EOB, nth_error_set_nth_eq by (apply nth_error_Some; congruence). split; [reflexivity|]. exact HC. }
  split. { intros g u x NG Hg. unfold shows. rewrite ELL, HO by auto. destruct (GetList g (h_lists h)) as [j|] eqn:EJ; auto.
           intros (y & Y1 & Y2). exists y. split; auto. rewrite EOB, nth_error_set_nth_neq; auto. intros ->.
           apply HX in Y1. destruct (hi_lists _ _ _ _ HI _ _ EJ) as (z & Z1 & Z2). apply HX in Z1. congruence. }
  destruct (h_list_flags _ _ _ _ _ EL) as [FL1 FL2]. destruct (edit_flags _ _ _ _ _ EO EE) as [FE1 FE2].
  split; [congruence|]. intros HSI HI1 HI2. rewrite FE2, FL1, FL2, LF. now rewrite (recorded_ops f _ v e v').
Qed.

(** ** The operations lead from one list to the next *)
Lemma inserts_iops {A} f (enc : A -> bytes) (rep : list A -> bytes -> Prop) (P : A -> Prop) N x : forall l,
  Forall P x -> len l + len x <= N -> iops f enc rep P N l (inserts_at f enc (len l) x) (l ++ x).
Proof.
  induction x as [|y x IH]; intros l HP HN; cbn [inserts_at]; [rewrite app_nil_r; constructor|].
  rewrite len_cons in HN. pose proof (len_nonneg l). pose proof (len_nonneg x). inversion HP; subst.
  apply (Is_cons f enc rep P N l _ (l ++ [y])).
  - rewrite <- (ins_end l y). apply I_ins; auto. lia.
  - rewrite len_app. change (len [y]) with 1. lia.
  - replace (l ++ y :: x) with ((l ++ [y]) ++ x) by (rewrite <- app_assoc; reflexivity).
    replace (len l + 1) with (len (l ++ [y])) by (rewrite len_app; reflexivity). apply IH; auto. rewrite len_app. change (len [y]) with 1. lia.
Qed.
Lemma ops_of_iops {A} f (enc : A -> bytes) (rep : list A -> bytes -> Prop) (P : A -> Prop) all N l e l' :
  Forall P (items_of e) -> after_edit l e = Some l' -> len l' <= N -> (forall x, e = ESetAll x -> rep x (all x)) ->
  iops f enc rep P N l (ops_of f enc all l e) l'.
Proof.
  intros HP HE HN HA. destruct e; cbn [items_of after_edit ops_of] in *.
  - inv HE. rewrite len_app in HN. now apply inserts_iops.
  - destruct ((0 <=? i) && (i <? len l)) eqn:EB; [|discriminate]. inversion HP; subst.
    assert (EU : upd l i x = firstn (Z.to_nat i) l ++ x :: skipn (S (Z.to_nat i)) l).
    { unfold upd, len in *. generalize (Z.to_nat i) (ltac:(lia) : (Z.to_nat i < length l)%nat). clear.
      intros j. revert l. induction j; intros [|y l] HL; cbn in *; try lia; auto. f_equal. apply IHj. lia. }
    rewrite <- EU in HE. assert (l' = upd l i x) by congruence. subst l'. apply (Is_cons f enc rep P N l _ (upd l i x)); auto; [apply I_set; auto; lia|constructor].
  - inv HE. apply (Is_cons f enc rep P N l _ l'); auto; [apply I_rep; auto|constructor].
Qed.
Lemma Forall_after {A} (P : A -> Prop) l e l' : Forall P l -> Forall P (items_of e) -> after_edit l e = Some l' -> Forall P l'.
Proof.
  intros H1 H2 E. destruct e; cbn [items_of after_edit] in *.
  - inv E. apply Forall_app; auto.
  - destruct ((0 <=? i) && (i <? len l)); [|discriminate]. inversion H2; subst.
    assert (EQ : l' = firstn (Z.to_nat i) l ++ x :: skipn (S (Z.to_nat i)) l) by congruence. rewrite EQ. apply Forall_app.
    split; [|constructor; auto]; apply Forall_forall; intros y Hy; rewrite Forall_forall in H1; apply H1.
    + rewrite <- (firstn_skipn (Z.to_nat i) l). apply in_or_app. auto.
    + rewrite <- (firstn_skipn (S (Z.to_nat i)) l). apply in_or_app. auto.
  - now inv E.
Qed.

Lemma edit_vops f v e v' t N : lty_of v = Some t -> list_ok v -> edit_typed t e -> edited v e = Some v' -> short_items e ->
  items v' <= N -> N < 2 ^ 31 -> vops f N v (edit_ops f v e) v' /\ lty_of v' = Some t /\ list_ok v'.
Proof.
  intros HT HO HE EV HS HI HN. destruct v; try discriminate; inv HT; destruct e as [e|e|e]; try contradiction; cbn [edited edit_ops vops list_ok edit_typed] in *.
  - destruct (after_edit l e) as [l'|] eqn:E; [|discriminate]. inv EV. split; [|auto]. exists l'. split; auto.
    apply ops_of_iops; auto; [|intros x _; reflexivity]. apply Forall_forall. auto.
  - destruct (after_edit l e) as [l'|] eqn:E; [|discriminate]. inv EV. split.
    + exists l'. split; auto. apply (iops_ext f (little_endian (width k))); [intros x; now rewrite width_size, le_enc_little|].
      apply ops_of_iops; auto. intros x _. unfold nums_rep, nums_data. f_equal. apply map_ext. intros y. now rewrite width_size, le_enc_little.
    + destruct HO as [HK HO]. split; [reflexivity|]. split; [exact HK|]. exact (Forall_after _ _ _ _ HO HE E).
  - destruct (after_edit l e) as [l'|] eqn:E; [|discriminate]. inv EV. cbn [items] in HI. split.
    + exists l'. split; auto. apply ops_of_iops; auto. intros x ->. right. cbn in E. inv E. cbn in HS.
      rewrite encode_counted by (auto; lia). split; auto. split; [lia|auto].
    + split; auto. cbn [list_ok]. exact (Forall_after _ _ _ _ HO HE E).
Qed.

(** ** The struct the operations are applied to *)
Fixpoint slack (N : Z -> Z) (m : msg) (i : Z) (l : lmapping) : Z :=
  match l with
  | [] => 0
  | Some (LNums _) :: r => 8 + 8 * N i - fsz i m + slack N m (i + 1) r
  | _ :: r => slack N m (i + 1) r
  end.
Lemma fsz_nonneg f m : 0 <= fsz f m.
Proof. unfold fsz. destruct (flook f m); [apply len_nonneg|lia]. Qed.
Lemma slack_init N m l : forall i, slack N m i l <= new_numbers N i l.
Proof. induction l as [|[[]|] l IH]; intros i; cbn [slack new_numbers]; auto; try lia. pose proof (IH (i + 1)). pose proof (fsz_nonneg i m). lia. Qed.
Lemma slack_same N m m' l : forall i, (forall g, i <= g -> flook g m' = flook g m) -> slack N m' i l = slack N m i l.
Proof.
  induction l as [|d l IH]; intros i H; auto. assert (H' : forall g, i + 1 <= g -> flook g m' = flook g m) by (intros; apply H; lia).
  destruct d as [[]|]; cbn [slack]; rewrite ?(IH (i + 1) H'); auto. unfold fsz. now rewrite H by lia.
Qed.
Lemma slack_nonneg sch N m l : forall i, suffix sch i l ->
  (forall g k, i <= g -> sch g = Some (LNums k) -> fsz g m <= 8 + 8 * N g) -> 0 <= slack N m i l.
Proof.
  induction l as [|d l IH]; intros i SF H; cbn [slack]; [lia|].
  pose proof (suffix_head _ _ _ _ SF) as EH. pose proof (IH (i + 1) (suffix_tail _ _ _ _ SF) ltac:(intros; eapply H; eauto; lia)) as G.
  destruct d as [[|k|]|]; auto. pose proof (H i k ltac:(lia) EH). lia.
Qed.
Lemma slack_get sch N m f k l : sch f = Some (LNums k) -> forall i, suffix sch i l -> i <= f ->
  (forall g k, i <= g -> sch g = Some (LNums k) -> fsz g m <= 8 + 8 * N g) -> 8 + 8 * N f - fsz f m <= slack N m i l.
Proof.
  intros Hf. induction l as [|d l IH]; intros i SF Hi H; [rewrite (suffix_nil _ _ _ SF Hi) in Hf; discriminate|].
  pose proof (suffix_head _ _ _ _ SF) as EH. pose proof (suffix_tail _ _ _ _ SF) as ST.
  assert (H' : forall g k, i + 1 <= g -> sch g = Some (LNums k) -> fsz g m <= 8 + 8 * N g) by (intros; eapply H; eauto; lia).
  destruct (Z.eq_dec i f) as [->|NE].
  - rewrite Hf in EH. subst d. cbn [slack]. pose proof (slack_nonneg sch N m l (f + 1) ST H'). lia.
  - pose proof (IH (i + 1) ST ltac:(lia) H') as G. destruct d as [[|k'|]|]; cbn [slack]; auto. pose proof (H i k' ltac:(lia) EH). lia.
Qed.
Lemma slack_change sch N m m' f k l : sch f = Some (LNums k) -> (forall g, g <> f -> flook g m' = flook g m) ->
  forall i, suffix sch i l -> i <= f -> slack N m' i l = slack N m i l + fsz f m - fsz f m'.
Proof.
  intros Hf HM. induction l as [|d l IH]; intros i SF Hi; [rewrite (suffix_nil _ _ _ SF Hi) in Hf; discriminate|].
  pose proof (suffix_head _ _ _ _ SF) as EH. pose proof (suffix_tail _ _ _ _ SF) as ST. destruct (Z.eq_dec i f) as [->|NE].
  - rewrite Hf in EH. subst d. cbn [slack]. rewrite (slack_same N m m' l (f + 1)); [lia|]. intros. apply HM. lia.
  - pose proof (IH (i + 1) ST ltac:(lia)) as G. assert (E : fsz i m' = fsz i m) by (unfold fsz; now rewrite HM). destruct d as [[|k'|]|]; cbn [slack]; lia.
Qed.
Lemma slack_other sch N m m' f l : (forall k, sch f <> Some (LNums k)) -> (forall g, g <> f -> flook g m' = flook g m) ->
  forall i, suffix sch i l -> slack N m' i l = slack N m i l.
Proof.
  intros Hf HM. induction l as [|d l IH]; intros i SF; auto.
  pose proof (suffix_head _ _ _ _ SF) as EH. pose proof (IH (i + 1) (suffix_tail _ _ _ _ SF)) as G.
  destruct d as [[|k|]|]; cbn [slack]; auto. assert (i <> f) by (intros ->; eapply Hf; eauto).
  unfold fsz. rewrite HM by auto. lia.
Qed.

Record rst (sch : schema) (n : nat) (lm : lmapping) (N : Z -> Z) (T : Z) (base : hstruct) (m : msg) (cur : Z -> value) : Prop := mkRst {
  rs_inv : hinv sch n base m;
  rs_ready : forall f t, sch f = Some t -> ready base m f t (cur f);
  rs_size : 8 + len (wire_msg m) + slack N m 0 lm <= T }.
Lemma ready_fsz sch n h m f k v N : hinv sch n h m -> sch f = Some (LNums k) -> ready h m f (LNums k) v -> lty_of v = Some (LNums k) ->
  items v <= N -> fsz f m <= 8 + 8 * N.
Proof.
  intros HI Hf [_ HR] TV HN. destruct (HR I) as [_ HN']. destruct v; try discriminate. inv TV.
  pose proof (fsz_nums m f k l HN' (fun v E => hi_typed _ _ _ _ HI _ _ _ Hf E)) as FN. cbn [items] in HN. pose proof (kind_size_8 k).
  pose proof (len_nonneg l). destruct FN as [->|[-> _]]; nia.
Qed.
Lemma replay_edit lm sch n N T base m cur f t e v' :
  schema_ok n sch -> describes lm sch -> T < 2 ^ 32 -> (forall f, N f < 2 ^ 31) -> sch f = Some t ->
  rst sch n lm N T base m cur -> (forall g u, sch g = Some u -> items (cur g) <= N g) ->
  edit_typed t e -> short_items e -> edited (cur f) e = Some v' -> items v' <= N f ->
  exists base' m', apply_list_ops lm base (edit_ops f (cur f) e) = Ok base' /\
    rst sch n lm N T base' m' (fun g => if g =? f then v' else cur g).
Proof.
  intros HS HD HT HN Hf [HI HR HZ] HB HE HSI EV HI'.
  destruct (HR f t Hf) as [HV HNUM] eqn:ER. clear ER.
  destruct (shows_typed sch n base m f t (cur f) HS HI Hf HV) as [OA TA].
  destruct (edit_vops f (cur f) e v' t (N f) TA OA HE EV HSI HI' (HN f)) as (HO & TV & OV).
  destruct (reached_sorted _ _ _ (hi_reached _ _ _ _ HI)) as (S & _). pose proof (fsz_base f m S) as FB.
  assert (FS : forall g k, 0 <= g -> sch g = Some (LNums k) -> fsz g m <= 8 + 8 * N g).
  { intros g k _ Hg. pose proof (HR g _ Hg) as RG. destruct (shows_typed sch n base m g _ (cur g) HS HI Hg (proj1 RG)) as [_ TG].
    exact (ready_fsz sch n base m g k (cur g) (N g) HI Hg RG TG (HB g _ Hg)). }
  pose proof (describes_suffix _ _ HD) as SF. destruct (HS _ _ Hf) as (B0 & _).
  assert (SZ : is_nums t -> base_size f m + 8 + num_width t * N f < 2 ^ 32).
  { intros NT. destruct t as [|k|]; try contradiction. pose proof (slack_get sch N m f k lm Hf 0 SF ltac:(lia) FS) as G.
    cbn [num_width]. pose proof (kind_size_8 k). pose proof (items_nonneg v'). nia. }
  destruct (field_ops lm sch n base m f t (cur f) _ v' (N f) HS HD Hf HI (HR f t Hf) HO TV SZ) as (base' & m' & E & HI2 & HF & RD & NUM & ITM).
  exists base', m'. split; auto. constructor; auto.
  - intros g u Hg. destruct (Z.eqb_spec g f) as [->|NE]; [rewrite Hf in Hg; inv Hg; auto|]. destruct (HR g u Hg) as [R1 R2].
    split; [apply (frame_shows sch n (eq f) base m); auto|].
    intros X. destruct (R2 X) as [R3 R4]. split; [apply (frame_synced sch n (eq f) base m base' m'); auto|].
    rewrite (fr_msg _ _ _ _ _ HF); auto.
  - assert (HM : forall g, g <> f -> flook g m' = flook g m) by (intros g NE; apply (fr_msg _ _ _ _ _ HF); auto).
    destruct (reached_sorted _ _ _ (hi_reached _ _ _ _ HI2)) as (S' & _). pose proof (fsz_base f m' S') as FB'.
    destruct t as [|k|str].
    + rewrite (slack_other sch N m m' f lm) with (i := 0); auto; [|congruence]. destruct (ITM ltac:(cbn; tauto)) as (LE & _). lia.
    + rewrite (slack_change sch N m m' f k lm Hf HM 0 SF ltac:(lia)). destruct (NUM I) as [_ DE]. unfold base_size in *. rewrite DE in FB'. lia.
    + rewrite (slack_other sch N m m' f lm) with (i := 0); auto; [|congruence]. destruct (ITM ltac:(cbn; tauto)) as (LE & _). lia.
Qed.

Lemma apply_list_app' lm : forall a b h, apply_list_ops lm h (a ++ b) = (h1 <- apply_list_ops lm h a ;; apply_list_ops lm h1 b).
Proof. induction a as [|o a IH]; intros b h; cbn [app apply_list_ops]; [reflexivity|]. destruct (apply_list_op lm h o); cbn [bind]; auto. Qed.
Definition typed_edits (sch : schema) (es : list (Z * edit)) : Prop :=
  Forall (fun p => exists t, sch (fst p) = Some t /\ edit_typed t (snd p)) es.
Lemma replay_edits sch n N :
  schema_ok n sch -> (forall f, N f < 2 ^ 31) ->
  forall es h m h' cur, hreached sch n h m -> run_edits sch h es = Ok h' -> typed_edits sch es ->
    Forall (fun p => short_items (snd p)) es -> stays_below sch h es N ->
    (forall f t, sch f = Some t -> shows h m f t (cur f)) ->
    exists cur', hreached sch n h' m /\ (forall f t, sch f = Some t -> shows h' m f t (cur' f)) /\
      st_recording (h_s h') = st_recording (h_s h) /\
      st_ops (h_s h') = st_ops (h_s h) ++ (if st_recording (h_s h) then edits_log cur es else []) /\
      forall lm T base mb, describes lm sch -> T < 2 ^ 32 -> rst sch n lm N T base mb cur ->
        exists base' mb', apply_list_ops lm base (edits_log cur es) = Ok base' /\ rst sch n lm N T base' mb' cur'.
Proof.
  intros HS HN. induction es as [|[f e] es IH]; intros h m h' cur HR ER TE SE SB HC.
  - cbn in ER. inv ER. exists cur. split; auto. split; auto. split; auto. split; [cbn; destruct (st_recording (h_s h')); now rewrite app_nil_r|].
    intros lm T base mb _ _ RS. exists base, mb. auto.
  - inversion TE as [|? ? (t & Hf & HE) TE']; subst. inversion SE as [|? ? SI SE']; subst. cbn [fst snd] in *.
    pose proof ER as ER0. cbn [run_edits] in ER. rewrite Hf in ER. apply bind_Ok_inv in ER. destruct ER as ([h1 i] & E1 & ER).
    apply bind_Ok_inv in ER. destruct ER as (h2 & E2 & ER).
    destruct (edit_step sch n h m f t e h1 i h2 (cur f) HS HR Hf (HC f t Hf) HE E1 E2) as (v' & EV & R2 & SV & OT & FR & FO).
    pose proof (hreached_inv _ _ _ _ HS HR) as HI. pose proof (hreached_inv _ _ _ _ HS R2) as HI2.
    assert (B1 : forall g u, sch g = Some u -> items (cur g) <= N g).
    { intros g u Hg. apply (SB [] ((f, e) :: es) h g u); auto. apply (shown_shows sch n h m); auto. }
    assert (RC : forall r, run_edits sch h ((f, e) :: r) = run_edits sch h2 r).
    { intros r. cbn [run_edits]. now rewrite Hf, E1, bind_Ok, E2, bind_Ok. }
    set (cur2 := fun g => if g =? f then v' else cur g).
    assert (C2 : forall g u, sch g = Some u -> shows h2 m g u (cur2 g)).
    { intros g u Hg. unfold cur2. destruct (Z.eqb_spec g f) as [->|NE]; [congruence|]. apply OT; auto. }
    assert (SB2 : stays_below sch h2 es N).
    { intros es1 es2 hx g u w -> Ex Hg Hw. apply (SB ((f, e) :: es1) es2 hx g u w); auto. now rewrite RC. }
    assert (B2 : items v' <= N f).
    { apply (SB2 [] es h2 f t); auto. apply (shown_shows sch n h2 m); auto. }
    destruct (IH h2 m h' cur2 R2 ER TE' SE' SB2 C2) as (cur' & RH & SH & FL & OP & RP).
    exists cur'. split; auto. split; auto. split; [congruence|]. cbn [edits_log]. rewrite EV. fold cur2. split.
    + rewrite OP, FR, FO; auto; try (pose proof (HN f); pose proof (B1 f t Hf); lia).
      destruct (st_recording (h_s h)); [now rewrite <- app_assoc|now rewrite app_nil_r].
    + intros lm T base mb HD HT RS. destruct (replay_edit lm sch n N T base mb cur f t e v' HS HD HT HN Hf RS B1 HE SI EV B2) as (b1 & m1 & EB & RS1).
      destruct (RP lm T b1 m1 HD HT RS1) as (b2 & m2 & EB2 & RS2). exists b2, m2. split; auto. rewrite apply_list_app', EB, bind_Ok. exact EB2.
Qed.

(** A bound that is easy to compute. *)
Definition adds (e : edit) : Z := match e with EBools e => len (items_of e) | ENums e => len (items_of e) | EBlobs e => len (items_of e) end.
Fixpoint added (es : list (Z * edit)) : Z := match es with [] => 0 | p :: r => adds (snd p) + added r end.
Lemma adds_nonneg e : 0 <= adds e.
Proof. destruct e; cbn; apply len_nonneg. Qed.
Lemma added_nonneg es : 0 <= added es.
Proof. induction es as [|p es IH]; cbn; [lia|]. pose proof (adds_nonneg (snd p)). lia. Qed.
Lemma after_len {A} (l : list A) e l' : after_edit l e = Some l' -> len l' <= len l + len (items_of e).
Proof.
  pose proof (len_nonneg l). destruct e; cbn [after_edit items_of]; intros E.
  - inv E. rewrite len_app. lia.
  - destruct ((0 <=? i) && (i <? len l)) eqn:B; [|discriminate].
    assert (EQ : l' = firstn (Z.to_nat i) l ++ x :: skipn (S (Z.to_nat i)) l) by congruence. rewrite EQ.
    unfold len in *. rewrite app_length, firstn_length. change (length (x :: skipn (S (Z.to_nat i)) l)) with (S (length (skipn (S (Z.to_nat i)) l))).
    rewrite skipn_length. cbn [length]. lia.
  - inv E. lia.
Qed.
Lemma edited_items v e v' : edited v e = Some v' -> items v' <= items v + adds e.
Proof.
  destruct v, e; cbn [edited]; try discriminate; (destruct (after_edit l e) eqn:E; [|discriminate]); intros X; inv X; cbn [items adds]; now apply after_len.
Qed.
Lemma stays_below_added sch n h m es count : schema_ok n sch -> hreached sch n h m -> typed_edits sch es ->
  (forall f t v, sch f = Some t -> shown h f t v -> items v + added es <= count f) -> stays_below sch h es count.
Proof.
  intros HS HR HT HC es1. revert h es HR HT HC. induction es1 as [|[f e] es1 IH]; intros h es HR HT HC es2 h1 g u w -> ER Hg HW.
  - cbn in ER. inv ER. pose proof (HC g u w Hg HW). pose proof (added_nonneg ([] ++ es2)). lia.
  - cbn [app] in HT, HC. inversion HT as [|? ? (t & Hf & HE) HT']; subst. cbn [fst snd] in *. cbn [run_edits] in ER. rewrite Hf in ER.
    apply bind_Ok_inv in ER. destruct ER as ([h0 i] & E1 & ER). apply bind_Ok_inv in ER. destruct ER as (h2 & E2 & ER).
    pose proof (hreached_inv _ _ _ _ HS HR) as HI. destruct (shows_ex sch n h m f t HS HI Hf) as (v & HV).
    destruct (edit_step sch n h m f t e h0 i h2 v HS HR Hf HV HE E1 E2) as (v' & EV & R2 & SV & OT & _).
    pose proof (hreached_inv _ _ _ _ HS R2) as HI2. cbn [added snd] in HC. pose proof (adds_nonneg e) as NA.
    eapply (IH h2 (es1 ++ es2) R2 HT'); eauto. intros g' u' w' Hg' HW'. apply (shown_shows sch n h2 m) in HW'; auto.
    destruct (Z.eq_dec g' f) as [->|NE].
    + assert (u' = t) by congruence. subst u'. assert (w' = v') by exact (shows_fun _ _ _ _ _ _ HW' SV). subst w'.
      pose proof (edited_items _ _ _ EV). apply (shown_shows sch n h m) in HV; auto. pose proof (HC f t v Hf HV). lia.
    + destruct (shows_ex sch n h m g' u' HS HI Hg') as (x & HX). assert (w' = x) by exact (shows_fun _ _ _ _ _ _ HW' (OT g' u' x NE Hg' HX)). subst w'.
      apply (shown_shows sch n h m) in HX; auto. pose proof (HC g' u' x Hg' HX). lia.
Qed.
