(** Apply on lists of bools, strings and bytes: the operations work on list objects. *)
From Coq Require Import List ZArith Lia.
From Verif.Proofs Require Export PatchListNums.

(** ** The getter *)
Lemma get_list_ok sch n h m f t :
  schema_ok n sch -> hinv sch n h m -> sch f = Some t ->
  exists h' o v, get_list h f t = Ok (h', o) /\ hinv sch n h' m /\ shows h m f t v /\ shows h' m f t v /\
    slice_of h' o t = Ok v /\ h_dirty h' = h_dirty h /\ frame (eq f) h m h' m /\
    (forall i, GetList f (h_lists h) = Some i -> h' = h /\ o = Some i) /\
    match o with
    | Some i => GetList f (h_lists h') = Some i /\ exists x, nth_error (h_objs h') i = Some x /\ cval (lo_c x) v /\ c_type (lo_c x) = t /\ lo_f x = f
    | None => v = empty_list t /\ GetList f (h_lists h) = None /\ flook f m = None /\ exists s, h' = with_s h s /\ do_op (h_s h) ORead = Ok s
    end /\
    (o <> None -> exists i, h_list h f t = Ok (h', i)).
Proof.
  intros HS HI Hf. destruct (h_list_ok sch n h m f t HS HI Hf) as (h1 & i & o & E & HI1 & HG & EO & HT & ED & HL & HX & HM).
  destruct (hi_objs _ _ _ _ HI1 _ _ EO) as (_ & v & HV). pose proof (hi_lists _ _ _ _ HI1 _ _ HG) as (o' & EO' & EF).
  assert (o' = o) by congruence. subst o'.
  unfold h_list in E. unfold get_list. destruct (GetList f (h_lists h)) as [j|] eqn:EG.
  - destruct HM as [-> ->]. rewrite EO in *. destruct (lty_eq_dec (c_type (lo_c o)) t); [|congruence].
    exists h, (Some j), v. assert (SW : shows h m f t v) by (unfold shows; rewrite EG; eauto).
    repeat (split; [auto using frame_refl; fail|]). split. { cbn. unfold h_read. rewrite EO. now apply read_cval. }
    repeat (split; [auto using frame_refl; fail|]).
    split. { split; auto. exists o. auto. }
    intros _. exists j. unfold h_list. rewrite EG, EO. destruct (lty_eq_dec (c_type (lo_c o)) t); congruence.
  - pose proof (parse_ok sch n (h_s h) m f t HS (hi_reached _ _ _ _ HI) (hi_typed _ _ _ _ HI) Hf) as HP.
    destruct (parsed_ok n (h_s h) m (hi_reached _ _ _ _ HI)) as (s' & ES & HR & EDS).
    destruct HM as (-> & EOB & HDC & HM). destruct (flook f m) as [w|] eqn:EW.
    + destruct HP as (c & EP & CT & CV & CD). rewrite EP, bind_Ok, ES, bind_Ok in E. inv E. rewrite EP, bind_Ok, ES, bind_Ok.
      destruct HM as [HDD HV']. assert (v = as_read w) by (eapply cval_fun; eauto). subst v.
      eexists _, _, (as_read w). split; [reflexivity|]. split; auto.
      split. { unfold shows. rewrite EG, EW. reflexivity. }
      split. { unfold shows. rewrite HG. eauto. }
      split. { cbn. unfold h_read. rewrite EO. now apply read_cval. }
      split; auto. split.
      { constructor; auto. }
      split. { discriminate. }
      split. { split; auto. exists o. auto. }
      intros _. exists (length (h_objs h)). unfold h_list. rewrite EG, EP, bind_Ok, ES, bind_Ok. reflexivity.
    + rewrite HP, bind_Ok, ES, bind_Ok. destruct HM as [_ HV']. assert (v = empty_list t) by (eapply cval_fun; eauto). subst v.
      assert (HI' : hinv sch n (with_s h s') m) by (constructor; cbn [with_s h_s h_objs h_lists h_dirty]; auto; apply HI).
      eexists _, None, (empty_list t). split; [reflexivity|]. split; auto.
      split. { unfold shows. now rewrite EG, EW. }
      split. { unfold shows. cbn [with_s h_lists]. now rewrite EG, EW. }
      split; auto. split; auto. split. { constructor; auto. }
      split. { discriminate. }
      split. { repeat split; auto. exists s'. split; auto. }
      congruence.
Qed.

(** ** A new list in place of the old one *)
Lemma hinv_new sch n h m f t c :
  hinv sch n h m -> sch f = Some t -> c_type c = t -> (exists v, cval c v) ->
  hinv sch n (mkH (h_s h) (h_objs h ++ [mkL f c]) (SetList f (length (h_objs h)) (h_lists h)) (h_dirty h ++ [(f, length (h_objs h))])) m.
Proof.
  intros HI Hf HC HV. constructor; cbn [h_s h_objs h_lists h_dirty]; try apply HI.
  - intros i o E. destruct (Nat.lt_ge_cases i (length (h_objs h))) as [L|L].
    + rewrite nth_error_app1 in E by auto. now apply (hi_objs _ _ _ _ HI) in E.
    + rewrite nth_error_app2 in E by auto. destruct (i - length (h_objs h))%nat as [|q]; cbn in E; [|destruct q; discriminate].
      inv E. split; cbn [lo_f lo_c]; auto.
  - intros g i. rewrite GetList_set. destruct (Z.eqb_spec g f) as [->|N]; intros E.
    + inv E. exists (mkL f c). rewrite nth_error_app2, Nat.sub_diag by lia. auto.
    + destruct (hi_lists _ _ _ _ HI _ _ E) as (o & E1 & E2). exists o. split; auto.
      rewrite nth_error_app1; auto. apply nth_error_Some. congruence.
  - intros g i HIn. apply in_app_iff in HIn. destruct HIn as [H|[X|[]]].
    + destruct (hi_dirty _ _ _ _ HI _ _ H) as (o & E1 & E2). exists o. split; auto.
      rewrite nth_error_app1; auto. apply nth_error_Some. congruence.
    + inv X. exists (mkL g c). rewrite nth_error_app2, Nat.sub_diag by lia. auto.
Qed.
Definition set_edit (v : value) : edit :=
  match v with VBools l => EBools (ESetAll l) | VBlobs _ l => EBlobs (ESetAll l) | _ => ENums (ESetAll []) end.
Definition is_nums (t : lty) : Prop := match t with LNums _ => True | _ => False end.
Lemma fresh_list_ok sch n h m f t v :
  schema_ok n sch -> hinv sch n h m -> sch f = Some t -> lty_of v = Some t -> list_ok v -> ~ is_nums t ->
  exists h', fresh_list h f v = Ok h' /\ hinv sch n h' m /\ shows h' m f t v /\ live h' f /\ frame (eq f) h m h' m.
Proof.
  intros HS HI Hf HT HO HN. destruct (HS _ _ Hf) as (H1 & H2 & H3). destruct (new_ok t H3) as (N1 & N2 & N3).
  set (i := length (h_objs h)).
  set (h1 := mkH (h_s h) (h_objs h ++ [mkL f (new_content t)]) (SetList f i (h_lists h)) (h_dirty h ++ [(f, i)])).
  assert (HI1 : hinv sch n h1 m) by (apply (hinv_new sch n h m f t); eauto).
  assert (EO : nth_error (h_objs h1) i = Some (mkL f (new_content t))).
  { cbn [h1 h_objs]. unfold i. rewrite nth_error_app2, Nat.sub_diag by lia. reflexivity. }
  assert (ET : edit_typed (c_type (lo_c (mkL f (new_content t)))) (set_edit v)).
  { cbn [lo_c]. rewrite N2. destruct v; try discriminate; inv HT; cbn in *; auto; contradiction. }
  pose proof (h_edit_ok sch n h1 m i _ (empty_list t) (set_edit v) HI1 EO N1 ET) as HE.
  assert (EE : edited (empty_list t) (set_edit v) = Some v).
  { destruct v; try discriminate; inv HT; cbn in *; auto; contradiction. }
  rewrite EE in HE. destruct HE as (h2 & c & E2 & HI2 & HC & HD & HCT & EOB & EL & EDD & _). cbn [lo_f lo_c] in *.
  exists h2. split. { destruct v; try discriminate; inv HT; cbn in *; auto; contradiction. }
  assert (EO2 : nth_error (h_objs h2) i = Some (mkL f c)).
  { rewrite EOB, nth_error_set_nth_eq; auto. apply nth_error_Some. congruence. }
  assert (EG2 : GetList f (h_lists h2) = Some i).
  { rewrite EL. cbn [h1 h_lists]. now rewrite GetList_set, Z.eqb_refl. }
  assert (OLD : forall j o, nth_error (h_objs h) j = Some o -> (j < i)%nat).
  { intros j o X. unfold i. apply nth_error_Some. congruence. }
  split; auto. split. { unfold shows. rewrite EG2. eauto. }
  split.
  - split.
    + exists i, (on f (h_dirty h)), [(f, i)]. rewrite EDD. cbn [h1 h_dirty]. split; [auto|].
      split; [unfold on; rewrite filter_app; cbn; now rewrite Z.eqb_refl|]. split; [now left|]. split.
      * intros j [X|[]]. now inv X.
      * intros X. apply in_on in X. destruct (hi_dirty _ _ _ _ HI _ _ X) as (o & X1 & _). apply OLD in X1. lia.
    + intros j o X Y. assert (j = i) by congruence. subst j. rewrite EO2 in Y. inv Y. exact HD.
  - constructor; auto.
    + intros g N. rewrite EL. cbn [h1 h_lists]. rewrite GetList_set. destruct (Z.eqb_spec g f); congruence.
    + intros g N. rewrite EDD. cbn [h1 h_dirty]. unfold on. rewrite filter_app. cbn. replace (f =? g) with false by lia. now rewrite app_nil_r.
    + intros j o X _. pose proof (OLD _ _ X). rewrite EOB, nth_error_set_nth_neq by lia. cbn [h1 h_objs].
      rewrite nth_error_app1; auto.
Qed.
Lemma h_Clear_ok sch n h m f t :
  schema_ok n sch -> hinv sch n h m -> sch f = Some t ->
  exists h', h_Clear h f = Ok h' /\ hinv sch n h' (fdel f m) /\ shows h' (fdel f m) f t (empty_list t) /\
    wr h' (fdel f m) f = None /\ frame (eq f) h m h' (fdel f m).
Proof.
  intros HS HI Hf. destruct (reached_sorted _ _ _ (hi_reached _ _ _ _ HI)) as (S & _). destruct (HS _ _ Hf) as (H1 & _).
  destruct (reached_op n (h_s h) m (OClear f) (hi_reached _ _ _ _ HI) H1) as (s' & E & HR). cbn [do_op] in E. unfold ClearField in E.
  assert (EC : h_Clear h f = Ok (mkH s' (h_objs h) (ClearListCache f (h_lists h)) (filter (fun p => negb (fst p =? f)) (h_dirty h)))).
  { unfold h_Clear. now rewrite E. }
  eexists. split; [exact EC|].
  assert (HI' : hinv sch n (mkH s' (h_objs h) (ClearListCache f (h_lists h)) (filter (fun p => negb (fst p =? f)) (h_dirty h))) (fdel f m)).
  { eapply (hinv_call sch n h m (CClear f)); eauto. econstructor; eauto. }
  split; auto.
  split. { unfold shows. cbn [h_lists]. rewrite GetList_clear, Z.eqb_refl, flook_fdel, Z.eqb_refl by auto. reflexivity. }
  split. { rewrite (synced_wr sch n); auto.
           - now rewrite flook_fdel, Z.eqb_refl by auto.
           - intros i o Hi _. cbn [h_dirty] in Hi. apply filter_In in Hi. cbn in Hi. rewrite Z.eqb_refl in Hi. destruct Hi; discriminate. }
  eapply (frame_drop sch n); eauto. intros g Ng. rewrite flook_fdel by auto. destruct (Z.eqb_spec g f); congruence.
Qed.

(** ** A replacement decodes to the list it was made from *)
Lemma dec_items_ok l : Forall (fun b => len b < 2 ^ 32) l -> forall rest,
  dec_items (length l) (concat (map (fun b => le_enc 4 (u32 (len b)) ++ b) l) ++ rest) = Ok l.
Proof.
  induction 1 as [|b l HB HL IH]; intros rest; [reflexivity|]. cbn [length dec_items map concat].
  pose proof (len_nonneg b). rewrite <- !app_assoc.
  match goal with |- context[len (le_enc 4 (u32 (len b)) ++ ?r) <? 4] => set (R := r) end.
  pose proof (len_nonneg R). rewrite len_app, len_le_enc. replace (_ <? 4) with false by lia.
  rewrite take_app_exact, drop_app_exact by (now rewrite len_le_enc). rewrite le_dec_enc.
  assert (EU : u32 (len b) mod 256 ^ Z.of_nat 4 = len b) by (change (256 ^ Z.of_nat 4) with (2 ^ 32); unfold u32; rewrite !Z.mod_small; lia).
  rewrite EU. unfold R. rewrite len_app. match goal with |- context[len b + len ?r <? len b] => pose proof (len_nonneg r) end.
  replace (_ <? len b) with false by lia. rewrite take_app_exact, drop_app_exact by reflexivity. rewrite IH. reflexivity.
Qed.
Lemma enc_len l : len l <= len (concat (map (fun b => le_enc 4 (u32 (len b)) ++ b) l)).
Proof.
  induction l as [|b l IH]; cbn [map concat]; [unfold len; cbn [length]; lia|]. rewrite !len_app, len_le_enc, len_cons. pose proof (len_nonneg b). lia.
Qed.
Lemma dec_list_ok l : len l < 2 ^ 32 -> Forall (fun b => len b < 2 ^ 32) l -> dec_list (encodeForPatch l) = Ok l.
Proof.
  intros HL HF. pose proof (len_nonneg l). unfold dec_list, encodeForPatch. pose proof (enc_len l) as EL.
  rewrite len_app, len_le_enc. replace (_ <? 4) with false by lia.
  rewrite take_app_exact, drop_app_exact by (now rewrite len_le_enc). rewrite le_dec_enc.
  assert (EU : u32 (len l) mod 256 ^ Z.of_nat 4 = len l) by (change (256 ^ Z.of_nat 4) with (2 ^ 32); unfold u32; rewrite !Z.mod_small; lia).
  rewrite EU. replace (Z.min (len l) _) with (len l) by lia. unfold len at 1. rewrite Nat2Z.id.
  rewrite <- (app_nil_r (concat _)). now apply dec_items_ok.
Qed.

(** ** One operation *)
Definition item_op (f : Z) (v : value) (o : rop) (v' : value) : Prop :=
  match v with
  | VBools a => exists b, v' = VBools b /\ iop f (fun x => [b2z x]) bool_rep (fun _ => True) a o b
  | VBlobs s a => exists b, v' = VBlobs s b /\ iop f (fun x => x) blob_rep byte_list a o b
  | _ => False
  end.
Lemma first_b2z b : first_bool [b2z b] = b. Proof. destruct b; reflexivity. Qed.
Lemma map_b2z l : map (fun b => negb (b =? 0)) (map b2z l) = l.
Proof. rewrite map_map. rewrite <- (map_id l) at 2. apply map_ext. intros []; reflexivity. Qed.

Ltac use_fresh H := match type of H with forall v1, _ =>
  match goal with |- exists h' m', fresh_list _ _ ?v = _ /\ _ =>
    let h' := fresh "h'" in let m' := fresh "m'" in
    let E := fresh in
    assert (E := H v); edestruct E as (h' & m' & ? & ? & ? & ? & ? & ?); [| | | | |exists h', m'; repeat (split; [auto; fail|]); auto; fail] end end.
Definition set_result (h : hstruct) (m : msg) (f : Z) (h' : hstruct) (m' : msg) : Prop :=
  m' = m /\ h_dirty h' = h_dirty h /\ (reg h f -> live h' f).
(** The Set through the cached object. *)
Lemma set_obj sch n h m f t i o v e v' :
  schema_ok n sch -> hinv sch n h m -> sch f = Some t -> GetList f (h_lists h) = Some i -> nth_error (h_objs h) i = Some o ->
  cval (lo_c o) v -> edit_typed (c_type (lo_c o)) e -> edited v e = Some v' ->
  exists h', h_edit h i e = Ok h' /\ hinv sch n h' m /\ shows h' m f t v' /\ frame (eq f) h m h' m /\ set_result h m f h' m.
Proof.
  intros HS HI Hf EG EO HV HT EE. pose proof (h_edit_ok sch n h m i o v e HI EO HV HT) as HE. rewrite EE in HE.
  destruct HE as (h' & c & E & HI' & HC & HD & HCT & EOB & EL & EDD & _). exists h'. split; auto. split; auto.
  assert (EO' : nth_error (h_objs h') i = Some (mkL (lo_f o) c)).
  { rewrite EOB, nth_error_set_nth_eq; auto. apply nth_error_Some. congruence. }
  destruct (hi_lists _ _ _ _ HI _ _ EG) as (x & EX & EF). assert (x = o) by congruence. subst x.
  split. { unfold shows. rewrite EL, EG. eauto. }
  split. { constructor; auto.
           - intros g _. now rewrite EL.
           - intros g _. now rewrite EDD.
           - intros j y Y N. rewrite EOB, nth_error_set_nth_neq; auto. intros ->. assert (y = o) by congruence. subst. congruence. }
  split; auto. split; auto. intros (j & d1 & d2 & R1 & R2 & R3 & R4 & R5). split.
  - exists j, d1, d2. rewrite EL, EDD. auto.
  - intros j' y Y1 Y2. rewrite EL in Y1. assert (j' = i) by congruence. subst j'. rewrite EO' in Y2. inv Y2. exact HD.
Qed.

Lemma item_step lm sch n f t h m v o v' :
  schema_ok n sch -> describes lm sch -> sch f = Some t -> hinv sch n h m -> shows h m f t v -> item_op f v o v' ->
  exists h' m', apply_list_op lm h o = Ok h' /\ hinv sch n h' m' /\ shows h' m' f t v' /\ frame (eq f) h m h' m' /\
    (m' = m \/ m' = fdel f m) /\ (r_type o = OpListSet -> set_result h m f h' m') /\ (r_type o <> OpListSet -> wr h' m' f = written v').
Proof.
  intros HS HD Hf HI HV HO. destruct (shows_typed sch n h m f t v HS HI Hf HV) as [OK TY].
  destruct (get_list_ok sch n h m f t HS HI Hf) as (hg & og & vg & EGL & HIg & HVg & HVg' & ESl & EDg & FRg & HCg & HMg & _).
  assert (vg = v) by exact (shows_fun _ _ _ _ _ _ HVg HV). subst vg.
  assert (FRESH : forall h1 m1 v1, hinv sch n h1 m1 -> frame (eq f) h m h1 m1 -> lty_of v1 = Some t -> list_ok v1 -> ~ is_nums t ->
     exists h' m', fresh_list h1 f v1 = Ok h' /\ hinv sch n h' m' /\ shows h' m' f t v1 /\ frame (eq f) h m h' m' /\ m' = m1 /\ wr h' m' f = written v1).
  { intros h1 m1 v1 HI1 F1 T1 O1 N1. destruct (fresh_list_ok sch n h1 m1 f t v1 HS HI1 Hf T1 O1 N1) as (h' & E & HI' & SW & LV & F').
    exists h', m1. repeat (split; [auto; fail|]). split; [apply (frame_trans (eq f) (eq f) (eq f) _ _ h1 m1); auto|]. split; auto. eapply live_wr; eauto. }
  assert (CLEAR : forall h1 m1, hinv sch n h1 m1 -> frame (eq f) h m h1 m1 ->
     exists h' m', h_Clear h1 f = Ok h' /\ hinv sch n h' m' /\ shows h' m' f t (empty_list t) /\ frame (eq f) h m h' m' /\ m' = fdel f m1 /\ wr h' m' f = None).
  { intros h1 m1 HI1 F1. destruct (h_Clear_ok sch n h1 m1 f t HS HI1 Hf) as (h' & E & HI' & SW & W & F').
    exists h', (fdel f m1). repeat (split; [auto; fail|]). split; [apply (frame_trans (eq f) (eq f) (eq f) _ _ h1 m1); auto|]. auto. }
  assert (DONE : forall X, (exists h' m', X = Ok h' /\ hinv sch n h' m' /\ shows h' m' f t v' /\ frame (eq f) h m h' m' /\ (m' = m \/ m' = fdel f m) /\ wr h' m' f = written v') ->
     r_type o <> OpListSet ->
     exists h' m', X = Ok h' /\ hinv sch n h' m' /\ shows h' m' f t v' /\ frame (eq f) h m h' m' /\ (m' = m \/ m' = fdel f m) /\
    (r_type o = OpListSet -> set_result h m f h' m') /\ (r_type o <> OpListSet -> wr h' m' f = written v')).
  { intros X (h' & m' & A1 & A2 & A3 & A4 & A5 & A6) HX. exists h', m'. repeat (split; [auto; fail|]). split; auto. congruence. }
  destruct v; try contradiction; inv TY; destruct HO as (b & -> & HO);
    inversion HO; subst; unfold apply_list_op; cbn [r_fn r_type r_index r_data] in *; rewrite HD, Hf;
    change (OpListSet =? OpClear) with false; change (OpListSet =? OpListReplace) with false; change (OpListSet =? OpListSet) with true;
    change (OpListInsert =? OpClear) with false; change (OpListInsert =? OpListReplace) with false;
    change (OpListInsert =? OpListSet) with false; change (OpListInsert =? OpListInsert) with true;
    change (OpListRemove =? OpClear) with false; change (OpListRemove =? OpListReplace) with false;
    change (OpListRemove =? OpListSet) with false; change (OpListRemove =? OpListInsert) with false; change (OpListRemove =? OpListRemove) with true;
    change (OpListReplace =? OpClear) with false; change (OpListReplace =? OpListReplace) with true; cbv iota.
  - (* bools: set *)
    unfold apply_set. replace (i <? 0) with false by lia. rewrite EGL, bind_Ok. destruct og as [j|].
    2:{ destruct HMg as (X & _). inv X. cbn in H. lia. }
    destruct HMg as (GG & y & EY & CY & CT & EF). cbn [slice_of] in ESl. rewrite ESl, bind_Ok.
    replace (i >=? len l) with false by lia. change (len [b2z x] <? 1) with false. cbv iota. rewrite first_b2z.
    destruct (set_obj sch n hg m f LBools j y (VBools l) (EBools (ESet i x)) (VBools (upd l i x))) as (h' & E & HI' & SW & F' & A & B & C); auto.
    { rewrite CT. exact I. }
    { cbn. replace (_ && _) with true by lia. unfold upd. cbn. now rewrite set_nth_split by (unfold len in H; lia). }
    exists h', m. repeat (split; [auto; fail|]). split; [apply (frame_trans (eq f) (eq f) (eq f) _ _ hg m); auto|]. split; [now left|]. split; [|congruence].
    intros _. split; auto. split; [congruence|]. intros RG. apply C. destruct RG as (q & d1 & d2 & R1 & R2 & R3 & R4 & R5).
    destruct (HCg q R1) as [-> _]. exists q, d1, d2. auto.
  - (* bools: insert *)
    apply DONE; [|discriminate]. unfold apply_insert. replace (i <? 0) with false by lia. rewrite EGL, bind_Ok, ESl, bind_Ok.
    replace (i >? len l) with false by lia. change (len [b2z x] <? 1) with false. cbv iota. rewrite first_b2z.
    use_fresh (FRESH hg m); auto; exact I.
  - (* bools: remove *)
    apply DONE; [|discriminate]. unfold apply_remove. replace (i <? 0) with false by lia. rewrite EGL, bind_Ok. destruct og as [j|].
    2:{ destruct HMg as (X & _). inv X. cbn in H. lia. }
    cbn [slice_of] in ESl. rewrite ESl, bind_Ok. replace (i >=? len l) with false by lia.
    destruct (Z.eqb_spec (len l) 1) as [E1|E1].
    + assert (ED : del l i = []). { assert (i = 0) by lia. subst i. unfold del. rewrite take_0, drop_all by lia. reflexivity. }
      rewrite ED. destruct (CLEAR hg m HIg FRg) as (h' & m' & A1 & A2 & A3 & A4 & A5 & A6). exists h', m'. repeat (split; [auto; fail|]). exact A6.
    + use_fresh (FRESH hg m); auto; exact I.
  - (* bools: replace *)
    apply DONE; [|discriminate]. unfold apply_replace. unfold bool_rep in H. subst d. unfold len at 1. rewrite map_length.
    destruct (Z.eqb_spec (Z.of_nat (length b)) 0) as [E0|E0].
    + destruct b; [|cbn in E0; lia]. destruct (CLEAR h m HI (frame_refl _ _ _)) as (h' & m' & A1 & A2 & A3 & A4 & A5 & A6). exists h', m'. repeat (split; [auto; fail|]). exact A6.
    + rewrite map_b2z. use_fresh (FRESH h m); auto using frame_refl; exact I.
  - (* blobs: set *)
    unfold apply_set. replace (i <? 0) with false by lia. rewrite EGL, bind_Ok. destruct og as [j|].
    2:{ destruct HMg as (X & _). inv X. cbn in H. lia. }
    destruct HMg as (GG & y & EY & CY & CT & EF). cbn [slice_of] in ESl. rewrite ESl, bind_Ok.
    replace (i >=? len l) with false by lia.
    destruct (set_obj sch n hg m f (LBlobs strings) j y (VBlobs strings l) (EBlobs (ESet i x)) (VBlobs strings (upd l i x))) as (h' & E & HI' & SW & F' & A & B & C); auto.
    { rewrite CT. cbn. auto. }
    { cbn. replace (_ && _) with true by lia. unfold upd. cbn. now rewrite set_nth_split by (unfold len in H; lia). }
    exists h', m. repeat (split; [auto; fail|]). split; [apply (frame_trans (eq f) (eq f) (eq f) _ _ hg m); auto|]. split; [now left|]. split; [|congruence].
    intros _. split; auto. split; [congruence|]. intros RG. apply C. destruct RG as (q & d1 & d2 & R1 & R2 & R3 & R4 & R5).
    destruct (HCg q R1) as [-> _]. exists q, d1, d2. auto.
  - (* blobs: insert *)
    apply DONE; [|discriminate]. unfold apply_insert. replace (i <? 0) with false by lia. rewrite EGL, bind_Ok, ESl, bind_Ok.
    replace (i >? len l) with false by lia.
    use_fresh (FRESH hg m); auto. cbn [list_ok] in *. unfold ins. rewrite <- (take_drop i l) in OK. apply Forall_app in OK. apply Forall_app. intuition.
  - (* blobs: remove *)
    apply DONE; [|discriminate]. unfold apply_remove. replace (i <? 0) with false by lia. rewrite EGL, bind_Ok. destruct og as [j|].
    2:{ destruct HMg as (X & _). inv X. cbn in H. lia. }
    cbn [slice_of] in ESl. rewrite ESl, bind_Ok. replace (i >=? len l) with false by lia.
    destruct (Z.eqb_spec (len l) 1) as [E1|E1].
    + assert (ED : del l i = []). { assert (i = 0) by lia. subst i. unfold del. rewrite take_0, drop_all by lia. reflexivity. }
      rewrite ED. destruct (CLEAR hg m HIg FRg) as (h' & m' & A1 & A2 & A3 & A4 & A5 & A6). exists h', m'. repeat (split; [auto; fail|]). exact A6.
    + use_fresh (FRESH hg m); auto. cbn [list_ok] in *. unfold del. pose proof OK as OK'.
      rewrite <- (take_drop i l) in OK. rewrite <- (take_drop (i + 1) l) in OK'. apply Forall_app in OK, OK'. apply Forall_app. tauto.
  - (* blobs: replace *)
    apply DONE; [|discriminate]. unfold apply_replace. destruct H as [[-> ->]|(-> & HL & HB)].
    + change (len [] =? 0) with true. cbv iota. destruct (CLEAR h m HI (frame_refl _ _ _)) as (h' & m' & A1 & A2 & A3 & A4 & A5 & A6). exists h', m'. repeat (split; [auto; fail|]). exact A6.
    + assert (len (encodeForPatch b) =? 0 = false).
      { unfold encodeForPatch. rewrite len_app, len_le_enc. pose proof (len_nonneg (concat (map (fun b => le_enc 4 (u32 (len b)) ++ b) b))). lia. }
      rewrite H, dec_list_ok, bind_Ok by auto. use_fresh (FRESH h m); auto using frame_refl.
Qed.
