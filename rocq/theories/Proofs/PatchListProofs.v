(** Apply of the operations Diff made, over all list fields. *)
From Coq Require Import List ZArith Lia.
From Verif.Proofs Require Export PatchListItems.

Lemma apply_list_app lm : forall a b h h1, apply_list_ops lm h a = Ok h1 -> apply_list_ops lm h (a ++ b) = apply_list_ops lm h1 b.
Proof.
  induction a as [|o a IH]; intros b h h1 E; cbn [app apply_list_ops] in *; [now inv E|].
  apply bind_Ok_inv in E. destruct E as (h2 & E1 & E). rewrite E1, bind_Ok. auto.
Qed.

(** ** Lists of bools, strings and bytes *)
Inductive isteps (f : Z) : value -> list rop -> value -> Prop :=
| IS_nil v : isteps f v [] v
| IS_cons v o v1 r v2 : item_op f v o v1 -> isteps f v1 r v2 -> isteps f v (o :: r) v2.
Lemma vops_isteps f N v ops v' t : lty_of v = Some t -> ~ is_nums t -> vops f N v ops v' -> isteps f v ops v'.
Proof.
  intros HT HN. destruct v; try discriminate; inv HT; cbn [vops is_nums] in *; [|tauto|]; intros (b & -> & H);
    (induction H; [constructor|econstructor; [|eassumption]; cbn; eauto]).
Qed.
Lemma item_steps lm sch n f t : schema_ok n sch -> describes lm sch -> sch f = Some t ->
  forall v ops v', isteps f v ops v' -> forall h m, hinv sch n h m -> shows h m f t v ->
  exists h' m', apply_list_ops lm h ops = Ok h' /\ hinv sch n h' m' /\ shows h' m' f t v' /\ frame (eq f) h m h' m' /\
    len (wire_msg m') <= len (wire_msg m) /\
    (sets_only ops -> m' = m /\ h_dirty h' = h_dirty h /\ (live h f -> live h' f)) /\
    (ends_other ops -> wr h' m' f = written v').
Proof.
  intros HS HD Hf v ops v' H. induction H as [v|v o v1 r v2 HO HR IH]; intros h m HI HV.
  - exists h, m. split; [reflexivity|]. repeat (split; [auto using frame_refl; try lia; fail|]).
    intros (a & b & E & _). destruct a; discriminate.
  - destruct (item_step lm sch n f t h m v o v1 HS HD Hf HI HV HO) as (h1 & m1 & E1 & HI1 & HV1 & F1 & M1 & S1 & W1).
    destruct (IH h1 m1 HI1 HV1) as (h2 & m2 & E2 & HI2 & HV2 & F2 & M2 & S2 & W2).
    exists h2, m2. cbn [apply_list_ops]. rewrite E1, bind_Ok. repeat (split; [auto; fail|]).
    split; [apply (frame_trans (eq f) (eq f) (eq f) _ _ h1 m1); auto|].
    split. { destruct (reached_sorted _ _ _ (hi_reached _ _ _ _ HI)) as (S & _). pose proof (len_wire_del f m S).
             destruct M1 as [->| ->]; lia. }
    split.
    + intros SO. inversion SO as [|? ? X Y]; subst. destruct (S1 X) as (-> & A & B). destruct (S2 Y) as (-> & A' & B').
      split; auto. split; [congruence|]. intros [L1 L2]. auto.
    + intros (a & b & E & NB). destruct a as [|c a].
      * cbn in E. inv E. inv HR. cbn in E2. inv E2.
        destruct (S2 (Forall_nil _)) as (-> & _). apply W1. exact NB.
      * cbn in E. inv E. apply W2. exists a, b. auto.
Qed.

(** ** One field *)
Definition num_width (t : lty) : Z := match t with LNums k => Z.of_nat (kind_size k) | _ => 0 end.
Definition num_room (t : lty) (v : value) : Z := match t with LNums _ => 8 + 8 * items v | _ => 0 end.
Definition ready (h : hstruct) (m : msg) (f : Z) (t : lty) (a : value) : Prop :=
  shows h m f t a /\ (is_nums t -> synced h f /\ rd t (flook f m) = a).
Lemma items_nonneg v : 0 <= items v.
Proof. destruct v; cbn; try lia; apply len_nonneg. Qed.
Lemma kind_size_8 k : (kind_size k <= 8)%nat. Proof. destruct k; cbn; lia. Qed.
Lemma flook_fdel_same f (m : msg) : fsorted m -> flook f m = None -> fdel f m = m.
Proof.
  intros S E. apply fsorted_ext; auto using fdel_sorted. intros g. rewrite flook_fdel by auto.
  destruct (Z.eqb_spec g f); subst; auto.
Qed.
(** Operations that lead from the list a to v', on a field that shows a. *)
Lemma field_ops lm sch n h m f t a ops v' N :
  schema_ok n sch -> describes lm sch -> sch f = Some t -> hinv sch n h m -> ready h m f t a ->
  vops f N a ops v' -> lty_of v' = Some t -> (is_nums t -> base_size f m + 8 + num_width t * N < 2 ^ 32) ->
  exists h' m', apply_list_ops lm h ops = Ok h' /\ hinv sch n h' m' /\ frame (eq f) h m h' m' /\ ready h' m' f t v' /\
    (is_nums t -> rd t (wr h' m' f) = received v' /\ fdel f m' = fdel f m) /\
    (~ is_nums t -> len (wire_msg m') <= len (wire_msg m) /\
       (sets_only ops -> m' = m /\ h_dirty h' = h_dirty h /\ (live h f -> live h' f)) /\
       (ends_other ops -> wr h' m' f = written v')).
Proof.
  intros HS HD Hf HI [HV HN] HO TV SZ. destruct (shows_typed sch n h m f t a HS HI Hf HV) as [OA TA].
  destruct (match t as u return {exists k, u = LNums k} + {~ is_nums u} with LNums k => left (ex_intro _ k eq_refl) | _ => right (fun x => x) end) as [NT|NT].
  - destruct NT as (k & ->). destruct (HN I) as [HY HR]. destruct a; try discriminate TA. inv TA.
    cbn [vops num_width] in *. destruct HO as (l2 & -> & HO).
    assert (HNS : numst sch n f k h m h m l) by (constructor; auto using frame_refl).
    destruct (num_steps lm sch n f k h m _ l _ l2 HS HD Hf (SZ I) HO h m HNS) as (h' & E & m' & [HI' HY' HIN' HF' HB' HW']).
    exists h', m'. split; auto. split; auto. split; auto. split; [split; auto|]. split; [|cbn; tauto].
    intros _. split; auto. rewrite (synced_wr sch n) by auto. rewrite (received_id (VNums k l2) (LNums k)) by (cbn; auto). exact HIN'.
  - pose proof (vops_isteps f _ a _ v' t TA NT HO) as HIS.
    destruct (item_steps lm sch n f t HS HD Hf _ _ _ HIS h m HI HV) as (h' & m' & E & HI' & HV' & HF' & LE & SO & EO).
    exists h', m'. split; auto. split; auto. split; auto. split; [split; auto; tauto|]. split; [tauto|]. auto.
Qed.
(** The bytes a field takes. *)
Definition fsz (f : Z) (m : msg) : Z := match flook f m with Some v => len (wire_value f v) | None => 0 end.
Lemma fsz_base f m : fsorted m -> 8 + len (wire_msg m) = base_size f m + fsz f m.
Proof.
  intros S. unfold fsz, base_size. destruct (flook f m) eqn:E.
  - rewrite (size_put f _ m S E). lia.
  - rewrite flook_fdel_same by auto. lia.
Qed.
Lemma fsz_nums m f k l : nums_in m f k l -> (forall v, flook f m = Some v -> lty_of v = Some (LNums k)) ->
  fsz f m = 8 + Z.of_nat (kind_size k) * len l \/ (fsz f m = 0 /\ l = []).
Proof.
  intros HN HT. unfold nums_in, rd in HN. unfold fsz. destruct (flook f m) as [v|].
  - specialize (HT v eq_refl). destruct v; try discriminate. cbn in HN. inv HN. left.
    rewrite len_wire_value. cbn [v_rest]. fold (nums_data k l). rewrite len_nums_data. lia.
  - cbn in HN. inv HN. auto.
Qed.

(** After the operations of the field: what it shows and what Marshal writes. *)
Definition patched (h : hstruct) (m : msg) (f : Z) (t : lty) (a b : value) (h' : hstruct) (m' : msg) : Prop :=
  exists v', shows h' m' f t v' /\ same_list v' b /\
    (is_nums t \/ items a <> items b \/ live h f -> rd t (wr h' m' f) = received v') /\
    (~ is_nums t -> items a = items b -> on f (h_dirty h) = [] -> wr h' m' f = flook f m).

Lemma field_step lm sch n h m f t a b :
  schema_ok n sch -> describes lm sch -> sch f = Some t -> hinv sch n h m -> ready h m f t a ->
  list_ok b -> lty_of b = Some t -> indexed a -> indexed b ->
  len (st_data (h_s h)) + num_room t b < 2 ^ 32 ->
  exists h' m', apply_list_ops lm h (diff_values f a b) = Ok h' /\ hinv sch n h' m' /\ frame (eq f) h m h' m' /\
    patched h m f t a b h' m' /\ len (st_data (h_s h')) <= len (st_data (h_s h)) + num_room t b.
Proof.
  intros HS HD Hf HI HRD OB TB IA IB HL. destruct HRD as [HV HN] eqn:ERD. destruct (shows_typed sch n h m f t a HS HI Hf HV) as [OA TA].
  destruct (diff_values_ok f a b t TA TB OA OB IA IB) as (v' & HO & SL & OK & TV & IV & KD).
  destruct (reached_sorted _ _ _ (hi_reached _ _ _ _ HI)) as (S & _ & _ & L). pose proof (fsz_base f m S) as FB.
  assert (SZ : is_nums t -> base_size f m + 8 + num_width t * Z.max (items a) (items b) < 2 ^ 32).
  { intros NT. destruct t as [|k|]; try contradiction. destruct (HN I) as [_ HR]. destruct a; try discriminate TA. inv TA. rename l into la.
    pose proof (fsz_nums m f k la HR (fun v E => hi_typed _ _ _ _ HI _ _ _ Hf E)) as FN.
    cbn [items num_width num_room] in *. pose proof (kind_size_pos k). pose proof (kind_size_8 k). pose proof (len_nonneg la).
    pose proof (items_nonneg b). destruct FN as [FN|[FN ->]]; [|change (len (@nil Z)) with 0 in *];
      (match goal with |- context[Z.max ?x ?y] => destruct (Z.max_spec x y) as [[? ->]|[? ->]] end; nia). }
  destruct (field_ops lm sch n h m f t a _ v' _ HS HD Hf HI HRD HO TV SZ) as (h' & m' & E & HI' & HF' & [HV' HN'] & NUM & ITM).
  exists h', m'. split; auto. split; auto. split; auto.
  destruct (reached_sorted _ _ _ (hi_reached _ _ _ _ HI')) as (S' & _ & _ & L'). pose proof (fsz_base f m' S') as FB'.
  destruct (match t as u return {is_nums u} + {~ is_nums u} with LNums k => left I | _ => right (fun x => x) end) as [NT|NT].
  - destruct (NUM NT) as [W DE]. split.
    + exists v'. split; auto. split; auto. split; auto. tauto.
    + destruct t as [|k|]; try contradiction. destruct (HN' I) as [_ HR']. destruct v'; try discriminate TV. inv TV. rename l into l2.
      pose proof (fsz_nums m' f k l2 HR' (fun v E => hi_typed _ _ _ _ HI' _ _ _ Hf E)) as FN'. cbn [items num_room] in *.
      unfold base_size in *. rewrite DE in FB'. pose proof (len_wire_del f m S). pose proof (kind_size_8 k). pose proof (len_nonneg l2). rewrite L, L'.
      destruct FN' as [FN'|[FN' _]]; nia.
  - destruct (ITM NT) as (LE & SO & EO). assert (N0 : num_room t b = 0) by (destruct t; cbn in *; tauto || auto). split; [|lia].
    exists v'. split; auto. split; auto. destruct (Z.eqb_spec (items a) (items b)) as [EI|EI].
    + destruct (SO KD) as (-> & ED & LV). split.
      { intros [X|[X|X]]; try tauto. rewrite (live_wr sch n h' m f t v'); auto. now apply rd_written. }
      { intros _ _ X. rewrite (synced_wr sch n); auto. intros i o Hi. rewrite ED in Hi. apply in_on in Hi. rewrite X in Hi. destruct Hi. }
    + split; [|tauto]. intros _. rewrite (EO KD). now apply rd_written.
Qed.

(** ** All fields *)
Fixpoint all_ops (fv tv : Z -> value) (i : Z) (l : lmapping) : list rop :=
  match l with
  | [] => []
  | None :: r => all_ops fv tv (i + 1) r
  | Some _ :: r => diff_values i (fv i) (tv i) ++ all_ops fv tv (i + 1) r
  end.
(** The suffix r of the mapping starts at field i. *)
Definition suffix (sch : schema) (i : Z) (r : lmapping) : Prop := forall j, (0 <= j)%Z -> sch (i + j) = ldescr r j.
Lemma ldescr_cons d r j : 0 <= j -> ldescr (d :: r) (1 + j) = ldescr r j.
Proof.
  intros H. unfold ldescr. rewrite len_cons. replace (0 <=? 1 + j) with true by lia. replace (0 <=? j) with true by lia. cbn [andb].
  replace (1 + j <? 1 + len r) with (j <? len r) by lia. replace (Z.to_nat (1 + j)) with (S (Z.to_nat j)) by lia. reflexivity.
Qed.
Lemma suffix_head sch i d r : suffix sch i (d :: r) -> sch i = d.
Proof.
  intros H. specialize (H 0 ltac:(lia)). rewrite Z.add_0_r in H. rewrite H. unfold ldescr. rewrite len_cons. pose proof (len_nonneg r).
  replace (0 <? 1 + len r) with true by lia. cbn. destruct d; reflexivity.
Qed.
Lemma suffix_tail sch i d r : suffix sch i (d :: r) -> suffix sch (i + 1) r.
Proof. intros H j Hj. rewrite <- Z.add_assoc, (H (1 + j)) by lia. now apply ldescr_cons. Qed.
Lemma suffix_nil sch i f : suffix sch i [] -> i <= f -> sch f = None.
Proof. intros H Hf. replace f with (i + (f - i)) by lia. rewrite H by lia. unfold ldescr. change (len (@nil (option lty))) with 0. replace (_ && _) with false by lia. reflexivity. Qed.
Lemma describes_suffix lm sch : describes lm sch -> suffix sch 0 lm.
Proof. intros H j _. now rewrite H. Qed.

Lemma new_numbers_pos c r : (forall i, 0 <= c i) -> forall i, 0 <= new_numbers c i r.
Proof. intros H. induction r as [|[[]|] r IH]; intros i; cbn [new_numbers]; auto; try lia. pose proof (H i). pose proof (IH (i + 1)). lia. Qed.

Lemma apply_all lm sch n fv tv : schema_ok n sch -> describes lm sch ->
  (forall f t, sch f = Some t -> list_ok (tv f) /\ lty_of (tv f) = Some t /\ indexed (fv f) /\ indexed (tv f)) ->
  forall r i h m, suffix sch i r -> hinv sch n h m ->
    (forall f t, i <= f -> sch f = Some t -> ready h m f t (fv f)) ->
    len (st_data (h_s h)) + new_numbers (fun f => items (tv f)) i r < 2 ^ 32 ->
    exists h' m', apply_list_ops lm h (all_ops fv tv i r) = Ok h' /\ hinv sch n h' m' /\
      frame (fun g => i <= g) h m h' m' /\
      forall f t, i <= f -> sch f = Some t -> patched h m f t (fv f) (tv f) h' m'.
Proof.
  intros HS HD HT. induction r as [|d r IH]; intros i h m SF HI HR HL.
  - exists h, m. split; [reflexivity|]. split; auto. split; [apply frame_refl|]. intros f t Hf E. rewrite (suffix_nil _ _ _ SF Hf) in E. discriminate.
  - pose proof (suffix_head _ _ _ _ SF) as EH. pose proof (suffix_tail _ _ _ _ SF) as ST. cbn [all_ops].
    destruct d as [t|].
    + destruct (HT i t EH) as (OT & TT & IF & IT).
      assert (NR : new_numbers (fun f => items (tv f)) i (Some t :: r) = num_room t (tv i) + new_numbers (fun f => items (tv f)) (i + 1) r) by (destruct t; reflexivity).
      rewrite NR in HL. pose proof (new_numbers_pos (fun f => items (tv f)) r (fun i => items_nonneg _) (i + 1)) as NP.
      destruct (field_step lm sch n h m i t (fv i) (tv i) HS HD EH HI (HR i t ltac:(lia) EH) OT TT IF IT) as (h1 & m1 & E1 & HI1 & F1 & P1 & L1); [lia|].
      destruct (IH (i + 1) h1 m1 ST HI1) as (h2 & m2 & E2 & HI2 & F2 & P2).
      * intros f u Hf Eu. destruct (HR f u ltac:(lia) Eu) as [R1 R2]. split.
        { apply (frame_shows sch n (eq i) h m); auto. lia. }
        { intros X. destruct (R2 X) as [R3 R4]. split; [apply (frame_synced sch n (eq i) h m h1 m1); auto; lia|].
          rewrite (fr_msg _ _ _ _ _ F1); auto. lia. }
      * lia.
      * exists h2, m2. split; [erewrite apply_list_app by eassumption; exact E2|]. split; auto.
        split; [apply (frame_trans (eq i) (fun g => i + 1 <= g) (fun g => i <= g) _ _ h1 m1); auto; cbn; intros; lia|].
        intros f u Hf Eu. destruct (Z.eq_dec f i) as [->|NE].
        { rewrite EH in Eu. inv Eu. destruct P1 as (v' & P11 & P12 & P13 & P14). exists v'.
          assert (W : wr h2 m2 i = wr h1 m1 i) by (apply (frame_wr sch n (fun g => i + 1 <= g)); auto; lia).
          split; [apply (frame_shows sch n (fun g => i + 1 <= g) h1 m1); auto; lia|]. rewrite W. auto. }
        { destruct (P2 f u ltac:(lia) Eu) as (v' & P21 & P22 & P23 & P24). exists v'. split; auto. split; auto. split.
          - intros X. apply P23. destruct X as [X|[X|X]]; auto. right. right. apply (frame_live sch n (eq i) h m h1 m1); auto; lia.
          - intros X Y W. rewrite P24; auto.
            + apply (fr_msg _ _ _ _ _ F1); lia.
            + rewrite (fr_dirty _ _ _ _ _ F1); auto; lia. }
    + destruct (IH (i + 1) h m ST HI) as (h2 & m2 & E2 & HI2 & F2 & P2).
      * intros f u Hf. apply HR. lia.
      * exact HL.
      * exists h2, m2. split; auto. split; auto. split; [apply (frame_trans (fun g => i + 1 <= g) (fun g => False) (fun g => i <= g) _ _ h2 m2); auto using frame_refl; cbn; intros; lia|].
        intros f u Hf Eu. apply P2; auto. destruct (Z.eq_dec f i) as [->|]; [congruence|lia].
Qed.

(** ** Diff *)
Lemma shows_frame_all sch n h m h' m' f : hinv sch n h m -> frame (eq f) h m h' m' ->
  (forall t v, sch f = Some t -> shows h m f t v -> shows h' m' f t v) ->
  forall g t v, sch g = Some t -> shows h m g t v -> shows h' m' g t v.
Proof.
  intros HI F HF g t v Hg HV. destruct (Z.eq_dec g f) as [->|N]; [eauto|]. eapply (frame_shows sch n); eauto.
Qed.
Definition nil_list (h : hstruct) (m : msg) (f : Z) : Prop := GetList f (h_lists h) = None /\ flook f m = None.
Lemma has_list_iff sch n h m f t : schema_ok n sch -> hinv sch n h m -> sch f = Some t -> has_list h f t <-> ~ nil_list h m f.
Proof.
  intros HS HI Hf. destruct (get_list_ok sch n h m f t HS HI Hf) as (h' & o & v & E & _ & _ & _ & _ & _ & _ & HC & HM & HL).
  unfold has_list, nil_list. destruct o as [i|].
  - split; [|eauto]. intros _ [N1 N2]. destruct (h_list_ok sch n h m f t HS HI Hf) as (h1 & j & x & E1 & _ & _ & _ & _ & _ & _ & _ & HX).
    rewrite N1, N2 in HX. destruct HX as (_ & _ & _ & HX & _). unfold get_list in E. rewrite N1 in E.
    pose proof (parse_ok sch n (h_s h) m f t HS (hi_reached _ _ _ _ HI) (hi_typed _ _ _ _ HI) Hf) as HP. rewrite N2 in HP.
    rewrite HP, bind_Ok in E. apply bind_Ok_inv in E. destruct E as (s & _ & E). discriminate.
  - split.
    + intros (h1 & i & E1). congruence.
    + intros X. exfalso. apply X. tauto.
Qed.
(** A step of Diff on one side leaves everything as it was for a reader, and the struct
    where some program could have taken it. *)
Lemma get_list_kept sch n h m f t :
  schema_ok n sch -> hinv sch n h m -> sch f = Some t ->
  exists h' o v, get_list h f t = Ok (h', o) /\ hinv sch n h' m /\ shows h m f t v /\ slice_of h' o t = Ok v /\
    (forall g u w, sch g = Some u -> shows h m g u w -> shows h' m g u w) /\
    (o = None <-> nil_list h m f) /\ (forall g, g <> f -> nil_list h' m g <-> nil_list h m g) /\
    exists c, hcall sch n h m c h' m.
Proof.
  intros HS HI Hf. pose proof (has_list_iff sch n h m f t HS HI Hf) as HH.
  destruct (get_list_ok sch n h m f t HS HI Hf) as (h' & o & v & E & HI' & V & V' & ES & ED & F & HC & HM & HL).
  exists h', o, v. split; auto. split; auto. split; auto. split; auto.
  split. { apply (shows_frame_all sch n h m h' m f); auto. intros u w Hu HW. rewrite Hf in Hu. inv Hu.
           assert (w = v) by exact (shows_fun _ _ _ _ _ _ HW V). now subst. }
  split. { destruct o as [i|].
           - split; [discriminate|]. intros X. exfalso. apply (proj1 HH); auto. exists h', i. auto.
           - split; auto. intros _. destruct HM as (_ & A & B & _). split; auto. }
  split. { intros g N. unfold nil_list. rewrite (fr_lists _ _ _ _ _ F) by auto. tauto. }
  destruct o as [i|].
  - destruct (HL ltac:(discriminate)) as (j & EJ). exists (CList f j). econstructor; eauto.
  - destruct HM as (_ & _ & _ & s & -> & EO). exists (CPlain ORead). change m with (apply_op m ORead) at 2. constructor; auto; [|exact I]. split; [discriminate|exact I].
Qed.
Lemma hcalls_snoc sch n h m cs h1 m1 c h2 m2 : hcalls sch n h m cs h1 m1 -> hcall sch n h1 m1 c h2 m2 -> hcalls sch n h m (cs ++ [c]) h2 m2.
Proof. intros H X. induction H; cbn [app]; [econstructor; [eauto|constructor]|econstructor; eauto]. Qed.
Lemma hreached_call sch n h m c h' m' : hreached sch n h m -> hcall sch n h m c h' m' -> hreached sch n h' m'.
Proof. intros (s & m0 & cs & A & B & C) H. exists s, m0, (cs ++ [c]). split; auto. split; auto. eapply hcalls_snoc; eauto. Qed.

Lemma diff_all sch n fv tv : schema_ok n sch -> forall r i from mf to mt,
  suffix sch i r -> hreached sch n from mf -> hreached sch n to mt ->
  (forall f t, i <= f -> sch f = Some t -> shows from mf f t (fv f)) ->
  (forall f t, i <= f -> sch f = Some t -> shows to mt f t (tv f)) ->
  (forall f, i <= f -> sch f = Some (LBlobs false) -> ~ nil_list from mf f /\ ~ nil_list to mt f) ->
  exists from' to', diff_lists from to i r = Ok (from', to', all_ops fv tv i r) /\
    hreached sch n from' mf /\ hreached sch n to' mt /\
    (forall g u w, sch g = Some u -> shows from mf g u w -> shows from' mf g u w) /\
    (forall g u w, sch g = Some u -> shows to mt g u w -> shows to' mt g u w).
Proof.
  intros HS. induction r as [|d r IH]; intros i from mf to mt SF RF RT HF HT HB.
  - exists from, to. cbn. auto.
  - pose proof (suffix_head _ _ _ _ SF) as EH. pose proof (suffix_tail _ _ _ _ SF) as ST. cbn [diff_lists all_ops].
    destruct d as [t|].
    + pose proof (hreached_inv _ _ _ _ HS RF) as IF. pose proof (hreached_inv _ _ _ _ HS RT) as IT.
      destruct (get_list_kept sch n from mf i t HS IF EH) as (f1 & o1 & v1 & E1 & IF1 & V1 & S1 & K1 & N1 & M1 & c1 & C1).
      destruct (get_list_kept sch n to mt i t HS IT EH) as (t1 & o2 & v2 & E2 & IT1 & V2 & S2 & K2 & N2 & M2 & c2 & C2).
      unfold diff_list. rewrite E1, bind_Ok, E2, bind_Ok.
      assert (v1 = fv i) by exact (shows_fun _ _ _ _ _ _ V1 (HF i t ltac:(lia) EH)). subst v1.
      assert (v2 = tv i) by exact (shows_fun _ _ _ _ _ _ V2 (HT i t ltac:(lia) EH)). subst v2.
      assert (NP : match t, o1, o2 with LBlobs false, None, _ | LBlobs false, _, None => true | _, _, _ => false end = false).
      { destruct t as [| |[]]; auto. destruct (HB i ltac:(lia) EH) as [X Y].
        destruct o1; [|exfalso; apply X, N1; reflexivity]. destruct o2; auto. exfalso; apply Y, N2; reflexivity. }
      rewrite NP, S1, bind_Ok, S2, bind_Ok, bind_Ok.
      destruct (IH (i + 1) f1 mf t1 mt ST) as (f2 & t2 & E & RF2 & RT2 & K3 & K4).
      { exact (hreached_call _ _ _ _ _ _ _ RF C1). } { exact (hreached_call _ _ _ _ _ _ _ RT C2). }
      { intros f u Hf Eu. apply K1; auto. apply HF; auto. lia. }
      { intros f u Hf Eu. apply K2; auto. apply HT; auto. lia. }
      { intros f Hf Eu. rewrite M1, M2 by lia. apply HB; auto. lia. }
      exists f2, t2. rewrite E, bind_Ok. repeat (split; [auto; fail|]). auto.
    + apply IH; auto.
      * intros f u Hf. apply HF. lia.
      * intros f u Hf. apply HT. lia.
      * intros f Hf. apply HB. lia.
Qed.

(** ** The operations can be put on the wire *)
Lemma iops_valid {A} f (enc : A -> bytes) (rep : list A -> bytes -> Prop) (P : A -> Prop) N a ops b :
  0 <= f < 2 ^ 16 -> N < 2 ^ 31 -> (forall x, P x -> byte_list (enc x)) -> (forall l d, rep l d -> Forall P l -> byte_list d) ->
  len a <= N -> iops f enc rep P N a ops b -> Forall valid_rop ops.
Proof.
  intros Hf HN HE HR HA H. induction H as [|l o l1 r l2 HO HL HS IH]; [constructor|]. constructor; [|auto].
  assert (I32 : forall i, 0 <= i <= N -> in_range KI32 i) by (intros i Hi; unfold in_range; cbn; lia).
  inversion HO; subst; (split; [exact Hf|]; split; [cbn [r_type]; unfold OpListSet, OpListInsert, OpListRemove, OpListReplace; lia|]; split; cbn [r_index r_data]).
  all: try (apply I32; lia). all: eauto. constructor. unfold NoListIndex, in_range; cbn; lia.
Qed.
Lemma encode_bytes l : Forall byte_list l -> byte_list (encodeForPatch l).
Proof.
  intros H. unfold encodeForPatch. apply Forall_app. split; [apply byte_list_le|]. induction H; cbn [map concat]; [constructor|].
  apply Forall_app. split; auto. apply Forall_app. split; auto. apply byte_list_le.
Qed.
Lemma vops_valid f N a ops v' : 0 <= f < 2 ^ 16 -> N < 2 ^ 31 -> items a <= N -> vops f N a ops v' -> Forall valid_rop ops.
Proof.
  intros Hf HN HA. destruct a; cbn [vops items] in *; try contradiction; intros (b & -> & H); eapply iops_valid; eauto; cbn.
  - intros [] _; apply Forall_cons; try apply Forall_nil; unfold b2z; lia.
  - intros l0 d -> _. induction l0 as [|[] l0 IH]; cbn [map]; [apply Forall_nil| |]; apply Forall_cons; auto; unfold b2z; lia.
  - intros; apply byte_list_le.
  - intros l0 d -> _. unfold nums_data. induction l0; cbn; [constructor|]. apply Forall_app. split; auto. apply byte_list_le.
  - auto.
  - intros l0 d [[-> ->]|(-> & _)] HF; [constructor|now apply encode_bytes].
Qed.
Lemma all_ops_valid sch n fv tv : schema_ok n sch ->
  (forall f t, sch f = Some t -> (list_ok (fv f) /\ lty_of (fv f) = Some t /\ indexed (fv f)) /\ (list_ok (tv f) /\ lty_of (tv f) = Some t /\ indexed (tv f))) ->
  forall r i, suffix sch i r -> Forall valid_rop (all_ops fv tv i r).
Proof.
  intros HS HT. induction r as [|d r IH]; intros i SF; [constructor|].
  pose proof (suffix_head _ _ _ _ SF) as EH. pose proof (suffix_tail _ _ _ _ SF) as ST. cbn [all_ops].
  destruct d as [t|]; [|auto]. apply Forall_app. split; auto.
  destruct (HT i t EH) as ((O1 & T1 & I1) & (O2 & T2 & I2)). destruct (HS _ _ EH) as (B & B2 & _).
  destruct (diff_values_ok i _ _ t T1 T2 O1 O2 I1 I2) as (v' & HO & _).
  destruct I1 as [I1 _], I2 as [I2 _]. apply (vops_valid i (Z.max (items (fv i)) (items (tv i))) (fv i) _ v'); auto; lia.
Qed.

Lemma read_shown sch n h m f t : schema_ok n sch -> hinv sch n h m -> sch f = Some t ->
  shown h f t (read_list sch h f) /\ forall v, shown h f t v -> v = read_list sch h f.
Proof.
  intros HS HI Hf. destruct (shows_ex sch n h m f t HS HI Hf) as (v & HV). apply (shown_shows sch n) in HV; auto.
  assert (E : forall w, shown h f t w -> w = read_list sch h f).
  { intros w (h' & i & E1 & E2). unfold read_list. rewrite Hf, E1, E2. reflexivity. }
  split; auto. now rewrite <- (E v HV).
Qed.
