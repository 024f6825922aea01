(** The map object refines a finite map. *)
From Verif.Spec Require Import MapSpec.
From Verif.Proofs Require Import BaseLemmas.
From Coq Require Import Lia.

(** ** The order *)
Lemma cmpZ_spec a b :
  (cmpZ a b = -1 /\ a < b) \/ (cmpZ a b = 0 /\ a = b) \/ (cmpZ a b = 1 /\ b < a).
Proof. unfold cmpZ. destruct (Z.ltb_spec a b); [lia|]. destruct (Z.ltb_spec b a); lia. Qed.

Lemma str_lt_cons x a b : str_lt a b -> str_lt (x :: a) (x :: b).
Proof.
  intros (p & [(c & r & -> & ->)|(y & z & r & r' & -> & -> & H)]); exists (x :: p); [left|right]; cbn; eauto 10.
Qed.
Lemma str_lt_hd x y a b : x < y -> str_lt (x :: a) (y :: b).
Proof. intros. exists []. right. exists x, y, a, b. auto. Qed.
Lemma str_lt_inv x y a b : str_lt (x :: a) (y :: b) -> x < y \/ (x = y /\ str_lt a b).
Proof.
  intros (p & [(c & r & E & F)|(u & v & r & r' & E & F & H)]); destruct p as [|z p]; cbn in *; try discriminate; injection E as; injection F as; subst; auto.
  - right. split; auto. exists p. left. eauto.
  - right. split; auto. exists p. right. eauto 10.
Qed.
Lemma str_lt_nil_r a : ~ str_lt a [].
Proof. intros (p & [(c & r & E & F)|(u & v & r & r' & E & F & H)]); destruct p; discriminate. Qed.
Lemma str_lt_nil_l x b : str_lt [] (x :: b).
Proof. exists []. left. exists x, b. auto. Qed.

Lemma cmpS_spec a : forall b,
  (cmpS a b = -1 /\ str_lt a b) \/ (cmpS a b = 0 /\ a = b) \/ (cmpS a b = 1 /\ str_lt b a).
Proof.
  induction a as [|x a IH]; intros [|y b]; cbn [cmpS]; auto using str_lt_nil_l.
  destruct (Z.ltb_spec x y); [left; auto using str_lt_hd|].
  destruct (Z.ltb_spec y x); [right; right; auto using str_lt_hd|].
  assert (x = y) by lia. subst y.
  destruct (IH b) as [[E H1]|[[E H1]|[E H1]]]; rewrite E; auto using str_lt_cons.
  right. left. subst. auto.
Qed.
Lemma str_lt_trans a : forall b c, str_lt a b -> str_lt b c -> str_lt a c.
Proof.
  induction a as [|x a IH]; intros [|y b] [|z c] H1 H2; try (exfalso; eapply str_lt_nil_r; eassumption); auto using str_lt_nil_l.
  apply str_lt_inv in H1, H2. destruct H1 as [H1|[-> H1]], H2 as [H2|[-> H2]].
  - apply str_lt_hd; lia.
  - apply str_lt_hd; lia.
  - apply str_lt_hd; lia.
  - apply str_lt_cons. eauto.
Qed.
Lemma str_lt_irr a : ~ str_lt a a.
Proof.
  induction a as [|x a IH]; intros H; [eapply str_lt_nil_r; eassumption|].
  apply str_lt_inv in H. destruct H as [H|[_ H]]; [lia|auto].
Qed.

Lemma cmpF_spec k a b :
  (cmpF k a b = -1 /\ flt_lt k a b) \/ (cmpF k a b = 0 /\ flt_eq k a b) \/ (cmpF k a b = 1 /\ flt_lt k b a).
Proof.
  unfold cmpF, flt_lt, flt_eq.
  destruct (is_nan k a) eqn:Ea, (is_nan k b) eqn:Eb; auto 10.
  destruct (cmpZ_spec (f_val k a) (f_val k b)) as [[-> ?]|[[-> ?]|[-> ?]]]; auto 10.
Qed.

Section Keys.
Variable kt : keyty.

Lemma compare_spec a b : key_ok kt a -> key_ok kt b ->
  (compareKeys kt a b = -1 /\ key_lt kt a b) \/ (compareKeys kt a b = 0 /\ same_key kt a b) \/
  (compareKeys kt a b = 1 /\ key_lt kt b a).
Proof.
  destruct kt as [k|]; destruct a as [x|x], b as [y|y]; cbn; try tauto; intros _ _.
  - destruct k; cbn; try apply cmpZ_spec; apply cmpF_spec.
  - destruct (cmpS_spec x y) as [[-> ?]|[[-> ->]|[-> ?]]]; auto 10.
Qed.
Lemma key_lt_trans a b c : key_lt kt a b -> key_lt kt b c -> key_lt kt a c.
Proof.
  destruct kt as [k|]; destruct a as [x|x], b as [y|y], c as [z|z]; cbn; try tauto.
  - destruct (is_float k); [|lia]. unfold flt_lt.
    destruct (is_nan k x), (is_nan k y), (is_nan k z); intuition (try discriminate; try lia).
  - apply str_lt_trans.
Qed.
Lemma same_key_refl a : same_key kt a a.
Proof.
  destruct kt as [k|]; destruct a as [x|x]; cbn; auto.
  destruct (is_float k); auto. unfold flt_eq. destruct (is_nan k x); auto.
Qed.
Lemma same_key_sym a b : same_key kt a b -> same_key kt b a.
Proof.
  destruct kt as [k|]; destruct a as [x|x], b as [y|y]; cbn; auto; try (intros; congruence).
  destruct (is_float k); [|auto]. unfold flt_eq. intuition.
Qed.
Lemma same_key_trans a b c : same_key kt a b -> same_key kt b c -> same_key kt a c.
Proof.
  destruct kt as [k|]; destruct a as [x|x], b as [y|y], c as [z|z]; cbn; try (intros; congruence).
  destruct (is_float k); [|intros; congruence]. unfold flt_eq.
  destruct (is_nan k x), (is_nan k y), (is_nan k z); intuition (try discriminate; try lia).
Qed.
Lemma same_lt_l a b c : same_key kt a b -> key_lt kt b c -> key_lt kt a c.
Proof.
  destruct kt as [k|]; destruct a as [x|x], b as [y|y], c as [z|z]; cbn; try tauto; try (intros; congruence).
  - destruct (is_float k); [|lia]. unfold flt_lt, flt_eq.
    destruct (is_nan k x), (is_nan k y), (is_nan k z); intuition (try discriminate; try lia).
Qed.
Lemma same_lt_r a b c : key_lt kt a b -> same_key kt b c -> key_lt kt a c.
Proof.
  destruct kt as [k|]; destruct a as [x|x], b as [y|y], c as [z|z]; cbn; try tauto; try (intros; congruence).
  - destruct (is_float k); [|lia]. unfold flt_lt, flt_eq.
    destruct (is_nan k x), (is_nan k y), (is_nan k z); intuition (try discriminate; try lia).
Qed.
Lemma key_lt_irr a : ~ key_lt kt a a.
Proof.
  destruct kt as [k|]; destruct a as [x|x]; cbn; auto.
  - destruct (is_float k); [|lia]. unfold flt_lt. intros [H1 [H2|H2]]; [congruence|lia].
  - apply str_lt_irr.
Qed.
Lemma lt_not_same a b : key_lt kt a b -> ~ same_key kt a b.
Proof. intros H1 H2. apply (key_lt_irr a). eapply same_lt_r; [eassumption|]. apply same_key_sym, H2. Qed.
Lemma same_key_dec a b : key_ok kt a -> key_ok kt b -> same_key kt a b \/ ~ same_key kt a b.
Proof.
  intros Ha Hb. destruct (compare_spec a b Ha Hb) as [[_ H]|[[_ H]|[_ H]]]; auto.
  - right. apply lt_not_same, H.
  - right. intros H2. apply (lt_not_same _ _ H), same_key_sym, H2.
Qed.

(** ** Binary search *)
Definition keys_ok (l : list mkey) : Prop := StronglySorted (key_lt kt) l /\ Forall (key_ok kt) l.

Lemma sorted_app (a b : list mkey) :
  StronglySorted (key_lt kt) (a ++ b) <->
  StronglySorted (key_lt kt) a /\ StronglySorted (key_lt kt) b /\ Forall (fun x => Forall (key_lt kt x) b) a.
Proof.
  induction a as [|x a IH]; cbn.
  - intuition constructor.
  - split.
    + intros H. inversion H as [|? ? H1 H2]; subst. apply IH in H1. destruct H1 as (A & B & C).
      apply Forall_app in H2. destruct H2. repeat split; auto; constructor; auto.
    + intros (A & B & C). inversion A; subst. inversion C; subst. constructor; [apply IH; auto|].
      apply Forall_app. auto.
Qed.
Lemma keys_ok_app a b : keys_ok (a ++ b) -> keys_ok a /\ keys_ok b /\ Forall (fun x => Forall (key_lt kt x) b) a.
Proof.
  intros [H1 H2]. apply sorted_app in H1. apply Forall_app in H2. unfold keys_ok. tauto.
Qed.

(** Where a key belongs. *)
Definition place (l : list mkey) (key : mkey) (a mid b : list mkey) : Prop :=
  l = a ++ mid ++ b /\ Forall (fun x => key_lt kt x key) a /\ Forall (key_lt kt key) b /\
  (mid = [] \/ exists k, mid = [k] /\ same_key kt k key).

Lemma place_ex l key : keys_ok l -> key_ok kt key -> exists a mid b, place l key a mid b.
Proof.
  induction l as [|x l IH]; intros H Hk.
  - exists [], [], []. repeat split; auto.
  - assert (Hl : keys_ok l) by (destruct H as [H1 H2]; inversion H1; inversion H2; split; auto).
    assert (Hx : key_ok kt x) by (destruct H as [_ H2]; inversion H2; auto).
    assert (Hxl : Forall (key_lt kt x) l) by (destruct H as [H1 _]; inversion H1; auto).
    destruct (compare_spec x key Hx Hk) as [[_ C]|[[_ C]|[_ C]]].
    + destruct (IH Hl Hk) as (a & mid & b & -> & A & B & M). exists (x :: a), mid, b.
      repeat split; auto.
    + exists [], [x], l. repeat split; auto.
      * apply Forall_forall. intros y Hy. rewrite Forall_forall in Hxl.
        eapply same_lt_l; [apply same_key_sym, C|]. auto.
      * right. eauto.
    + exists [], [], (x :: l). repeat split; auto. constructor; auto.
      apply Forall_forall. intros y Hy. rewrite Forall_forall in Hxl. eapply key_lt_trans; eauto.
Qed.

Lemma cmp_lt_iff x key : key_ok kt x -> key_ok kt key -> (compareKeys kt x key <? 0) = true <-> key_lt kt x key.
Proof.
  intros Hx Hk. destruct (compare_spec x key Hx Hk) as [[-> C]|[[-> C]|[-> C]]]; cbn; split; try discriminate; auto.
  - intros H. exfalso. apply (lt_not_same _ _ H C).
  - intros H. exfalso. apply (key_lt_irr x). eapply key_lt_trans; eassumption.
Qed.

Lemma bsearch_spec l key a c : key_ok kt key -> Forall (key_ok kt) l -> l = a ++ c ->
  Forall (fun x => key_lt kt x key) a -> Forall (fun x => ~ key_lt kt x key) c ->
  forall fuel i j, 0 <= i <= len a -> len a <= j <= len l -> j - i <= Z.of_nat fuel ->
  bsearch fuel kt l key i j = Ok (len a).
Proof.
  intros Hk Hl -> Ha Hc. induction fuel as [|fuel IH]; intros i j Hi Hj Hf; cbn [bsearch].
  - destruct (Z.ltb_spec i j); [lia|]. f_equal; lia.
  - destruct (Z.ltb_spec i j); [|f_equal; lia].
    rewrite Z.shiftr_div_pow2 by lia. change (2 ^ 1) with 2. set (h := (i + j) / 2).
    assert (Hh : i <= h < j) by (subst h; split; [apply Z.div_le_lower_bound|apply Z.div_lt_upper_bound]; lia).
    destruct (index_ok_ex (a ++ c) h ltac:(lia)) as [x E]. rewrite E. cbn [bind].
    assert (Hx : key_ok kt x).
    { apply index_inv in E; destruct E as [_ E]. rewrite Forall_forall in Hl. eapply Hl, nth_error_In, E. }
    destruct (compareKeys kt x key <? 0) eqn:C.
    + apply cmp_lt_iff in C; auto. apply IH; try lia.
      destruct (Z.lt_ge_cases h (len a)); [lia|]. exfalso.
      apply index_inv in E; destruct E as [_ E]. rewrite nth_error_app2 in E by (unfold len in *; lia).
      rewrite Forall_forall in Hc. eapply Hc; [eapply nth_error_In, E|auto].
    + apply IH; try lia.
      destruct (Z.lt_ge_cases h (len a)); [|lia]. exfalso.
      apply index_inv in E; destruct E as [_ E]. rewrite nth_error_app1 in E by (unfold len in *; lia).
      rewrite Forall_forall in Ha. apply nth_error_In, Ha in E. apply cmp_lt_iff in E; auto. congruence.
Qed.

Lemma BinarySearch_spec l key a mid b : keys_ok l -> key_ok kt key -> place l key a mid b ->
  BinarySearchFunc kt l key = Ok (len a, match mid with [] => false | _ => true end).
Proof.
  intros [Hs Hl] Hk (E & Ha & Hb & Hm). unfold BinarySearchFunc.
  assert (Hc : Forall (fun x => ~ key_lt kt x key) (mid ++ b)).
  { apply Forall_app. split.
    - destruct Hm as [->|(k & -> & S)]; auto. constructor; auto. intros H. apply (lt_not_same _ _ H S).
    - eapply Forall_impl; [|exact Hb]. intros x H1 H2. apply (key_lt_irr x). eapply key_lt_trans; eassumption. }
  rewrite (bsearch_spec l key a (mid ++ b)); auto; [|pose proof (len_nonneg a); lia| | unfold len; lia].
  2:{ subst l. rewrite len_app. pose proof (len_nonneg a). pose proof (len_nonneg (mid ++ b)). lia. }
  cbn [bind]. rewrite E. rewrite len_app, len_app.
  destruct Hm as [->|(k & -> & SK)].
  - change (len (@nil mkey)) with 0. cbn [app]. destruct (Z.ltb_spec (len a) (len a + (0 + len b))); auto.
    destruct b as [|x b]; [change (len (@nil mkey)) with 0 in *; lia|].
    rewrite index_app by reflexivity. cbn [bind].
    rewrite E in Hl. apply Forall_app in Hl. destruct Hl as [_ Hl]. apply Forall_inv in Hl.
    apply Forall_inv in Hb.
    destruct (compare_spec x key Hl Hk) as [[-> C]|[[-> C]|[-> C]]]; auto.
    exfalso. apply (lt_not_same _ _ Hb). apply same_key_sym, C.
  - change (len [k]) with 1. cbn [app]. pose proof (len_nonneg b).
    destruct (Z.ltb_spec (len a) (len a + (1 + len b))); [|lia].
    rewrite index_app by reflexivity. cbn [bind].
    rewrite E in Hl. apply Forall_app in Hl. destruct Hl as [_ Hl]. apply Forall_inv in Hl.
    destruct (compare_spec k key Hl Hk) as [[-> C]|[[-> C]|[-> C]]]; auto.
    + exfalso. apply (lt_not_same _ _ C). auto.
    + exfalso. apply (lt_not_same _ _ C). apply same_key_sym. auto.
Qed.

(** ** Contents *)
Lemma holds_fun h k o o' : holds kt h k o -> holds kt h k o' -> o = o'.
Proof.
  intros H. revert o'. induction H; intros o' H'; inversion H'; subst; auto; try contradiction.
Qed.
Lemma holds_total h k : Forall (mop_ok kt) h -> key_ok kt k -> exists o, holds kt h k o.
Proof.
  intros Hh Hk. induction Hh as [|o h Ho Hh IH]; [eexists; constructor|].
  destruct IH as [x Hx]. destruct o as [k' v|k'|]; cbn in Ho.
  - destruct (same_key_dec k k' Hk Ho); eexists; [eapply H_set|eapply H_set_other]; eauto.
  - destruct (same_key_dec k k' Hk Ho); eexists; [eapply H_delete|eapply H_delete_other]; eauto.
  - eexists. constructor.
Qed.
Lemma holds_same h k k' o : same_key kt k k' -> holds kt h k o -> holds kt h k' o.
Proof.
  intros S H. revert k' S. induction H; intros k2 SK; try (constructor; fail).
  - apply H_set. eapply same_key_trans; [apply same_key_sym; eassumption|eassumption].
  - apply H_set_other; auto. intros C. apply H. eapply same_key_trans; eassumption.
  - apply H_delete. eapply same_key_trans; [apply same_key_sym; eassumption|eassumption].
  - apply H_delete_other; auto. intros C. apply H. eapply same_key_trans; eassumption.
Qed.

(** The invariant: sorted keys, the values the history prescribes, no key missing. *)
Definition Inv (h : list mop) (m : mapobj) : Prop :=
  keys_ok (mp_keys m) /\
  Forall2 (fun k v => holds kt h k (Some v)) (mp_keys m) (mp_vals m) /\
  (forall k, key_ok kt k -> Forall (fun k' => ~ same_key kt k k') (mp_keys m) -> holds kt h k None).

Lemma Forall2_split {A B} (R : A -> B -> Prop) a b l :
  Forall2 R (a ++ b) l -> exists la lb, l = la ++ lb /\ Forall2 R a la /\ Forall2 R b lb /\ len la = len a.
Proof.
  intros H. apply Forall2_app_inv_l in H. destruct H as (la & lb & Ha & Hb & ->).
  exists la, lb. repeat split; auto. clear -Ha. induction Ha; auto. rewrite !len_cons. lia.
Qed.

Lemma upd_app {A} (a : list A) x b v : upd (a ++ x :: b) (len a) v = a ++ v :: b.
Proof.
  unfold upd, len. rewrite Nat2Z.id. induction a; cbn; congruence.
Qed.
Lemma slices_insert_app {A} (a b : list A) v : slices_insert (a ++ b) (len a) v = Ok (a ++ v :: b).
Proof.
  unfold slices_insert. rewrite len_app. pose proof (len_nonneg a). pose proof (len_nonneg b).
  destruct (Z.leb_spec 0 (len a)); [|lia]. destruct (Z.leb_spec (len a) (len a + len b)); [|lia].
  cbn [andb]. rewrite take_app_exact, drop_app_exact; auto.
Qed.
Lemma slices_delete_app {A} (a b : list A) v : slices_delete (a ++ v :: b) (len a) = Ok (a ++ b).
Proof.
  unfold slices_delete. rewrite len_app, len_cons. pose proof (len_nonneg a). pose proof (len_nonneg b).
  destruct (Z.leb_spec 0 (len a)); [|lia]. destruct (Z.ltb_spec (len a) (len a + (1 + len b))); [|lia].
  cbn [andb]. rewrite take_app_exact by reflexivity. rewrite drop_app_r by lia.
  replace (len a + 1 - len a) with 1 by lia. reflexivity.
Qed.

Lemma find_spec m key a mid b : keys_ok (mp_keys m) -> key_ok kt key -> place (mp_keys m) key a mid b ->
  findKey kt m key = Ok (match mid with [] => -1 | _ => len a end) /\ findInsertPos kt m key = Ok (len a).
Proof.
  intros H Hk P. unfold findKey, findInsertPos. rewrite (BinarySearch_spec _ _ _ _ _ H Hk P). cbn.
  destruct P as (_ & _ & _ & [->|(k & -> & _)]); auto.
Qed.

Lemma Forall2_holds (P : mkey -> mval -> Prop) ks vs :
  Forall2 P ks vs -> forall Q : mkey -> mval -> Prop,
  (forall k v, In k ks -> P k v -> Q k v) -> Forall2 Q ks vs.
Proof.
  induction 1; intros Q HQ; constructor.
  - apply HQ; auto. left; auto.
  - apply IHForall2. intros. apply HQ; auto. right; auto.
Qed.

Lemma place_sorted l key a mid b k : keys_ok l -> key_ok kt key -> place l key a mid b -> In k (a ++ b) -> ~ same_key kt k key.
Proof.
  intros H Hk (E & Ha & Hb & _) HI S. rewrite Forall_forall in Ha, Hb. apply in_app_or in HI. destruct HI as [HI|HI].
  - apply (lt_not_same _ _ (Ha _ HI) S).
  - apply (lt_not_same _ _ (Hb _ HI)). apply same_key_sym, S.
Qed.

Lemma Set_spec h m key v : Inv h m -> key_ok kt key ->
  exists m', mp_Set kt m key v = Ok m' /\ Inv (MSet key v :: h) m' /\ mp_dirty m' = true /\
    (forall k, In k (mp_keys m') -> k = key \/ In k (mp_keys m)).
Proof.
  intros (HK & HF & HN) Hk. destruct (place_ex _ key HK Hk) as (a & mid & b & P).
  destruct (find_spec m key a mid b HK Hk P) as [F1 F2]. unfold mp_Set. rewrite F1, F2. cbn [bind].
  pose proof (fun k => place_sorted _ _ _ _ _ k HK Hk P) as NS.
  destruct m as [keys vals d]. cbn [mp_keys mp_vals] in *.
  destruct P as (E & Ha & Hb & Hm). subst keys.
  apply Forall2_split in HF. destruct HF as (va & vr & -> & HFa & HFr & La).
  apply Forall2_split in HFr. destruct HFr as (vm & vb & -> & HFm & HFb & Lm).
  pose proof (len_nonneg a) as La0. pose proof (len_nonneg vb) as Lb0.
  assert (HO : forall ks vs, (forall k, In k ks -> In k (a ++ b)) -> Forall2 (fun k v => holds kt h k (Some v)) ks vs ->
               Forall2 (fun k w => holds kt (MSet key v :: h) k (Some w)) ks vs).
  { intros ks vs HI H2. eapply Forall2_holds; [exact H2|]. cbn. intros k w Hin Hw. apply H_set_other; auto. }
  destruct Hm as [->|(k & -> & SK)].
  - inversion HFm; subst vm. cbn [app] in *. change (-1 >=? 0) with false. cbn iota.
    rewrite slices_insert_app. cbn [bind]. rewrite <- La, slices_insert_app. cbn [bind].
    eexists. split; [reflexivity|]. split; [|split; [reflexivity|]]; [|cbn; intros k Hin; apply in_app_or in Hin; destruct Hin as [Hin|[Hin|Hin]]; auto using in_or_app]. unfold Inv; cbn [mp_keys mp_vals]. split; [|split].
    + apply keys_ok_app in HK. destruct HK as ((Sa & Oa) & (Sb & Ob) & Sab). split.
      * apply sorted_app. split; auto. split; [constructor; auto|].
        apply Forall_forall. intros x Hx. rewrite Forall_forall in Ha, Sab. constructor; auto.
      * apply Forall_app. split; auto.
    + apply Forall2_app; [apply HO; auto; intros; apply in_or_app; auto|]. constructor.
      * apply H_set. apply same_key_refl.
      * apply HO; auto. intros; apply in_or_app; auto.
    + intros k Hok HA. apply Forall_app in HA. destruct HA as [HA1 HA2]. apply H_set_other.
      * apply Forall_inv in HA2. auto.
      * apply HN; auto. apply Forall_app. split; auto. apply Forall_inv_tail in HA2. auto.
  - inversion HFm as [|? w ? vm' HW HFm']; subst. inversion HFm'; subst. cbn [app] in *.
    destruct (Z.geb_spec (len a) 0); [|lia]. rewrite len_app, len_cons. rewrite <- La.
    destruct (Z.ltb_spec (len va) (len va + (1 + len vb))); [|lia]. rewrite upd_app.
    eexists. split; [reflexivity|]. split; [|split; [reflexivity|cbn; auto]]. unfold Inv; cbn [mp_keys mp_vals]. split; [|split]; auto.
    + apply Forall2_app; [apply HO; auto; intros; apply in_or_app; auto|]. constructor.
      * apply H_set. auto.
      * apply HO; auto. intros; apply in_or_app; auto.
    + intros k' Hok HA. apply H_set_other; auto.
      apply Forall_app in HA. destruct HA as [_ HA]. apply Forall_inv in HA. intros C. apply HA.
      eapply same_key_trans; [exact C|]. apply same_key_sym; auto.
Qed.

Lemma Delete_spec h m key : Inv h m -> key_ok kt key ->
  exists m', mp_Delete kt m key = Ok m' /\ Inv (MDelete key :: h) m' /\ (mp_dirty m = true -> mp_dirty m' = true) /\
    (forall k, In k (mp_keys m') -> In k (mp_keys m)).
Proof.
  intros (HK & HF & HN) Hk. destruct (place_ex _ key HK Hk) as (a & mid & b & P).
  destruct (find_spec m key a mid b HK Hk P) as [F1 F2]. unfold mp_Delete. rewrite F1. cbn [bind].
  pose proof (fun k => place_sorted _ _ _ _ _ k HK Hk P) as NS.
  destruct m as [keys vals d]. cbn [mp_keys mp_vals mp_dirty] in *.
  destruct P as (E & Ha & Hb & Hm). subst keys.
  apply Forall2_split in HF. destruct HF as (va & vr & -> & HFa & HFr & La).
  apply Forall2_split in HFr. destruct HFr as (vm & vb & -> & HFm & HFb & Lm).
  pose proof (len_nonneg a) as La0. pose proof (len_nonneg vb) as Lb0.
  assert (HO : forall ks vs, (forall k, In k ks -> In k (a ++ b)) -> Forall2 (fun k v => holds kt h k (Some v)) ks vs ->
               Forall2 (fun k w => holds kt (MDelete key :: h) k (Some w)) ks vs).
  { intros ks vs HI H2. eapply Forall2_holds; [exact H2|]. cbn. intros k w Hin Hw. apply H_delete_other; auto. }
  destruct Hm as [->|(k & -> & SK)].
  - inversion HFm; subst vm. cbn [app] in *. change (-1 >=? 0) with false. cbn iota.
    eexists. split; [reflexivity|]. split; [|split; cbn; auto]. unfold Inv; cbn [mp_keys mp_vals]. split; [|split]; auto.
    + apply Forall2_app; apply HO; auto; intros; apply in_or_app; auto.
    + intros k Hok HA. destruct (same_key_dec k key Hok Hk); [apply H_delete; auto|].
      apply H_delete_other; auto.
  - inversion HFm as [|? w ? vm' HW HFm']; subst. inversion HFm'; subst. cbn [app] in *.
    destruct (Z.geb_spec (len a) 0); [|lia].
    rewrite slices_delete_app. cbn [bind]. rewrite <- La, slices_delete_app. cbn [bind].
    eexists. split; [reflexivity|]. split; [|split; [auto|cbn; intros k0 Hin; apply in_app_or in Hin; apply in_or_app; cbn; tauto]].
    unfold Inv; cbn [mp_keys mp_vals]. split; [|split]; auto.
    + apply keys_ok_app in HK. destruct HK as ((Sa & Oa) & (Sb & Ob) & Sab).
      inversion Sb; inversion Ob; subst. split.
      * apply sorted_app. split; auto. split; auto.
        eapply Forall_impl; [|exact Sab]. intros x Hx. apply Forall_inv_tail in Hx. auto.
      * apply Forall_app. split; auto.
    + apply Forall2_app; apply HO; auto; intros; apply in_or_app; auto.
    + intros k' Hok HA. destruct (same_key_dec k' key Hok Hk) as [D|D]; [apply H_delete; auto|].
      apply H_delete_other; auto. apply HN; auto. apply Forall_app in HA. destruct HA as [HA1 HA2].
      apply Forall_app. split; auto. constructor; auto. intros C. apply D. eapply same_key_trans; eassumption.
Qed.

Lemma Clear_spec h m : Inv h m -> Inv (MClear :: h) (mp_Clear m).
Proof.
  intros (HK & HF & HN). unfold mp_Clear. destruct m as [keys vals d]. cbn in *.
  destruct keys as [|x keys].
  - inversion HF; subst. change (len (@nil mkey) >? 0) with false. cbn iota. split; [auto|]. split; cbn; auto.
    intros. constructor.
  - rewrite len_cons. pose proof (len_nonneg keys). destruct (Z.gtb_spec (1 + len keys) 0); [|lia].
    split; [split; cbn; constructor|]. split; cbn; auto. intros. constructor.
Qed.

Lemma do_mop_spec h m o : Inv h m -> mop_ok kt o -> exists m', do_mop kt m o = Ok m' /\ Inv (o :: h) m'.
Proof.
  intros H Ho. destruct o as [k v|k|]; cbn in *.
  - destruct (Set_spec h m k v H Ho) as (m' & E & I & _). eauto.
  - destruct (Delete_spec h m k H Ho) as (m' & E & I & _). eauto.
  - eexists. split; [reflexivity|]. apply Clear_spec, H.
Qed.

Lemma run_map_spec l : forall h m, Inv h m -> Forall (mop_ok kt) l ->
  exists m', run_map kt m l = Ok m' /\ Inv (rev l ++ h) m'.
Proof.
  induction l as [|o l IH]; intros h m H Hl; cbn.
  - eauto.
  - inversion Hl; subst. destruct (do_mop_spec h m o H H2) as (m1 & E & I). rewrite E. cbn.
    destruct (IH (o :: h) m1 I H3) as (m2 & E2 & I2). exists m2. split; auto.
    rewrite <- app_assoc. exact I2.
Qed.
Lemma Inv_new : Inv [] NewMaps.
Proof. split; [split; constructor|]. split; [constructor|]. intros. constructor. Qed.

(** ** Questions *)
Lemma Get_spec h m key : Inv h m -> key_ok kt key ->
  exists o, mp_Get kt m key = Ok o /\ holds kt h key o /\ mp_Has kt m key = Ok (match o with Some _ => true | None => false end).
Proof.
  intros (HK & HF & HN) Hk. destruct (place_ex _ key HK Hk) as (a & mid & b & P).
  destruct (find_spec m key a mid b HK Hk P) as [F1 F2]. unfold mp_Get, mp_Has. rewrite F1. cbn [bind].
  pose proof (fun k => place_sorted _ _ _ _ _ k HK Hk P) as NS.
  destruct m as [keys vals d]. cbn [mp_keys mp_vals mp_dirty] in *.
  destruct P as (E & Ha & Hb & Hm). subst keys.
  destruct Hm as [->|(k & -> & SK)].
  - change (-1 >=? 0) with false. cbn iota. exists None. repeat split. apply HN; auto.
    apply Forall_forall. cbn [app] in *. intros x Hx C. apply (NS x Hx). apply same_key_sym, C.
  - apply Forall2_split in HF. destruct HF as (va & vr & -> & HFa & HFr & La).
    inversion HFr as [|? w ? vb HW HFb]; subst. cbn [app] in *.
    pose proof (len_nonneg a). destruct (Z.geb_spec (len a) 0); [|lia].
    rewrite index_app by auto. cbn. exists (Some w). repeat split. eapply holds_same; eassumption.
Qed.

Lemma Inv_len h m : Inv h m -> length (mp_vals m) = length (mp_keys m).
Proof. intros (_ & HF & _). induction HF; cbn; auto. Qed.
Lemma all_from_spec ks0 vs0 ks vs d fuel : length ks0 = length vs0 -> length ks = length vs -> (length ks < fuel)%nat ->
  all_from fuel (mkMap (ks0 ++ ks) (vs0 ++ vs) d) (fun _ _ => true) (len ks0) = Ok (combine ks vs).
Proof.
  revert ks0 vs0 vs fuel. induction ks as [|k ks IH]; intros ks0 vs0 vs [|fuel] L0 L F; try (cbn in F; lia).
  - cbn. rewrite app_nil_r. rewrite Z.ltb_irrefl. auto.
  - destruct vs as [|v vs]; [discriminate|]. cbn [all_from mp_keys mp_vals].
    rewrite len_app, len_cons. pose proof (len_nonneg ks).
    destruct (Z.ltb_spec (len ks0) (len ks0 + (1 + len ks))); [|lia].
    rewrite index_app by auto. cbn [bind].
    rewrite index_app by (unfold len; lia). cbn [bind].
    replace (ks0 ++ k :: ks) with ((ks0 ++ [k]) ++ ks) by (rewrite <- app_assoc; auto).
    replace (vs0 ++ v :: vs) with ((vs0 ++ [v]) ++ vs) by (rewrite <- app_assoc; auto).
    replace (len ks0 + 1) with (len (ks0 ++ [k])) by (rewrite len_app; reflexivity).
    rewrite IH; auto.
    + rewrite !app_length. cbn. lia.
    + cbn in F. lia.
Qed.
Lemma All_spec h m : Inv h m -> mp_All m (fun _ _ => true) = Ok (combine (mp_keys m) (mp_vals m)).
Proof.
  intros H. apply Inv_len in H. destruct m as [ks vs d]. unfold mp_All. cbn in H. cbn [mp_keys].
  apply (all_from_spec [] [] ks vs d); auto.
Qed.

(** ** Same contents, same lists *)
Lemma sorted_unique l1 : forall l2, keys_ok l1 -> keys_ok l2 ->
  (forall a b, In a l1 -> In b l2 -> same_key kt a b -> a = b) ->
  (forall k, key_ok kt k -> (exists x, In x l1 /\ same_key kt k x) <-> (exists x, In x l2 /\ same_key kt k x)) ->
  l1 = l2.
Proof.
  induction l1 as [|x l1 IH]; intros l2 H1 H2 HC HE.
  - destruct l2 as [|y l2]; auto. exfalso.
    destruct H2 as [_ H2]. apply Forall_inv in H2.
    destruct (proj2 (HE y H2)) as (z & [] & _). exists y. split; [left; auto|apply same_key_refl].
  - destruct l2 as [|y l2].
    + exfalso. destruct H1 as [_ H1]. apply Forall_inv in H1.
      destruct (proj1 (HE x H1)) as (z & [] & _). exists x. split; [left; auto|apply same_key_refl].
    + assert (S1 := H1). assert (S2 := H2). destruct S1 as [S1 O1], S2 as [S2 O2].
      pose proof (Forall_inv O1) as Ox. pose proof (Forall_inv O2) as Oy.
      inversion S1 as [|? ? S1' F1]; inversion S2 as [|? ? S2' F2]; subst.
      rewrite Forall_forall in F1, F2.
      assert (SK : same_key kt x y).
      { destruct (proj1 (HE x Ox)) as (z & Iz & Sz); [exists x; split; [left; auto|apply same_key_refl]|].
        destruct (proj2 (HE y Oy)) as (w & Iw & Sw); [exists y; split; [left; auto|apply same_key_refl]|].
        destruct Iz as [->|Iz]; auto. destruct Iw as [<-|Iw]; [apply same_key_sym; auto|]. exfalso.
        pose proof (F2 _ Iz) as L1. pose proof (F1 _ Iw) as L2.
        apply (key_lt_irr y). eapply key_lt_trans; [exact L1|].
        eapply same_lt_l; [apply same_key_sym, Sz|]. eapply same_lt_r; [exact L2|]. apply same_key_sym; auto. }
      assert (x = y) by (apply HC; auto; left; auto). subst y. f_equal.
      apply IH; [split; auto; inversion O1; auto|split; auto; inversion O2; auto| |].
      * intros. apply HC; auto; right; auto.
      * intros k Hk. split.
        -- intros (z & Iz & Sz). destruct (proj1 (HE k Hk)) as (w & [->|Iw] & Sw); [exists z; split; [right; auto|auto]| |eauto].
           exfalso. apply (lt_not_same w z); auto. eapply same_key_trans; [apply same_key_sym, Sw|auto].
        -- intros (z & Iz & Sz). destruct (proj2 (HE k Hk)) as (w & [->|Iw] & Sw); [exists z; split; [right; auto|auto]| |eauto].
           exfalso. apply (lt_not_same w z); auto. eapply same_key_trans; [apply same_key_sym, Sw|auto].
Qed.

Lemma Inv_in h m k : Inv h m -> key_ok kt k -> ((exists x, In x (mp_keys m) /\ same_key kt k x) <-> ~ holds kt h k None).
Proof.
  intros (HK & HF & HN) Hk. split.
  - intros (x & Ix & Sx) H. destruct m as [ks vs d]. cbn in *.
    assert (exists v, holds kt h x (Some v)) as [v Hv].
    { clear -HF Ix. induction HF; cbn in Ix; [contradiction|]. destruct Ix as [<-|Ix]; eauto. }
    pose proof (holds_fun _ _ _ _ (holds_same _ _ _ _ Sx H) Hv). discriminate.
  - intros H. destruct HK as [_ OK].
    assert (HD : (exists x, In x (mp_keys m) /\ same_key kt k x) \/ Forall (fun x => ~ same_key kt k x) (mp_keys m)).
    { clear -OK Hk. induction OK as [|x l Hx OK IH]; auto.
      destruct (same_key_dec k x Hk Hx); [left; exists x; split; [left|]; auto|].
      destruct IH as [(y & Iy & Sy)|IH]; [left; exists y; split; [right|]; auto|right; auto]. }
    destruct HD as [HD|HD]; auto. exfalso. apply H, HN; auto.
Qed.

End Keys.

(** ** Distinct patterns of a float have distinct values, except for the zeros and NaNs *)
Lemma fmag_inj M e a e' a' : 0 < M -> 0 <= e -> 0 <= e' -> 0 <= a < 2 ^ M -> 0 <= a' < 2 ^ M ->
  (if e =? 0 then a else (2 ^ M + a) * 2 ^ (e - 1)) = (if e' =? 0 then a' else (2 ^ M + a') * 2 ^ (e' - 1)) ->
  e = e' /\ a = a'.
Proof.
  intros HM He He' Ha Ha'.
  assert (HP : forall x, 0 <= x -> 0 < 2 ^ x) by (intros; apply Z.pow_pos_nonneg; lia).
  assert (HL : forall e a e' a', 0 < e -> e < e' -> 0 <= a < 2 ^ M -> 0 <= a' < 2 ^ M ->
            (2 ^ M + a) * 2 ^ (e - 1) < (2 ^ M + a') * 2 ^ (e' - 1)).
  { clear - HP HM. intros e a e' a' H1 H2 H3 H4.
    replace (e' - 1) with ((e - 1) + (e' - e)) by lia. rewrite Z.pow_add_r by lia.
    pose proof (HP (e - 1) ltac:(lia)). pose proof (HP M ltac:(lia)).
    assert (2 <= 2 ^ (e' - e)) by (change 2 with (2 ^ 1) at 1; apply Z.pow_le_mono_r; lia).
    nia. }
  assert (HB : forall e a, 0 < e -> 0 <= a -> 2 ^ M <= (2 ^ M + a) * 2 ^ (e - 1)).
  { clear - HP HM. intros e a H1 H2. pose proof (HP (e - 1) ltac:(lia)). pose proof (HP M ltac:(lia)). nia. }
  destruct (Z.eqb_spec e 0), (Z.eqb_spec e' 0); intros E.
  - lia.
  - pose proof (HB e' a' ltac:(lia) ltac:(lia)). lia.
  - pose proof (HB e a ltac:(lia) ltac:(lia)). lia.
  - destruct (Z.lt_trichotomy e e') as [C|[C|C]].
    + pose proof (HL e a e' a' ltac:(lia) C Ha Ha'). lia.
    + subst e'. split; auto. pose proof (HP (e - 1) ltac:(lia)). nia.
    + pose proof (HL e' a' e a ltac:(lia) C Ha' Ha). lia.
Qed.

Lemma f_split k b : is_float k = true -> in_range k b ->
  0 < fmant k /\ 0 <= f_man k b < 2 ^ fmant k /\ 0 <= f_exp k b < 2 ^ fexpo k /\
  b = f_man k b + 2 ^ fmant k * f_exp k b + (if f_neg k b then 2 ^ (fmant k + fexpo k) else 0).
Proof.
  intros Hk Hb. unfold f_man, f_exp, f_neg.
  assert (H : 0 < fmant k /\ 0 < fexpo k /\ 0 <= b < 2 * (2 ^ fmant k * 2 ^ fexpo k)).
  { destruct k; try discriminate; cbn in Hb |- *; lia. }
  destruct H as (HM & HE & HB). rewrite Z.pow_add_r by lia.
  assert (P1 : 0 < 2 ^ fmant k) by (apply Z.pow_pos_nonneg; lia).
  assert (P2 : 0 < 2 ^ fexpo k) by (apply Z.pow_pos_nonneg; lia).
  set (m := 2 ^ fmant k) in *. set (e := 2 ^ fexpo k) in *. split; [exact HM|]. clearbody m e. clear Hb Hk HM HE.
  pose proof (Z.mod_pos_bound b m P1). pose proof (Z.mod_pos_bound (b / m) e P2).
  split; [auto|]. split; [auto|].
  pose proof (Z.div_mod b m ltac:(lia)) as D1. pose proof (Z.div_mod (b / m) e ltac:(lia)) as D2.
  assert (Q0 : 0 <= b / m) by (apply Z.div_pos; lia).
  assert (Q1 : b / m < 2 * e) by (apply Z.div_lt_upper_bound; nia).
  destruct (Z.leb_spec (m * e) b).
  - assert (e <= b / m) by (apply Z.div_le_lower_bound; nia).
    assert ((b / m) / e = 1).
    { apply Z.le_antisymm; [apply Z.lt_succ_r; apply Z.div_lt_upper_bound; lia|apply Z.div_le_lower_bound; lia]. }
    nia.
  - assert (b / m < e) by (apply Z.div_lt_upper_bound; nia).
    rewrite (Z.mod_small (b / m) e) by lia. lia.
Qed.

Lemma f_val_inj k a b : is_float k = true -> in_range k a -> in_range k b ->
  f_val k a = f_val k b -> a <> 2 ^ (fmant k + fexpo k) -> b <> 2 ^ (fmant k + fexpo k) -> a = b.
Proof.
  intros Hk Ha Hb E Na Nb.
  destruct (f_split k a Hk Ha) as (HM & A1 & A2 & A3). destruct (f_split k b Hk Hb) as (_ & B1 & B2 & B3).
  unfold f_val in E.
  assert (G : forall x y, 0 <= x -> 0 <= y < 2 ^ fmant k ->
     0 <= (if x =? 0 then y else (2 ^ fmant k + y) * 2 ^ (x - 1)) /\
     ((if x =? 0 then y else (2 ^ fmant k + y) * 2 ^ (x - 1)) = 0 -> x = 0 /\ y = 0)).
  { intros x y Hx Hy. destruct (Z.eqb_spec x 0); [lia|].
    assert (0 < 2 ^ (x - 1)) by (apply Z.pow_pos_nonneg; lia). nia. }
  destruct (G _ _ (proj1 A2) A1) as [GA1 GA2]. destruct (G _ _ (proj1 B2) B1) as [GB1 GB2]. clear G.
  assert (HI : (if f_exp k a =? 0 then f_man k a else (2 ^ fmant k + f_man k a) * 2 ^ (f_exp k a - 1)) =
               (if f_exp k b =? 0 then f_man k b else (2 ^ fmant k + f_man k b) * 2 ^ (f_exp k b - 1)) -> 
               f_neg k a = f_neg k b -> a = b).
  { intros EQ NN. apply fmag_inj in EQ; try lia. destruct EQ as [E1 E2]. rewrite A3, B3, E1, E2, NN. reflexivity. }
  destruct (f_neg k a) eqn:FA, (f_neg k b) eqn:FB.
  - apply HI; auto. lia.
  - assert (Z0 : (if f_exp k a =? 0 then f_man k a else (2 ^ fmant k + f_man k a) * 2 ^ (f_exp k a - 1)) = 0) by lia.
    apply GA2 in Z0. destruct Z0 as [Z1 Z2]. exfalso. apply Na. rewrite A3, Z1, Z2. ring.
  - assert (Z0 : (if f_exp k b =? 0 then f_man k b else (2 ^ fmant k + f_man k b) * 2 ^ (f_exp k b - 1)) = 0) by lia.
    apply GB2 in Z0. destruct Z0 as [Z1 Z2]. exfalso. apply Nb. rewrite B3, Z1, Z2. ring.
  - apply HI; auto.
Qed.

Lemma canon_eq kt a b : key_ok kt a -> key_ok kt b -> canon_key kt a -> canon_key kt b -> same_key kt a b -> a = b.
Proof.
  destruct kt as [k|]; destruct a as [x|x], b as [y|y]; cbn [key_ok same_key]; try tauto; try congruence.
  intros Ha Hb Ca Cb. destruct (is_float k) eqn:Hk; [|congruence].
  assert (Ca' : x <> 2 ^ (fmant k + fexpo k) /\ (is_nan k x = true -> x = if is_wide k then 9221120237041090561 else 2143289344)) by (destruct k; try discriminate; exact Ca).
  assert (Cb' : y <> 2 ^ (fmant k + fexpo k) /\ (is_nan k y = true -> y = if is_wide k then 9221120237041090561 else 2143289344)) by (destruct k; try discriminate; exact Cb).
  clear Ca Cb. destruct Ca' as [C1 C2], Cb' as [D1 D2].
  intros [[N1 N2]|(N1 & N2 & E)].
  - rewrite (C2 N1), (D2 N2). reflexivity.
  - f_equal. eapply f_val_inj; eauto.
Qed.

(** The keys stored by canonical histories are canonical. *)
Lemma run_canon kt l : forall h m m', Inv kt h m -> Forall (mop_ok kt) l -> Forall (mop_canon kt) l ->
  Forall (canon_key kt) (mp_keys m) -> run_map kt m l = Ok m' -> Forall (canon_key kt) (mp_keys m').
Proof.
  induction l as [|o l IH]; intros h m m' HI Ho Hc Hm; cbn [run_map].
  - intros E. injection E as <-. auto.
  - inversion Ho as [|? ? O1 O2]; inversion Hc as [|? ? C1 C2]; subst.
    destruct (do_mop_spec kt h m o HI O1) as (m1 & E1 & I1). rewrite E1. cbn [bind]. intros E.
    apply (IH (o :: h) m1 m'); auto. clear E IH.
    destruct o as [k v|k|]; cbn in E1, O1, C1.
    + destruct (Set_spec kt h m k v HI O1) as (m2 & E2 & _ & _ & HK). rewrite E2 in E1. injection E1 as ->.
      apply Forall_forall. intros x Hx. rewrite Forall_forall in Hm. destruct (HK x Hx) as [->|H]; auto.
    + destruct (Delete_spec kt h m k HI O1) as (m2 & E2 & _ & _ & HK). rewrite E2 in E1. injection E1 as ->.
      apply Forall_forall. intros x Hx. rewrite Forall_forall in Hm. auto.
    + injection E1 as <-. unfold mp_Clear. destruct (_ >? _); cbn; auto.
Qed.
