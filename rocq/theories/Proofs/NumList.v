(** Numeric list objects and the lists of values they stand for. *)
From Verif.Proofs Require Export ReachLemmas.

(** The list object: Append, Set and SetAll of numeric lists, against lists of values. *)
Inductive lop := LAppend (vs : list Z) | LSet (i v : Z) | LSetAll (vs : list Z).
Definition lop_ok (k : kind) (l : list Z) (o : lop) : Prop :=
  match o with
  | LAppend vs | LSetAll vs => Forall (in_range k) vs
  | LSet i v => 0 <= i < len l /\ in_range k v
  end.
Definition lop_sem (l : list Z) (o : lop) : list Z :=
  match o with
  | LAppend vs => l ++ vs
  | LSet i v => firstn (Z.to_nat i) l ++ v :: skipn (S (Z.to_nat i)) l
  | LSetAll vs => vs
  end.
Definition lop_do (k : kind) (nu : numbers) (o : lop) : res numbers :=
  match o with
  | LAppend vs => Ok (nu_append k nu vs)
  | LSet i v => nu_set k nu i v
  | LSetAll vs => Ok (nu_setall k vs)
  end.
Fixpoint lops_ok k l os : Prop :=
  match os with [] => True | o :: r => lop_ok k l o /\ lops_ok k (lop_sem l o) r end.
Fixpoint lops_do k nu os : res numbers :=
  match os with [] => Ok nu | o :: r => nu <- lop_do k nu o ;; lops_do k nu r end.
Definition lops_sem (l : list Z) (os : list lop) : list Z := fold_left lop_sem os l.

Definition nu_rep (k : kind) (nu : numbers) (l : list Z) : Prop :=
  nu_data nu = concat (map (le_enc (kind_size k)) l) /\ nu_len nu = len l.
Lemma len_items k l : len (concat (map (le_enc (kind_size k)) l)) = Z.of_nat (kind_size k) * len l.
Proof.
  induction l as [|v l IH]; cbn [map concat]; [rewrite Z.mul_0_r; reflexivity|].
  rewrite len_app, len_le_enc, IH, len_cons. lia.
Qed.
Lemma nu_rep_op k nu l o :
  nu_rep k nu l -> lop_ok k l o -> exists nu', lop_do k nu o = Ok nu' /\ nu_rep k nu' (lop_sem l o).
Proof.
  intros [ED EL] HO. destruct o; cbn [lop_do lop_sem lop_ok] in *.
  - eexists. split; [reflexivity|]. unfold nu_append, nu_rep. cbn [nu_data nu_len].
    rewrite append_items_spec, ED, EL, len_app, map_app, concat_app. auto.
  - destruct HO as [Hi Hv]. unfold nu_set. rewrite EL. replace (_ || _) with false by lia.
    change (item_size k) with (kind_size k). rewrite ED.
    destruct (nth_error l (Z.to_nat i)) as [x|] eqn:EX.
    2:{ apply nth_error_None in EX. unfold len in *. lia. }
    apply nth_error_split in EX. destruct EX as (a & c & -> & La).
    rewrite map_app, concat_app. cbn [map concat].
    rewrite (le_put_split (kind_size k) (concat (map (le_enc (kind_size k)) a)) (le_enc (kind_size k) x)).
    + rewrite bind_Ok. eexists. split; [reflexivity|]. unfold nu_rep. cbn [nu_data nu_len].
      rewrite <- La. rewrite firstn_app, firstn_all, Nat.sub_diag, firstn_O, app_nil_r.
      rewrite skipn_app. rewrite skipn_all2 by lia. replace (S (length a) - length a)%nat with 1%nat by lia.
      cbn [skipn app]. rewrite map_app, concat_app. cbn [map concat]. split; auto.
      rewrite !len_app, !len_cons. lia.
    + rewrite len_items. unfold len. lia.
    + apply len_le_enc.
  - eexists. split; [reflexivity|]. unfold nu_setall, nu_rep. cbn [nu_data nu_len].
    rewrite append_items_spec. auto.
Qed.
Lemma nu_rep_ops k os : forall nu l,
  nu_rep k nu l -> lops_ok k l os -> exists nu', lops_do k nu os = Ok nu' /\ nu_rep k nu' (lops_sem l os).
Proof.
  induction os as [|o os IH]; intros nu l HR HK; [exists nu; auto|]. destruct HK as [HO HK].
  destruct (nu_rep_op _ _ _ _ HR HO) as (nu1 & E1 & R1). destruct (IH _ _ R1 HK) as (nu2 & E2 & R2).
  exists nu2. cbn [lops_do]. rewrite E1, bind_Ok. auto.
Qed.
Lemma lops_range k os : forall l, Forall (in_range k) l -> lops_ok k l os -> Forall (in_range k) (lops_sem l os).
Proof.
  induction os as [|o os IH]; intros l HL HK; auto. destruct HK as [HO HK]. cbn [lops_sem fold_left].
  apply IH; auto. destruct o; cbn [lop_sem lop_ok] in *; auto.
  - apply Forall_app; auto.
  - destruct HO as [Hi Hv]. apply Forall_app. split; [|constructor; auto].
    + rewrite <- (firstn_skipn (Z.to_nat i) l) in HL. apply Forall_app in HL. tauto.
    + rewrite <- (firstn_skipn (S (Z.to_nat i)) l) in HL. apply Forall_app in HL. tauto.
Qed.


Lemma nu_get_rep k nu l i v :
  nu_rep k nu l -> k <> KBool -> Forall (in_range k) l -> nth_error l i = Some v -> nu_get k nu (Z.of_nat i) = Ok v.
Proof.
  intros [ED EL] HK HRG EV.
  assert (HV : in_range k v) by (rewrite Forall_forall in HRG; apply HRG; eapply nth_error_In; eauto).
  pose proof EV as EV'. apply nth_error_split in EV'. destruct EV' as (a & c & El & La).
  unfold nu_get. rewrite EL. replace (_ || _) with false.
  2:{ assert (i < length l)%nat by (apply nth_error_Some; congruence). unfold len. lia. }
  rewrite ED, El, map_app, concat_app. cbn [map concat].
  change (item_size k) with (kind_size k).
  rewrite slice_app by (rewrite ?len_items, ?len_le_enc; unfold len; lia).
  rewrite bind_Ok. f_equal. unfold get_item. rewrite le_dec_enc.
  destruct k; cbn [in_range kind_size] in *; try congruence;
    change (256 ^ Z.of_nat 1) with (2 ^ 8); change (256 ^ Z.of_nat 2) with (2 ^ 16);
    change (256 ^ Z.of_nat 4) with (2 ^ 32); change (256 ^ Z.of_nat 8) with (2 ^ 64);
    try (apply Z.mod_small; lia); unfold s8, s16, s32, s64; apply sN_mod; cbn; lia.
Qed.
Lemma nu_get_out k nu l i : nu_rep k nu l -> ~ (0 <= i < len l) -> nu_get k nu i = Panic.
Proof. intros [_ EL] H. unfold nu_get. rewrite EL. replace (_ || _) with true by lia. reflexivity. Qed.
Lemma nu_slice_rep k nu l :
  nu_rep k nu l -> k <> KBool -> Forall (in_range k) l -> nu_slice k nu = Ok l.
Proof.
  intros R HK HF. unfold nu_slice. replace (Z.to_nat (nu_len nu)) with (length l).
  2:{ destruct R as [_ R]. rewrite R. unfold len. lia. }
  assert (G : forall pre r, l = pre ++ r -> nu_slice_from k nu (length r) (len pre) = Ok r).
  { intros pre r. revert pre. induction r as [|x r IH]; intros pre E; [reflexivity|]. cbn [length nu_slice_from]. unfold len at 1.
    rewrite (nu_get_rep k nu l (length pre) x R HK HF).
    2:{ rewrite E, nth_error_app2, Nat.sub_diag by lia. reflexivity. }
    rewrite bind_Ok. replace (len pre + 1) with (len (pre ++ [x])) by (rewrite len_app; reflexivity).
    rewrite IH; [reflexivity|]. rewrite E, <- app_assoc. reflexivity. }
  apply (G [] l eq_refl).
Qed.
Lemma get_numbers_exact s n h3 m tail f k l :
  Sim s n h3 m tail -> 0 <= f -> seen n m f = Some (VNums k l) ->
  exists d, get_numbers s f k = Ok (Some (mkNumbers (nums_data k l) (len l) d)) /\ d = false.
Proof.
  intros HS Hf E. unfold get_numbers. pose proof (Sim_seen _ _ _ _ _ f HS Hf) as L. rewrite E in L.
  destruct L as (p & q & EO & ED & Hp & HV & Hf16 & HT). destruct HV as [NK HV].
  rewrite EO, bind_Ok. pose proof (len_wire_value_ge f (VNums k l)).
  replace (len (wire_value f (VNums k l)) =? 0) with false by lia.
  pose proof (len_nonneg p). pose proof (len_nonneg q).
  rewrite ED, slice_field, bind_Ok. change HeaderSize with 8.
  replace (len (wire_value f (VNums k l)) <? 8) with false by lia.
  assert (HD := decode_field f (VNums k l) ltac:(lia) (conj NK HV) ltac:(lia)).
  rewrite wire_form. rewrite slice_prefix by (now rewrite len_hdr). rewrite bind_Ok, HD, bind_Ok.
  cbn [v_f40 v_rest]. change (item_size k) with (kind_size k). pose proof (kind_size_pos k).
  pose proof (len_nonneg l). fold (nums_data k l).
  replace (8 + len (nums_data k l) - 8) with (len l * Z.of_nat (kind_size k))
    by (rewrite len_nums_data; lia).
  rewrite Z.quot_mul by lia. replace (len l * Z.of_nat (kind_size k) <? 0) with false by lia.
  rewrite <- (app_nil_r (hdr _ _ _ ++ nums_data k l)), <- app_assoc.
  rewrite slice_app by (rewrite ?len_hdr, ?len_nums_data; lia). rewrite bind_Ok.
  rewrite Z.div_mul by lia. eexists. split; reflexivity.
Qed.
