(** Messages that are the same, and getters that agree. *)
From Verif.Proofs Require Export PatchApply.

Lemma nan_bits n e v : 0 < n -> 0 < e ->
  ((Z.land (Z.shiftr v n) (2 ^ e - 1) =? 2 ^ e - 1) && negb (Z.land v (2 ^ n - 1) =? 0) = true <->
   (2 ^ e - 1) * 2 ^ n < v mod 2 ^ (n + e)).
Proof.
  intros Hn He. assert (P : 0 < 2 ^ n) by (apply Z.pow_pos_nonneg; lia). assert (Q : 0 < 2 ^ e) by (apply Z.pow_pos_nonneg; lia).
  rewrite !Z.sub_1_r, <- !Z.ones_equiv. rewrite !Z.land_ones by lia. rewrite Z.ones_equiv, <- Z.sub_1_r.
  rewrite Z.shiftr_div_pow2 by lia. rewrite Z.pow_add_r by lia.
  rewrite Z.rem_mul_r by lia.
  pose proof (Z.mod_pos_bound v (2 ^ n) P). pose proof (Z.mod_pos_bound (v / 2 ^ n) (2 ^ e) Q).
  set (x := (v / 2 ^ n) mod 2 ^ e) in *. set (y := v mod 2 ^ n) in *.
  rewrite andb_true_iff, negb_true_iff, Z.eqb_eq, Z.eqb_neq. split; [nia|]. intros H1. split; nia.
Qed.
Lemma is_nan_iff k v : is_nan k v = true <-> not_a_number k v.
Proof.
  destruct k; cbn [is_nan not_a_number]; try (split; [discriminate|tauto]).
  - change 255 with (2 ^ 8 - 1). apply (nan_bits 23 8); lia.
  - change 2047 with (2 ^ 11 - 1). apply (nan_bits 52 11); lia.
Qed.
Lemma num_equal_iff k a b : in_range k a -> in_range k b -> num_equal k a b = true -> equal_numbers k a b.
Proof.
  intros Ha Hb. unfold num_equal, equal_numbers, go_eq. rewrite orb_true_iff, !andb_true_iff, !is_nan_iff, orb_true_iff, Z.eqb_eq.
  intros [[A B]|[_ [E|E]]]; [tauto|tauto|]. right. right.
  destruct k; try discriminate E; cbn [is_zero]; apply andb_true_iff in E; exact E.
Qed.
Lemma equal_num_equal k a b : equal_numbers k a b -> num_equal k a b = true.
Proof.
  unfold equal_numbers. intros [->|[[A B]|[A B]]].
  - apply num_equal_refl.
  - unfold num_equal. apply is_nan_iff in A, B. now rewrite A, B.
  - unfold num_equal, go_eq.
    destruct k; cbn [is_zero is_nan] in *; try (apply Z.eqb_eq in A, B; subst; reflexivity).
    + unfold f32_is_zero. rewrite A, B, orb_true_r. apply orb_true_iff in A, B.
      destruct A as [A|A], B as [B|B]; apply Z.eqb_eq in A, B; subst; reflexivity.
    + unfold f64_is_zero. rewrite A, B, orb_true_r. apply orb_true_iff in A, B.
      destruct A as [A|A], B as [B|B]; apply Z.eqb_eq in A, B; subst; reflexivity.
Qed.

Lemma typed_scalar k o : typed_field (DScalar k) o -> scalar_or_none k o.
Proof. destruct o as [[]|]; cbn; tauto. Qed.
Lemma typed_bytes s o : typed_field (DBytes s) o -> bytes_or_none o.
Proof. destruct o as [[]|]; cbn; tauto. Qed.
Lemma num_range k o : typed_field (DScalar k) o -> valid_opt o -> in_range k (num_in o).
Proof.
  destruct o as [[]|]; cbn; try tauto.
  - intros [-> _]. auto.
  - intros _ _. destruct k; cbn; lia.
Qed.
Definition agreeing (d : fdesc) : Prop := forall f s t n g g' m m',
  Sim s n (hdr3 g) m [] -> Sim t n (hdr3 g') m' [] -> 0 <= f < Z.of_nat n -> f < 2 ^ 16 ->
  typed_field d (flook f m) -> typed_field d (flook f m') ->
  (same_field d (flook f m) (flook f m') <-> agree_field d f s t).
Lemma agreeing_fields l : Forall (fun x => match x with Some d => agreeing d | None => True end) l ->
  forall i s t n g g' m m', Sim s n (hdr3 g) m [] -> Sim t n (hdr3 g') m' [] ->
  0 <= i -> i + len l <= Z.of_nat n -> i + len l <= 2 ^ 16 ->
  each (fun d j => typed_field d (flook j m)) i l -> each (fun d j => typed_field d (flook j m')) i l ->
  (each (fun d j => same_field d (flook j m) (flook j m')) i l <-> each (fun d j => agree_field d j s t) i l).
Proof.
  induction 1 as [|x r Hx Hr IH]; intros i s t n g g' m m' S S' Hi Hn Hl HT HT'; [reflexivity|].
  rewrite len_cons in *. pose proof (len_nonneg r).
  destruct x as [d|].
  - destruct HT as [HT1 HT2]. destruct HT' as [HT1' HT2']. cbn [each].
    rewrite (Hx i s t n g g' m m') by (auto; lia). now rewrite (IH (i + 1) s t n g g' m m') by (auto; lia).
  - apply (IH (i + 1) s t n g g' m m'); auto; lia.
Qed.
(** Struct types with at most 2^16 fields at every level. *)
Lemma all_agreeing d : numbered_ok d -> agreeing d.
Proof.
  induction d using fdesc_rect'; intros HN f s0 t n g g' m m' S S' Hf Hf' HT HT'.
  - destruct (Sim_fits _ _ _ _ _ S) as [_ V]. destruct (Sim_fits _ _ _ _ _ S') as [_ V'].
    cbn [same_field agree_field].
    rewrite (Sim_get_scalar _ _ _ _ _ f k S), (Sim_get_scalar _ _ _ _ _ f k S')
      by (try lia; rewrite seen_lt by lia; now apply typed_scalar).
    rewrite !seen_lt by lia. split.
    + intros E. eexists _, _. split; [reflexivity|]. split; [reflexivity|].
      apply num_equal_iff; auto using num_range, valid_flook.
    + intros (a & b & A & B & E). injection A as <-. injection B as <-. now apply equal_num_equal.
  - cbn [same_field agree_field].
    rewrite (Sim_GetBytes _ _ _ _ _ f S), (Sim_GetBytes _ _ _ _ _ f S')
      by (try lia; rewrite seen_lt by lia; eapply typed_bytes; eauto).
    rewrite !seen_lt by lia. split.
    + intros E. rewrite E. eexists. split; reflexivity.
    + intros (b & A & B). congruence.
  - cbn [same_field agree_field].
    pose proof (GetNestedStruct_spec _ _ _ _ _ f (length l) S ltac:(lia)) as G.
    pose proof (GetNestedStruct_spec _ _ _ _ _ f (length l) S' ltac:(lia)) as G'.
    rewrite seen_lt in G, G' by lia. cbn [typed_field] in HT, HT'. destruct HN as [HN1 HN2].
    assert (LN : len l = Z.of_nat (length l)) by reflexivity.
    destruct (flook f m) as [[]|] eqn:E; try contradiction;
      destruct (flook f m') as [[]|] eqn:E'; try contradiction.
    + destruct G as (a & EG & SG & DG). destruct G' as (b & EG' & SG' & DG').
      assert (HF : Forall (fun x => match x with Some d => agreeing d | None => True end) l).
      { clear - H HN2. revert HN2. generalize 0. induction H as [|[d|] r Hd Hr IH]; intros i HN; constructor; auto.
        - apply Hd. apply HN.
        - eapply IH. apply HN.
        - eapply IH. exact HN. }
      rewrite (agreeing_fields l HF 0 a b (length l) f f m0 m1); try tauto; try lia.
      rewrite EG, EG'. split.
      * intros A. right. exists a, b. auto.
      * intros [[A _]|(a' & b' & A & B & C)]; [discriminate|].
        assert (a' = a) by congruence. assert (b' = b) by congruence. subst. exact C.
    + destruct G as (a & EG & SG & DG). rewrite EG, G'. split; [tauto|].
      intros [[A _]|(a' & b' & A & B & C)]; discriminate.
    + destruct G' as (b & EG' & SG' & DG'). rewrite EG', G. split; [tauto|].
      intros [[_ A]|(a' & b' & A & B & C)]; discriminate.
    + rewrite G, G'. tauto.
  - contradiction.
Qed.
Lemma agree_iff l s t g g' m m' :
  Sim s (length l) (hdr3 g) m [] -> Sim t (length l) (hdr3 g') m' [] ->
  len l <= 2 ^ 16 -> each_field (fun d _ => numbered_ok d) l -> typed l m -> typed l m' ->
  (same_message l m m' <-> agree l s t).
Proof.
  intros S S' HL HN HT HT'. assert (LN : len l = Z.of_nat (length l)) by reflexivity.
  eapply (agreeing_fields l) with (n := length l) (g := g) (g' := g'); eauto; try lia.
  clear - HN. revert HN. unfold each_field. generalize 0.
  induction l as [|[d|] r IH]; intros i HN; constructor; auto.
  - apply all_agreeing. apply HN.
  - eapply IH. apply HN.
  - eapply IH. exact HN.
Qed.

(** No operation exactly when nothing differs. *)
Lemma same_no_diff d : forall f o o', same_field d o o' -> mdiff_field f d o o' = [].
Proof.
  induction d using fdesc_rect'; intros f o o' E; cbn [same_field] in E.
  - cbn [mdiff_field]. now rewrite E.
  - cbn [mdiff_field]. rewrite E. unfold bytes_equal. destruct (list_eq_dec _ _ _); congruence.
  - destruct o as [[]|], o' as [[]|]; try contradiction; try reflexivity.
    rewrite mdiff_struct. assert (mdiff 0 l m m0 = []) as ->; [|reflexivity].
    revert E. generalize 0. induction H as [|x r Hx Hr IH]; intros i E; cbn [mdiff]; auto.
    destruct x as [d|]; [|auto]. destruct E as [E1 E2]. rewrite Hx, IH by auto. reflexivity.
  - contradiction.
Qed.
Lemma mdiff_nil l m m' : typed l m -> typed l m' -> (mdiff 0 l m m' = [] <-> same_message l m m').
Proof.
  unfold typed, same_message, each_field. generalize 0. induction l as [|[d|] r IH]; intros i HT HT'; cbn [mdiff each]; [tauto| |auto].
  destruct HT as [HT1 HT2]. destruct HT' as [HT1' HT2']. rewrite <- (IH (i + 1)) by auto. split.
  - intros E. apply app_eq_nil in E. destruct E as [E1 E2]. split; auto. eapply no_diff_same; eauto.
  - intros [E1 E2]. rewrite (same_no_diff d), E2 by auto. reflexivity.
Qed.
(** At most one operation per field. *)
Lemma mdiff_field_len f d o o' : (length (mdiff_field f d o o') <= 1)%nat.
Proof.
  destruct d.
  - cbn [mdiff_field]. destruct (num_equal _ _ _); cbn; lia.
  - cbn [mdiff_field]. destruct (bytes_equal _ _); cbn; try lia. destruct (_ && _); cbn; lia.
  - destruct o as [[]|], o' as [[]|]; try (cbn; lia). rewrite mdiff_struct. unfold struct_ops.
    destruct (mdiff _ _ _ _); cbn; lia.
  - cbn. lia.
Qed.
Lemma mdiff_len l i m m' : (length (mdiff i l m m') <= length l)%nat.
Proof.
  revert i. induction l as [|[d|] r IH]; intros i; cbn [mdiff length]; [lia| |].
  - rewrite app_length. pose proof (mdiff_field_len i d (flook i m) (flook i m')). pose proof (IH (i + 1)). lia.
  - pose proof (IH (i + 1)). lia.
Qed.
