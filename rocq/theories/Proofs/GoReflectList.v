From Verif.Spec Require Import GoReflectList.
From Verif.Proofs Require Import BaseLemmas ListHeapProofs GoReflect.
From Coq Require Import Lia.

Lemma putAt_length {A} (l : list A) i x : length (putAt l i x) = length l.
Proof. revert i. induction l as [|a l IH]; intros [|i]; cbn; auto. Qed.
Lemma putAt_same {A} (l : list A) i x : (i < length l)%nat -> nth_error (putAt l i x) i = Some x.
Proof. revert i. induction l as [|a l IH]; intros [|i] H; cbn in *; try lia; auto. apply IH. lia. Qed.
Lemma putAt_other {A} (l : list A) i j x : i <> j -> nth_error (putAt l i x) j = nth_error l j.
Proof. revert i j. induction l as [|a l IH]; intros [|i] [|j] H; cbn; auto; try congruence. Qed.
Lemma arr_nth st a l : nth_error st a = Some l -> arr st a = l.
Proof. intros E. unfold arr. apply nth_error_nth with (d := []) in E. exact E. Qed.
Lemma firstn_putAt {A} (l : list A) i x n : (n <= i)%nat -> firstn n (putAt l i x) = firstn n l.
Proof. revert i n. induction l as [|a l IH]; intros [|i] [|n] H; cbn; auto; try lia. f_equal. apply IH. lia. Qed.
Lemma firstn_putAt_in {A} (l : list A) i x n : (i < n)%nat -> firstn n (putAt l i x) = putAt (firstn n l) i x.
Proof. revert i n. induction l as [|a l IH]; intros [|i] [|n] H; cbn; auto; try lia. f_equal. apply IH. lia. Qed.
Lemma nth_snoc {A} (l : list A) x i y : nth_error (l ++ [x]) i = Some y -> nth_error l i = Some y \/ (i = length l /\ x = y).
Proof.
  intros H. destruct (Nat.lt_ge_cases i (length l)) as [L|L].
  - rewrite nth_error_app1 in H by exact L. auto.
  - rewrite nth_error_app2 in H by exact L. destruct (i - length l)%nat as [|k] eqn:E; [|destruct k; discriminate]. injection H as ->. right. split; [lia|reflexivity].
Qed.
Lemma nth_lt {A} (l : list A) i x : nth_error l i = Some x -> (i < length l)%nat.
Proof. intros H. apply nth_error_Some. congruence. Qed.

Lemma nth_error_firstn_lt {A} (l : list A) n i : (i < n)%nat -> nth_error (firstn n l) i = nth_error l i.
Proof. revert n i. induction l as [|a l IH]; intros [|n] [|i] H; cbn; auto; try lia. apply IH. lia. Qed.

Section Lists.
Variable str : rvalue -> res bytes.
Variable room : nat -> nat.
Definition acc_of (k : lkind) (v : rvalue) : option rvalue := match elem_of str k v with Ok e => Some e | _ => None end.

(** The cells of the abstract lists are the visible parts of arrays; every live list sees all of the cells of its group. *)
Record rel (s : rlstate) (c : cells) (to : nat -> nat) : Prop := mkRel {
  r_inj : forall g g', (g < length c.(c_cells))%nat -> (g' < length c.(c_cells))%nat -> to g = to g' -> g = g';
  r_lt : forall g, (g < length c.(c_cells))%nat -> (to g < length s.(ls_st))%nat;
  r_cells : forall g l, nth_error c.(c_cells) g = Some l -> firstn (length l) (arr s.(ls_st) (to g)) = l;
  r_len : length s.(ls_live) = length c.(c_live);
  r_live : forall j k g, nth_error c.(c_live) j = Some (k, g) ->
    exists l, nth_error c.(c_cells) g = Some l /\ nth_error s.(ls_live) j = Some (mkLV k (to g) (length l)) }.

Lemma rel_live s c to j lv : rel s c to -> nth_error s.(ls_live) j = Some lv ->
  exists g l, nth_error c.(c_live) j = Some (lv.(lv_kind), g) /\ nth_error c.(c_cells) g = Some l /\ lv = mkLV lv.(lv_kind) (to g) (length l).
Proof.
  intros R E. assert (L := nth_lt _ _ _ E). rewrite (r_len _ _ _ R) in L. destruct (nth_error (c_live c) j) as [[k g]|] eqn:X; [|apply nth_error_None in X; lia].
  destruct (r_live _ _ _ R j k g X) as (l & A & B). rewrite E in B. injection B as ->. exists g, l. cbn. auto.
Qed.
Lemma firstn_len {A} (l a : list A) : firstn (length l) a = l -> (length l <= length a)%nat.
Proof. intros H. rewrite <- H at 1. rewrite firstn_length. lia. Qed.

Lemma arr_app1 st x a : (a < length st)%nat -> arr (st ++ [x]) a = arr st a.
Proof. intros H. unfold arr. apply app_nth1. exact H. Qed.
Lemma arr_putAt st a b x : (a < length st)%nat -> arr (putAt st a x) b = if (a =? b)%nat then x else arr st b.
Proof.
  intros H. unfold arr. destruct (Nat.eqb_spec a b) as [<-|N].
  - apply nth_error_nth. apply putAt_same. exact H.
  - destruct (nth_error st b) as [y|] eqn:E.
    + rewrite (nth_error_nth _ _ _ E). apply nth_error_nth. rewrite putAt_other by exact N. exact E.
    + assert (L := E). apply nth_error_None in L. rewrite !nth_overflow; auto. rewrite putAt_length. exact L.
Qed.

Lemma rel_step s c to o : rel s c to -> exists to', rel (rlstep str room s o) (cstep acc_of c o) to'.
Proof.
  intros R. destruct o as [k items spare|j|j i v|j v]; cbn [rlstep cstep].
  - exists (fun g => if (g =? length c.(c_cells))%nat then length s.(ls_st) else to g).
    assert (NT : forall g, (g < length c.(c_cells))%nat -> (g =? length c.(c_cells))%nat = false) by (intros g H; apply Nat.eqb_neq; lia).
    constructor; cbn [c_cells c_live ls_st ls_live].
    + rewrite app_length. cbn [length]. intros g g' H H' E. destruct (Nat.eqb_spec g (length (c_cells c))) as [->|N], (Nat.eqb_spec g' (length (c_cells c))) as [->|N']; auto.
      * assert (X := r_lt _ _ _ R g' ltac:(lia)). lia.
      * assert (X := r_lt _ _ _ R g ltac:(lia)). lia.
      * apply (r_inj _ _ _ R); auto; lia.
    + rewrite !app_length. cbn [length]. intros g H. destruct (Nat.eqb_spec g (length (c_cells c))) as [->|N]; [lia|]. assert (X := r_lt _ _ _ R g ltac:(lia)). lia.
    + intros g l E. apply nth_snoc in E. destruct E as [E|(-> & <-)].
      * assert (L := nth_lt _ _ _ E). rewrite (NT _ L). rewrite arr_app1 by (apply (r_lt _ _ _ R); exact L). exact (r_cells _ _ _ R g l E).
      * rewrite Nat.eqb_refl. unfold arr. rewrite app_nth2, Nat.sub_diag by lia. cbn [nth]. rewrite firstn_app, Nat.sub_diag, firstn_O, app_nil_r. apply firstn_all.
    + rewrite !app_length, (r_len _ _ _ R). reflexivity.
    + intros j k' g E. apply nth_snoc in E. destruct E as [E|(-> & [= <- <-])].
      * destruct (r_live _ _ _ R j k' g E) as (l & A & B). exists l. assert (L := nth_lt _ _ _ A). rewrite (NT _ L). rewrite nth_error_app1 by exact L. split; [exact A|].
        rewrite nth_error_app1 by exact (nth_lt _ _ _ B). exact B.
      * exists items. rewrite Nat.eqb_refl. rewrite nth_error_app2, Nat.sub_diag by lia. split; [reflexivity|].
        rewrite nth_error_app2; rewrite (r_len _ _ _ R); [|lia]. rewrite Nat.sub_diag. reflexivity.
  - exists to. destruct (nth_error (c_live c) j) as [[k g]|] eqn:X.
    + destruct (r_live _ _ _ R j k g X) as (l & A & B). rewrite B. constructor; cbn [c_cells c_live ls_st ls_live]; try solve [exact (r_inj _ _ _ R)|exact (r_lt _ _ _ R)|exact (r_cells _ _ _ R)|exact (r_len _ _ _ R)|exact (r_live _ _ _ R)].
      * rewrite !app_length, (r_len _ _ _ R). reflexivity.
      * intros j' k' g' E. apply nth_snoc in E. destruct E as [E|(-> & [= <- <-])].
        -- destruct (r_live _ _ _ R j' k' g' E) as (l' & A' & B'). exists l'. split; [exact A'|]. rewrite nth_error_app1 by exact (nth_lt _ _ _ B'). exact B'.
        -- exists l. split; [exact A|]. rewrite nth_error_app2; rewrite (r_len _ _ _ R); [|lia]. rewrite Nat.sub_diag. reflexivity.
    + assert (Y : nth_error (ls_live s) j = None) by (apply nth_error_None; rewrite (r_len _ _ _ R); apply nth_error_None; exact X). rewrite Y. exact R.
  - exists to. destruct (nth_error (c_live c) j) as [[k g]|] eqn:X.
    2: { assert (Y : nth_error (ls_live s) j = None) by (apply nth_error_None; rewrite (r_len _ _ _ R); apply nth_error_None; exact X). rewrite Y. exact R. }
    destruct (r_live _ _ _ R j k g X) as (l & A & B). rewrite A, B. unfold acc_of, SetAt. cbn [lv_kind lv_arr LenOf lv_len].
    destruct (elem_of str k v) as [e| | |]; try exact R. cbn [bind]. unfold LenOf. cbn [lv_len].
    destruct ((0 <=? i) && (i <? Z.of_nat (length l))) eqn:I.
    2: { replace ((i <? 0) || (Z.of_nat (length l) <=? i)) with true; [exact R|]. symmetry. apply andb_false_iff in I. apply orb_true_iff. rewrite Z.leb_gt, Z.ltb_ge in I. rewrite Z.ltb_lt, Z.leb_le. lia. }
    apply andb_true_iff in I. rewrite Z.leb_le, Z.ltb_lt in I. replace ((i <? 0) || (Z.of_nat (length l) <=? i)) with false by (symmetry; apply orb_false_iff; rewrite Z.ltb_ge, Z.leb_gt; lia).
    assert (Lg := nth_lt _ _ _ A). assert (La := r_lt _ _ _ R g Lg). assert (F := r_cells _ _ _ R g l A).
    constructor; cbn [c_cells c_live ls_st ls_live]; rewrite ?putAt_length; try solve [exact (r_inj _ _ _ R)|exact (r_lt _ _ _ R)|exact (r_cells _ _ _ R)|exact (r_len _ _ _ R)|exact (r_live _ _ _ R)].
    + intros g' l' E. rewrite arr_putAt by exact La. destruct (Nat.eqb_spec (to g) (to g')) as [Q|Q].
      * assert (Lg' : (g' < length (c_cells c))%nat) by (apply nth_lt in E; rewrite putAt_length in E; exact E).
        assert (g = g') by (apply (r_inj _ _ _ R); auto). subst g'. rewrite putAt_same in E by exact Lg. injection E as <-. rewrite putAt_length.
        rewrite firstn_putAt_in by lia. rewrite F. reflexivity.
      * rewrite putAt_other in E by (intros ->; congruence). exact (r_cells _ _ _ R g' l' E).
    + intros j' k' g' E. destruct (r_live _ _ _ R j' k' g' E) as (l' & A' & B'). destruct (Nat.eq_dec g g') as [<-|N].
      * rewrite A in A'. injection A' as <-. exists (putAt l (Z.to_nat i) e). rewrite putAt_same by exact Lg. rewrite putAt_length. auto.
      * exists l'. rewrite putAt_other by exact N. auto.
  - exists to. destruct (nth_error (ls_live s) j) as [lv|] eqn:Y; [|exact R].
    destruct (rel_live _ _ _ _ _ R Y) as (g & l & X & A & E). unfold AppendTo.
    destruct (elem_of str (lv_kind lv) v) as [e| | |]; try exact R. cbn [bind].
    assert (Lg := nth_lt _ _ _ A). assert (La := r_lt _ _ _ R g Lg). assert (F := r_cells _ _ _ R g l A).
    assert (EA : lv_arr lv = to g) by (rewrite E; reflexivity). assert (EL : lv_len lv = length l) by (rewrite E; reflexivity). rewrite EA, EL.
    destruct (Nat.ltb_spec (length l) (length (arr (ls_st s) (to g)))) as [H|H].
    + constructor; cbn [ls_st ls_live]; rewrite ?putAt_length; try solve [exact (r_inj _ _ _ R)|exact (r_lt _ _ _ R)|exact (r_cells _ _ _ R)|exact (r_len _ _ _ R)|exact (r_live _ _ _ R)].
      intros g' l' E'. rewrite arr_putAt by exact La. destruct (Nat.eqb_spec (to g) (to g')) as [Q|Q]; [|exact (r_cells _ _ _ R g' l' E')].
      assert (g = g') by (apply (r_inj _ _ _ R); auto; exact (nth_lt _ _ _ E')). subst g'. rewrite A in E'. injection E' as <-. rewrite firstn_putAt by lia. exact F.
    + constructor; cbn [ls_st ls_live]; try solve [exact (r_inj _ _ _ R)|exact (r_lt _ _ _ R)|exact (r_cells _ _ _ R)|exact (r_len _ _ _ R)|exact (r_live _ _ _ R)].
      * intros g' H'. rewrite app_length. assert (X' := r_lt _ _ _ R g' H'). lia.
      * intros g' l' E'. rewrite arr_app1 by (apply (r_lt _ _ _ R); exact (nth_lt _ _ _ E')). exact (r_cells _ _ _ R g' l' E').
Qed.
Lemma rel_run ops : forall s c to, rel s c to -> exists to', rel (fold_left (rlstep str room) ops s) (fold_left (cstep acc_of) ops c) to'.
Proof.
  induction ops as [|o ops IH]; intros s c to R; [exists to; exact R|]. cbn [fold_left]. destruct (rel_step s c to o R) as (to' & R'). exact (IH _ _ _ R').
Qed.
Lemma rel_start : rel (mkLS [] []) (mkC [] []) (fun g => g).
Proof. constructor; cbn; intros; try lia; destruct g + destruct j; discriminate. Qed.

Theorem refines ops : length (rlrun str room ops).(ls_live) = length (crun acc_of ops).(c_live) /\
  forall j l, nth_error (rlrun str room ops).(ls_live) j = Some l ->
    exists items, cget (crun acc_of ops) j = Some items /\ LenOf l = Z.of_nat (length items) /\
      forall i, GetAt (rlrun str room ops).(ls_st) l i = if (0 <=? i) && (i <? Z.of_nat (length items)) then match nth_error items (Z.to_nat i) with Some v => Ok v | None => Panic end else Panic.
Proof.
  destruct (rel_run ops _ _ _ rel_start) as (to & R). fold (rlrun str room ops) in R. fold (crun acc_of ops) in R. split; [exact (r_len _ _ _ R)|].
  intros j l E. destruct (rel_live _ _ _ _ _ R E) as (g & items & X & A & Q). exists items. split; [unfold cget; rewrite X; exact A|].
  assert (EL : lv_len l = length items) by (rewrite Q; reflexivity). assert (EA : lv_arr l = to g) by (rewrite Q; reflexivity).
  unfold LenOf. rewrite EL. split; [reflexivity|]. intros i. unfold GetAt, LenOf. rewrite EL, EA.
  destruct ((0 <=? i) && (i <? Z.of_nat (length items))) eqn:I.
  - apply andb_true_iff in I. rewrite Z.leb_le, Z.ltb_lt in I. replace ((i <? 0) || (Z.of_nat (length items) <=? i)) with false by (symmetry; apply orb_false_iff; rewrite Z.ltb_ge, Z.leb_gt; lia).
    rewrite <- (r_cells _ _ _ R g items A) at 1. rewrite nth_error_firstn_lt by lia. reflexivity.
  - replace ((i <? 0) || (Z.of_nat (length items) <=? i)) with true; [reflexivity|]. symmetry. apply andb_false_iff in I. apply orb_true_iff. rewrite Z.leb_gt, Z.ltb_ge in I. rewrite Z.ltb_lt, Z.leb_le. lia.
Qed.
Lemma set_then_get ops j i v l e : nth_error (rlrun str room ops).(ls_live) j = Some l -> elem_of str l.(lv_kind) v = Ok e -> 0 <= i < LenOf l ->
  (rlrun str room (ops ++ [SetItem j i v])).(ls_live) = (rlrun str room ops).(ls_live) /\ GetAt (rlrun str room (ops ++ [SetItem j i v])).(ls_st) l i = Ok e /\
  forall i', i' <> i -> GetAt (rlrun str room (ops ++ [SetItem j i v])).(ls_st) l i' = GetAt (rlrun str room ops).(ls_st) l i'.
Proof.
  intros E T I. destruct (rel_run ops _ _ _ rel_start) as (to & R). fold (rlrun str room ops) in R.
  destruct (rel_live _ _ _ _ _ R E) as (g & x & X & A & Q). assert (EL : lv_len l = length x) by (rewrite Q; reflexivity). assert (EA : lv_arr l = to g) by (rewrite Q; reflexivity).
  assert (La := r_lt _ _ _ R g (nth_lt _ _ _ A)). assert (F := firstn_len _ _ (r_cells _ _ _ R g x A)).
  unfold LenOf in I. rewrite EL in I.
  assert (B : (i <? 0) || (LenOf l <=? i) = false) by (unfold LenOf; rewrite EL; apply orb_false_iff; rewrite Z.ltb_ge, Z.leb_gt; lia).
  assert (ST : rlrun str room (ops ++ [SetItem j i v]) = mkLS (putAt (ls_st (rlrun str room ops)) (lv_arr l) (putAt (arr (ls_st (rlrun str room ops)) (lv_arr l)) (Z.to_nat i) e)) (ls_live (rlrun str room ops))).
  { unfold rlrun at 1. rewrite fold_left_app. fold (rlrun str room ops). cbn [fold_left rlstep]. rewrite E. unfold SetAt. rewrite T. cbn [bind]. rewrite B. reflexivity. }
  rewrite ST. cbn [ls_live ls_st].
  split; [reflexivity|]. split.
  - unfold GetAt. rewrite B, EA, arr_putAt, Nat.eqb_refl by exact La. rewrite putAt_same by lia. reflexivity.
  - intros i' N. unfold GetAt. destruct ((i' <? 0) || (LenOf l <=? i')) eqn:B'; [reflexivity|]. apply orb_false_iff in B'. rewrite Z.ltb_ge, Z.leb_gt in B'.
    rewrite EA, arr_putAt, Nat.eqb_refl by exact La. rewrite putAt_other by lia. reflexivity.
Qed.
End Lists.

Lemma kind_eqb_eq a b : a <> KBool -> b <> KBool -> kind_eqb a b = true <-> a = b.
Proof. intros A B. unfold kind_eqb. rewrite Z.eqb_eq. split; [|intros ->; reflexivity]. destruct a, b; cbn; try congruence; discriminate. Qed.
Lemma elements str k v : (k = LKBools \/ (exists n, n <> KBool /\ k = LKNums n) \/ k = LKBytes) ->
  (element k v -> elem_of str k v = Ok v) /\ (~ element k v -> elem_of str k v = Panic).
Proof.
  intros [->|[(n & N & ->)| ->]]; cbn.
  - split; [intros (b & ->); reflexivity|]. intros H. destruct v; try reflexivity. destruct H. eauto.
  - split; [intros (z & ->); cbn; unfold kind_eqb; rewrite Z.eqb_refl; reflexivity|]. intros H.
    destruct v as [b|k z|k z [g|]|[b|]|[|c b]|h fs|l]; cbn; try reflexivity.
    + destruct (kind_eqb k n) eqn:E; [|reflexivity]. unfold kind_eqb in E. apply Z.eqb_eq in E. assert (k = n) by (destruct k, n; cbn in E; congruence + discriminate). subst k. destruct H. eauto.
    + destruct (ByValue g z); reflexivity.
  - split; [intros (b & ->); reflexivity|]. intros H. destruct v; try reflexivity. destruct H. eauto.
Qed.
Lemma elements_taken sprint fuel reg k v : k <> LKNums KBool -> element k v -> elem_of (String_ sprint (S fuel) reg) k v = Ok v.
Proof.
  intros N H. destruct k as [|n| | |fs]; cbn in H; destruct H as (x & ->); cbn; try reflexivity. unfold kind_eqb. rewrite Z.eqb_refl. reflexivity.
Qed.

(** ** NewField *)
Lemma nums_kind_list k : k <> KBool -> nums_kind (list_type k) = Some k.
Proof. destruct k; intros; try congruence; reflexivity. Qed.
Lemma new_scalar byValue fs d eg k : k <> KBool -> fd_ty d = scalar_type k ->
  NewField byValue fs d eg = match fd_enum d, k with Some _, KU8 | Some _, KU16 => match eg with Some g => Ok (REnum k 0 (Some g)) | None => Panic end | _, _ => Ok (RNum k 0) end.
Proof. intros N E. unfold NewField. rewrite E. destruct k; try congruence; reflexivity. Qed.
Lemma new_field byValue fs d eg : (fd_enum d <> None -> eg <> None) ->
  (exists k, fd_ty d = scalar_type k) \/ fd_ty d = FTBytes \/ fd_ty d = FTString \/ fd_ty d = FTListBools \/
  (exists k, k <> KBool /\ fd_ty d = list_type k) \/ fd_ty d = FTListBytes \/ fd_ty d = FTListStrings ->
  exists v, NewField byValue fs d eg = Ok v /\ new_value d v.
Proof.
  intros EG [(k & E)|[E|[E|[E|[(k & N & E)|[E|E]]]]]].
  - destruct (Z.eq_dec (scalar_type k) (scalar_type KBool)) as [B|B].
    + rewrite B in E. exists (RBool false). unfold NewField, new_value. rewrite E. cbn. auto.
    + assert (NB : k <> KBool) by congruence. rewrite (new_scalar byValue fs d eg k NB E). unfold new_value.
      assert (D : exists v, Ok v = (match fd_enum d, k with Some _, KU8 | Some _, KU16 => match eg with Some g => Ok (REnum k 0 (Some g)) | None => Panic end | _, _ => Ok (RNum k 0) end) /\ (v = RNum k 0 \/ exists g, v = REnum k 0 g)).
      { destruct (fd_enum d) as [e|].
        - destruct eg as [g|]; [|destruct (EG ltac:(discriminate)); reflexivity]. destruct k; eauto 6.
        - exists (RNum k 0). split; [destruct k; reflexivity|auto]. }
      destruct D as (v & D & V). rewrite <- D. exists v. split; [reflexivity|]. destruct V as [->|(g & ->)]; cbn; auto.
  - exists (RBytes None). unfold NewField, new_value. rewrite E. cbn. auto.
  - exists (RStr []). unfold NewField, new_value. rewrite E. cbn. auto.
  - exists (RList (RBools [])). unfold NewField, new_value. rewrite E. cbn. auto.
  - exists (RList (RNums k [])). unfold NewField, new_value. rewrite E. cbn. split; [|auto]. destruct k; try congruence; reflexivity.
  - exists (RList (RBlobs false [])). unfold NewField, new_value. rewrite E. cbn. auto.
  - exists (RList (RBlobs true [])). unfold NewField, new_value. rewrite E. cbn. auto.
Qed.
Lemma new_struct byValue fs d eg : fd_ty d = FTStruct ->
  exists s, NewField byValue fs d eg = Ok (RStruct (hstart s) fs) /\ reached (length fs) s [] /\ (new_value d (RStruct (hstart s) fs) <-> fd_child d = Some fs).
Proof.
  intros E. assert (N : exists s, New (length fs) = Ok s) by (unfold New; eexists; reflexivity). destruct N as (s & N). exists s.
  assert (R : reached (length fs) s []) by (apply R_new; exact N). split; [|split; [exact R|]].
  - unfold NewField. rewrite E. change (FTStruct =? FTBool) with false. change (num_kind FTStruct) with (@None kind). cbv iota. change (FTStruct =? FTBytes) with false. change (FTStruct =? FTString) with false. change (FTStruct =? FTStruct) with true. cbv iota. rewrite N. reflexivity.
  - unfold new_value. cbn. rewrite E. tauto.
Qed.
Lemma new_panics byValue fs d eg : (fd_ty d = FTListStructs /\ byValue = false) \/ fd_ty d = FTMap \/ fd_ty d = FTAny \/ fd_ty d = FTListAny ->
  NewField byValue fs d eg = Panic.
Proof. intros [(E & ->)|[E|[E|E]]]; unfold NewField; rewrite E; reflexivity. Qed.
Lemma new_stored fs h m f d byValue eg : reached (length fs) (h_s h) m -> 0 <= f < 2 ^ 16 -> nth_error fs (Z.to_nat f) = Some d ->
  fd_enum d = None -> (exists k, fd_ty d = scalar_type k) ->
  exists v s, NewField byValue fs d eg = Ok v /\ Set_ h fs f v = Ok (with_s h s) /\ reached (length fs) s (fdel f m).
Proof.
  intros R F N E K. destruct (clear_single fs h m f d R F N (or_introl K)) as (s & C & R'). destruct K as (k & K).
  assert (IX : index fs f = Ok d) by (apply index_nth_error; auto; lia).
  destruct (Z.eq_dec (scalar_type k) (scalar_type KBool)) as [B|B].
  - rewrite B in K. exists (RBool false), s. split; [unfold NewField; rewrite K; reflexivity|]. split; [|exact R']. rewrite <- C. unfold Set_, Clear. rewrite IX. cbn [bind Any]. rewrite K. reflexivity.
  - assert (NB : k <> KBool) by congruence. exists (RNum k 0), s. split; [rewrite (new_scalar byValue fs d eg k NB K), E; destruct k; reflexivity|]. split; [|exact R'].
    rewrite <- C. unfold Set_, Clear. rewrite IX. cbn [bind Any]. unfold SetField. rewrite K, scalar_not_bool, num_kind_scalar by exact NB. unfold kind_eqb. rewrite Z.eqb_refl. reflexivity.
Qed.
Definition exists_field (fs : list fdesc) (f : Z) : Prop := 0 <= f /\ exists d, nth_error fs (Z.to_nat f) = Some d.
Lemma no_lists fs h f l : exists_field fs f -> Set_ h fs f (RList l) = Panic.
Proof.
  intros (F & d & N). unfold Set_. assert (IX : index fs f = Ok d) by (apply index_nth_error; auto; lia). rewrite IX. reflexivity.
Qed.

Lemma set_returns str st l i v : (exists st', SetAt str st l i v = Ok st') <-> (exists e, elem_of str l.(lv_kind) v = Ok e) /\ 0 <= i < LenOf l.
Proof.
  unfold SetAt. destruct (elem_of str (lv_kind l) v) as [e| | |]; cbn [bind].
  2-4: split; [intros (x & E); discriminate|intros ((x & E) & _); discriminate].
  destruct (Z.ltb_spec i 0); cbn [orb]; [split; [intros (x & E); discriminate|intros (_ & E); lia]|].
  destruct (Z.leb_spec (LenOf l) i); [split; [intros (x & E); discriminate|intros (_ & E); lia]|].
  split; [intros _; split; [eauto|lia]|eauto].
Qed.
Lemma append_returns str room st l v : (exists st', AppendTo str room st l v = Ok st') <-> exists e, elem_of str l.(lv_kind) v = Ok e.
Proof.
  unfold AppendTo. destruct (elem_of str (lv_kind l) v) as [e| | |]; cbn [bind].
  2-4: split; intros (x & E); discriminate.
  destruct (lv_len l <? length (arr st (lv_arr l)))%nat; split; eauto.
Qed.
Lemma new_no_group byValue fs d : fd_enum d <> None -> fd_ty d = FTUint8 \/ fd_ty d = FTUint16 -> NewField byValue fs d None = Panic.
Proof.
  intros N [E|E]; unfold NewField; rewrite E; destruct (fd_enum d); try congruence; reflexivity.
Qed.
