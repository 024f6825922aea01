(** The representation invariant of the wire buffer: a struct is a sorted list of
    (field number, field bytes) laid out one after the other behind the header. *)
From Verif.Model Require Export Field Struct.
From Verif.Proofs Require Export HeaderLemmas SegmentLemmas FMapLemmas.

Definition fields := list (Z * bytes).

Definition body (fs : fields) : bytes := concat (map snd fs).
Lemma body_app a b : body (a ++ b) = body a ++ body b.
Proof. unfold body. now rewrite map_app, concat_app. Qed.
Lemma body_cons f b r : body ((f, b) :: r) = b ++ body r.
Proof. reflexivity. Qed.

(** Positions. *)
Fixpoint locate (pos : Z) (fs : fields) (i : Z) : option (Z * Z) :=
  match fs with
  | [] => None
  | (g, c) :: r => if i =? g then Some (pos, len c) else locate (pos + len c) r i
  end.
Definition entry_of (o : option (Z * Z)) : fentry :=
  match o with Some (o, s) => mkFE o s true | None => fe_zero end.
Definition entry (fs : fields) (i : Z) : fentry := entry_of (locate 8 fs i).
Definition index_of (n : nat) (fs : fields) : list fentry :=
  map (fun i => entry fs (Z.of_nat i)) (seq 0 n).

Lemma len_index_of n fs : len (index_of n fs) = Z.of_nat n.
Proof. unfold index_of, len. now rewrite map_length, seq_length. Qed.
Lemma index_index_of n fs i :
  0 <= i < Z.of_nat n -> index (index_of n fs) i = Ok (entry fs i).
Proof.
  intros. apply index_nth_error; [lia|]. unfold index_of.
  rewrite nth_error_map. rewrite (nth_error_nth' _ O) by (rewrite seq_length; lia).
  cbn. rewrite seq_nth by lia. cbn. do 2 f_equal. lia.
Qed.

Lemma locate_app pos l r i :
  locate pos (l ++ r) i =
  match locate pos l i with Some x => Some x | None => locate (pos + len (body l)) r i end.
Proof.
  revert pos. induction l as [|[g c] l IH]; intros; cbn [app locate].
  - change (len (body [])) with 0. now rewrite Z.add_0_r.
  - destruct (i =? g); auto. rewrite IH, body_cons, len_app. now rewrite Z.add_assoc.
Qed.
Lemma locate_none pos fs i : flook i fs = None -> locate pos fs i = None.
Proof.
  revert pos. induction fs as [|[g c] fs IH]; cbn; auto; intros.
  destruct (i =? g); [discriminate|]. auto.
Qed.
Lemma locate_some pos fs i o s :
  locate pos fs i = Some (o, s) ->
  exists l c r, fs = l ++ (i, c) :: r /\ o = pos + len (body l) /\ s = len c /\ flook i fs = Some c.
Proof.
  revert pos. induction fs as [|[g c] fs IH]; cbn; [discriminate|]; intros.
  destruct (Z.eqb_spec i g) as [->|].
  - inv H. exists [], c, fs. change (len (body [])) with 0. repeat split; auto; lia.
  - apply IH in H. destruct H as (l & c' & r & -> & -> & -> & E).
    exists ((g, c) :: l), c', r. rewrite body_cons, len_app. repeat split; auto. lia.
Qed.
Lemma locate_shift pos d fs i :
  locate (pos + d) fs i =
  match locate pos fs i with Some (o, s) => Some (o + d, s) | None => None end.
Proof.
  revert pos. induction fs as [|[g c] fs IH]; cbn; auto; intros.
  destruct (i =? g); auto. rewrite <- IH. f_equal. lia.
Qed.

Definition fpos (fs : fields) : Prop := Forall (fun p => 8 <= len (snd p)) fs.

Lemma fpos_app a b : fpos (a ++ b) <-> fpos a /\ fpos b.
Proof. apply Forall_app. Qed.
Lemma fpos_cons f b r : fpos ((f, b) :: r) <-> 8 <= len b /\ fpos r.
Proof. unfold fpos. rewrite Forall_cons_iff. cbn. tauto. Qed.

Lemma flook_Some_locate f c fs pos :
  flook f fs = Some c -> exists o, locate pos fs f = Some (o, len c).
Proof.
  revert pos. induction fs as [|[g d] fs IH]; cbn; [discriminate|]; intros.
  destruct (f =? g); [inv H|]; eauto.
Qed.

(** find_pos computes the end of the fields with a smaller number. *)
Lemma find_pos_app a b pos : find_pos (a ++ b) pos = find_pos b (find_pos a pos).
Proof. revert pos; induction a; cbn; auto. Qed.

Definition below (f : Z) (fs : fields) : fields := filter (fun p => fst p <? f) fs.
Lemma below_all f l : allfst (fun g => g < f) l -> below f l = l.
Proof.
  induction 1 as [|[g c] l Hg Hl IH]; cbn in *; auto. replace (g <? f) with true by lia.
  fold (below f l). now rewrite IH.
Qed.
Lemma below_none f l : allfst (fun g => f <= g) l -> below f l = [].
Proof.
  induction 1 as [|[g c] l Hg Hl IH]; cbn in *; auto. replace (g <? f) with false by lia. auto.
Qed.
Lemma below_app f a b : below f (a ++ b) = below f a ++ below f b.
Proof. apply filter_app. Qed.

Lemma find_pos_index fs (n : nat) :
  fsorted fs -> fpos fs -> allfst (fun g => 0 <= g) fs ->
  find_pos (index_of n fs) 8 = 8 + len (body (below (Z.of_nat n) fs)).
Proof.
  intros S P A. induction n as [|n IH].
  - cbn [index_of seq map find_pos]. rewrite below_none; auto.
  - unfold index_of in *. rewrite seq_S, map_app, find_pos_app, IH. cbn [map find_pos Nat.add].
    unfold entry. rewrite Nat2Z.inj_succ, <- Z.add_1_r.
    destruct (flook (Z.of_nat n) fs) as [c|] eqn:E.
    + destruct (flook_split _ _ _ S E) as (l & r & -> & Hl & Hr).
      rewrite locate_app, locate_none; cycle 1.
      { rewrite <- (app_nil_r l). apply flook_mid_none; auto. constructor. }
      cbn [locate]. rewrite Z.eqb_refl. cbn [entry_of fe_size fe_off].
      apply fpos_app in P. destruct P as [_ P]. apply fpos_cons in P.
      replace (len c >? 0) with true by lia.
      rewrite below_app. rewrite (below_all _ l) by (eapply allfst_impl; [|exact Hl]; cbn; intros; lia).
      cbn [below filter fst]. replace (Z.of_nat n <? Z.of_nat n + 1) with true by lia.
      change (filter _ r) with (below (Z.of_nat n + 1) r).
      rewrite below_none by (eapply allfst_impl; [|exact Hr]; cbn; intros; lia).
      rewrite body_app, body_cons, !len_app. change (len (body [])) with 0. lia.
    + destruct (flook_none_split _ _ S E) as (l & r & -> & Hl & Hr).
      rewrite locate_none by auto. cbn [entry_of fe_zero fe_size].
      change (0 >? 0) with false. cbv iota.
      rewrite !below_app.
      rewrite (below_all (Z.of_nat n) l) by auto.
      rewrite (below_all (Z.of_nat n + 1) l) by (eapply allfst_impl; [|exact Hl]; cbn; intros; lia).
      rewrite !(below_none _ r) by (eapply allfst_impl; [|exact Hr]; cbn; intros; lia). reflexivity.
Qed.

Lemma take_index_of f n fs : 0 <= f <= Z.of_nat n -> take f (index_of n fs) = index_of (Z.to_nat f) fs.
Proof.
  intros. unfold take, index_of. rewrite firstn_map. f_equal.
  replace n with (Z.to_nat f + (n - Z.to_nat f))%nat by lia. rewrite seq_app.
  rewrite firstn_app, seq_length.
  replace (Z.to_nat f - Z.to_nat f)%nat with O by lia. cbn [firstn]. rewrite app_nil_r.
  apply firstn_all2. rewrite seq_length. lia.
Qed.

Lemma findInsertPosition_spec f n l r :
  0 <= f < Z.of_nat n -> fsorted (l ++ r) -> fpos (l ++ r) -> allfst (fun g => 0 <= g) (l ++ r) ->
  allfst (fun g => g < f) l -> allfst (fun g => f <= g) r ->
  findInsertPosition (index_of n (l ++ r)) f = 8 + len (body l).
Proof.
  intros. unfold findInsertPosition. rewrite take_index_of by lia. rewrite find_pos_index by auto.
  rewrite Z2Nat.id by lia. rewrite below_app, below_all, below_none, app_nil_r by auto. reflexivity.
Qed.

(** Updates of the index. *)
Lemma upd_map_seq {A} (g : nat -> A) n f x :
  0 <= f < Z.of_nat n ->
  upd (map g (seq 0 n)) f x = map (fun i => if Z.of_nat i =? f then x else g i) (seq 0 n).
Proof.
  intros. apply nth_error_ext'. intros i.
  rewrite nth_error_map. unfold upd.
  destruct (Nat.eq_dec (Z.to_nat f) i) as [<-|N].
  - rewrite nth_error_set_nth_eq by (rewrite map_length, seq_length; lia).
    rewrite (nth_error_nth' _ O) by (rewrite seq_length; lia). cbn.
    rewrite seq_nth by lia. cbn. rewrite Z2Nat.id by lia. now rewrite Z.eqb_refl.
  - rewrite nth_error_set_nth_neq by auto. rewrite nth_error_map.
    destruct (nth_error (seq 0 n) i) eqn:E; auto. cbn.
    assert (i < n)%nat by (rewrite <- (seq_length n 0); apply nth_error_Some; congruence).
    rewrite (nth_error_nth' _ O) in E by (rewrite seq_length; lia).
    rewrite seq_nth in E by lia. cbn in E. inv E. replace (Z.of_nat n0 =? f) with false by lia. auto.
Qed.

Lemma updateFieldOffsets_map n g after delta :
  updateFieldOffsets (map g (seq 0 n)) after delta =
  map (fun i => let e := g i in
                if (fe_size e >? 0) && (fe_off e >=? after)
                then mkFE (u32 (fe_off e + delta)) (fe_size e) (fe_set e) else e) (seq 0 n).
Proof. unfold updateFieldOffsets. now rewrite map_map. Qed.

(** Shifting the fields behind position [8 + len (body l)] by [delta]. *)
Lemma shift_entry l r delta i mid :
  fpos l -> fpos r -> allfst (fun g => g <> i) mid ->
  8 + len (body l) + len (body mid) + delta + len (body r) < 2 ^ 32 ->
  0 <= 8 + len (body l) + len (body mid) + delta ->
  (flook i l = None \/ flook i r = None) ->
  let e := entry (l ++ mid ++ r) i in
  (if (fe_size e >? 0) && (fe_off e >=? 8 + len (body l) + len (body mid))
   then mkFE (u32 (fe_off e + delta)) (fe_size e) (fe_set e) else e)
  = entry_of (match locate 8 l i with
              | Some x => Some x
              | None => locate (8 + len (body l) + len (body mid) + delta) r i
              end).
Proof.
  intros Pl Pr Hmid Hb Hd Hor. unfold entry. rewrite locate_app.
  destruct (locate 8 l i) as [[o s]|] eqn:E.
  - apply locate_some in E. destruct E as (l1 & c & l2 & -> & -> & -> & _).
    cbn [entry_of fe_size fe_off fe_set].
    apply fpos_app in Pl. destruct Pl as [_ Pl]. apply fpos_cons in Pl.
    rewrite body_app, body_cons, !len_app.
    pose proof (len_nonneg (body l2)). pose proof (len_nonneg (body mid)).
    replace (_ && _) with false by lia. reflexivity.
  - rewrite locate_app. rewrite (locate_none _ mid); cycle 1.
    { rewrite <- (app_nil_r mid), flook_app_r by auto. reflexivity. }
    rewrite (locate_shift (8 + len (body l) + len (body mid)) delta). destruct (locate _ r i) as [[o s]|] eqn:E2; auto.
    apply locate_some in E2. destruct E2 as (l1 & c & l2 & -> & -> & -> & _).
    cbn [entry_of fe_size fe_off fe_set].
    apply fpos_app in Pr. destruct Pr as [_ Pr]. apply fpos_cons in Pr.
    rewrite !body_app, !body_cons, !len_app in *.
    pose proof (len_nonneg (body l1)). pose proof (len_nonneg (body l2)).
    replace (_ && _) with true by lia. unfold u32. rewrite Z.mod_small by lia. reflexivity.
Qed.

(** The representation: header prefix [h3] (field number and type), 40-bit total
    size, the fields, and whatever bytes follow them. *)
Record Rep (s : strct) (n : nat) (h3 : bytes) (fs : fields) (tail : bytes) : Prop := mkRep {
  rep_data : st_data s = h3 ++ le_enc 5 (8 + len (body fs) + len tail) ++ body fs ++ tail;
  rep_h3 : len h3 = 3 /\ is_bytes h3;
  rep_sorted : fsorted fs;
  rep_fn : allfst (fun g => 0 <= g < 2 ^ 16) fs;
  rep_pos : fpos fs;
  rep_size : 8 + len (body fs) + len tail < 2 ^ 32;
  rep_index : exists s', ensureFieldIndexParsed s = Ok s' /\ s' = with_parsed (with_index s (index_of n fs)) true }.

Definition rsize (fs : fields) (tail : bytes) : Z := 8 + len (body fs) + len tail.

Lemma with_data_data s d : st_data (with_data s d) = d. Proof. reflexivity. Qed.

Lemma updateHeaderSize_spec h3 x rest :
  len h3 = 3 -> is_bytes h3 -> len x = 5 -> 8 + len rest < 2 ^ 40 ->
  updateHeaderSize (h3 ++ x ++ rest) = Ok (h3 ++ le_enc 5 (8 + len rest) ++ rest).
Proof.
  intros H1 H2 H3 H4. unfold updateHeaderSize, EncodeHeaderFinal40, MaxFinal40.
  pose proof (len_nonneg rest).
  assert (len (h3 ++ x ++ rest) = 8 + len rest) as L by (rewrite !len_app; lia).
  rewrite slice_ok by lia. rewrite bind_Ok, L.
  replace (_ >? _) with false by lia. apply put_final40_spec; auto. lia.
Qed.

Lemma allfst_nonneg {A} (fs : list (Z * A)) : allfst (fun g => 0 <= g < 2 ^ 16) fs -> allfst (fun g => 0 <= g) fs.
Proof. apply allfst_impl. intros. lia. Qed.
Lemma allfst_app {A} P (a b : list (Z * A)) : allfst P (a ++ b) <-> allfst P a /\ allfst P b.
Proof. apply Forall_app. Qed.
Lemma allfst_cons (P : Z -> Prop) f (c : bytes) a : allfst P ((f, c) :: a) <-> P f /\ allfst P a.
Proof. unfold allfst. rewrite Forall_cons_iff. cbn. tauto. Qed.

Lemma parsed_ensure s : st_parsed s = true -> ensureFieldIndexParsed s = Ok s.
Proof. unfold ensureFieldIndexParsed. now intros ->. Qed.

Lemma fields_range f (l r : fields) (i : Z) :
  allfst (fun g => g < f) l -> allfst (fun g => f < g) r -> flook i l = None \/ flook i r = None.
Proof.
  intros Hl Hr. destruct (flook i l) eqn:E; auto. right.
  apply flook_In in E. pose proof (allfst_In _ _ _ Hl E) as H. cbn in H.
  rewrite <- (app_nil_l r). apply flook_mid_none; [constructor|].
  eapply allfst_impl; [|exact Hr]. cbn. intros. lia.
Qed.

Lemma Rep_insertField s n h3 fs tail f b :
  Rep s n h3 fs tail -> 0 <= f < Z.of_nat n -> f < 2 ^ 16 -> 8 <= len b ->
  rsize (fput f b fs) tail < 2 ^ 32 ->
  exists s', insertField s f b = Ok s' /\ Rep s' n h3 (fput f b fs) tail /\
    s' = with_parsed (with_index (with_data s (st_data s')) (index_of n (fput f b fs))) true.
Proof.
  intros R Hf Hf2 Hb Hs. destruct R as [Rd [R3 R3b] Rs Rf Rp Rz (s1 & E1 & Es1)].
  unfold insertField. rewrite E1, bind_Ok. subst s1. cbn [st_index with_parsed with_index st_data].
  rewrite len_index_of. replace (f >=? Z.of_nat n) with false by lia.
  rewrite index_index_of by lia. rewrite bind_Ok.
  unfold rsize in Hs.
  destruct (flook f fs) as [c|] eqn:Ef.
  - (* replace *)
    destruct (flook_split f fs c Rs Ef) as (l & r & -> & Hl & Hr).
    rewrite fput_mid in * by auto.
    assert (locate 8 (l ++ (f, c) :: r) f = Some (8 + len (body l), len c)) as EL.
    { rewrite locate_app, locate_none; [cbn [locate]; now rewrite Z.eqb_refl|].
      rewrite <- (app_nil_r l). apply flook_mid_none; auto. constructor. }
    replace (entry (l ++ (f, c) :: r) f) with (mkFE (8 + len (body l)) (len c) true)
      by (unfold entry; rewrite EL; reflexivity).
    cbn [fe_size fe_off].
    apply fpos_app in Rp. destruct Rp as [Rpl Rp]. apply fpos_cons in Rp. destruct Rp as [Rpc Rpr].
    replace (len c >? 0) with true by lia.
    rewrite Rd.
    set (H0 := le_enc 5 (8 + len (body (l ++ (f, c) :: r)) + len tail)).
    assert (HH0 : len H0 = 5) by apply len_le_enc.
    replace (h3 ++ H0 ++ body (l ++ (f, c) :: r) ++ tail)
      with ((h3 ++ H0 ++ body l) ++ c ++ (body r ++ tail))
      by (rewrite body_app, body_cons, <- !app_assoc; reflexivity).
    assert (Hp : 8 + len (body l) = len (h3 ++ H0 ++ body l)) by (rewrite !len_app; lia).
    rewrite body_app, body_cons, !len_app in Hs, Rz.
    pose proof (len_nonneg (body l)). pose proof (len_nonneg (body r)). pose proof (len_nonneg tail).
    set (upd1 := fun idx => upd idx f (mkFE (8 + len (body l)) (u32 (len b)) true)).
    assert (Hidx : upd1 (if len b - len c =? 0 then index_of n (l ++ (f, c) :: r)
                    else updateFieldOffsets (index_of n (l ++ (f, c) :: r))
                           (8 + len (body l) + len c) (len b - len c))
                  = index_of n (l ++ (f, b) :: r)).
    { assert (E : (if len b - len c =? 0 then index_of n (l ++ (f, c) :: r)
                    else updateFieldOffsets (index_of n (l ++ (f, c) :: r))
                           (8 + len (body l) + len c) (len b - len c))
                  = map (fun i : nat => if Z.of_nat i =? f then
                          (if len b - len c =? 0 then entry (l ++ (f, c) :: r) (Z.of_nat i) else
                           let e := entry (l ++ (f, c) :: r) (Z.of_nat i) in
                           if (fe_size e >? 0) && (fe_off e >=? 8 + len (body l) + len c)
                           then mkFE (u32 (fe_off e + (len b - len c))) (fe_size e) (fe_set e) else e)
                          else entry (l ++ (f, b) :: r) (Z.of_nat i)) (seq 0 n)).
      { assert (EN : forall i, i <> f ->
          (let e := entry (l ++ (f, c) :: r) i in
           if (fe_size e >? 0) && (fe_off e >=? 8 + len (body l) + len c)
           then mkFE (u32 (fe_off e + (len b - len c))) (fe_size e) (fe_set e) else e)
          = entry (l ++ (f, b) :: r) i).
        { intros i Ni.
          pose proof (shift_entry l r (len b - len c) i [(f, c)]) as SE.
          replace (len (body [(f, c)])) with (len c) in SE
            by (rewrite body_cons, len_app; change (len (body [])) with 0; lia).
          cbn [app] in SE. cbv zeta. cbv zeta in SE. rewrite SE; auto; try lia.
          - unfold entry. rewrite locate_app. destruct (locate 8 l i); auto.
            cbn [locate]. replace (i =? f) with false by lia. f_equal. f_equal. lia.
          - constructor; auto; constructor.
          - eapply fields_range; eauto. }
        destruct (Z.eqb_spec (len b - len c) 0) as [E0|E0].
        - unfold index_of. apply map_ext. intros i. destruct (Z.eqb_spec (Z.of_nat i) f); auto.
          rewrite <- EN by auto. cbv zeta. rewrite E0, Z.add_0_r.
          unfold entry. destruct (locate 8 (l ++ (f, c) :: r) (Z.of_nat i)) as [[o z]|] eqn:EO; auto.
          cbn [entry_of fe_size fe_off fe_set].
          apply locate_some in EO. destruct EO as (l1 & c1 & r1 & EQ & -> & -> & _).
          apply (f_equal body) in EQ. rewrite !body_app, !body_cons in EQ.
          apply (f_equal len) in EQ. rewrite !len_app in EQ.
          pose proof (len_nonneg (body l1)). pose proof (len_nonneg (body r1)). pose proof (len_nonneg c1).
          unfold u32. rewrite Z.mod_small by lia. now destruct (_ && _).
        - unfold index_of. rewrite updateFieldOffsets_map. apply map_ext. intros i.
          destruct (Z.eqb_spec (Z.of_nat i) f); auto. }
      unfold upd1. rewrite E, upd_map_seq by lia. unfold index_of. apply map_ext. intros i.
      destruct (Z.eqb_spec (Z.of_nat i) f) as [->|]; auto.
      unfold entry. rewrite locate_app, locate_none; cycle 1.
      { rewrite <- (app_nil_r l). apply flook_mid_none; auto. constructor. }
      cbn [locate]. rewrite Z.eqb_refl. cbn [entry_of]. f_equal.
      unfold u32. apply Z.mod_small. lia. }
    assert (HD : updateHeaderSize ((h3 ++ H0 ++ body l) ++ b ++ (body r ++ tail)) =
       Ok (h3 ++ le_enc 5 (8 + len (body (l ++ (f, b) :: r)) + len tail) ++ body (l ++ (f, b) :: r) ++ tail)).
    { rewrite <- !app_assoc.
      rewrite (updateHeaderSize_spec h3 H0 (body l ++ b ++ body r ++ tail)); auto.
      - rewrite !body_app, !body_cons, !len_app. do 3 f_equal; [f_equal; lia|].
        rewrite <- !app_assoc. reflexivity.
      - rewrite !len_app. lia. }
    destruct (Z.eqb_spec (len b - len c) 0) as [E0|E0].
    + rewrite copy_at_split by (auto; lia). cbn [bind]. rewrite HD. cbn [bind].
      eexists. split; [reflexivity|]. unfold upd1 in Hidx. rewrite Hidx. split; [|reflexivity].
      split; auto.
      * now apply fput_sorted with (f := f) (b := b) in Rs; rewrite fput_mid in Rs.
      * apply allfst_app in Rf. destruct Rf as [Rfl Rf]. apply allfst_cons in Rf.
        apply allfst_app. split; auto. apply allfst_cons. tauto.
      * apply fpos_app. split; auto. apply fpos_cons. auto.
      * rewrite body_app, body_cons, !len_app. lia.
      * eexists. split; [apply parsed_ensure; reflexivity|]. reflexivity.
    + rewrite ReplaceAt_spec by auto. cbn [bind]. rewrite HD. cbn [bind].
      eexists. split; [reflexivity|]. unfold upd1 in Hidx. rewrite Hidx. split; [|reflexivity].
      split; auto.
      * now apply fput_sorted with (f := f) (b := b) in Rs; rewrite fput_mid in Rs.
      * apply allfst_app in Rf. destruct Rf as [Rfl Rf]. apply allfst_cons in Rf.
        apply allfst_app. split; auto. apply allfst_cons. tauto.
      * apply fpos_app. split; auto. apply fpos_cons. auto.
      * rewrite body_app, body_cons, !len_app. lia.
      * eexists. split; [apply parsed_ensure; reflexivity|]. reflexivity.
  - (* insert *)
    destruct (flook_none_split f fs Rs Ef) as (l & r & -> & Hl & Hr).
    rewrite fput_new in * by auto.
    unfold entry at 1. rewrite locate_none by auto. cbn [entry_of fe_zero fe_size].
    change (0 >? 0) with false. cbv iota.
    pose proof (allfst_nonneg _ Rf) as Rnn.
    rewrite findInsertPosition_spec; auto;
      [|eapply allfst_impl; [|exact Hr]; cbn; intros; lia].
    rewrite Rd.
    set (H0 := le_enc 5 (8 + len (body (l ++ r)) + len tail)).
    assert (HH0 : len H0 = 5) by apply len_le_enc.
    replace (h3 ++ H0 ++ body (l ++ r) ++ tail)
      with ((h3 ++ H0 ++ body l) ++ (body r ++ tail))
      by (rewrite body_app, <- !app_assoc; reflexivity).
    assert (Hp : 8 + len (body l) = len (h3 ++ H0 ++ body l)) by (rewrite !len_app; lia).
    rewrite InsertAt_spec by auto. cbn [bind].
    apply fpos_app in Rp. destruct Rp as [Rpl Rpr].
    rewrite body_app, body_cons, !len_app in Hs. rewrite body_app, !len_app in Rz.
    pose proof (len_nonneg (body l)). pose proof (len_nonneg (body r)). pose proof (len_nonneg tail).
    assert (HD : updateHeaderSize ((h3 ++ H0 ++ body l) ++ b ++ (body r ++ tail)) =
       Ok (h3 ++ le_enc 5 (8 + len (body (l ++ (f, b) :: r)) + len tail) ++ body (l ++ (f, b) :: r) ++ tail)).
    { rewrite <- !app_assoc.
      rewrite (updateHeaderSize_spec h3 H0 (body l ++ b ++ body r ++ tail)); auto.
      - rewrite !body_app, !body_cons, !len_app. do 3 f_equal; [f_equal; lia|].
        rewrite <- !app_assoc. reflexivity.
      - rewrite !len_app. lia. }
    rewrite HD. cbn [bind].
    assert (Hidx : upd (updateFieldOffsets (index_of n (l ++ r)) (8 + len (body l)) (len b)) f
               (mkFE (u32 (8 + len (body l))) (u32 (len b)) true) = index_of n (l ++ (f, b) :: r)).
    { unfold index_of. rewrite updateFieldOffsets_map, upd_map_seq by lia. apply map_ext. intros i.
      destruct (Z.eqb_spec (Z.of_nat i) f) as [->|Ni].
      - unfold entry. rewrite locate_app, locate_none; cycle 1.
        { rewrite <- (app_nil_r l). apply flook_mid_none; auto. constructor. }
        cbn [locate]. rewrite Z.eqb_refl. cbn [entry_of].
        unfold u32. rewrite !Z.mod_small by lia. reflexivity.
      - pose proof (shift_entry l r (len b) (Z.of_nat i) []) as SE.
        change (len (body [])) with 0 in SE. cbn [app] in SE. cbv zeta in *.
        rewrite !Z.add_0_r in SE. rewrite SE; auto; try lia.
        + unfold entry. rewrite locate_app. destruct (locate 8 l (Z.of_nat i)); auto.
          cbn [locate]. replace (Z.of_nat i =? f) with false by lia. reflexivity.
        + constructor.
        + eapply fields_range; eauto. }
    rewrite Hidx. eexists. split; [reflexivity|]. split; [|reflexivity]. split; auto.
    + now apply fput_sorted with (f := f) (b := b) in Rs; rewrite fput_new in Rs.
    + apply allfst_app in Rf. destruct Rf as [Rfl Rf].
      apply allfst_app. split; auto. apply allfst_cons. split; auto. lia.
    + apply fpos_app. split; auto. apply fpos_cons. auto.
    + rewrite body_app, body_cons, !len_app. lia.
    + eexists. split; [apply parsed_ensure; reflexivity|]. reflexivity.
Qed.
