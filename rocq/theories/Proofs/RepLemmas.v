From Verif.Proofs Require Export Layout.

Lemma rsize_app l r tail : rsize (l ++ r) tail = 8 + len (body l) + len (body r) + len tail.
Proof. unfold rsize. rewrite body_app, len_app. lia. Qed.

Lemma rsize_fdel f fs tail : fsorted fs -> rsize (fdel f fs) tail <= rsize fs tail.
Proof.
  intros S. destruct (flook f fs) as [c|] eqn:E.
  - destruct (flook_split f fs c S E) as (l & r & -> & Hl & Hr). rewrite fdel_mid by auto.
    rewrite !rsize_app, body_cons, len_app. pose proof (len_nonneg c). lia.
  - rewrite fdel_none by auto. lia.
Qed.

Lemma rsize_fput f b fs tail :
  fsorted fs -> rsize (fput f b fs) tail <= rsize fs tail + len b.
Proof.
  intros S. destruct (fput_form f b fs S) as (l & r & old & -> & -> & Hl & Hr & Ho).
  rewrite !rsize_app, body_cons, body_app, !len_app. pose proof (len_nonneg (body old)). lia.
Qed.

Lemma Rep_removeField s n h3 fs tail f :
  Rep s n h3 fs tail -> 0 <= f ->
  exists s', removeField s f = Ok s' /\
    let fs' := if f <? Z.of_nat n then fdel f fs else fs in
    Rep s' n h3 fs' tail /\
    s' = with_parsed (with_index (with_data s (st_data s')) (index_of n fs')) true.
Proof.
  intros R Hf. assert (R0 := R). destruct R as [Rd [R3 R3b] Rs Rf Rp Rz (s1 & E1 & Es1)].
  unfold removeField. rewrite E1, bind_Ok. subst s1. cbn [st_index with_parsed with_index st_data].
  rewrite len_index_of. destruct (Z.ltb_spec f (Z.of_nat n)).
  2:{ replace (f >=? Z.of_nat n) with true by lia. eexists. split; [reflexivity|]. cbv zeta.
      split; [|reflexivity]. split; auto.
      eexists. split; [apply parsed_ensure; reflexivity|]. reflexivity. }
  replace (f >=? Z.of_nat n) with false by lia.
  rewrite index_index_of by lia. rewrite bind_Ok.
  destruct (flook f fs) as [c|] eqn:Ef.
  - destruct (flook_split f fs c Rs Ef) as (l & r & -> & Hl & Hr).
    rewrite fdel_mid in * by auto.
    assert (locate 8 (l ++ (f, c) :: r) f = Some (8 + len (body l), len c)) as EL.
    { rewrite locate_app, locate_none; [cbn [locate]; now rewrite Z.eqb_refl|].
      rewrite <- (app_nil_r l). apply flook_mid_none; auto. constructor. }
    replace (entry (l ++ (f, c) :: r) f) with (mkFE (8 + len (body l)) (len c) true)
      by (unfold entry; rewrite EL; reflexivity).
    cbn [fe_size fe_off].
    apply fpos_app in Rp. destruct Rp as [Rpl Rp]. apply fpos_cons in Rp. destruct Rp as [Rpc Rpr].
    replace (len c =? 0) with false by lia.
    rewrite Rd.
    set (H0 := le_enc 5 (8 + len (body (l ++ (f, c) :: r)) + len tail)).
    assert (HH0 : len H0 = 5) by apply len_le_enc.
    replace (h3 ++ H0 ++ body (l ++ (f, c) :: r) ++ tail)
      with ((h3 ++ H0 ++ body l) ++ c ++ (body r ++ tail))
      by (rewrite body_app, body_cons, <- !app_assoc; reflexivity).
    assert (Hp : 8 + len (body l) = len (h3 ++ H0 ++ body l)) by (rewrite !len_app; lia).
    rewrite body_app, body_cons, !len_app in Rz.
    pose proof (len_nonneg (body l)). pose proof (len_nonneg (body r)). pose proof (len_nonneg tail).
    rewrite RemoveAt_spec by auto. cbn [bind].
    assert (HD : updateHeaderSize ((h3 ++ H0 ++ body l) ++ (body r ++ tail)) =
       Ok (h3 ++ le_enc 5 (8 + len (body (l ++ r)) + len tail) ++ body (l ++ r) ++ tail)).
    { rewrite <- !app_assoc.
      rewrite (updateHeaderSize_spec h3 H0 (body l ++ body r ++ tail)); auto.
      - rewrite !body_app, !len_app. do 3 f_equal; [f_equal; lia|].
        rewrite <- !app_assoc. reflexivity.
      - rewrite !len_app. lia. }
    rewrite HD. cbn [bind].
    assert (Hidx : upd (updateFieldOffsets (index_of n (l ++ (f, c) :: r))
               (8 + len (body l) + len c) (- len c)) f fe_zero = index_of n (l ++ r)).
    { unfold index_of. rewrite updateFieldOffsets_map, upd_map_seq by lia. apply map_ext. intros i.
      destruct (Z.eqb_spec (Z.of_nat i) f) as [->|Ni].
      - unfold entry. rewrite locate_none; auto. now apply flook_mid_none.
      - pose proof (shift_entry l r (- len c) (Z.of_nat i) [(f, c)]) as SE.
        replace (len (body [(f, c)])) with (len c) in SE
          by (rewrite body_cons, len_app; change (len (body [])) with 0; lia).
        cbn [app] in SE. cbv zeta in *. rewrite SE; auto; try lia.
        + unfold entry. rewrite locate_app. destruct (locate 8 l (Z.of_nat i)); auto.
          f_equal. f_equal. lia.
        + constructor; auto; constructor.
        + eapply fields_range; eauto. }
    rewrite Hidx. eexists. split; [reflexivity|]. cbv zeta. split; [|reflexivity]. split; auto.
    + now apply fdel_sorted with (f := f) in Rs; rewrite fdel_mid in Rs.
    + apply allfst_app in Rf. destruct Rf as [Rfl Rf]. apply allfst_cons in Rf.
      apply allfst_app. tauto.
    + apply fpos_app. split; auto.
    + rewrite body_app, !len_app. lia.
    + eexists. split; [apply parsed_ensure; reflexivity|]. reflexivity.
  - unfold entry at 1. rewrite locate_none by auto. cbn [entry_of fe_zero fe_size].
    change (0 =? 0) with true. cbv iota. rewrite fdel_none by auto.
    eexists. split; [reflexivity|]. cbv zeta. split; [|reflexivity]. split; auto.
    eexists. split; [apply parsed_ensure; reflexivity|]. reflexivity.
Qed.

Lemma Rep_FieldOffset s n h3 fs tail f :
  Rep s n h3 fs tail -> 0 <= f ->
  (f < Z.of_nat n -> forall c, flook f fs = Some c ->
     exists p q, FieldOffset s f = Ok (len p, len c) /\ st_data s = p ++ c ++ q /\
       8 <= len p /\ len c > 0) /\
  ((f < Z.of_nat n -> flook f fs = None) -> FieldOffset s f = Ok (0, 0)).
Proof.
  intros R Hf. destruct R as [Rd [R3 R3b] Rs Rf Rp Rz (s1 & E1 & Es1)].
  unfold FieldOffset. rewrite E1, bind_Ok. subst s1. cbn [st_index with_parsed with_index st_data].
  rewrite len_index_of. split.
  - intros Hn c Ef. replace (f >=? Z.of_nat n) with false by lia.
    rewrite index_index_of by lia. rewrite bind_Ok.
    destruct (flook_split f fs c Rs Ef) as (l & r & -> & Hl & Hr).
    assert (locate 8 (l ++ (f, c) :: r) f = Some (8 + len (body l), len c)) as EL.
    { rewrite locate_app, locate_none; [cbn [locate]; now rewrite Z.eqb_refl|].
      rewrite <- (app_nil_r l). apply flook_mid_none; auto. constructor. }
    unfold entry. rewrite EL. cbn [entry_of fe_off fe_size].
    eexists (h3 ++ le_enc 5 _ ++ body l), (body r ++ tail).
    assert (L : len (h3 ++ le_enc 5 (8 + len (body (l ++ (f, c) :: r)) + len tail) ++ body l)
                = 8 + len (body l)) by (rewrite !len_app, len_le_enc; lia).
    rewrite L. split; [reflexivity|]. split; [|].
    + rewrite Rd. rewrite !body_app, !body_cons, <- !app_assoc. reflexivity.
    + pose proof (len_nonneg (body l)). split; [lia|].
      apply fpos_app in Rp. destruct Rp as [_ Rp]. apply fpos_cons in Rp. lia.
  - intros H. destruct (Z.ltb_spec f (Z.of_nat n)).
    + replace (f >=? Z.of_nat n) with false by lia. rewrite index_index_of by lia. rewrite bind_Ok.
      unfold entry. rewrite locate_none by auto. reflexivity.
    + now replace (f >=? Z.of_nat n) with true by lia.
Qed.

Lemma Rep_HasField s n h3 fs tail f :
  Rep s n h3 fs tail -> 0 <= f ->
  HasField s f = Ok (if f <? Z.of_nat n then match flook f fs with Some _ => true | None => false end
                     else false).
Proof.
  intros R Hf. destruct R as [Rd [R3 R3b] Rs Rf Rp Rz (s1 & E1 & Es1)].
  unfold HasField. rewrite E1, bind_Ok. subst s1. cbn [st_index with_parsed with_index st_data].
  rewrite len_index_of. destruct (Z.ltb_spec f (Z.of_nat n)).
  - replace (f >=? Z.of_nat n) with false by lia.
    rewrite index_index_of by lia. rewrite bind_Ok. unfold entry.
    destruct (flook f fs) as [c|] eqn:Ef.
    + destruct (flook_Some_locate f c fs 8 Ef) as [o EL]. rewrite EL. cbn [entry_of fe_size].
      unfold fpos in Rp. rewrite Forall_forall in Rp. apply flook_In in Ef. apply Rp in Ef. cbn in Ef.
      f_equal. lia.
    + rewrite locate_none by auto. reflexivity.
  - now replace (f >=? Z.of_nat n) with true by lia.
Qed.

(** Parsing: a field is well formed when the parser's size rule, applied where the
    field stands, gives back its length. *)
Definition wf_field (f : Z) (c : bytes) : Prop :=
  exists ft f40 rest, c = hdr f ft f40 ++ rest /\ 0 < ft < 2 ^ 8 /\ 0 <= f40 < 2 ^ 40 /\
    forall pre post, field_size (pre ++ c ++ post) (len pre) ft f40 = Ok (len c).
Definition wf_fields (fs : fields) : Prop := Forall (fun p => wf_field (fst p) (snd p)) fs.

(** What may follow the last field: nothing the parser takes for a field. *)
Definition stops (tail : bytes) : Prop :=
  len tail < 8 \/ exists fn f40 rest, tail = hdr fn 0 f40 ++ rest /\
     0 <= fn < 2 ^ 16 /\ 0 <= f40 < 2 ^ 40.

Lemma stops_nil : stops []. Proof. left. reflexivity. Qed.

Lemma index_of_snoc n l f c :
  0 <= f -> flook f l = None ->
  index_of n (l ++ [(f, c)]) =
  if f <? Z.of_nat n then upd (index_of n l) f (mkFE (8 + len (body l)) (len c) true) else index_of n l.
Proof.
  intros Hf Hn.
  assert (E : forall i, entry (l ++ [(f, c)]) i = if i =? f then mkFE (8 + len (body l)) (len c) true
                                         else entry l i).
  { intros i. unfold entry. rewrite locate_app. cbn [locate].
    destruct (Z.eqb_spec i f) as [->|].
    - rewrite locate_none by auto. reflexivity.
    - destruct (locate 8 l i); auto. }
  destruct (Z.ltb_spec f (Z.of_nat n)).
  - unfold index_of. rewrite upd_map_seq by lia. apply map_ext. intros. apply E.
  - unfold index_of. apply map_ext_in. intros i Hi. apply in_seq in Hi. rewrite E.
    replace (Z.of_nat i =? f) with false by lia. reflexivity.
Qed.

Lemma wf_field_len f c : wf_field f c -> 8 <= len c.
Proof.
  intros (ft & f40 & rest & -> & _). rewrite len_app, len_hdr. pose proof (len_nonneg rest). lia.
Qed.

Lemma parse_loop_fields fuel h8 l r tail n :
  len h8 = 8 -> fsorted (l ++ r) -> allfst (fun g => 0 <= g < 2 ^ 16) (l ++ r) ->
  wf_fields r -> stops tail ->
  rsize (l ++ r) tail < 2 ^ 32 ->
  (length r < fuel)%nat ->
  parse_loop fuel (h8 ++ body (l ++ r) ++ tail) (index_of n l) (8 + len (body l))
  = Ok (index_of n (l ++ r)).
Proof.
  intros H8 S A W T Z.
  revert l fuel S A Z. induction W as [|[f c] r Wf Wr IH]; intros l fuel S A Z HF.
  - rewrite app_nil_r in *. destruct fuel as [|fuel]; [cbn in HF; lia|].
    cbn [parse_loop]. unfold HeaderSize. rewrite !len_app, H8.
    destruct T as [T|(fn & f40 & rest & -> & Hfn & Hf40)].
    + replace (_ <=? _) with false by lia. reflexivity.
    + rewrite len_app, len_hdr. pose proof (len_nonneg rest).
      replace (_ <=? _) with true by lia.
      replace (h8 ++ body l ++ hdr fn 0 f40 ++ rest)
        with ((h8 ++ body l) ++ hdr fn 0 f40 ++ rest) by now rewrite <- app_assoc.
      rewrite slice_app by (rewrite ?len_app, ?len_hdr; lia). rewrite bind_Ok.
      rewrite <- (app_nil_r (hdr fn 0 f40)).
      rewrite DecodeHeader_spec by lia. reflexivity.
  - cbn [fst snd] in Wf. destruct fuel as [|fuel]; [cbn in HF; lia|].
    pose proof (wf_field_len _ _ Wf) as Lc.
    destruct Wf as (ft & f40 & rest & Ec & Hft & Hf40 & Hsz).
    cbn [parse_loop].
    assert (ED : h8 ++ body (l ++ (f, c) :: r) ++ tail = (h8 ++ body l) ++ c ++ (body r ++ tail)).
    { rewrite body_app, body_cons, <- !app_assoc. reflexivity. }
    assert (Lp : 8 + len (body l) = len (h8 ++ body l)) by (rewrite len_app; lia).
    pose proof (len_nonneg (body l)). pose proof (len_nonneg (body r)). pose proof (len_nonneg tail).
    assert (Rf : 0 <= f < 2 ^ 16).
    { apply allfst_app in A. destruct A as [_ A]. apply allfst_cons in A. tauto. }
    rewrite rsize_app, body_cons, len_app in Z.
    replace (8 + len (body l) + HeaderSize <=? len (h8 ++ body (l ++ (f, c) :: r) ++ tail)) with true.
    2:{ rewrite ED, !len_app. unfold HeaderSize. lia. }
    assert (SL : slice (h8 ++ body (l ++ (f, c) :: r) ++ tail) (8 + len (body l))
                   (8 + len (body l) + HeaderSize) = Ok (hdr f ft f40)).
    { rewrite ED, Ec. rewrite <- (app_assoc (hdr f ft f40)).
      apply slice_app; rewrite ?len_hdr; unfold HeaderSize; lia. }
    rewrite SL, bind_Ok. rewrite <- (app_nil_r (hdr f ft f40)).
    rewrite DecodeHeader_spec by lia. rewrite bind_Ok.
    replace (ft =? 0) with false by lia.
    rewrite ED at 1. rewrite Lp at 1. rewrite Hsz, bind_Ok.
    rewrite len_index_of.
    assert (NL : flook f l = None).
    { apply fsorted_app_inv in S. destruct S as (Sl & Sr & Slr).
      destruct (flook f l) eqn:E; auto. apply flook_In in E.
      specialize (Slr _ (f, c) E (or_introl eq_refl)). cbn in Slr. lia. }
    unfold u32. rewrite !Z.mod_small by lia.
    replace (if f <? Z.of_nat n then upd (index_of n l) f (mkFE (8 + len (body l)) (len c) true)
             else index_of n l) with (index_of n (l ++ [(f, c)])) by (apply index_of_snoc; auto; lia).
    replace (l ++ (f, c) :: r) with ((l ++ [(f, c)]) ++ r) in * by now rewrite <- app_assoc.
    replace (8 + len (body l) + len c) with (8 + len (body (l ++ [(f, c)]))).
    2:{ rewrite body_app, body_cons, !len_app. change (len (body [])) with 0. lia. }
    apply IH; auto.
    + rewrite !rsize_app. rewrite body_app, body_cons, !len_app. change (len (body [])) with 0. lia.
    + cbn in HF. lia.
Qed.

Lemma fpos_length fs : fpos fs -> 8 * Z.of_nat (length fs) <= len (body fs).
Proof.
  induction 1 as [|[f c] r Hc Hr IH].
  - cbn. lia.
  - rewrite body_cons, len_app. cbn [length snd] in *. lia.
Qed.
Lemma wf_fpos fs : wf_fields fs -> fpos fs.
Proof. apply Forall_impl. intros [f c] H. cbn in *. now apply wf_field_len in H. Qed.

Lemma index_of_nil n : index_of n [] = repeat fe_zero n.
Proof.
  unfold index_of. rewrite <- (seq_length n 0) at 2. generalize (seq 0 n). 
  induction l; cbn; auto. f_equal. auto.
Qed.

Lemma parseFieldIndex_spec h8 fs tail n :
  len h8 = 8 -> fsorted fs -> allfst (fun g => 0 <= g < 2 ^ 16) fs ->
  wf_fields fs -> stops tail -> rsize fs tail < 2 ^ 32 ->
  parseFieldIndex (h8 ++ body fs ++ tail) (repeat fe_zero n) = Ok (index_of n fs).
Proof.
  intros H8 S A W T Z. unfold parseFieldIndex, parse_with. rewrite !len_app, H8. unfold HeaderSize.
  pose proof (len_nonneg (body fs)). pose proof (len_nonneg tail).
  destruct (Z.leb_spec (8 + (len (body fs) + len tail)) 8).
  - assert (fs = []) as ->.
    { apply wf_fpos in W. apply fpos_length in W. destruct fs; auto. cbn [length] in W. lia. }
    now rewrite index_of_nil.
  - rewrite <- index_of_nil. change 8 with (8 + len (body [])) at 1.
    apply (parse_loop_fields _ h8 [] fs tail n); auto.
    apply wf_fpos in W. apply fpos_length in W. unfold len in *.
    rewrite !app_length. lia.
Qed.

(** A struct whose index is not parsed yet but still all zero, over well-formed bytes. *)
Lemma Rep_unparsed s n h3 fs tail :
  st_data s = h3 ++ le_enc 5 (8 + len (body fs) + len tail) ++ body fs ++ tail ->
  len h3 = 3 -> is_bytes h3 -> fsorted fs -> allfst (fun g => 0 <= g < 2 ^ 16) fs ->
  wf_fields fs -> stops tail -> rsize fs tail < 2 ^ 32 ->
  st_parsed s = false -> st_index s = repeat fe_zero n ->
  Rep s n h3 fs tail.
Proof.
  intros Ed H3 H3b S A W T Z P I. split; auto.
  - now apply wf_fpos.
  - eexists. split; [|reflexivity]. unfold ensureFieldIndexParsed. rewrite P, I, Ed.
    rewrite app_assoc. rewrite parseFieldIndex_spec; auto. rewrite len_app, len_le_enc, H3. reflexivity.
Qed.

Lemma New_spec n :
  New n = Ok (mkStruct (hdr 0 FTStruct 8) (repeat fe_zero n) false false None false []).
Proof. reflexivity. Qed.

Definition root3 : bytes := le_enc 2 0 ++ le_enc 1 FTStruct.
Lemma Rep_New n s : New n = Ok s -> Rep s n root3 [] [].
Proof.
  rewrite New_spec. intros H. inv H. apply Rep_unparsed; auto; try reflexivity.
  - unfold root3. apply is_bytes_app. split; apply le_enc_bytes.
  - constructor.
  - constructor.
  - constructor.
  - apply stops_nil.
Qed.

(** Everything but the bytes, the index and the parsed flag is irrelevant to Rep. *)
Lemma Rep_ext s s' n h3 fs tail :
  Rep s n h3 fs tail -> st_data s' = st_data s -> st_index s' = st_index s ->
  st_parsed s' = st_parsed s -> Rep s' n h3 fs tail.
Proof.
  intros [Rd R3 Rs Rf Rp Rz (s1 & E1 & Es1)] Ed Ei Ep. split; auto; try congruence.
  eexists. split; [|reflexivity]. unfold ensureFieldIndexParsed in *. rewrite Ep, Ei, Ed.
  destruct s as [d i p a b c e], s' as [d' i' p' a' b' c' e']. cbn in *. subst d' i' p'.
  destruct p.
  - assert (Q : mkStruct d i true a b c e = with_parsed (with_index (mkStruct d i true a b c e) (index_of n fs)) true)
      by congruence.
    inversion Q. reflexivity.
  - destruct (parseFieldIndex d i) as [x| | |]; cbn in *; try discriminate.
    assert (Q : with_parsed (with_index (mkStruct d i false a b c e) x) true =
                with_parsed (with_index (mkStruct d i false a b c e) (index_of n fs)) true)
      by congruence.
    inversion Q. reflexivity.
Qed.

Lemma Rep_ensure s n h3 fs tail s' :
  Rep s n h3 fs tail -> ensureFieldIndexParsed s = Ok s' -> Rep s' n h3 fs tail.
Proof.
  intros [Rd R3 Rs Rf Rp Rz (s1 & E1 & Es1)] E. rewrite E1 in E. inv E. split; auto.
  eexists. split; [apply parsed_ensure; reflexivity|]. reflexivity.
Qed.
