(** Parsing a message followed by arbitrary bytes (the IsSet trailer). *)
From Verif.Proofs Require Export ParseLemmas.

Lemma parse_loop_tail h8 l r tail n :
  len h8 = 8 -> fsorted (l ++ r) -> allfst (fun g => 0 <= g < 2 ^ 16) (l ++ r) ->
  wf_fields r -> rsize (l ++ r) tail < 2 ^ 32 ->
  forall fuel,
  parse_loop (length r + fuel) (h8 ++ body (l ++ r) ++ tail) (index_of n l) (8 + len (body l))
  = parse_loop fuel (h8 ++ body (l ++ r) ++ tail) (index_of n (l ++ r)) (8 + len (body (l ++ r))).
Proof.
  intros H8 S A W Z fuel.
  revert l S A Z. induction W as [|[f c] r Wf Wr IH]; intros l S A Z.
  - rewrite app_nil_r in *. reflexivity.
  - cbn [fst snd] in Wf. cbn [length plus].
    pose proof (wf_field_len _ _ Wf) as Lc.
    destruct Wf as (ft & f40 & rest & Ec & Hft & Hf40 & Hsz).
    cbn [parse_loop].
    assert (ED : h8 ++ body (l ++ (f, c) :: r) ++ tail = (h8 ++ body l) ++ c ++ (body r ++ tail)).
    { rewrite body_app, body_cons, <- !app_assoc. reflexivity. }
    assert (Lp : 8 + len (body l) = len (h8 ++ body l)) by (rewrite len_app; lia).
    pose proof (len_nonneg (body l)). pose proof (len_nonneg (body r)). pose proof (len_nonneg tail).
    assert (Rf : 0 <= f < 2 ^ 16).
    { apply allfst_app in A. destruct A as [_ A]. apply allfst_cons in A. tauto. }
    rewrite rsize_app, body_cons, len_app in Z.
    replace (8 + len (body l) + HeaderSize <=? len (h8 ++ body (l ++ (f, c) :: r) ++ tail)) with true.
    2:{ rewrite ED, !len_app. unfold HeaderSize. lia. }
    assert (SL : slice (h8 ++ body (l ++ (f, c) :: r) ++ tail) (8 + len (body l))
                   (8 + len (body l) + HeaderSize) = Ok (hdr f ft f40)).
    { rewrite ED, Ec. rewrite <- (app_assoc (hdr f ft f40)).
      apply slice_app; rewrite ?len_hdr; unfold HeaderSize; lia. }
    rewrite SL, bind_Ok. rewrite DecodeHeader_hdr by lia. rewrite bind_Ok.
    replace (ft =? 0) with false by lia.
    rewrite ED at 1. rewrite Lp at 1. rewrite Hsz, bind_Ok.
    rewrite len_index_of.
    assert (NL : flook f l = None).
    { apply fsorted_app_inv in S. destruct S as (Sl & Sr & Slr).
      destruct (flook f l) eqn:E; auto. apply flook_In in E.
      specialize (Slr _ (f, c) E (or_introl eq_refl)). cbn in Slr. lia. }
    unfold u32. rewrite !Z.mod_small by lia.
    replace (if f <? Z.of_nat n then upd (index_of n l) f (mkFE (8 + len (body l)) (len c) true)
             else index_of n l) with (index_of n (l ++ [(f, c)])) by (apply index_of_snoc; auto; lia).
    replace (l ++ (f, c) :: r) with ((l ++ [(f, c)]) ++ r) in * by now rewrite <- app_assoc.
    replace (8 + len (body l) + len c) with (8 + len (body (l ++ [(f, c)]))).
    2:{ rewrite body_app, body_cons, !len_app. change (len (body [])) with 0. lia. }
    apply IH; auto.
    rewrite !rsize_app. rewrite body_app, body_cons, !len_app. change (len (body [])) with 0. lia.
Qed.

(** What the parser does when it stands at a tail: skip it, or loop for ever. *)
Definition skips (n : nat) (tail : bytes) : Prop :=
  forall p idx k, 8 <= len p -> is_bytes p -> length idx = n -> parse_loop (2 + k) (p ++ tail) idx (len p) = Ok idx.
Definition loops (tail : bytes) : Prop :=
  tail <> [] /\ forall p idx k, is_bytes p -> parse_loop k (p ++ tail) idx (len p) = Hang.

Lemma length_index_of n fs : length (index_of n fs) = n.
Proof. unfold index_of. now rewrite map_length, seq_length. Qed.

Lemma parse_skips h8 fs tail n :
  len h8 = 8 -> is_bytes h8 -> is_bytes (body fs) -> fsorted fs -> allfst (fun g => 0 <= g < 2 ^ 16) fs ->
  wf_fields fs -> rsize fs tail < 2 ^ 32 -> skips n tail -> 8 <= len tail ->
  parseFieldIndex (h8 ++ body fs ++ tail) (repeat fe_zero n) = Ok (index_of n fs).
Proof.
  intros H8 HB HB' SO A W Z T HT. unfold parseFieldIndex, parse_with. rewrite !len_app, H8. unfold HeaderSize.
  pose proof (len_nonneg (body fs)).
  replace (_ <=? 8) with false by lia. rewrite <- index_of_nil. change 8 with (8 + len (body [])) at 1.
  assert (L : exists k, S (length (h8 ++ body fs ++ tail)) = (length fs + (2 + k))%nat).
  { apply wf_fpos in W. apply fpos_length in W. exists (S (length (h8 ++ body fs ++ tail)) - length fs - 2)%nat.
    unfold len in *. rewrite !app_length. lia. }
  destruct L as [k ->]. pose proof (parse_loop_tail h8 [] fs tail n H8 SO A W Z (2 + k)%nat) as E.
  cbn [app] in E. rewrite E. rewrite app_assoc.
  replace (8 + len (body fs)) with (len (h8 ++ body fs)) by (rewrite len_app; lia).
  apply T; [rewrite len_app; lia| |apply length_index_of]. now apply is_bytes_app.
Qed.
Lemma parse_loops h8 fs tail n :
  len h8 = 8 -> is_bytes h8 -> is_bytes (body fs) -> fsorted fs -> allfst (fun g => 0 <= g < 2 ^ 16) fs ->
  wf_fields fs -> rsize fs tail < 2 ^ 32 -> loops tail ->
  forall k, parse_with k (h8 ++ body fs ++ tail) (repeat fe_zero n) = Hang.
Proof.
  intros H8 HB HB' SO A W Z [TN T] k. unfold parse_with. rewrite !len_app, H8. unfold HeaderSize.
  pose proof (len_nonneg (body fs)).
  assert (0 < len tail) by (destruct tail; [congruence|]; rewrite len_cons; pose proof (len_nonneg tail); lia).
  replace (_ <=? 8) with false by lia.
  assert (M : forall a b, parse_loop (a + b) (h8 ++ body fs ++ tail) (repeat fe_zero n) 8 = Hang ->
                     parse_loop b (h8 ++ body fs ++ tail) (repeat fe_zero n) 8 = Hang).
  { intros a b. generalize (repeat fe_zero n) at 1 2. generalize 8. generalize (h8 ++ body fs ++ tail). clear.
    intros d q idx HH. revert q idx a HH. induction b as [|b IH]; intros q idx a HH; [reflexivity|].
    rewrite Nat.add_comm in HH. cbn [plus] in HH. cbn [parse_loop] in *.
    destruct (q + HeaderSize <=? len d); auto. destruct (slice _ _ _); cbn [bind] in *; auto.
    destruct (DecodeHeader _) as [[[fn ft] f40]| | |]; cbn [bind] in *; auto.
    destruct (ft =? 0); auto. destruct (field_size _ _ _ _); cbn [bind] in *; auto.
    apply (IH _ _ a). rewrite Nat.add_comm. exact HH. }
  apply (M (length fs)). rewrite <- index_of_nil. change 8 with (8 + len (body [])) at 1.
  pose proof (parse_loop_tail h8 [] fs tail n H8 SO A W Z k) as E.
  cbn [app] in E. rewrite E. rewrite app_assoc.
  replace (8 + len (body fs)) with (len (h8 ++ body fs)) by (rewrite len_app; lia).
  apply T. now apply is_bytes_app.
Qed.

(** The trailing eight bytes as a header. *)
Lemma skips_hdr n fn ft f40 rest :
  0 <= fn < 2 ^ 16 -> 0 <= ft < 2 ^ 8 -> 0 <= f40 < 2 ^ 40 -> is_bytes rest ->
  ft = 0 \/ Z.of_nat n <= fn /\ (len rest = 0 /\ zero_sized ft f40 = false \/ 128 <= ft /\ len rest < f40) ->
  skips n (hdr fn ft f40 ++ rest).
Proof.
  intros Hfn Hft Hf Hr HC p idx k Hp HBp HI. set (tail := hdr fn ft f40 ++ rest).
  assert (LT : len tail = 8 + len rest) by (unfold tail; rewrite len_app, len_hdr; lia).
  pose proof (len_nonneg rest) as Hr0.
  assert (HB : is_bytes (p ++ tail)).
  { apply is_bytes_app. split; auto. apply is_bytes_app. split; auto. apply hdr_bytes. }
  assert (HS : slice (p ++ tail) (len p) (len p + HeaderSize) = Ok (hdr fn ft f40)).
  { change HeaderSize with 8. apply slice_app; rewrite ?len_hdr; lia. }
  cbn [plus parse_loop]. change HeaderSize with 8 at 1. rewrite len_app, LT.
  replace (len p + 8 <=? len p + (8 + len rest)) with true by lia.
  rewrite HS, bind_Ok, DecodeHeader_hdr, bind_Ok by lia.
  destruct (Z.eqb_spec ft 0) as [->|N]; [reflexivity|].
  destruct HC as [HC|[Hn HC]]; [congruence|].
  destruct (field_size_spec (p ++ tail) (len p) fn ft f40 rest) as (sz & ES & H0 & HZ); auto; try lia.
  { rewrite len_app. lia. }
  { apply drop_app_exact. reflexivity. }
  rewrite ES, bind_Ok. replace (fn <? len idx) with false by (unfold len; rewrite HI; lia).
  assert (HE : len p + sz + HeaderSize <=? len p + (8 + len rest) = false).
  { change HeaderSize with 8. destruct HC as [(R0 & Z0)|[H128 HX]].
    - assert (sz <> 0) by (intros X; apply HZ in X; congruence). lia.
    - assert (field_size (p ++ tail) (len p) ft f40 = Ok (if f40 <? HeaderSize then HeaderSize else f40)) as EQ.
      { unfold field_size, IsListType, FTBool, FTInt8, FTInt16, FTInt32, FTInt64, FTUint8, FTUint16, FTUint32, FTUint64,
          FTFloat32, FTFloat64, FTString, FTBytes, FTStruct, FTAny, FTListBools, FTMap, FTListAny, FTListStructs.
        clear - H128. repeat match goal with |- context [ft =? ?c] => replace (ft =? c) with false by lia end.
        replace (41 <=? ft) with true by lia. replace (ft <=? 54) with false by lia. reflexivity. }
      rewrite EQ in ES. injection ES as <-. change HeaderSize with 8. destruct (Z.ltb_spec f40 8); lia. }
  rewrite HE. reflexivity.
Qed.
Lemma loops_hdr fn ft f40 rest :
  0 <= fn < 2 ^ 16 -> 0 <= ft < 2 ^ 8 -> 0 <= f40 < 2 ^ 40 -> is_bytes rest ->
  zero_sized ft f40 = true ->
  forall p idx k, is_bytes p -> parse_loop k (p ++ hdr fn ft f40 ++ rest) idx (len p) = Hang.
Proof.
  intros Hfn Hft Hf Hr HZ p idx k HBp.
  assert (HS : slice (p ++ hdr fn ft f40 ++ rest) (len p) (len p + HeaderSize) = Ok (hdr fn ft f40)).
  { change HeaderSize with 8. apply slice_app; rewrite ?len_hdr; lia. }
  assert (L : len p + HeaderSize <=? len (p ++ hdr fn ft f40 ++ rest) = true).
  { rewrite !len_app, len_hdr. pose proof (len_nonneg rest). change HeaderSize with 8. lia. }
  destruct (field_size_spec (p ++ hdr fn ft f40 ++ rest) (len p) fn ft f40 rest) as (sz & ES & H0 & HZ'); auto; try lia.
  { apply is_bytes_app. split; auto. apply is_bytes_app. split; auto. apply hdr_bytes. }
  { apply len_nonneg. }
  { change HeaderSize with 8 in L. lia. }
  { apply drop_app_exact. reflexivity. }
  apply HZ' in HZ as HZ0. subst sz.
  assert (ft <> 0). { intros ->. unfold zero_sized in HZ. cbn in HZ. discriminate. }
  revert idx. induction k as [|k IH]; intros idx; [reflexivity|]. cbn [parse_loop].
  rewrite L, HS, bind_Ok, DecodeHeader_hdr, bind_Ok by lia. replace (ft =? 0) with false by lia.
  rewrite ES, bind_Ok, Z.add_0_r. apply IH.
Qed.
