(** parseFieldIndex on arbitrary bytes. *)
From Verif.Spec Require Export Parse.
From Verif.Proofs Require Export ReachLemmas.

(** Every round of the []any scan moves forward, so its fuel is enough. *)
Lemma scan_any_spec fuel data count : forall i p,
  is_bytes data -> 0 <= p -> Z.of_nat fuel > len data - p -> (0 < fuel)%nat ->
  exists q, scan_any fuel data count i p = Ok q /\ p <= q.
Proof.
  induction fuel as [|fuel IH]; intros i p HB Hp HF H0; [lia|]. cbn [scan_any].
  destruct (i <? count); [|eauto with zarith].
  destruct (Z.gtb_spec (p + AnyHashSize + HeaderSize) (len data)) as [H|H]; [eauto with zarith|].
  change AnyHashSize with 16 in *. change HeaderSize with 8 in *.
  rewrite slice_ok by lia. rewrite bind_Ok. replace (p + 16 + 8 - (p + 16)) with 8 by lia.
  destruct (DecodeHeader_ok_ex (take 8 (drop (p + 16) data))) as (fn & ft & f40 & -> & _ & _ & _ & Hf).
  { now apply is_bytes_take, is_bytes_drop. }
  { rewrite len_take; rewrite ?len_drop; lia. }
  rewrite bind_Ok. destruct (IH (i + 1) (p + 16 + f40)) as (q & E & HQ); auto; try lia.
  exists q. split; auto. lia.
Qed.
Lemma scan_any_no_hang data count p :
  is_bytes data -> 0 <= p -> scan_any (S (length data)) data count 0 p <> Hang.
Proof.
  intros HB Hp. destruct (scan_any_spec (S (length data)) data count 0 p) as (q & -> & _); auto; try lia.
  - unfold len. lia.
  - discriminate.
Qed.

Lemma field_size_spec data p fn ft f40 rest :
  is_bytes data -> 0 <= p -> p + 8 <= len data -> drop p data = hdr fn ft f40 ++ rest ->
  0 <= fn < 2 ^ 16 -> 0 <= ft < 2 ^ 8 -> 0 <= f40 < 2 ^ 40 ->
  exists sz, field_size data p ft f40 = Ok sz /\ 0 <= sz /\ (sz = 0 <-> zero_sized ft f40 = true).
Proof.
  intros HB Hp HL HD Hfn Hft Hf40. unfold field_size, zero_sized.
  assert (HP : forall x, 0 <= paddingNeeded x) by (intros x; unfold paddingNeeded; destruct (x <=? 0) eqn:E; [lia|];
    destruct (x mod 8 =? 0) eqn:E2; [lia|]; pose proof (Z.mod_pos_bound x 8); lia).
  assert (HS : slice data p (p + HeaderSize) = Ok (hdr fn ft f40)).
  { change HeaderSize with 8. rewrite slice_ok by lia. replace (p + 8 - p) with 8 by lia.
    rewrite HD. rewrite take_app_exact; auto. }
  rewrite HS. rewrite !bind_Ok. change HeaderSize with 8.
  destruct (_ || _) eqn:E1.
  { exists 8. split; auto. split; [lia|]. change FTBool with 1 in *. change FTInt8 with 2 in *. change FTInt16 with 3 in *.
    change FTInt32 with 4 in *. change FTUint8 with 6 in *. change FTUint16 with 7 in *. change FTUint32 with 8 in *.
    change FTFloat32 with 10 in *. split; [lia|]. intros X. exfalso. clear HB HD HS. lia. }
  clear E1. destruct ((_ =? FTInt64) || _ || _) eqn:E1.
  { exists 16. split; auto. split; [lia|]. change FTInt64 with 5 in *. change FTUint64 with 9 in *. change FTFloat64 with 11 in *.
    split; [lia|]. intros X. exfalso. clear HB HD HS. lia. }
  clear E1. destruct ((_ =? FTString) || _) eqn:E1.
  { eexists. split; [reflexivity|]. specialize (HP f40). change FTString with 12 in *. change FTBytes with 13 in *.
    split; [lia|]. split; [lia|]. intros X. exfalso. clear HB HD HS. lia. }
  clear E1. destruct (Z.eqb_spec ft FTStruct) as [->|N1].
  { exists f40. split; auto. change FTStruct with 14. change (14 =? 14) with true. change (14 =? 55) with false.
    cbn [orb andb]. lia. }
  destruct (Z.eqb_spec ft FTListBools) as [->|N2].
  { eexists. split; [reflexivity|]. specialize (HP ((f40 + 7) / 8)).
    assert (0 <= (f40 + 7) / 8) by (apply Z.div_pos; lia).
    change FTListBools with 41. split; [lia|]. change (_ || _) with false. split; [lia|discriminate]. }
  destruct (Z.eqb_spec ft FTMap) as [->|N3].
  { rewrite <- (app_nil_r (hdr fn FTMap f40)).
    set (k := f40 mod 2 ^ 8). set (v := (f40 / 2 ^ 8) mod 2 ^ 8). set (z := f40 / 2 ^ 16).
    assert (Hk : 0 <= k < 2 ^ 8) by (apply Z.mod_pos_bound; lia).
    assert (Hv : 0 <= v < 2 ^ 8) by (apply Z.mod_pos_bound; lia).
    assert (Hz : 0 <= z < 2 ^ 24).
    { subst z. split; [apply Z.div_pos; lia|]. apply Z.div_lt_upper_bound; [lia|]. change (2 ^ 16 * 2 ^ 24) with (2 ^ 40). lia. }
    assert (EF : f40 = map_f40 k v z).
    { unfold map_f40. subst k v z. clear - Hf40. change (2 ^ 8) with 256. change (2 ^ 16) with 65536. lia. }
    replace (hdr fn FTMap f40) with (hdr fn FTMap (map_f40 k v z)) by (now rewrite <- EF). rewrite DecodeMapHeader_spec; auto. rewrite bind_Ok. exists z. split; auto. split; [lia|].
    fold z. change (_ || _ && (z =? 0)) with (z =? 0). lia. }
  destruct (Z.eqb_spec ft FTAny) as [->|N4].
  { rewrite <- (app_nil_r (hdr fn FTAny f40)).
    set (k := f40 mod 2 ^ 8). set (z := f40 / 2 ^ 8).
    assert (Hk : 0 <= k < 2 ^ 8) by (apply Z.mod_pos_bound; lia).
    assert (Hz : 0 <= z < 2 ^ 32).
    { subst z. split; [apply Z.div_pos; lia|]. apply Z.div_lt_upper_bound; [lia|]. change (2 ^ 8 * 2 ^ 32) with (2 ^ 40). lia. }
    assert (EF : f40 = any_f40 k z).
    { unfold any_f40. subst k z. clear - Hf40. change (2 ^ 8) with 256. lia. }
    replace (hdr fn FTAny f40) with (hdr fn FTAny (any_f40 k z)) by (now rewrite <- EF). rewrite DecodeAnyHeader_spec; auto. rewrite bind_Ok. eexists. split; auto. split; [lia|].
    change FTAny with 15. change (_ || _) with false. split; [lia|discriminate]. }
  destruct (Z.eqb_spec ft FTListAny) as [->|N5].
  { destruct (scan_any_spec (S (length data)) data f40 0 (p + 8)) as (q & -> & HQ); auto; try lia.
    { unfold len. lia. }
    rewrite bind_Ok. eexists. split; auto. split; [lia|]. change FTListAny with 56.
    change (_ || _) with false. split; [lia|discriminate]. }
  unfold IsListType. change FTListBools with 41 in *. change FTListStructs with 54. change FTListAny with 56 in *.
  change FTStruct with 14 in *. change FTMap with 55 in *.
  destruct (((41 <=? ft) && (ft <=? 54)) || (ft =? 56)) eqn:E.
  { exists f40. split; auto. split; [lia|].
    replace (42 <=? ft) with true by lia. replace (ft <=? 54) with true by lia. replace (ft =? 55) with false by lia.
    rewrite orb_true_r. cbn [andb orb]. rewrite orb_false_r. lia. }
  exists (if f40 <? 8 then 8 else f40). split; auto. destruct (Z.ltb_spec f40 8); (split; [lia|]).
  - split; [lia|]. intros X. exfalso. clear HB HD HS. lia.
  - split; [lia|]. intros X. exfalso. clear HB HD HS. lia.
Qed.

Lemma header_at_ex data p :
  is_bytes data -> 0 <= p -> p + 8 <= len data ->
  exists fn ft f40, header_at data p fn ft f40 /\    slice data p (p + HeaderSize) = Ok (hdr fn ft f40) /\ DecodeHeader (hdr fn ft f40) = Ok (fn, ft, f40) /\    exists sz, field_size data p ft f40 = Ok sz /\ 0 <= sz /\ (sz = 0 <-> zero_sized ft f40 = true).
Proof.
  intros HB Hp HL.
  destruct (hdr_surj (take 8 (drop p data))) as (fn & ft & f40 & E & H1 & H2 & H3).
  { now apply is_bytes_take, is_bytes_drop. }
  { rewrite len_take; rewrite ?len_drop; lia. }
  exists fn, ft, f40. split; [unfold header_at; auto 10|]. split.
  { change HeaderSize with 8. rewrite slice_ok by lia. replace (p + 8 - p) with 8 by lia. now rewrite E. }
  split; [now apply DecodeHeader_hdr|].
  eapply field_size_spec with (fn := fn) (rest := drop 8 (drop p data)); eauto. rewrite <- E, take_drop. reflexivity.
Qed.

(** Either the loop ends within [fuel] rounds, or it runs into a header of size zero and
    then never ends. *)
Lemma parse_loop_total fuel : forall data idx p,
  is_bytes data -> 0 <= p -> Z.of_nat fuel > len data - p -> (0 < fuel)%nat ->
  (exists idx', length idx' = length idx /\ forall k, parse_loop (fuel + k) data idx p = Ok idx') \/
  (forall k, parse_loop k data idx p = Hang) /\
  (exists q fn ft f40, p <= q /\ header_at data q fn ft f40 /\ zero_sized ft f40 = true).
Proof.
  induction fuel as [|fuel IH]; intros data idx p HB Hp HF H0; [lia|].
  destruct (Z.leb_spec (p + 8) (len data)) as [HL|HL].
  2:{ left. exists idx. split; auto. intros k. cbn [parse_loop plus]. change HeaderSize with 8.
      replace (p + 8 <=? len data) with false by lia. reflexivity. }
  destruct (header_at_ex data p HB Hp HL) as (fn & ft & f40 & HA & ES & ED & sz & EZ & H1 & H2).
  destruct (Z.eq_dec ft 0) as [->|N].
  { left. exists idx. split; auto. intros k. cbn [parse_loop plus].
    replace (p + HeaderSize <=? len data) with true by (change HeaderSize with 8; lia).
    rewrite ES, bind_Ok, ED, bind_Ok. reflexivity. }
  destruct (Z.eq_dec sz 0) as [->|NZ].
  { right. split.
    - intros k. revert idx. induction k as [|k IHk]; intros idx; [reflexivity|]. cbn [parse_loop].
      replace (p + HeaderSize <=? len data) with true by (change HeaderSize with 8; lia).
      rewrite ES, bind_Ok, ED, bind_Ok. replace (ft =? 0) with false by lia. rewrite EZ, bind_Ok.
      rewrite Z.add_0_r. apply IHk.
    - exists p, fn, ft, f40. split; [lia|]. split; auto. now apply H2. }
  set (idx1 := if fn <? len idx then upd idx fn (mkFE (u32 p) (u32 sz) true) else idx).
  assert (L1 : length idx1 = length idx).
  { unfold idx1. destruct (fn <? len idx); auto. unfold upd. apply set_nth_length. }
  assert (ST : forall k, parse_loop (S k) data idx p = parse_loop k data idx1 (p + sz)).
  { intros k. cbn [parse_loop].
    replace (p + HeaderSize <=? len data) with true by (change HeaderSize with 8; lia).
    rewrite ES, bind_Ok, ED, bind_Ok. replace (ft =? 0) with false by lia. rewrite EZ, bind_Ok. reflexivity. }
  destruct (IH data idx1 (p + sz)) as [(idx' & L & E)|(E & q & a & b & c & HQ & HX)]; auto; try lia.
  - left. exists idx'. split; [congruence|]. intros k. cbn [plus]. now rewrite ST.
  - right. split.
    + intros [|k]; [reflexivity|]. now rewrite ST.
    + exists q, a, b, c. split; auto. lia.
Qed.
Lemma parse_total data idx :
  is_bytes data ->
  (exists idx', length idx' = length idx /\ forall k, parse_with (S (length data) + k) data idx = Ok idx') \/
  (forall k, parse_with k data idx = Hang) /\
  (exists q fn ft f40, 8 <= q /\ header_at data q fn ft f40 /\ zero_sized ft f40 = true).
Proof.
  intros HB. unfold parse_with. destruct (len data <=? HeaderSize).
  { left. exists idx. auto. }
  apply parse_loop_total; auto; try lia. change HeaderSize with 8. unfold len. lia.
Qed.

(** Every entry the parser writes has its isSet flag on. *)
Lemma parse_loop_writes_set fuel : forall data pos, exists r,
  (forall ws, r = Ok ws -> Forall (fun w => fe_set (snd w) = true) ws) /\
  forall idx, parse_loop fuel data idx pos = (ws <- r ;; Ok (apply_writes ws idx)).
Proof.
  induction fuel as [|fuel IH]; intros data pos.
  { exists Hang. split; [discriminate|reflexivity]. }
  cbn [parse_loop]. destruct (pos + HeaderSize <=? len data).
  2:{ exists (Ok []). split; [|reflexivity]. intros ws H. injection H as <-. constructor. }
  destruct (slice data pos (pos + HeaderSize)) as [h| | |];
    [|exists Err; split; [discriminate|reflexivity]|exists Panic; split; [discriminate|reflexivity]|exists Hang; split; [discriminate|reflexivity]]. cbn [bind].
  destruct (DecodeHeader h) as [[[fn ft] f40]| | |];
    [|exists Err; split; [discriminate|reflexivity]|exists Panic; split; [discriminate|reflexivity]|exists Hang; split; [discriminate|reflexivity]]. cbn [bind].
  destruct (ft =? 0). { exists (Ok []). split; [|reflexivity]. intros ws H. injection H as <-. constructor. }
  destruct (field_size data pos ft f40) as [sz| | |];
    [|exists Err; split; [discriminate|reflexivity]|exists Panic; split; [discriminate|reflexivity]|exists Hang; split; [discriminate|reflexivity]]. cbn [bind].
  destruct (IH data (pos + sz)) as (r & HF & Hr).
  exists (ws <- r ;; Ok ((fn, mkFE (u32 pos) (u32 sz) true) :: ws)). split.
  - intros ws H. destruct r as [ws0| | |]; cbn [bind] in H; try discriminate. injection H as <-. constructor; auto.
  - intros idx. rewrite Hr. destruct r; reflexivity.
Qed.
Lemma parse_writes_set data : exists r,
  (forall ws, r = Ok ws -> Forall (fun w => fe_set (snd w) = true) ws) /\
  forall idx, parseFieldIndex data idx = (ws <- r ;; Ok (apply_writes ws idx)).
Proof.
  unfold parseFieldIndex, parse_with. destruct (len data <=? HeaderSize).
  - exists (Ok []). split; [|reflexivity]. intros ws H. injection H as <-. constructor.
  - apply parse_loop_writes_set.
Qed.
Lemma apply_pointwise_set ws : Forall (fun w => fe_set (snd w) = true) ws ->
  forall a b, length a = length b -> forall i,
  (exists e, fe_set e = true /\ nth_error (apply_writes ws a) i = Some e /\ nth_error (apply_writes ws b) i = Some e) \/
  (nth_error (apply_writes ws a) i = nth_error a i /\ nth_error (apply_writes ws b) i = nth_error b i).
Proof.
  induction 1 as [|w ws HW HF IH]; intros a b L i; [right; auto|].
  rewrite !apply_writes_cons. unfold len. rewrite <- L.
  destruct (fst w <? Z.of_nat (length a)) eqn:E; [|apply IH; auto].
  destruct (IH (upd a (fst w) (snd w)) (upd b (fst w) (snd w))) with (i := i) as [Q|[Q1 Q2]]; auto.
  { unfold upd. now rewrite !set_nth_length. }
  destruct (Nat.eq_dec (Z.to_nat (fst w)) i) as [<-|N].
  - destruct (Nat.lt_ge_cases (Z.to_nat (fst w)) (length a)).
    + left. exists (snd w). rewrite Q1, Q2. unfold upd. rewrite !nth_error_set_nth_eq by lia. auto.
    + right. rewrite Q1, Q2. unfold upd. split; rewrite !(proj2 (nth_error_None _ _)); auto; rewrite ?set_nth_length; lia.
  - right. rewrite Q1, Q2. unfold upd. now rewrite !nth_error_set_nth_neq.
Qed.
