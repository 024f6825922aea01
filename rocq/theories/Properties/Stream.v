(** C25: framing of messages on a stream. *)
From Coq Require Import Lia.
From Verif Require Import Model.Base Model.Header Model.Field Model.Struct Model.Stream Spec.Message
  Spec.History Spec.Query Spec.Reach Spec.Stream
  Proofs.BaseLemmas Proofs.HeaderLemmas Proofs.WireLemmas Proofs.GetLemmas Proofs.ReachLemmas Proofs.Demo.

Lemma read_wire back s f m rest :
  0 <= f < 2 ^ 16 -> 8 + len (wire_msg m) < 2 ^ 40 ->
  UnmarshalReader back s (wire_struct f m ++ rest)
  = Ok (with_parsed (with_data s (wire_struct f m)) false, len (wire_struct f m), true, rest).
Proof.
  intros Hf Hl. pose proof (len_nonneg (wire_msg m)) as Hm. pose proof (len_nonneg rest).
  unfold UnmarshalReader, ReadFull. rewrite wire_struct_hdr, <- app_assoc.
  set (h := hdr f FTStruct _). assert (Lh : len h = 8) by apply len_hdr.
  rewrite take_app_exact, drop_app_exact by (rewrite Lh; reflexivity).
  rewrite !len_app, Lh. change HeaderSize with 8.
  replace (8 <=? 8 + (len (wire_msg m) + len rest)) with true by lia. cbn [negb].
  unfold h at 1. rewrite DecodeHeader_hdr by (first [lia | split; [discriminate|reflexivity]]).
  cbn [bind]. change (FTStruct =? FTStruct) with true. cbn [negb].
  set (T := 8 + len (wire_msg m)). set (d := if _ >=? _ then _ else _).
  assert (Ld : len d = T).
  { unfold d. destruct (len back >=? T) eqn:E; [rewrite len_take; lia|apply len_zeros; lia]. }
  assert (Ed : d = take 8 d ++ drop 8 d) by (symmetry; apply take_drop).
  rewrite Ed. change (take 8 d ++ drop 8 d) with ([] ++ take 8 d ++ drop 8 d).
  rewrite copy_at_split by (try reflexivity; rewrite len_take by lia; exact Lh).
  cbn [bind app].
  destruct (T >? 8) eqn:ET.
  - rewrite len_app, Lh, len_drop, Ld by lia. replace (8 + (T - 8) - 8) with (len (wire_msg m)) by lia.
    rewrite take_app_exact, drop_app_exact by reflexivity.
    replace (len (wire_msg m) <=? len (wire_msg m) + len rest) with true by lia.
    rewrite <- (app_nil_r (drop 8 d)).
    rewrite copy_at_split by (rewrite ?len_drop by lia; lia). cbn [bind negb].
    rewrite app_nil_r. reflexivity.
  - assert (len (wire_msg m) = 0) by lia. assert (Em : wire_msg m = []) by (apply len_0_nil; assumption).
    rewrite Em. cbn [app]. rewrite drop_all by lia. rewrite app_nil_r. replace T with 8 by lia. reflexivity.
Qed.

(** One message: the reader gets it back, consumes exactly its bytes and leaves the
    rest of the stream. *)
Theorem C25_one_message : forall n s m n' back rest,
  reached n s m ->
  exists s' b s0 t, MarshalWriter s = Ok (s', b) /\ New n' = Ok s0 /\
    UnmarshalReader back s0 (b ++ rest) = Ok (t, len b, true, rest) /\ reached n' t m.
Proof.
  intros n s m n' back rest HR.
  destruct (reached_marshal _ _ _ HR) as (s' & f & EM & _ & Hf & ED).
  destruct (reached_unmarshal n n' s m rest HR) as (s'' & b & s0 & t & EM' & EN & EU & HT).
  unfold MarshalWriter. rewrite EM in *. injection EM' as <- <-.
  exists s', (st_data s), s0, t. split; [reflexivity|]. split; [exact EN|]. split; [|exact HT].
  destruct (reached_good _ _ _ HR) as (g & _ & S & _). destruct (Sim_fits _ _ _ _ _ S) as [F V].
  assert (Hl : 8 + len (wire_msg m) < 2 ^ 40) by (unfold fits in F; change (len (@nil Z)) with 0 in F; lia).
  rewrite ED in *. rewrite read_wire by assumption. do 4 f_equal.
  unfold Unmarshal in EU. pose proof (len_nonneg (wire_msg m)). pose proof (len_nonneg rest).
  rewrite len_app, len_wire_struct in EU. change HeaderSize with 8 in EU.
  replace (8 + len (wire_msg m) + len rest <? 8) with false in EU by lia.
  rewrite wire_struct_hdr, <- app_assoc in EU.
  rewrite slice_prefix in EU by (rewrite len_hdr; reflexivity). cbn [bind] in EU.
  rewrite DecodeHeader_hdr in EU by (first [lia | split; [discriminate|reflexivity]]).
  cbn [bind] in EU. change (FTStruct =? FTStruct) with true in EU. cbn [negb] in EU.
  replace (_ >? _) with false in EU by lia.
  rewrite app_assoc in EU. rewrite slice_prefix in EU by (rewrite len_app, len_hdr; reflexivity).
  cbn [bind] in EU. injection EU as <-. rewrite wire_struct_hdr. reflexivity.
Qed.
Print Assumptions C25_one_message.

(** Any number of messages, written by any structs and read with any field counts. *)
Theorem C25_stream_roundtrip : forall ws stream ns rest,
  written ws stream -> length ns = length ws ->
  exists ts, read_each ns (stream ++ rest) ts rest /\
    Forall2 (fun '(n', t) '(_, _, m) => reached n' t m) (combine ns ts) ws.
Proof.
  intros ws stream ns rest HW. revert ns.
  induction HW as [|n s m s' b ws stream HR EM HW IH]; intros ns Hn.
  - destruct ns; [|discriminate]. exists []. split; constructor.
  - destruct ns as [|n' ns]; [discriminate|]. cbn in Hn.
    destruct (IH ns ltac:(lia)) as (ts & HE & HF).
    destruct (C25_one_message n s m n' [] (stream ++ rest) HR) as (s2 & b2 & s0 & t & EM2 & EN & EU & HT).
    rewrite EM in EM2. injection EM2 as <- <-.
    exists (t :: ts). split.
    + rewrite <- app_assoc. econstructor; [exact EN|exact EU| |exact HE]. rewrite !len_app. lia.
    + cbn [combine]. constructor; [exact HT|exact HF].
Qed.
Print Assumptions C25_stream_roundtrip.

(** A stream that ends before the end of a message is an error, wherever it ends. *)
Theorem C25_truncated_is_error : forall n s m s' b back s0 k,
  reached n s m -> MarshalWriter s = Ok (s', b) -> 0 <= k < len b ->
  exists t j, UnmarshalReader back s0 (take k b) = Ok (t, j, false, []).
Proof.
  intros n s m s' b back s0 k HR EM Hk.
  destruct (reached_marshal _ _ _ HR) as (s2 & f & EM2 & _ & Hf & ED).
  unfold MarshalWriter in EM. rewrite EM in EM2. injection EM2 as <- ->.
  destruct (reached_good _ _ _ HR) as (g & _ & S & _). destruct (Sim_fits _ _ _ _ _ S) as [F V].
  assert (Hl : 8 + len (wire_msg m) < 2 ^ 40) by (unfold fits in F; change (len (@nil Z)) with 0 in F; lia).
  rewrite ED in *. rewrite len_wire_struct in Hk. pose proof (len_nonneg (wire_msg m)).
  unfold UnmarshalReader, ReadFull. change HeaderSize with 8.
  assert (Lk : len (take k (wire_struct f m)) = k) by (rewrite len_take; rewrite ?len_wire_struct; lia).
  rewrite Lk. destruct (8 <=? k) eqn:E8; cbn [negb].
  - rewrite take_take by lia. rewrite wire_struct_hdr.
    set (h := hdr f FTStruct _). assert (Lh : len h = 8) by apply len_hdr.
    rewrite (take_app_exact 8) by (symmetry; exact Lh).
    unfold h at 1. rewrite DecodeHeader_hdr by (first [lia | split; [discriminate|reflexivity]]).
    cbn [bind]. change (FTStruct =? FTStruct) with true. cbn [negb].
    set (T := 8 + len (wire_msg m)). set (d := if _ >=? _ then _ else _).
    assert (Ld : len d = T).
    { unfold d. destruct (len back >=? T) eqn:E; [rewrite len_take; lia|apply len_zeros; lia]. }
    assert (Ed : d = take 8 d ++ drop 8 d) by (symmetry; apply take_drop).
    rewrite Ed. change (take 8 d ++ drop 8 d) with ([] ++ take 8 d ++ drop 8 d).
    rewrite copy_at_split by (try reflexivity; rewrite len_take by lia; exact Lh).
    cbn [bind app]. replace (T >? 8) with true by lia.
    rewrite len_app, Lh, len_drop, Ld by lia.
    rewrite take_app_r by lia. rewrite Lh.
    rewrite (drop_app_exact 8 h) by (symmetry; exact Lh).
    assert (Lb : len (take (k - 8) (wire_msg m)) = k - 8) by (apply len_take; lia).
    rewrite Lb. replace (8 + (T - 8) - 8 <=? k - 8) with false by lia.
    rewrite (take_all (8 + (T - 8) - 8)) by lia. rewrite (drop_all (8 + (T - 8) - 8)) by lia.
    unfold copy_at. rewrite len_app, len_drop, Ld by lia. rewrite Lh.
    replace ((0 <=? 8) && (8 <=? 8 + (T - 8))) with true by lia. cbn [bind negb].
    eauto.
  - rewrite (drop_all 8) by lia. eauto.
Qed.
Print Assumptions C25_truncated_is_error.

(** Data of another type is refused without reading its body. *)
Theorem C25_other_type_refused : forall back s0 f t x rest,
  0 <= f < 2 ^ 16 -> 0 <= t < 256 -> 0 <= x < 2 ^ 40 -> t <> FTStruct ->
  UnmarshalReader back s0 (header f t x ++ rest) = Ok (s0, 8, false, rest).
Proof.
  intros back s0 f t x rest Hf Ht Hx Hn. rewrite header_hdr. pose proof (len_nonneg rest).
  unfold UnmarshalReader, ReadFull. change HeaderSize with 8.
  rewrite take_app_exact, drop_app_exact by (rewrite len_hdr; reflexivity).
  rewrite len_app, len_hdr. replace (8 <=? 8 + len rest) with true by lia. cbn [negb].
  rewrite DecodeHeader_hdr by lia. cbn [bind]. replace (t =? FTStruct) with false by lia. reflexivity.
Qed.
Print Assumptions C25_other_type_refused.

(** Two different structs written after another. *)
Example C25_sample : exists s1 s2 m1 m2 stream,
  written [(12%nat, s1, m1); (3%nat, s2, m2)] stream /\ m1 <> m2 /\ 16 < len stream.
Proof.
  destruct demo_reached as (s1 & _ & R1).
  assert (R2 : exists s2, build 3 demo_child = Ok s2 /\ reached 3 s2 (sem [] demo_child)).
  { apply reached_build. unfold demo_child. legal. }
  destruct R2 as (s2 & _ & R2).
  destruct (reached_marshal _ _ _ R1) as (s1' & f1 & E1 & _ & _ & D1).
  destruct (reached_marshal _ _ _ R2) as (s2' & f2 & E2 & _ & _ & D2).
  exists s1, s2, (sem [] demo), (sem [] demo_child), (st_data s1 ++ st_data s2 ++ []).
  split; [|split].
  - econstructor; [exact R1|exact E1|]. econstructor; [exact R2|exact E2|]. constructor.
  - vm_compute. discriminate.
  - rewrite D1, D2, !len_app, !len_wire_struct. change (len (@nil Z)) with 0.
    pose proof (len_nonneg (wire_msg (sem [] demo_child))).
    assert (8 < len (wire_msg (sem [] demo))) by (vm_compute; reflexivity). lia.
Qed.
