(** Parsing again over an index that is not all zero. *)
From Verif.Proofs Require Export SimRun.

(** A run of the parser is a list of index writes that does not depend on the index. *)
Definition apply_writes (ws : list (Z * fentry)) (idx : list fentry) : list fentry :=
  fold_left (fun idx w => if fst w <? len idx then upd idx (fst w) (snd w) else idx) ws idx.
Lemma apply_writes_cons w ws idx :
  apply_writes (w :: ws) idx = apply_writes ws (if fst w <? len idx then upd idx (fst w) (snd w) else idx).
Proof. reflexivity. Qed.

Lemma parse_loop_writes fuel : forall data pos, exists r, forall idx,
  parse_loop fuel data idx pos = (ws <- r ;; Ok (apply_writes ws idx)).
Proof.
  induction fuel as [|fuel IH]; intros data pos.
  { exists Hang. reflexivity. }
  cbn [parse_loop]. destruct (pos + HeaderSize <=? len data); [|exists (Ok []); reflexivity].
  destruct (slice data pos (pos + HeaderSize)) as [h| | |];
    [|exists Err; reflexivity|exists Panic; reflexivity|exists Hang; reflexivity]. cbn [bind].
  destruct (DecodeHeader h) as [[[fn ft] f40]| | |];
    [|exists Err; reflexivity|exists Panic; reflexivity|exists Hang; reflexivity]. cbn [bind].
  destruct (ft =? 0); [exists (Ok []); reflexivity|].
  destruct (field_size data pos ft f40) as [sz| | |];
    [|exists Err; reflexivity|exists Panic; reflexivity|exists Hang; reflexivity]. cbn [bind].
  destruct (IH data (pos + sz)) as [r Hr].
  exists (ws <- r ;; Ok ((fn, mkFE (u32 pos) (u32 sz) true) :: ws)).
  intros idx. rewrite Hr. destruct r; reflexivity.
Qed.

Lemma parse_writes data : exists r, forall idx,
  parseFieldIndex data idx = (ws <- r ;; Ok (apply_writes ws idx)).
Proof.
  unfold parseFieldIndex, parse_with. destruct (len data <=? HeaderSize).
  - exists (Ok []). reflexivity.
  - apply parse_loop_writes.
Qed.

Lemma length_apply ws idx : length (apply_writes ws idx) = length idx.
Proof.
  revert idx. induction ws as [|w ws IH]; intros; [reflexivity|]. rewrite apply_writes_cons, IH.
  destruct (fst w <? len idx); auto. unfold upd. apply set_nth_length.
Qed.
Lemma apply_pointwise ws : forall a b, length a = length b -> forall i,
  nth_error (apply_writes ws a) i = nth_error (apply_writes ws b) i \/
  (nth_error (apply_writes ws a) i = nth_error a i /\ nth_error (apply_writes ws b) i = nth_error b i).
Proof.
  induction ws as [|w ws IH]; intros a b L i; [right; auto|].
  rewrite !apply_writes_cons. unfold len. rewrite <- L.
  destruct (fst w <? Z.of_nat (length a)) eqn:E; [|apply IH; auto].
  destruct (IH (upd a (fst w) (snd w)) (upd b (fst w) (snd w))) with (i := i) as [Q|[Q1 Q2]]; auto.
  { unfold upd. now rewrite !set_nth_length. }
  destruct (Nat.eq_dec (Z.to_nat (fst w)) i) as [<-|N].
  - left. rewrite Q1, Q2. unfold upd.
    destruct (Nat.lt_ge_cases (Z.to_nat (fst w)) (length a)).
    + rewrite !nth_error_set_nth_eq by lia. reflexivity.
    + rewrite !(proj2 (nth_error_None _ _)); auto; rewrite set_nth_length; lia.
  - right. rewrite Q1, Q2. unfold upd. now rewrite !nth_error_set_nth_neq.
Qed.

Lemma nth_error_index_of n fs i : (i < n)%nat -> nth_error (index_of n fs) i = Some (entry fs (Z.of_nat i)).
Proof.
  intros. unfold index_of. rewrite nth_error_map.
  rewrite (nth_error_nth' _ O) by (rewrite seq_length; auto). cbn. now rewrite seq_nth.
Qed.
Lemma nth_error_ext {A} (a b : list A) : (forall i, nth_error a i = nth_error b i) -> a = b.
Proof.
  revert b. induction a as [|x a IH]; intros [|y b] H; auto.
  - specialize (H 0%nat). discriminate.
  - specialize (H 0%nat). discriminate.
  - f_equal. { specialize (H 0%nat). cbn in H. congruence. }
    apply IH. intros i. apply (H (S i)).
Qed.

(** The index may hold anything for the fields that are in the message. *)
Definition stale_ok (old : list fentry) (n : nat) (fs : fields) : Prop :=
  length old = n /\
  forall i, (i < n)%nat -> flook (Z.of_nat i) fs = None -> nth_error old i = Some fe_zero.
Lemma reparse data n fs old :
  parseFieldIndex data (repeat fe_zero n) = Ok (index_of n fs) -> stale_ok old n fs ->
  parseFieldIndex data old = Ok (index_of n fs).
Proof.
  intros HP [HL HO]. destruct (parse_writes data) as [r Hr]. rewrite Hr in *.
  destruct r as [ws| | |]; cbn [bind] in *; try discriminate.
  assert (E : apply_writes ws (repeat fe_zero n) = index_of n fs) by congruence.
  f_equal. apply nth_error_ext. intros i.
  destruct (apply_pointwise ws old (repeat fe_zero n)) with (i := i) as [Q|[Q1 Q2]].
  { now rewrite repeat_length. }
  - now rewrite Q, E.
  - rewrite Q1. rewrite E in Q2. destruct (Nat.lt_ge_cases i n).
    + rewrite nth_error_index_of in * by auto.
      rewrite (nth_error_nth' _ fe_zero), nth_repeat in Q2 by (rewrite repeat_length; auto).
      rewrite Q2. apply HO; auto. unfold entry in Q2.
      destruct (flook (Z.of_nat i) fs) as [c|] eqn:Ef; auto.
      destruct (flook_Some_locate _ _ _ 8 Ef) as [o EL]. rewrite EL in Q2. discriminate.
    + rewrite !(proj2 (nth_error_None _ _)); auto; [|lia].
      unfold index_of. rewrite map_length, seq_length. lia.
Qed.
Lemma stale_ok_zero n fs : stale_ok (repeat fe_zero n) n fs.
Proof.
  split; [apply repeat_length|]. intros i Hi _.
  rewrite (nth_error_nth' _ fe_zero), nth_repeat by (rewrite repeat_length; auto). reflexivity.
Qed.
Lemma stale_ok_self n fs : stale_ok (index_of n fs) n fs.
Proof.
  split. { unfold index_of. now rewrite map_length, seq_length. }
  intros i Hi E. rewrite nth_error_index_of by auto. unfold entry. now rewrite locate_none.
Qed.

Lemma wf_enc m t : valid_msg m -> fits t m -> 0 <= t -> wf_fields (enc m).
Proof.
  intros [HS HA] HF Ht. unfold wf_fields, enc, fmap_val. apply Forall_map. cbn [fst snd].
  rewrite Forall_forall in *. intros p Hp. destruct (HA p Hp) as [Hf Hv].
  apply wf_wire; auto. unfold fits in HF.
  enough (len (wire_value (fst p) (snd p)) <= len (wire_msg m)) by lia.
  clear - Hp. unfold wire_msg. induction m as [|a m IH]; [destruct Hp|].
  cbn [map concat]. rewrite len_app. destruct Hp as [->|Hp].
  - pose proof (len_nonneg (concat (map (fun p => wire_value (fst p) (snd p)) m))). lia.
  - specialize (IH Hp). pose proof (len_nonneg (wire_value (fst a) (snd a))). lia.
Qed.

(** A struct over well-formed bytes that will be parsed at the next access. *)
Lemma Sim_unparsed s n h3 m tail :
  st_data s = h3 ++ le_enc 5 (8 + len (wire_msg m) + len tail) ++ wire_msg m ++ tail ->
  len h3 = 3 -> is_bytes h3 -> valid_msg m -> fits (len tail) m -> stops tail ->
  st_parsed s = false -> stale_ok (st_index s) n (enc m) ->
  Sim s n h3 m tail.
Proof.
  intros Ed H3 H3b V F T P I. split; auto.
  assert (S : fsorted (enc m)) by (apply fsorted_map, V).
  assert (A : allfst (fun g => 0 <= g < 2 ^ 16) (enc m)).
  { apply allfst_map. unfold allfst. destruct V as [_ V]. eapply Forall_impl; [|exact V]. cbn. tauto. }
  assert (W : wf_fields (enc m)) by (eapply wf_enc; eauto; apply len_nonneg).
  split; auto.
  - rewrite body_enc. exact Ed.
  - now apply wf_fpos.
  - rewrite body_enc. exact F.
  - eexists. split; [|reflexivity]. unfold ensureFieldIndexParsed. rewrite P, Ed.
    rewrite (reparse _ n (enc m)); auto.
    rewrite app_assoc, <- body_enc. apply parseFieldIndex_spec; auto.
    + rewrite len_app, len_le_enc, H3. reflexivity.
    + rewrite rsize_enc. exact F.
Qed.
Definition hdr3 (f : Z) : bytes := le_enc 2 f ++ le_enc 1 FTStruct.
Lemma Sim_wire s n f m :
  st_data s = wire_struct f m -> valid_msg m -> fits 0 m ->
  st_parsed s = false -> stale_ok (st_index s) n (enc m) -> Sim s n (hdr3 f) m [].
Proof.
  intros. apply Sim_unparsed; auto; try apply stops_nil.
  - rewrite H, app_nil_r. change (len (@nil Z)) with 0. rewrite Z.add_0_r.
    unfold wire_struct, header, hdr3. now rewrite <- !app_assoc.
  - unfold hdr3. apply is_bytes_app. split; apply le_enc_bytes.
Qed.
