From Coq Require Import Lia.
From Verif Require Import Model.Base Model.Pack Spec.Packed Proofs.BaseLemmas Proofs.PackWord.

Lemma word_at_spec done w rem : len w = 8 ->
  word_at (done ++ w ++ rem) (len done) = Ok (le_dec w).
Proof.
  intros L. unfold word_at.
  pose proof (len_nonneg done). pose proof (len_nonneg rem).
  rewrite slice_ok by (rewrite !len_app; lia). cbn [bind].
  rewrite drop_app_exact by reflexivity.
  rewrite take_all by (rewrite !len_app; lia). now apply le_get_app.
Qed.

Lemma split8 (rem : bytes) : len rem mod 8 = 0 -> rem <> [] ->
  exists w r, rem = w ++ r /\ len w = 8 /\ len r mod 8 = 0 /\ len r = len rem - 8.
Proof.
  intros H N. assert (8 <= len rem).
  { pose proof (len_nonneg rem). destruct (Z.eq_dec (len rem) 0) as [E|]; [|lia].
    apply len_0_nil in E. contradiction. }
  exists (take 8 rem), (drop 8 rem). rewrite take_drop, len_take, len_drop by lia.
  repeat split; lia.
Qed.

Lemma le_dec_0 l : is_bytes l -> le_dec l = 0 -> l = zeros (len l).
Proof.
  intros B. induction B as [|b r Hb B IH]; intros E; [reflexivity|].
  cbn [le_dec] in E. pose proof (le_dec_bound r B). unfold is_byte in Hb.
  assert (b = 0) by lia. subst b. rewrite len_cons.
  rewrite zeros_app by (try lia; apply len_nonneg). rewrite <- IH by lia. reflexivity.
Qed.

Lemma u8_id x : 0 <= x < 256 -> u8 x = x.
Proof. intros. apply Z.mod_small. lia. Qed.

Lemma zero_run_spec fuel : forall done rem count,
  is_bytes rem -> len rem mod 8 = 0 -> 0 <= count <= 255 -> 256 - count <= Z.of_nat fuel ->
  exists k rem', rem = zeros (8 * k) ++ rem' /\ 0 <= k <= 255 - count /\ len rem' mod 8 = 0 /\
    zero_run fuel (done ++ rem) (len done) count = Ok (len done + 8 * k, count + k).
Proof.
  induction fuel as [|fuel IH]; intros done rem count B L C F; [lia|].
  pose proof (len_nonneg done). pose proof (len_nonneg rem).
  cbn [zero_run]. rewrite len_app.
  destruct (Z.eq_dec count 255) as [->|Nc].
  { exists 0, rem. replace ((len done <? len done + len rem) && (255 <? 255)) with false by lia.
    repeat split; try lia. f_equal. f_equal; lia. }
  destruct rem as [|b rem].
  { exists 0, []. change (len (@nil Z)) with 0.
    replace ((len done <? len done + 0) && (count <? 255)) with false by lia.
    repeat split; try lia. f_equal. f_equal; lia. }
  destruct (split8 (b :: rem) L ltac:(discriminate)) as (w & r & E & Lw & Lr & Lr').
  rewrite E in *. clear E b rem.
  apply is_bytes_app in B. destruct B as [Bw Br].
  rewrite len_app in *. pose proof (len_nonneg r).
  replace ((len done <? len done + (len w + len r)) && (count <? 255)) with true by lia.
  rewrite word_at_spec by exact Lw. cbn [bind].
  destruct (le_dec w =? 0) eqn:E0; cbn [negb].
  - apply Z.eqb_eq in E0. apply le_dec_0 in E0; [|exact Bw]. rewrite Lw in E0.
    rewrite u8_id by lia.
    destruct (IH (done ++ w) r (count + 1) Br Lr ltac:(lia) ltac:(lia)) as (k & r' & -> & Hk & Lr2 & Hz).
    exists (1 + k), r'. rewrite (app_assoc done w).
    replace (len done + 8) with (len (done ++ w)) by (rewrite len_app; lia).
    rewrite Hz. repeat split; try lia.
    + rewrite E0 at 1. rewrite app_assoc. f_equal. rewrite <- zeros_app by lia. f_equal. lia.
    + rewrite len_app. f_equal. f_equal; lia.
  - exists 0, (w ++ r). repeat split; try lia; [rewrite len_app; lia|]. f_equal. f_equal; lia.
Qed.

(** The first word has two zero bytes or more. *)
Definition compressible (rem : bytes) : Prop := len (filter nz (take 8 rem)) <= 6.

Lemma literal_run_spec fuel : forall done rem out rest count,
  is_bytes rem -> len rem mod 8 = 0 -> 0 <= count <= 255 -> 256 - count <= Z.of_nat fuel ->
  len rem <= len rest ->
  exists ws rem', rem = ws ++ rem' /\ len ws mod 8 = 0 /\ len rem' mod 8 = 0 /\
    0 <= len ws / 8 <= 255 - count /\
    (rem' = [] \/ count + len ws / 8 = 255 \/ compressible rem') /\
    literal_run fuel (out ++ rest) (done ++ rem) (len out) (len done) count
    = Ok (out ++ ws ++ drop (len ws) rest, len out + len ws, len done + len ws, count + len ws / 8).
Proof.
  induction fuel as [|fuel IH]; intros done rem out rest count B L C F R; [lia|].
  pose proof (len_nonneg done). pose proof (len_nonneg rem). pose proof (len_nonneg out).
  assert (Stop : exists ws, ws = @nil Z) by eauto.
  cbn [literal_run]. rewrite len_app.
  destruct (Z.eq_dec count 255) as [->|Nc].
  { exists [], rem. replace ((len done <? len done + len rem) && (255 <? 255)) with false by lia.
    change (len (@nil Z)) with 0; rewrite drop_0. cbn [app]. repeat split; try lia; try (right; left; reflexivity).
    change (0 / 8) with 0. rewrite !Z.add_0_r. reflexivity. }
  destruct rem as [|b rem].
  { exists [], []. change (len (@nil Z)) with 0; rewrite drop_0. cbn [app].
    replace ((len done <? len done + 0) && (count <? 255)) with false by lia.
    change (0 / 8) with 0. rewrite !Z.add_0_r. repeat split; try lia. now left. }
  destruct (split8 (b :: rem) L ltac:(discriminate)) as (w & r & E & Lw & Lr & Lr').
  rewrite E in *. clear E b rem.
  apply is_bytes_app in B. destruct B as [Bw Br].
  rewrite len_app in *. pose proof (len_nonneg r).
  replace ((len done <? len done + (len w + len r)) && (count <? 255)) with true by lia.
  rewrite word_at_spec by exact Lw. cbn [bind].
  rewrite countZeros_spec by assumption.
  destruct (2 <=? 8 - len (filter nz w)) eqn:E2.
  - exists [], (w ++ r). change (len (@nil Z)) with 0; rewrite drop_0. cbn [app].
    change (0 / 8) with 0. rewrite !Z.add_0_r, len_app. repeat split; try lia.
    right. right. unfold compressible. rewrite take_app_exact by lia. lia.
  - rewrite u8_id by lia.
    assert (Er : out ++ rest = out ++ take 8 rest ++ drop 8 rest) by (rewrite take_drop; reflexivity).
    rewrite Er. rewrite le_put_split by (rewrite ?len_take by lia; lia). cbn [bind].
    rewrite (le_enc_dec' 8 w Bw) by lia.
    destruct (IH (done ++ w) r (out ++ w) (drop 8 rest) (count + 1) Br Lr ltac:(lia) ltac:(lia)) as
      (ws & r' & -> & Lws & Lr2 & Hk & Hs & Hl).
    { rewrite len_drop by lia. lia. }
    exists (w ++ ws), r'.
    replace (len out + 8) with (len (out ++ w)) by (rewrite len_app; lia).
    replace (len done + 8) with (len (done ++ w)) by (rewrite len_app; lia).
    rewrite (app_assoc out w), (app_assoc done w). rewrite Hl.
    rewrite !len_app. pose proof (len_nonneg ws). rewrite drop_drop by lia.
    rewrite <- !app_assoc. repeat split; try lia.
    + destruct Hs as [Hs|[Hs|Hs]]; [left; exact Hs|right; left; lia|right; right; exact Hs].
    + f_equal. replace (len ws + 8) with (len w + len ws) by lia. f_equal; [|lia]. f_equal; [|lia]. f_equal. lia.
Qed.

(** Room the packer needs for [rem]. *)
Definition room (rem : bytes) (B : Z) : Prop :=
  B <= 9 * (len rem / 8) + 1 /\ (rem = [] -> B = 0) /\
  (rem <> [] -> compressible rem -> B <= 9 * (len rem / 8) - 1).

Lemma filter_nz_le l : len (filter nz l) <= len l.
Proof.
  induction l; cbn [filter]; [change (len (@nil Z)) with 0; lia|]. destruct (nz a); rewrite ?len_cons; lia.
Qed.

Lemma tagof_0 l : tagof l = 0 -> l = zeros (len l).
Proof.
  induction l as [|b r IH]; intros E; [reflexivity|].
  cbn [tagof] in E. pose proof (tagof_bound r). unfold nz in E.
  destruct (b =? 0) eqn:Eb; cbn [negb] in E; [|lia].
  apply Z.eqb_eq in Eb. subst b. rewrite len_cons.
  rewrite zeros_app by (try lia; apply len_nonneg). rewrite <- IH by lia. reflexivity.
Qed.
Lemma tagof_full l : tagof l = 2 ^ len l - 1 -> filter nz l = l.
Proof.
  induction l as [|b r IH]; intros E; [reflexivity|].
  cbn [tagof] in E. rewrite len_cons, Z.pow_add_r in E by (pose proof (len_nonneg r); lia).
  change (2 ^ 1) with 2 in E. pose proof (tagof_bound r). cbn [filter].
  destruct (nz b); [|lia]. f_equal. apply IH. lia.
Qed.
Lemma tagof_notfull l : tagof l <> 2 ^ len l - 1 -> len (filter nz l) <= len l - 1.
Proof.
  induction l as [|b r IH]; intros E; [cbn in E; lia|].
  cbn [tagof] in E. rewrite len_cons, Z.pow_add_r in E by (pose proof (len_nonneg r); lia).
  change (2 ^ 1) with 2 in E. pose proof (tagof_bound r). cbn [filter].
  rewrite len_cons. pose proof (filter_nz_le r).
  destruct (nz b); rewrite ?len_cons; [|lia]. specialize (IH ltac:(lia)). lia.
Qed.
Lemma filter_zeros n : filter nz (zeros n) = [].
Proof. unfold zeros. induction (Z.to_nat n); [reflexivity|exact IHn0]. Qed.

Lemma packLoop_spec fuel : forall done rem out rest,
  is_bytes rem -> len rem mod 8 = 0 -> (length rem < fuel)%nat ->
  (forall B, room rem B -> B <= len rest) ->
  exists p, expands p rem /\ room rem (len p) /\
    packLoop fuel (out ++ rest) (done ++ rem) (len out) (len done)
    = Ok (out ++ p ++ drop (len p) rest, len out + len p).
Proof.
  induction fuel as [|fuel IH]; intros done rem out rest B L F R; [lia|].
  pose proof (len_nonneg done). pose proof (len_nonneg rem). pose proof (len_nonneg out).
  pose proof (len_nonneg rest) as Hrest.
  cbn [packLoop]. rewrite len_app.
  destruct rem as [|b rem].
  { exists []. change (len (@nil Z)) with 0.
    replace (len done <? len done + 0) with false by lia.
    repeat split; try (rewrite ?len_nil; lia); [constructor| |].
    - intros X. contradiction.
    - rewrite drop_0, Z.add_0_r. reflexivity. }
  destruct (split8 (b :: rem) L ltac:(discriminate)) as (w & r & E & Lw & Lr & Lr').
  rewrite E in *. clear E b rem.
  apply is_bytes_app in B. destruct B as [Bw Br].
  rewrite len_app in *. pose proof (len_nonneg r).
  assert (Fr : (length r < fuel)%nat).
  { rewrite app_length in F. unfold len in Lw. lia. }
  assert (N0 : w ++ r <> []).
  { destruct w; [change (len (@nil Z)) with 0 in Lw; lia|discriminate]. }
  assert (RB : forall B, B <= 9 * (1 + len r / 8) + 1 ->
     (len (filter nz w) <= 6 -> B <= 9 * (1 + len r / 8) - 1) -> room (w ++ r) B).
  { intros B0 G1 G2. unfold room. rewrite len_app, Lw.
    replace ((8 + len r) / 8) with (1 + len r / 8) by lia.
    split; [exact G1|]. split; [intros X; contradiction|]. intros _ X. apply G2.
    unfold compressible in X. rewrite take_app_exact in X by lia. exact X. }
  replace (len done <? len done + (len w + len r)) with true by lia.
  rewrite word_at_spec by exact Lw. cbn [bind].
  rewrite computeTag_spec by assumption.
  pose proof (tagof_bound w) as Bt. rewrite Lw in Bt. change (2 ^ 8) with 256 in Bt.
  assert (R9 : 9 * (1 + len r / 8) - 1 <= len rest).
  { apply R. apply RB; lia. }
  pose proof (filter_nz_le w) as Fw.
  destruct rest as [|y rest]; [change (len (@nil Z)) with 0 in *; lia|]. rewrite len_cons in *.
  assert (RF : len (filter nz w) <= len rest).
  { destruct (Z_le_gt_dec (len (filter nz w)) 6); [lia|].
    assert (9 * (1 + len r / 8) + 1 <= 1 + len rest) by (apply R, RB; lia). lia. }
  rewrite put_app by reflexivity. cbn [bind].
  replace (out ++ tagof w :: rest) with ((out ++ [tagof w]) ++ rest) by (rewrite <- app_assoc; reflexivity).
  replace (len out + 1) with (len (out ++ [tagof w])) by (rewrite len_app; reflexivity).
  rewrite packWord_spec by (try assumption; lia). cbn [bind].
  set (nb := len (filter nz w)) in *.
  assert (Hnb : 0 <= nb) by apply len_nonneg.
  destruct (tagof w =? 0) eqn:E0.
  - apply Z.eqb_eq in E0. pose proof (tagof_0 w E0) as Ew. rewrite Lw in Ew.
    assert (Enb : nb = 0) by (unfold nb; rewrite Ew, filter_zeros; reflexivity).
    assert (Efz : filter nz w = []) by (rewrite Ew; apply filter_zeros).
    rewrite Efz, Enb. cbn [app]. rewrite drop_0.
    replace (len done + 8) with (len (done ++ w)) by (rewrite len_app; lia).
    rewrite (app_assoc done w).
    destruct (zero_run_spec 256 (done ++ w) r 0 Br Lr ltac:(lia) ltac:(lia)) as (k & r' & -> & Hk & Lr2 & Hz).
    rewrite Hz. cbn [bind]. rewrite len_app, len_zeros in * by lia. pose proof (len_nonneg r').
    rewrite app_length in Fr.
    destruct rest as [|z rest]; [change (len (@nil Z)) with 0 in *; lia|]. rewrite len_cons in *.
    change (len (@nil Z)) with 0 in *.
    rewrite put_app by (rewrite ?len_app; change (len [tagof w]) with 1; lia). cbn [bind]. rewrite E0, !Z.add_0_l.
    apply is_bytes_app in Br. destruct Br as [_ Br].
    destruct (IH ((done ++ w) ++ zeros (8 * k)) r' (out ++ [0; k]) rest Br Lr2 ltac:(lia)) as (p & Xp & Rp & Hp).
    { intros B1 (HB1 & HB2 & HB3). destruct r' as [|c r']; [rewrite HB2 by reflexivity; lia|]. lia. }
    exists (0 :: k :: p).
    split; [|split].
    + rewrite Ew, app_assoc. rewrite <- zeros_app by lia.
      replace (8 + 8 * k) with (8 * (k + 1)) by lia. constructor; [lia|exact Xp].
    + destruct Rp as (Rp1 & Rp2 & Rp3). apply RB; rewrite !len_cons; lia.
    + rewrite <- !app_assoc in Hp. cbn [app] in Hp.
      rewrite !len_app, len_zeros in Hp by lia. change (len [0; k]) with 2 in Hp.
      rewrite <- !app_assoc. cbn [app].
      rewrite !len_app. change (len [0]) with 1.
      replace (len out + (1 + 0) + 0 + 1) with (len out + 2) by lia.
      replace (len done + len w + 8 * k) with (len done + (len w + 8 * k)) by lia.
      rewrite Hp. rewrite !len_cons. pose proof (len_nonneg p).
      rewrite !drop_cons by lia. f_equal. f_equal; [|lia].
      do 4 f_equal. f_equal. lia.
  - apply Z.eqb_neq in E0. destruct (tagof w =? 255) eqn:E1.
    + apply Z.eqb_eq in E1.
      assert (Efw : filter nz w = w) by (apply tagof_full; rewrite Lw; exact E1).
      assert (Enb : nb = 8) by (unfold nb; rewrite Efw; exact Lw).
      assert (R10 : 9 * (1 + len r / 8) + 1 <= 1 + len rest) by (apply R, RB; lia).
      rewrite Efw, Enb.
      destruct (drop 8 rest) as [|z rest'] eqn:Ed.
      { assert (Ld := len_drop 8 rest ltac:(lia)). rewrite Ed in Ld; change (len (@nil Z)) with 0 in Ld. lia. }
      assert (Ld := len_drop 8 rest ltac:(lia)). rewrite Ed, len_cons in Ld.
      replace ((out ++ [tagof w]) ++ w ++ z :: rest') with ((out ++ tagof w :: w ++ [z]) ++ rest')
        by (rewrite <- !app_assoc; cbn [app]; rewrite <- app_assoc; reflexivity).
      replace (len (out ++ [tagof w]) + 8 + 1) with (len (out ++ tagof w :: w ++ [z]))
        by (rewrite !len_app, !len_cons, len_app, Lw; change (len [z]) with 1; change (len (@nil Z)) with 0; lia).
      replace (len done + 8) with (len (done ++ w)) by (rewrite len_app; lia).
      rewrite (app_assoc done w).
      destruct (literal_run_spec 256 (done ++ w) r (out ++ tagof w :: w ++ [z]) rest' 0 Br Lr ltac:(lia) ltac:(lia) ltac:(lia))
        as (ws & r' & -> & Lws & Lr2 & Hk & Hs & Hl).
      rewrite Hl. cbn [bind]. rewrite !Z.add_0_l. rewrite len_app in *. pose proof (len_nonneg r').
      rewrite app_length in Fr. apply is_bytes_app in Br. destruct Br as [_ Br].
      pose proof (len_nonneg ws).
      replace ((out ++ tagof w :: w ++ [z]) ++ ws ++ drop (len ws) rest')
        with ((out ++ tagof w :: w) ++ z :: (ws ++ drop (len ws) rest'))
        by (rewrite <- !app_assoc; cbn [app]; rewrite <- !app_assoc; reflexivity).
      rewrite put_app by (rewrite !len_app, len_cons; change (len (@nil Z)) with 0; rewrite len_cons; lia). cbn [bind].
      rewrite Z.add_0_l in Hs.
      destruct (IH ((done ++ w) ++ ws) r' (out ++ tagof w :: w ++ (len ws / 8) :: ws) (drop (len ws) rest') Br Lr2 ltac:(lia))
        as (p & Xp & Rp & Hp).
      { rewrite len_drop by lia. intros B1 (HB1 & HB2 & HB3).
        destruct r' as [|c r']; [rewrite HB2 by reflexivity; lia|].
        destruct Hs as [Hs|[Hs|Hs]]; [discriminate|lia|].
        specialize (HB3 ltac:(discriminate) Hs). lia. }
      exists (255 :: w ++ (len ws / 8) :: ws ++ p).
      split; [|split].
      * constructor; [lia|exact Lw|lia|exact Xp].
      * destruct Rp as (Rp1 & Rp2 & Rp3). apply RB; rewrite !len_cons, !len_app, !len_cons, len_app; [|lia].
        destruct r' as [|c r']; [rewrite Rp2 by reflexivity; change (len (@nil Z)) with 0 in *; lia|].
        destruct Hs as [Hs|[Hs|Hs]]; [discriminate|lia|].
        specialize (Rp3 ltac:(discriminate) Hs). lia.
      * rewrite <- !app_assoc in *. cbn [app] in *. rewrite <- ?app_assoc in *. cbn [app] in *. rewrite <- ?app_assoc in *.
        repeat first [rewrite len_app in Hp | rewrite len_cons in Hp].
        repeat first [rewrite len_app | rewrite len_cons]. change (len (@nil Z)) with 0.
        replace (len out + (1 + (len w + (1 + 0))) + len ws) with (len out + (1 + (len w + (1 + len ws)))) by lia.
        replace (len done + len w + len ws) with (len done + (len w + len ws)) by lia.
        rewrite Hp. rewrite E1. f_equal. pose proof (len_nonneg p).
        rewrite drop_drop by lia.
        replace rest' with (drop 10 (y :: rest)) by
          (rewrite drop_cons by lia; replace (10 - 1) with (1 + 8) by lia;
           rewrite <- drop_drop by lia; rewrite Ed; reflexivity).
        rewrite drop_drop by lia. f_equal; [|lia].
        do 2 f_equal. f_equal. f_equal. f_equal. f_equal. f_equal. lia.
    + apply Z.eqb_neq in E1.
      assert (Hn7 : nb <= 7) by (pose proof (tagof_notfull w); rewrite Lw in *; change (2 ^ 8 - 1) with 255 in *; lia).
      replace (len done + 8) with (len (done ++ w)) by (rewrite len_app; lia).
      rewrite !app_assoc.
      replace (len (out ++ [tagof w]) + nb) with (len ((out ++ [tagof w]) ++ filter nz w)) by (rewrite len_app; reflexivity).
      destruct (IH (done ++ w) r ((out ++ [tagof w]) ++ filter nz w) (drop nb rest) Br Lr Fr) as (p & Xp & Rp & Hp).
      { rewrite len_drop by lia. intros B1 (HB1 & HB2 & HB3).
        destruct r as [|c r]; [rewrite HB2 by reflexivity; lia|].
        destruct (Z_le_gt_dec nb 6); [lia|].
        assert (9 * (1 + len (c :: r) / 8) + 1 <= 1 + len rest) by (apply R, RB; lia). lia. }
      exists (tagof w :: filter nz w ++ p).
      split; [|split].
      * pose proof (spread_tagof w) as Sw. pose proof (popcount_tagof w) as Pw.
        replace (length w) with 8%nat in Sw, Pw by (unfold len in Lw; lia).
        rewrite <- Sw at 3. constructor; [lia| |exact Xp]. now rewrite Pw.
      * destruct Rp as (Rp1 & Rp2 & Rp3). fold nb.
        apply RB; rewrite len_cons, len_app; fold nb; lia.
      * rewrite Hp. repeat first [rewrite len_app | rewrite len_cons]. fold nb. change (len (@nil Z)) with 0.
        pose proof (len_nonneg p).
        rewrite drop_drop, drop_cons by lia. rewrite <- !app_assoc. cbn [app]. rewrite <- !app_assoc.
        f_equal. f_equal; [|lia]. do 4 f_equal. replace (1 + (nb + len p) - 1) with (len p + nb) by lia. reflexivity.
Qed.
