From Coq Require Import Lia.
From Verif Require Import Model.Base Model.Pack Spec.Packed Proofs.BaseLemmas Proofs.PackWord.

Lemma popcount_nonneg n t : 0 <= popcount n t <= Z.of_nat n.
Proof.
  revert t. induction n as [|n IH]; intros t; [cbn; lia|].
  cbn [popcount]. specialize (IH (t / 2)). destruct (Z.odd t); lia.
Qed.

Lemma spread_len n t ds : len (spread n t ds) = Z.of_nat n.
Proof.
  revert t ds. induction n as [|n IH]; intros t ds; [reflexivity|].
  cbn [spread]. destruct (Z.odd t); rewrite len_cons, IH; lia.
Qed.

(** One step of the unpackWord loop. *)
Definition ustep (src : bytes) (w r : Z) (tag : byte) (acc : res (bytes * Z)) (i : Z) : res (bytes * Z) :=
  ' (d, srcIdx) <- acc ;;
  if negb (Z.land tag (u8 (Z.shiftl 1 i)) =? 0)
  then x <- index src (r + srcIdx) ;; d <- put d (w + i) x ;; Ok (d, srcIdx + 1)
  else d <- put d (w + i) 0 ;; Ok (d, srcIdx).

Lemma ustep_ok src w r tag d k i : 0 <= i < 8 ->
  ustep src w r tag (Ok (d, k)) i =
  if Z.odd (tag / 2 ^ i)
  then x <- index src (r + k) ;; d <- put d (w + i) x ;; Ok (d, k + 1)
  else d <- put d (w + i) 0 ;; Ok (d, k).
Proof.
  intros Hi. unfold ustep. cbn [bind]. rewrite testmask by lia. rewrite negb_involutive.
  rewrite <- Z.shiftr_div_pow2 by lia. rewrite <- Z.bit0_odd, Z.shiftr_spec by lia. reflexivity.
Qed.

Lemma fold_ustep_panic src w r tag is : fold_left (ustep src w r tag) is Panic = Panic.
Proof. induction is; [reflexivity|exact IHis]. Qed.

Lemma div_pow2_succ t i : 0 <= i -> t / 2 ^ i / 2 = t / 2 ^ (i + 1).
Proof.
  intros. rewrite Z.pow_add_r by lia. change (2 ^ 1) with 2. rewrite Z.div_div by lia. reflexivity.
Qed.

Lemma unpack_fold_ok done tag out rest rem n : forall i w d used ds,
  (i + n = 8)%nat -> len w = Z.of_nat i -> len d = Z.of_nat n ->
  len ds = popcount n (tag / 2 ^ Z.of_nat i) ->
  fold_left (ustep (done ++ used ++ ds ++ rem) (len out) (len done) tag)
    (map Z.of_nat (seq i n)) (Ok (out ++ w ++ d ++ rest, len used))
  = Ok (out ++ w ++ spread n (tag / 2 ^ Z.of_nat i) ds ++ rest, len used + len ds).
Proof.
  induction n as [|n IH]; intros i w d used ds Hi Lw Ld Lds.
  - cbn [seq map fold_left spread popcount] in *.
    apply len_0_nil in Ld, Lds. subst d ds. change (len (@nil Z)) with 0. rewrite Z.add_0_r. reflexivity.
  - cbn [seq map fold_left]. rewrite ustep_ok by lia. cbn [spread]. cbn [popcount] in Lds.
    destruct d as [|y d]; [unfold len in Ld; cbn in Ld; lia|]. rewrite len_cons in Ld.
    assert (P : forall x, put (out ++ w ++ (y :: d) ++ rest) (len out + Z.of_nat i) x
                = Ok (out ++ (w ++ [x]) ++ d ++ rest)).
    { intros x. rewrite app_assoc. cbn [app]. rewrite put_app by (rewrite len_app; lia).
      rewrite <- !app_assoc. reflexivity. }
    rewrite div_pow2_succ in * by lia.
    replace (Z.of_nat i + 1) with (Z.of_nat (S i)) in * by lia.
    destruct (Z.odd (tag / 2 ^ Z.of_nat i)) eqn:O.
    + destruct ds as [|x ds].
      { change (len (@nil Z)) with 0 in Lds. pose proof (popcount_nonneg n (tag / 2 ^ Z.of_nat (S i))). lia. }
      rewrite len_cons in Lds. cbn [app].
      rewrite (app_assoc done used), index_app by (rewrite len_app; lia). cbn [bind].
      rewrite P. cbn [bind hd tl].
      replace ((done ++ used) ++ x :: ds ++ rem) with (done ++ (used ++ [x]) ++ ds ++ rem)
        by (rewrite <- !app_assoc; reflexivity).
      replace (len used + 1) with (len (used ++ [x])) by (rewrite len_app; reflexivity).
      rewrite IH; [|lia|rewrite len_app, Lw; change (len [x]) with 1; lia|lia|lia].
      rewrite len_cons, !len_app. change (len [x]) with 1. rewrite <- !app_assoc. cbn [app].
      f_equal. f_equal. lia.
    + rewrite P. cbn [bind].
      rewrite IH; [|lia|rewrite len_app, Lw; change (len [0]) with 1; lia|lia|lia].
      rewrite <- !app_assoc. reflexivity.
Qed.

Lemma unpack_fold_panic done tag out rest n : forall i w d used ds,
  (i + n = 8)%nat -> len w = Z.of_nat i -> len d = Z.of_nat n ->
  len ds < popcount n (tag / 2 ^ Z.of_nat i) ->
  fold_left (ustep (done ++ used ++ ds) (len out) (len done) tag)
    (map Z.of_nat (seq i n)) (Ok (out ++ w ++ d ++ rest, len used))
  = Panic.
Proof.
  induction n as [|n IH]; intros i w d used ds Hi Lw Ld Lds.
  - cbn [popcount] in Lds. pose proof (len_nonneg ds). lia.
  - cbn [seq map fold_left]. rewrite ustep_ok by lia. cbn [popcount] in Lds.
    destruct d as [|y d]; [unfold len in Ld; cbn in Ld; lia|]. rewrite len_cons in Ld.
    assert (P : forall x, put (out ++ w ++ (y :: d) ++ rest) (len out + Z.of_nat i) x
                = Ok (out ++ (w ++ [x]) ++ d ++ rest)).
    { intros x. rewrite app_assoc. cbn [app]. rewrite put_app by (rewrite len_app; lia).
      rewrite <- !app_assoc. reflexivity. }
    rewrite div_pow2_succ in * by lia.
    replace (Z.of_nat i + 1) with (Z.of_nat (S i)) in * by lia.
    destruct (Z.odd (tag / 2 ^ Z.of_nat i)) eqn:O.
    + destruct ds as [|x ds].
      { replace (index (done ++ used ++ []) (len done + len used)) with (@Panic Z).
        - cbn [bind]. apply fold_ustep_panic.
        - unfold index. rewrite !len_app. change (len (@nil Z)) with 0.
          replace ((0 <=? len done + len used) && (len done + len used <? len done + (len used + 0))) with false by lia.
          reflexivity. }
      rewrite len_cons in Lds.
      rewrite (app_assoc done used), index_app by (rewrite len_app; lia). cbn [bind].
      rewrite P. cbn [bind].
      replace ((done ++ used) ++ x :: ds) with (done ++ (used ++ [x]) ++ ds)
        by (rewrite <- !app_assoc; reflexivity).
      replace (len used + 1) with (len (used ++ [x])) by (rewrite len_app; reflexivity).
      apply IH; [lia|rewrite len_app, Lw; change (len [x]) with 1; lia|lia|lia].
    + rewrite P. cbn [bind].
      apply IH; [lia|rewrite len_app, Lw; change (len [0]) with 1; lia|lia|lia].
Qed.

Lemma unpackWord_ok done ds rem out d rest tag :
  len d = 8 -> len ds = popcount 8 tag ->
  unpackWord (out ++ d ++ rest) (done ++ ds ++ rem) (len out) (len done) tag
  = Ok (out ++ spread 8 tag ds ++ rest, len ds).
Proof.
  intros Ld Lds. unfold unpackWord.
  pose proof (len_nonneg ds). pose proof (len_nonneg rem). pose proof (len_nonneg rest).
  rewrite !len_app.
  replace (negb ((len out + 8 <=? len out + (len d + len rest)) && (len done <=? len done + (len ds + len rem))))
    with false by lia.
  pose proof (unpack_fold_ok done tag out rest rem 8 0 [] d [] ds eq_refl eq_refl Ld) as G.
  change (2 ^ Z.of_nat 0) with 1 in G. rewrite Z.div_1_r in G. exact (G Lds).
Qed.

Lemma unpackWord_panic done ds out d rest tag :
  len d = 8 -> len ds < popcount 8 tag ->
  unpackWord (out ++ d ++ rest) (done ++ ds) (len out) (len done) tag = Panic.
Proof.
  intros Ld Lds. unfold unpackWord.
  pose proof (len_nonneg ds). pose proof (len_nonneg rest).
  rewrite !len_app.
  replace (negb ((len out + 8 <=? len out + (len d + len rest)) && (len done <=? len done + len ds)))
    with false by lia.
  pose proof (unpack_fold_panic done tag out rest 8 0 [] d [] ds eq_refl eq_refl Ld) as G.
  change (2 ^ Z.of_nat 0) with 1 in G. rewrite Z.div_1_r in G. exact (G Lds).
Qed.

Lemma expands_nil_inv u : expands [] u -> u = [].
Proof. intros H. inversion H; auto. Qed.

Lemma app_eq_len {A} (a b c d : list A) : len a = len c -> a ++ b = c ++ d -> a = c /\ b = d.
Proof.
  intros L E. assert (length a = length c) by (unfold len in L; lia).
  split; [|]; revert c H L E; induction a as [|x a IH]; intros [|y c] H L E; cbn in *; try discriminate; auto.
  - injection E as -> E. f_equal. apply IH; auto. unfold len. lia.
  - injection E as -> E. apply (IH c); auto. unfold len. lia.
Qed.

Lemma expands_word_inv t rest u : 0 < t < 255 -> expands (t :: rest) u ->
  exists ds p u', rest = ds ++ p /\ len ds = popcount 8 t /\ u = spread 8 t ds ++ u' /\ expands p u'.
Proof.
  intros Ht H. inversion H; subst; try lia.
  exists ds, p, u0. auto.
Qed.
Lemma expands_zero_inv rest u : expands (0 :: rest) u ->
  exists c p u', rest = c :: p /\ 0 <= c < 256 /\ u = zeros (8 * (c + 1)) ++ u' /\ expands p u'.
Proof.
  intros H. inversion H; subst; try lia. exists c, p, u0. auto.
Qed.
Lemma expands_literal_inv rest u : expands (255 :: rest) u ->
  exists w c ws p u', rest = w ++ c :: ws ++ p /\ 0 <= c < 256 /\ len w = 8 /\ len ws = 8 * c /\
    u = w ++ ws ++ u' /\ expands p u'.
Proof.
  intros H. inversion H; subst; try lia. exists w, c, ws, p, u0. auto 10.
Qed.

(** How the input of the loop can end after complete groups: at the end of the data,
    or inside a word; [k] is the room the unfinished word still needs. *)
Inductive ends : bytes -> Z -> Prop :=
| E_nil : ends [] 0
| E_cut t short : 0 <= t < 256 -> len short < popcount 8 t -> ends (t :: short) 8.

(** What one run of the loop does, for any input.  [left] is how many bytes the
    output still has. *)
Inductive outcome (rem : bytes) (left : Z) : res bytes -> Prop :=
| O_ok u : expands rem u -> len u <= left -> outcome rem left (Ok u)
| O_err :
    (forall p1 s u k, rem = p1 ++ s -> expands p1 u -> ends s k -> left < len u + k) ->
    outcome rem left Err
| O_panic u : cut_in_word rem u -> len u + 8 <= left -> outcome rem left Panic.

Lemma ends_full t rem k : popcount 8 t <= len rem -> ~ ends (t :: rem) k.
Proof. intros H X. inversion X; subst. lia. Qed.

Lemma word_inv t rem p1 s u k : 0 < t < 255 -> popcount 8 t <= len rem ->
  t :: rem = p1 ++ s -> expands p1 u -> ends s k ->
  exists ds p u', rem = ds ++ p ++ s /\ len ds = popcount 8 t /\ u = spread 8 t ds ++ u' /\ expands p u'.
Proof.
  intros Ht Hf E X He. destruct p1 as [|t' p1].
  { cbn [app] in E. subst s. exfalso. exact (ends_full _ _ _ Hf He). }
  injection E as <- ->. apply expands_word_inv in X; [|lia].
  destruct X as (ds & p & u' & -> & L & -> & X). exists ds, p, u'. rewrite <- app_assoc. auto.
Qed.
Lemma zero_inv rem p1 s u k :
  0 :: rem = p1 ++ s -> expands p1 u -> ends s k ->
  exists c p u', rem = c :: p ++ s /\ 0 <= c < 256 /\ u = zeros (8 * (c + 1)) ++ u' /\ expands p u'.
Proof.
  intros E X He. destruct p1 as [|t' p1].
  { cbn [app] in E. subst s. exfalso. refine (ends_full _ _ _ _ He). apply (len_nonneg rem). }
  injection E as <- ->. apply expands_zero_inv in X.
  destruct X as (c & p & u' & -> & L & -> & X). exists c, p, u'. auto.
Qed.
Lemma literal_inv rem p1 s u k : 8 <= len rem ->
  255 :: rem = p1 ++ s -> expands p1 u -> ends s k ->
  exists w c ws p u', rem = w ++ c :: ws ++ p ++ s /\ 0 <= c < 256 /\ len w = 8 /\ len ws = 8 * c /\ u = w ++ ws ++ u' /\ expands p u'.
Proof.
  intros Hf E X He. destruct p1 as [|t' p1].
  { cbn [app] in E. subst s. exfalso. exact (ends_full 255 rem k Hf He). }
  injection E as <- ->. apply expands_literal_inv in X.
  destruct X as (w & c & ws & p & u' & -> & Hc & L1 & L2 & -> & X). exists w, c, ws, p, u'.
  repeat (rewrite <- !app_assoc; cbn [app]). auto 10.
Qed.

Lemma expands_app p1 u1 p2 u2 : expands p1 u1 -> expands p2 u2 -> expands (p1 ++ p2) (u1 ++ u2).
Proof.
  intros H H2. induction H; cbn [app].
  - exact H2.
  - rewrite <- !app_assoc. constructor; auto.
  - rewrite <- app_assoc. constructor; auto.
  - repeat (rewrite <- !app_assoc; cbn [app]). constructor; auto.
Qed.

Lemma cut_app p1 u1 p2 u2 : expands p1 u1 -> cut_in_word p2 u2 -> cut_in_word (p1 ++ p2) (u1 ++ u2).
Proof.
  intros H (q & t & s & -> & Hq & Ht & Hs).
  exists (p1 ++ q), t, s. rewrite <- app_assoc. repeat split; try lia. now apply expands_app.
Qed.

Lemma spread_255 w : len w = 8 -> spread 8 255 w = w.
Proof.
  intros L. destruct (list8 w L) as (a & b & c & d & e & f & g & h & ->). reflexivity.
Qed.
Lemma spread_0 ds : spread 8 0 ds = zeros 8.
Proof. reflexivity. Qed.

Lemma copy_at_zeros out d n rest : len d = n ->
  copy_at (out ++ d ++ rest) (len out) (zeros n) = Ok (out ++ zeros n ++ rest).
Proof.
  intros L. pose proof (len_nonneg d). apply copy_at_split; [reflexivity|]. rewrite len_zeros; lia.
Qed.

Lemma take_split n (l : bytes) : 0 <= n <= len l -> exists a b, l = a ++ b /\ len a = n.
Proof.
  intros H. exists (take n l), (drop n l). rewrite take_drop, len_take by lia. auto.
Qed.

Lemma unpackLoop_spec fuel : forall done rem out rest,
  is_bytes rem -> (length rem < fuel)%nat ->
  exists o, outcome rem (len rest) o /\
    unpackLoop fuel (out ++ rest) (done ++ rem) (len out) (len done)
    = (u <- o ;; Ok (out ++ u ++ drop (len u) rest, len out + len u)).
Proof.
  induction fuel as [|fuel IH]; intros done rem out rest B F; [lia|].
  pose proof (len_nonneg done). pose proof (len_nonneg out). pose proof (len_nonneg rest).
  cbn [unpackLoop]. rewrite !len_app.
  destruct rem as [|t rem].
  { exists (Ok []). change (len (@nil Z)) with 0.
    replace (len done <? len done + 0) with false by lia. split.
    - apply O_ok; [constructor|]. change (len (@nil Z)) with 0. lia.
    - cbn [bind app]. change (len (@nil Z)) with 0. rewrite drop_0, Z.add_0_r. reflexivity. }
  pose proof (len_nonneg rem). rewrite len_cons. cbn in F.
  replace (len done <? len done + (1 + len rem)) with true by lia.
  inversion B as [|? ? Bt Brem]; subst. unfold is_byte in Bt.
  destruct (len out + len rest <? len out + 8) eqn:Er.
  { exists Err. split; [|reflexivity]. apply O_err. intros p1 s u k E Hu He.
    inversion He; subst; [|pose proof (len_nonneg u); lia]. rewrite app_nil_r in E. subst p1.
    assert (8 <= len u); [|lia].
    inversion Hu; subst; rewrite len_app.
    - rewrite spread_len. pose proof (len_nonneg u0). lia.
    - rewrite len_zeros by lia. pose proof (len_nonneg u0). lia.
    - pose proof (len_nonneg (ws ++ u0)). lia. }
  destruct (take_split 8 rest ltac:(lia)) as (d & rest' & -> & Ld).
  rewrite len_app in *. pose proof (len_nonneg rest').
  rewrite index_app by reflexivity. cbn [bind].
  replace (done ++ t :: rem) with ((done ++ [t]) ++ rem) by (rewrite <- app_assoc; reflexivity).
  replace (len done + 1) with (len (done ++ [t])) by (rewrite len_app; reflexivity).
  destruct (Z_lt_le_dec (len rem) (popcount 8 t)) as [Hcut|Hfull].
  { exists Panic. rewrite unpackWord_panic by assumption. split; [|reflexivity].
    apply O_panic with (u := []); [|change (len (@nil Z)) with 0; lia].
    exists [], t, rem. repeat split; try lia. constructor. }
  pose proof (popcount_nonneg 8 t) as Pt.
  destruct (take_split (popcount 8 t) rem ltac:(lia)) as (ds & rem' & -> & Lds).
  rewrite (len_app ds rem') in *. pose proof (len_nonneg rem').
  apply is_bytes_app in Brem. destruct Brem as [Bds Brem].
  rewrite app_length in F.
  rewrite unpackWord_ok by assumption. cbn [bind].
  set (w8 := spread 8 t ds). assert (Lw8 : len w8 = 8) by apply spread_len.
  replace (len out + 8) with (len (out ++ w8)) by (rewrite len_app; lia).
  replace (len (done ++ [t]) + len ds) with (len ((done ++ [t]) ++ ds)) by (rewrite len_app; reflexivity).
  rewrite (app_assoc out w8), (app_assoc (done ++ [t]) ds).
  replace (len done + (1 + (len ds + len rem'))) with (len ((done ++ [t]) ++ ds) + len rem')
    by (rewrite !len_app; change (len [t]) with 1; lia).
  assert (LO : forall x, len ((out ++ w8) ++ x) = len (out ++ w8) + len x) by (intros; apply len_app).
  destruct (t =? 0) eqn:E0; [apply Z.eqb_eq in E0; subst t|].
  { assert (ds = []) by (apply len_0_nil; rewrite Lds; reflexivity). subst ds.
    assert (w8 = zeros 8) by reflexivity.
    destruct rem' as [|c rem'].
    { change (len (@nil Z)) with 0. replace (_ <=? _) with true by lia.
      exists Err. split; [|reflexivity]. apply O_err. intros p1 s u k E Hu He.
      destruct (zero_inv _ _ _ _ _ E Hu He) as (? & ? & ? & ? & _). discriminate. }
    rewrite len_cons in *. pose proof (len_nonneg rem').
    replace (_ <=? _) with false by lia.
    rewrite index_app by reflexivity. cbn [bind].
    inversion Brem as [|? ? Bc Brem2]; subst. unfold is_byte in Bc.
    rewrite LO.
    destruct (len (out ++ w8) + len rest' <? len (out ++ w8) + c * 8) eqn:Ec.
    { exists Err. split; [|reflexivity]. apply O_err. intros p1 s u k E Hu He.
      destruct (zero_inv _ _ _ _ _ E Hu He) as (c' & p & u' & E' & _ & -> & _).
      injection E' as <- ->. rewrite len_app, len_zeros by lia. pose proof (len_nonneg u').
      assert (0 <= k) by (inversion He; lia). lia. }
    destruct (take_split (c * 8) rest' ltac:(lia)) as (d2 & rest2 & -> & Ld2).
    rewrite copy_at_zeros by exact Ld2. cbn [bind].
    rewrite (app_assoc (out ++ w8)).
    replace (((done ++ [0]) ++ []) ++ c :: rem') with ((((done ++ [0]) ++ []) ++ [c]) ++ rem')
      by (rewrite <- app_assoc; reflexivity).
    replace (len (out ++ w8) + c * 8) with (len ((out ++ w8) ++ zeros (c * 8)))
      by (rewrite len_app, len_zeros by lia; lia).
    replace (len ((done ++ [0]) ++ []) + 1) with (len (((done ++ [0]) ++ []) ++ [c])) by (rewrite len_app; reflexivity).
    cbn in F.
    destruct (IH (((done ++ [0]) ++ []) ++ [c]) rem' ((out ++ w8) ++ zeros (c * 8)) rest2 Brem2 ltac:(lia))
      as (o & Ho & ->).
    rewrite len_app in *.
    set (zz := zeros (8 * (c + 1))).
    assert (Ezz : w8 ++ zeros (c * 8) = zz).
    { unfold zz. replace (8 * (c + 1)) with (8 + c * 8) by lia. rewrite zeros_app by lia. congruence. }
    assert (Lzz : len zz = 8 * (c + 1)) by (apply len_zeros; lia).
    exists (u <- o ;; Ok (zz ++ u)). split.
    + inversion Ho; subst; cbn [bind].
      * apply O_ok; [apply X_zero; auto|rewrite len_app; lia].
      * apply O_err. intros p1 s u k E Hu He.
        destruct (zero_inv _ _ _ _ _ E Hu He) as (c' & p & u' & E' & _ & -> & Hu'). injection E' as <- ->.
        match goal with K : forall p1 s u k, _ |- _ => specialize (K _ _ _ _ eq_refl Hu' He) end.
        fold zz. rewrite len_app. lia.
      * apply O_panic with (u := zz ++ u); [|rewrite len_app; lia].
        change (0 :: [] ++ c :: rem') with ([0; c] ++ rem').
        apply cut_app; [|assumption].
        rewrite <- (app_nil_r zz). apply X_zero; [lia|constructor].
    + destruct o as [u| | |]; cbn [bind]; try reflexivity.
      rewrite <- Ezz. rewrite !len_app, len_zeros by lia. rewrite <- !app_assoc.
      f_equal. f_equal; [|lia]. do 4 f_equal.
      pose proof (len_nonneg u).
      rewrite (drop_app_r _ d), (drop_app_r _ d2) by lia. f_equal. lia. }
  apply Z.eqb_neq in E0.
  destruct (t =? 255) eqn:E1; [apply Z.eqb_eq in E1; subst t|].
  { change (popcount 8 255) with 8 in *.
    assert (Hf8 : forall x, 8 <= len (ds ++ x)) by (intros x; rewrite len_app; pose proof (len_nonneg x); lia).
    assert (w8 = ds) by (apply spread_255; exact Lds).
    destruct rem' as [|c rem'].
    { change (len (@nil Z)) with 0. replace (_ <=? _) with true by lia.
      exists Err. split; [|reflexivity]. apply O_err. intros p1 s u k E Hu He.
      destruct (literal_inv _ _ _ _ _ (Hf8 _) E Hu He) as (w & c & ws & p & u' & E' & _ & Lw & _).
      apply app_eq_len in E'; [|lia]. destruct E' as [_ E']. discriminate. }
    rewrite len_cons in *. pose proof (len_nonneg rem').
    replace (_ <=? _) with false by lia.
    rewrite index_app by reflexivity. cbn [bind].
    pose proof (Forall_inv Brem) as Bc. pose proof (Forall_inv_tail Brem) as Brem2. unfold is_byte in Bc.
    destruct (len ((done ++ [255]) ++ ds) + (1 + len rem') <? len ((done ++ [255]) ++ ds) + 1 + c * 8) eqn:Es.
    { exists Err. split; [|reflexivity]. apply O_err. intros p1 s u k E Hu He.
      destruct (literal_inv _ _ _ _ _ (Hf8 _) E Hu He) as (w & c' & ws & p & u' & E' & Hc & Lw & Lws & _).
      apply app_eq_len in E'; [|lia]. destruct E' as [_ E']. injection E' as <- ->.
      rewrite (len_app ws) in Es. pose proof (len_nonneg (p ++ s)). lia. }
    rewrite LO.
    destruct (len (out ++ w8) + len rest' <? len (out ++ w8) + c * 8) eqn:Ec.
    { exists Err. split; [|reflexivity]. apply O_err. intros p1 s u k E Hu He.
      destruct (literal_inv _ _ _ _ _ (Hf8 _) E Hu He) as (w & c' & ws & p & u' & E' & Hc & Lw & Lws & -> & _).
      apply app_eq_len in E'; [|lia]. destruct E' as [_ E']. injection E' as <- ->.
      assert (0 <= k) by (inversion He; lia).
      rewrite !len_app in *. pose proof (len_nonneg u'). lia. }
    destruct (take_split (c * 8) rem' ltac:(lia)) as (ws & rem2 & -> & Lws).
    destruct (take_split (c * 8) rest' ltac:(lia)) as (d2 & rest2 & -> & Ld2).
    apply is_bytes_app in Brem2. destruct Brem2 as [_ Brem2].
    replace (((done ++ [255]) ++ ds) ++ c :: ws ++ rem2) with ((((done ++ [255]) ++ ds) ++ [c]) ++ ws ++ rem2)
      by (rewrite <- (app_assoc _ [c]); reflexivity).
    replace (len ((done ++ [255]) ++ ds) + 1) with (len (((done ++ [255]) ++ ds) ++ [c])) by (rewrite (len_app _ [c]); reflexivity).
    set (done2 := ((done ++ [255]) ++ ds) ++ [c]) in *.
    rewrite slice_app by lia. cbn [bind].
    rewrite copy_at_split by (try reflexivity; lia). cbn [bind].
    rewrite (app_assoc (out ++ w8)), (app_assoc done2 ws).
    replace (len (out ++ w8) + c * 8) with (len ((out ++ w8) ++ ws)) by (rewrite (len_app _ ws); lia).
    replace (len done2 + c * 8) with (len (done2 ++ ws)) by (rewrite (len_app _ ws); lia).
    cbn [length] in F. rewrite app_length in F.
    destruct (IH (done2 ++ ws) rem2 ((out ++ w8) ++ ws) rest2 Brem2 ltac:(lia)) as (o & Ho & ->).
    rewrite !len_app in *.
    exists (u <- o ;; Ok (ds ++ ws ++ u)). split.
    + inversion Ho; subst o; cbn [bind].
      * apply O_ok; [apply X_literal; auto; lia|rewrite !len_app; lia].
      * apply O_err. intros p1 s u k E Hu He.
        destruct (literal_inv _ _ _ _ _ (Hf8 _) E Hu He)
          as (w & c' & ws' & p & u' & E' & Hc' & Lw & Lws' & -> & Hu').
        apply app_eq_len in E'; [|lia]. destruct E' as [-> E']. injection E' as <- E'.
        apply app_eq_len in E'; [|lia]. destruct E' as [-> ->].
        match goal with K : forall p1 s u k, _ |- _ => specialize (K _ _ _ _ eq_refl Hu' He) end.
        rewrite !len_app. lia.
      * apply O_panic with (u := ds ++ ws ++ u); [|rewrite !len_app; lia].
        replace (255 :: ds ++ c :: ws ++ rem2) with ((255 :: ds ++ c :: ws) ++ rem2)
          by (cbn [app]; rewrite <- app_assoc; reflexivity).
        rewrite (app_assoc ds). apply cut_app; [|assumption].
        rewrite <- (app_nil_r (ds ++ ws)), <- app_assoc. rewrite <- (app_nil_r ws) at 1.
        apply X_literal; [lia|lia|lia|constructor].
    + destruct o as [u| | |]; cbn [bind]; try reflexivity.
      fold w8. assert (Ew : w8 = ds) by assumption. rewrite Ew.
      rewrite !len_app. rewrite <- !app_assoc.
      f_equal. f_equal; [|lia]. do 4 f_equal. pose proof (len_nonneg u).
      rewrite (drop_app_r _ d), (drop_app_r _ d2) by lia. f_equal. lia. }
  apply Z.eqb_neq in E1.
  destruct (IH ((done ++ [t]) ++ ds) rem' (out ++ w8) rest' Brem ltac:(lia)) as (o & Ho & ->).
  exists (u <- o ;; Ok (w8 ++ u)). split.
  - inversion Ho; subst o; cbn [bind].
    + apply O_ok; [apply X_word; auto; lia|rewrite len_app; lia].
    + apply O_err. intros p1 s u k E Hu He.
      assert (Hf8 : popcount 8 t <= len (ds ++ rem')) by (rewrite len_app; lia).
      destruct (word_inv t (ds ++ rem') p1 s u k ltac:(lia) Hf8 E Hu He)
        as (ds' & p & u' & E' & Lds' & -> & Hu').
      apply app_eq_len in E'; [|lia]. destruct E' as [-> ->].
      match goal with K : forall p1 s u k, _ |- _ => specialize (K _ _ _ _ eq_refl Hu' He) end.
      fold w8. rewrite len_app. lia.
    + apply O_panic with (u := w8 ++ u); [|rewrite len_app; lia].
      change (t :: ds ++ rem') with ((t :: ds) ++ rem').
      apply cut_app; [|assumption].
      unfold w8. rewrite <- (app_nil_r (spread 8 t ds)). rewrite <- (app_nil_r ds) at 1.
      apply X_word; [lia|lia|constructor].
  - destruct o as [u| | |]; cbn [bind]; try reflexivity.
    rewrite !len_app. rewrite <- !app_assoc.
    f_equal. f_equal; [|lia]. do 3 f_equal. pose proof (len_nonneg u).
    rewrite (drop_app_r _ d) by lia. f_equal. lia.
Qed.
