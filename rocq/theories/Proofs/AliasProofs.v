(** The slice level functions of Model/Alias.v against the value level ones. *)
From Verif.Model Require Export Alias.
From Verif.Proofs Require Export SegmentLemmas.

Lemma len_view h s : wf h s -> len (view h s) = sl_len s.
Proof.
  intros (A & B & C & D). unfold view. rewrite len_take; auto. rewrite len_drop by lia. lia.
Qed.
Lemma put_length h s d : length (put h s d) = length h.
Proof. unfold put. apply set_nth_length. Qed.
Lemma array_put_eq h s d :
  (sl_arr s < length h)%nat ->
  array (put h s d) (sl_arr s) =
  take (sl_off s) (array h (sl_arr s)) ++ d ++ drop (sl_off s + len d) (array h (sl_arr s)).
Proof.
  intros H. unfold put, array. apply nth_error_nth. now apply nth_error_set_nth_eq.
Qed.
Lemma nth_of_error {A} (l l' : list A) i d : nth_error l i = nth_error l' i -> nth i l d = nth i l' d.
Proof.
  intros H. destruct (nth_error l i) eqn:E.
  - rewrite (nth_error_nth _ _ _ E). symmetry in H. now rewrite (nth_error_nth _ _ _ H).
  - symmetry in H. apply nth_error_None in E, H. now rewrite !nth_overflow.
Qed.
Lemma array_put_ne h s d a : a <> sl_arr s -> array (put h s d) a = array h a.
Proof. intros H. unfold put, array. apply nth_of_error, nth_error_set_nth_neq. auto. Qed.
Lemma len_array_put h s d a :
  wf h s -> len d <= sl_cap s -> len (array (put h s d) a) = len (array h a).
Proof.
  intros (A & B & C & D) L. destruct (Nat.eq_dec a (sl_arr s)) as [->|N].
  - rewrite array_put_eq by auto. rewrite !len_app. pose proof (len_nonneg d).
    rewrite len_take by lia. rewrite len_drop by lia. lia.
  - now rewrite array_put_ne.
Qed.
Lemma set_nth_twice {A} n (x y : A) l : set_nth n y (set_nth n x l) = set_nth n y l.
Proof. revert n; induction l; destruct n; cbn; auto. now rewrite IHl. Qed.
Lemma set_nth_same {A} n (l : list A) d : set_nth n (nth n l d) l = l.
Proof. revert n; induction l; destruct n; cbn; auto. now rewrite IHl. Qed.

Lemma put_put h s d1 d2 :
  wf h s -> len d1 <= sl_cap s -> len d1 <= len d2 -> put (put h s d1) s d2 = put h s d2.
Proof.
  intros W L1 L2. destruct W as (A & B & C & D). unfold put at 1 3. rewrite array_put_eq by auto.
  unfold put. rewrite set_nth_twice. f_equal.
  pose proof (len_nonneg d1).
  set (a := array h (sl_arr s)) in *.
  assert (LT : len (take (sl_off s) a) = sl_off s) by (rewrite len_take by lia; lia).
  rewrite take_app_l by lia. rewrite take_take by lia. f_equal. f_equal.
  rewrite drop_app_r by (rewrite LT; lia). rewrite LT.
  rewrite drop_app_r by lia. rewrite drop_drop by lia. f_equal. lia.
Qed.
Lemma put_reslice h s d n : put h (reslice s n) d = put h s d.
Proof. reflexivity. Qed.
Lemma view_put h s d n :
  wf h s -> len d <= sl_cap s -> n = len d -> view (put h s d) (reslice s n) = d.
Proof.
  intros (A & B & C & D) L ->. unfold view. cbn [sl_len sl_off sl_arr reslice].
  rewrite array_put_eq by auto. pose proof (len_nonneg d).
  rewrite drop_app_exact by (rewrite len_take by lia; lia). now apply take_app_exact.
Qed.
Lemma reslice_len s : reslice s (sl_len s) = s.
Proof. now destruct s. Qed.
Lemma view_put_same h s d : wf h s -> len d = sl_len s -> view (put h s d) s = d.
Proof.
  intros W L. rewrite <- (reslice_len s) at 2. apply view_put; auto. destruct W as (_ & _ & W & _). lia.
Qed.
Lemma wf_put h s d : wf h s -> len d <= sl_cap s -> wf (put h s d) s.
Proof.
  intros W L. assert (W' := W). destruct W' as (A & B & C & D). split; [now rewrite put_length|].
  split; [auto|]. split; [auto|]. now rewrite len_array_put.
Qed.
Lemma wf_reslice h s n : wf h s -> 0 <= n <= sl_cap s -> wf h (reslice s n).
Proof. intros (A & B & C & D) L. repeat (split; auto). Qed.
(** A write whose tail is what was there already. *)
Lemma put_tail h s d :
  wf h s -> len d <= sl_len s -> put h s (d ++ drop (len d) (view h s)) = put h s d.
Proof.
  intros (A & B & C & D) L. unfold put. f_equal. f_equal.
  set (a := array h (sl_arr s)) in *. unfold view. fold a. pose proof (len_nonneg d).
  rewrite <- app_assoc. f_equal. rewrite len_app.
  set (t := drop (len d) (take (sl_len s) (drop (sl_off s) a))).
  assert (LV : len (take (sl_len s) (drop (sl_off s) a)) = sl_len s).
  { rewrite len_take; auto. rewrite len_drop by lia. lia. }
  assert (LT : len t = sl_len s - len d) by (unfold t; rewrite len_drop by lia; lia).
  rewrite LT. replace (sl_off s + (len d + (sl_len s - len d))) with (sl_len s + sl_off s) by lia.
  rewrite <- drop_drop by lia. replace (sl_off s + len d) with (len d + sl_off s) by lia.
  rewrite <- (drop_drop (len d)) by lia. set (b := drop (sl_off s) a) in *.
  rewrite <- (take_drop (sl_len s) b) at 2. rewrite drop_app_l by lia. reflexivity.
Qed.
Lemma put_view h s : wf h s -> put h s (view h s) = h.
Proof.
  intros W. assert (W' := W). destruct W' as (A & B & C & D). unfold put. rewrite len_view by auto.
  unfold view. set (a := array h (sl_arr s)) in *.
  assert (take (sl_off s) a ++ take (sl_len s) (drop (sl_off s) a) ++ drop (sl_off s + sl_len s) a = a) as ->.
  { replace (sl_off s + sl_len s) with (sl_len s + sl_off s) by lia.
    rewrite <- drop_drop by lia. now rewrite !take_drop. }
  apply set_nth_same.
Qed.

(** Fresh arrays. *)
Lemma array_app h a x : (a < length h)%nat -> array (h ++ x) a = array h a.
Proof. intros. unfold array. now apply app_nth1. Qed.
Lemma array_fresh h x : array (h ++ [x]) (length h) = x.
Proof. unfold array. rewrite app_nth2 by auto. now rewrite Nat.sub_diag. Qed.
Lemma set_nth_app {A} (l : list A) x y : set_nth (length l) y (l ++ [x]) = l ++ [y].
Proof. induction l; cbn; auto. now rewrite IHl. Qed.
Lemma wf_fresh h x n c : 0 <= n <= c -> c = len x -> wf (h ++ [x]) (mkSl (length h) 0 n c).
Proof.
  intros H E. unfold wf. cbn. rewrite app_length, array_fresh. cbn. lia.
Qed.
Lemma put_fresh h x n c d :
  len d <= len x -> put (h ++ [x]) (mkSl (length h) 0 n c) d = h ++ [d ++ drop (len d) x].
Proof.
  intros H. unfold put. cbn [sl_arr sl_off]. rewrite array_fresh, set_nth_app. reflexivity.
Qed.
Lemma view_fresh h x n c : view (h ++ [x]) (mkSl (length h) 0 n c) = take n x.
Proof. unfold view. cbn [sl_arr sl_off sl_len]. now rewrite array_fresh. Qed.

(** Where the new content d of a slice ends up: in place when the capacity suffices, in a
    fresh array otherwise. *)
Definition lands (h : heap) (s : sl) (d : bytes) (h' : heap) (s' : sl) : Prop :=
  (len d <= sl_cap s /\ h' = put h s d /\ s' = reslice s (len d)) \/
  (sl_cap s < len d /\ exists z, h' = h ++ [d ++ z] /\ s' = mkSl (length h) 0 (len d) (len d + len z)).

Lemma lands_view h s d h' s' : wf h s -> lands h s d h' s' -> view h' s' = d /\ wf h' s'.
Proof.
  intros W [(L & -> & ->)|(L & z & -> & ->)].
  - pose proof (len_nonneg d). split; [now apply view_put|]. apply wf_reslice; [now apply wf_put|].
    cbn [sl_cap]. lia.
  - pose proof (len_nonneg d). pose proof (len_nonneg z). split.
    + rewrite view_fresh. now apply take_app_exact.
    + apply wf_fresh; [lia|]. now rewrite len_app.
Qed.
Lemma lands_self h s : wf h s -> lands h s (view h s) h s.
Proof.
  intros W. left. assert (W' := W). destruct W' as (A & B & C & D). rewrite len_view by auto.
  split; [lia|]. split; [now rewrite put_view|now rewrite reslice_len].
Qed.
Lemma lands_then h s d1 h1 s1 d2 :
  wf h s -> lands h s d1 h1 s1 -> len d2 = len d1 -> lands h s d2 (put h1 s1 d2) s1.
Proof.
  intros W [(L & -> & ->)|(L & z & -> & ->)] E.
  - left. split; [lia|]. split; [|now rewrite E]. rewrite put_reslice. apply put_put; auto; lia.
  - right. split; [lia|]. exists z. rewrite E. split; auto. pose proof (len_nonneg z).
    rewrite put_fresh by (rewrite len_app; lia). rewrite E. now rewrite drop_app_exact.
Qed.

Lemma copy_at_inv d off src d' : copy_at d off src = Ok d' -> len d' = len d /\ 0 <= off <= len d.
Proof.
  unfold copy_at. destruct (_ && _) eqn:E; [|discriminate]. intros H. inv H.
  pose proof (len_nonneg d). pose proof (len_nonneg src).
  rewrite !len_app. rewrite len_take by lia. rewrite len_take by lia. rewrite len_drop by lia. lia.
Qed.
Lemma m_copy_ok h s off src d :
  copy_at (view h s) off src = Ok d -> m_copy h s off src = Ok (put h s d).
Proof. unfold m_copy. intros ->. reflexivity. Qed.
Lemma m_copy_split h s p m q off src :
  view h s = p ++ m ++ q -> off = len p -> len m = len src ->
  m_copy h s off src = Ok (put h s (p ++ src ++ q)).
Proof. intros E -> L. apply m_copy_ok. rewrite E. now apply copy_at_split. Qed.

Lemma split3 {A} (l : list A) a b :
  0 <= a -> 0 <= b -> a + b <= len l ->
  exists p m q, l = p ++ m ++ q /\ len p = a /\ len m = b.
Proof.
  intros. exists (take a l), (take b (drop a l)), (drop b (drop a l)).
  rewrite !take_drop. rewrite len_take by lia. rewrite len_take; [auto|]. rewrite len_drop by lia. lia.
Qed.
Lemma split2 {A} (l : list A) a : 0 <= a <= len l -> exists p q, l = p ++ q /\ len p = a.
Proof. intros. exists (take a l), (drop a l). rewrite take_drop, len_take by lia. auto. Qed.

(** The bytes behind the end of a slice, up to a larger length. *)
Lemma view_more h s n :
  wf h s -> sl_len s <= n <= sl_cap s ->
  exists g, view h (reslice s n) = view h s ++ g /\ len g = n - sl_len s.
Proof.
  intros W H. assert (W' := W). destruct W' as (A & B & C & D).
  exists (drop (sl_len s) (view h (reslice s n))).
  assert (L : len (view h (reslice s n)) = n) by (apply len_view, wf_reslice; auto; lia).
  split; [|rewrite len_drop; lia].
  assert (E : view h s = take (sl_len s) (view h (reslice s n))).
  { unfold view. cbn [reslice sl_len sl_off sl_arr]. now rewrite take_take by lia. }
  rewrite E at 1. now rewrite take_drop.
Qed.

Section Grow.
(** The part of InsertAt and ReplaceAt that makes room, with enough capacity. *)
Variables (h : heap) (s : sl) (p m q new : bytes).
Hypothesis W : wf h s.
Hypothesis V : view h s = p ++ m ++ q.
Hypothesis G : len m < len new.
Hypothesis C : sl_len s + (len new - len m) <= sl_cap s.

Lemma grow_lens : sl_len s = len p + len m + len q.
Proof. rewrite <- (len_view h s W), V, !len_app. lia. Qed.
Let s' := reslice s (sl_len s + (len new - len m)).
Lemma wf_grow : wf h s'.
Proof.
  apply wf_reslice; auto. pose proof grow_lens.
  pose proof (len_nonneg p). pose proof (len_nonneg q). pose proof (len_nonneg m). lia.
Qed.
Lemma grow_view : exists g, view h s' = p ++ m ++ q ++ g /\ len g = len new - len m.
Proof.
  destruct (view_more h s (sl_len s + (len new - len m)) W) as (g & E & L); [lia|].
  exists g. split; [|lia]. unfold s'. rewrite E, V, <- !app_assoc. reflexivity.
Qed.
Lemma grow_slice : slice (view h s') (len p + len m) (sl_len s) = Ok q.
Proof.
  destruct grow_view as (g & E & L). rewrite E, (app_assoc p m). apply slice_app.
  - rewrite len_app. lia.
  - rewrite len_app, grow_lens. lia.
Qed.
Lemma grow_shift :
  exists x, len x = len new /\
    m_copy h s' (len p + len new) q = Ok (put h s' (p ++ x ++ q)).
Proof.
  destruct grow_view as (g & E & L).
  pose proof (len_nonneg p). pose proof (len_nonneg q). pose proof (len_nonneg m).
  assert (LA : len (m ++ q ++ g) = len new + len q) by (rewrite !len_app; lia).
  exists (take (len new) (m ++ q ++ g)). split; [rewrite len_take; lia|].
  replace (p ++ take (len new) (m ++ q ++ g) ++ q)
    with ((p ++ take (len new) (m ++ q ++ g)) ++ q ++ []) by (now rewrite app_nil_r, <- app_assoc).
  apply m_copy_split with (m := drop (len new) (m ++ q ++ g)).
  - rewrite app_nil_r, <- app_assoc, take_drop. exact E.
  - rewrite len_app, len_take by lia. reflexivity.
  - rewrite len_drop by lia. lia.
Qed.
Lemma grow_fill x h1 :
  len x = len new -> h1 = put h s' (p ++ x ++ q) ->
  m_copy h1 s' (len p) new = Ok (put h s (p ++ new ++ q)).
Proof.
  intros L ->. pose proof wf_grow as W'.
  assert (LE : forall y, len y = len new -> len (p ++ y ++ q) = sl_len s').
  { intros y Ly. rewrite !len_app. unfold s'. cbn [reslice sl_len]. rewrite grow_lens. lia. }
  rewrite (m_copy_split _ _ p x q); auto.
  - f_equal. rewrite put_put; auto.
    + rewrite LE by auto. destruct W' as (_ & _ & W' & _). lia.
    + rewrite !LE by auto. lia.
  - now apply view_put_same; [|apply LE].
Qed.
End Grow.

(** EnsureCapacity leaves the visible bytes alone and makes the capacity large enough. *)
Lemma ensure_ok h s n :
  wf h s -> 0 < n ->
  exists h1 s1, m_EnsureCapacity h s n = (h1, s1) /\ wf h1 s1 /\ view h1 s1 = view h s /\
    sl_len s1 = sl_len s /\ sl_len s1 + n <= sl_cap s1 /\
    forall d, len d = sl_len s + n -> lands h s d (put h1 s1 d) (reslice s1 (sl_len s1 + n)).
Proof.
  intros W Hn. assert (W' := W). destruct W' as (A & B & C & D). unfold m_EnsureCapacity.
  destruct (Z.leb_spec (sl_len s + n) (sl_cap s)).
  - exists h, s. split; [reflexivity|]. split; [auto|]. split; [auto|]. split; [auto|]. split; [auto|].
    intros d L. left. rewrite L. split; [lia|]. auto.
  - set (newCap := Z.max (sl_cap s * 2) (sl_len s + n)).
    eexists _, _. split; [reflexivity|]. cbn [sl_len sl_cap].
    assert (LX : len (view h s ++ zeros (newCap - sl_len s)) = newCap).
    { rewrite len_app, len_view by auto. rewrite len_zeros; lia. }
    split; [apply wf_fresh; lia|]. split.
    { rewrite view_fresh. apply take_app_exact. now rewrite len_view. }
    split; [auto|]. split; [lia|].
    intros d L. right. split; [lia|]. rewrite put_fresh by (rewrite LX; lia).
    eexists. split; [reflexivity|]. unfold reslice. cbn [sl_arr sl_off sl_cap].
    f_equal; [lia|]. rewrite len_drop by lia. lia.
Qed.

Lemma m_InsertAt_ok h s off data d :
  wf h s -> InsertAt (view h s) off data = Ok d ->
  exists h' s', m_InsertAt h s off data = Ok (h', s') /\ lands h s d h' s'.
Proof.
  intros W E. pose proof (len_view h s W) as LV.
  assert (B : 0 <= off <= sl_len s).
  { unfold InsertAt in E. rewrite LV in E. destruct (_ || _) eqn:Q; [discriminate|]. lia. }
  unfold m_InsertAt. replace (_ || _) with false by lia.
  destruct (split2 (view h s) off) as (p & q & V & LP); [lia|].
  rewrite V in E. rewrite (InsertAt_spec p q data off) in E by lia. injection E as <-.
  destruct (Z.eqb_spec (len data) 0) as [Z0|NZ].
  { eexists _, _. split; [reflexivity|]. apply len_0_nil in Z0. subst data. cbn [app]. rewrite <- V.
    now apply lands_self. }
  pose proof (len_nonneg data).
  destruct (ensure_ok h s (len data) W) as (h1 & s1 & -> & W1 & V1 & L1 & C1 & LL); [lia|].
  assert (V1' : view h1 s1 = p ++ [] ++ q) by (cbn [app]; congruence).
  assert (G : len (@nil Z) < len data) by (change (len (@nil Z)) with 0; lia).
  assert (C1' : sl_len s1 + (len data - len (@nil Z)) <= sl_cap s1) by (change (len (@nil Z)) with 0; lia).
  pose proof (grow_slice h1 s1 p [] q data W1 V1' G C1') as GS.
  pose proof (grow_shift h1 s1 p [] q data W1 V1' G C1') as (x & LX & GF).
  pose proof (fun x h2 => grow_fill h1 s1 p [] q data W1 V1' G C1' x h2) as GL.
  change (len (@nil Z)) with 0 in *. rewrite !Z.add_0_r, !Z.sub_0_r in *. rewrite <- LP.
  assert (LD : len (p ++ data ++ q) = sl_len s + len data).
  { rewrite !len_app. rewrite <- LV, V, len_app. lia. }
  destruct (Z.ltb_spec (len p) (sl_len s1)).
  - rewrite GS, bind_Ok, GF, bind_Ok. rewrite (GL x _ LX eq_refl), bind_Ok.
    eexists _, _. split; [reflexivity|]. apply LL; auto.
  - rewrite bind_Ok.
    assert (q = []) as ->.
    { apply len_0_nil. assert (sl_len s1 = len p + len q) by (rewrite L1, <- LV, V, len_app; lia).
      pose proof (len_nonneg q). lia. }
    destruct (grow_view h1 s1 p [] [] data W1 V1') as (g & VG & LG); auto.
    { rewrite Z.sub_0_r. auto. }
    change (len (@nil Z)) with 0 in LG. change (len (@nil Z)) with 0 in VG.
    cbn [app] in VG. rewrite Z.sub_0_r in VG.
    rewrite (m_copy_split _ _ p g []); auto.
    2:{ now rewrite app_nil_r. }
    2:{ lia. }
    rewrite bind_Ok. eexists _, _. split; [reflexivity|]. rewrite put_reslice. apply LL; auto.
Qed.

Lemma m_RemoveAt_ok h s off n d :
  wf h s -> 0 <= n -> RemoveAt (view h s) off n = Ok d ->
  exists h' s', m_RemoveAt h s off n = Ok (h', s') /\ lands h s d h' s'.
Proof.
  intros W Hn E. pose proof (len_view h s W) as LV.
  assert (B : 0 <= off /\ off + n <= sl_len s).
  { unfold RemoveAt in E. rewrite LV in E. destruct (_ || _) eqn:Q; [discriminate|]. lia. }
  unfold m_RemoveAt. replace (_ || _) with false by lia.
  destruct (split3 (view h s) off n) as (p & m & q & V & LP & LM); try lia.
  rewrite V in E. rewrite (RemoveAt_spec p m q) in E by lia. injection E as <-.
  destruct (Z.eqb_spec n 0) as [Z0|NZ].
  { eexists _, _. split; [reflexivity|]. assert (m = []) as -> by (apply len_0_nil; lia).
    cbn [app] in V. rewrite <- V. now apply lands_self. }
  assert (LS : sl_len s = len p + len m + len q) by (rewrite <- LV, V, !len_app; lia).
  pose proof (len_nonneg p). pose proof (len_nonneg q). pose proof (len_nonneg m).
  assert (S : slice (view h s) (off + n) (sl_len s) = Ok q).
  { rewrite V, app_assoc, <- (app_nil_r q) at 1. rewrite <- app_assoc.
    replace (p ++ m ++ q ++ []) with ((p ++ m) ++ q ++ []) by (now rewrite <- app_assoc).
    apply slice_app; rewrite ?len_app; lia. }
  rewrite S, bind_Ok.
  assert (E1 : copy_at (view h s) off q = Ok ((p ++ q) ++ drop (len (p ++ q)) (view h s))).
  { rewrite V. rewrite <- (take_drop (len q) (m ++ q)) at 1.
    rewrite copy_at_split; auto.
    - rewrite <- app_assoc. f_equal. f_equal. f_equal. rewrite len_app.
      replace (len p + len q) with (len q + len p) by lia. rewrite <- drop_drop by lia.
      now rewrite (drop_app_exact (len p) p).
    - rewrite len_take; auto. rewrite len_app. lia. }
  unfold m_copy. rewrite E1, bind_Ok. rewrite put_tail by (auto; rewrite len_app; lia). rewrite bind_Ok.
  eexists _, _. split; [reflexivity|]. left. rewrite len_app. destruct W as (_ & _ & W & _).
  split; [lia|]. split; auto. f_equal. lia.
Qed.

Lemma m_ReplaceAt_ok h s off n new d :
  wf h s -> 0 <= n -> ReplaceAt (view h s) off n new = Ok d ->
  exists h' s', m_ReplaceAt h s off n new = Ok (h', s') /\ lands h s d h' s'.
Proof.
  intros W Hn E. pose proof (len_view h s W) as LV.
  assert (B : 0 <= off /\ off + n <= sl_len s).
  { unfold ReplaceAt in E. rewrite LV in E. destruct (_ || _) eqn:Q; [discriminate|]. lia. }
  unfold m_ReplaceAt. replace (_ || _) with false by lia.
  destruct (split3 (view h s) off n) as (p & m & q & V & LP & LM); try lia.
  rewrite V in E. rewrite (ReplaceAt_spec p m q) in E by lia. injection E as <-.
  assert (LS : sl_len s = len p + len m + len q) by (rewrite <- LV, V, !len_app; lia).
  pose proof (len_nonneg p). pose proof (len_nonneg q). pose proof (len_nonneg m). pose proof (len_nonneg new).
  assert (CS : sl_len s <= sl_cap s) by (destruct W as (_ & _ & W & _); lia).
  rewrite <- LP, <- LM.
  destruct (Z.eqb_spec (len new - len m) 0) as [Z0|NZ].
  { rewrite (m_copy_split _ _ p m q) by (auto; lia). rewrite bind_Ok. eexists _, _. split; [reflexivity|].
    left. rewrite !len_app. split; [lia|]. split; auto. rewrite <- (reslice_len s) at 1. f_equal. lia. }
  destruct (len new - len m >? 0) eqn:G0.
  - assert (G : len m < len new) by lia.
    destruct (ensure_ok h s (len new - len m) W) as (h1 & s1 & -> & W1 & V1 & L1 & C1 & LL); [lia|].
    assert (V1' : view h1 s1 = p ++ m ++ q) by congruence.
    rewrite (grow_slice h1 s1 p m q new W1 V1' G C1), bind_Ok.
    destruct (grow_shift h1 s1 p m q new W1 V1' G C1) as (x & LX & ->). rewrite !bind_Ok.
    rewrite (grow_fill h1 s1 p m q new W1 V1' G C1 x _ LX eq_refl), bind_Ok.
    eexists _, _. split; [reflexivity|]. apply LL. rewrite !len_app. lia.
  - assert (S : slice (view h s) (len p + len m) (sl_len s) = Ok q).
    { rewrite V. replace (p ++ m ++ q) with ((p ++ m) ++ q ++ []) by (now rewrite app_nil_r, <- app_assoc).
      apply slice_app; rewrite ?len_app; lia. }
    rewrite S, bind_Ok.
    set (x := take (len new) (m ++ q)).
    assert (LX : len x = len new) by (unfold x; rewrite len_take; auto; rewrite len_app; lia).
    assert (E1 : copy_at (view h s) (len p + len new) q =
                 Ok ((p ++ x ++ q) ++ drop (len (p ++ x ++ q)) (view h s))).
    { rewrite V. rewrite <- (take_drop (len new) (m ++ q)) at 1. fold x.
      assert (LD : len (drop (len new) (m ++ q)) = len m + len q - len new)
        by (rewrite len_drop; rewrite len_app; lia).
      rewrite <- (take_drop (len q) (drop (len new) (m ++ q))).
      replace (p ++ x ++ take (len q) (drop (len new) (m ++ q)) ++ drop (len q) (drop (len new) (m ++ q)))
        with ((p ++ x) ++ take (len q) (drop (len new) (m ++ q)) ++ drop (len q) (drop (len new) (m ++ q)))
        by (now rewrite <- app_assoc).
      rewrite copy_at_split.
      - rewrite drop_drop by lia. rewrite !len_app.
        replace (len p + (len x + len q)) with ((len q + len new) + len p) by lia.
        rewrite <- (drop_drop (len q + len new) (len p)) by lia. rewrite (drop_app_exact (len p) p) by auto.
        rewrite <- !app_assoc. reflexivity.
      - rewrite len_app. lia.
      - rewrite len_take; lia. }
    unfold m_copy at 1. rewrite E1, bind_Ok.
    assert (LY : len (p ++ x ++ q) = sl_len s + (len new - len m)) by (rewrite !len_app; lia).
    rewrite put_tail by (auto; lia). rewrite !bind_Ok.
    set (s1 := reslice s (sl_len s + (len new - len m))).
    assert (VW : view (put h s (p ++ x ++ q)) s1 = p ++ x ++ q) by (apply view_put; auto; lia).
    rewrite (m_copy_split _ _ p x q) by auto. rewrite bind_Ok.
    eexists _, _. split; [reflexivity|]. left.
    assert (LN : len (p ++ new ++ q) = sl_len s + (len new - len m)) by (rewrite !len_app; lia).
    rewrite LN. split; [lia|]. split; auto. unfold s1. rewrite put_reslice. apply put_put; auto; lia.
Qed.

(** ** Structs *)
Lemma le_put_len n buf off v d : le_put n buf off v = Ok d -> len d = len buf.
Proof. unfold le_put. destruct (_ && _); [|discriminate]. intros H. now apply copy_at_inv in H. Qed.
Lemma updateHeaderSize_len d d' : updateHeaderSize d = Ok d' -> len d' = len d.
Proof.
  unfold updateHeaderSize. intros H. apply bind_Ok_inv in H. destruct H as (x & _ & H).
  unfold EncodeHeaderFinal40 in H. destruct (_ >? _); [discriminate|].
  unfold put_final40 in H.
  repeat match goal with
  | H : bind (le_put _ _ _ _) _ = Ok _ |- _ =>
      apply bind_Ok_inv in H; let x := fresh "b" in let E := fresh "E" in
      destruct H as (x & E & H); apply le_put_len in E
  | H : bind (le_get _ _) _ = Ok _ |- _ => apply bind_Ok_inv in H; destruct H as (? & _ & H)
  end. apply le_put_len in H. congruence.
Qed.

(** [stores h v s' h' v']: the struct behind v has become s'. *)
Definition stores (h : heap) (v : vst) (s' : strct) (h' : heap) (v' : vst) : Prop :=
  load h' v' = s' /\ lands h (v_sl v) (st_data s') h' (v_sl v').

Lemma load_eq h' b s d : view h' b = d -> load h' (mkV b s) = with_data s d.
Proof. unfold load. cbn [v_sl v_st]. now intros ->. Qed.
Lemma ensure_data s s' : ensureFieldIndexParsed s = Ok s' -> st_data s' = st_data s.
Proof.
  unfold ensureFieldIndexParsed. destruct (st_parsed s); intros H.
  - now injection H as <-.
  - apply bind_Ok_inv in H. destruct H as (i & _ & H). now injection H as <-.
Qed.
Lemma with_data_id s : with_data s (st_data s) = s. Proof. now destruct s. Qed.

Lemma m_insertField_ok h v f data s' :
  wf h (v_sl v) -> insertField (load h v) f data = Ok s' ->
  exists h' v', m_insertField h v f data = Ok (h', v') /\ stores h v s' h' v'.
Proof.
  intros W E. unfold insertField in E. unfold m_insertField.
  apply bind_Ok_inv in E. destruct E as (s & E1 & E). rewrite E1, bind_Ok.
  pose proof (ensure_data _ _ E1) as SD. cbn [load st_data with_data] in SD.
  destruct (f >=? len (st_index s)); [discriminate|].
  apply bind_Ok_inv in E. destruct E as (e & E2 & E). rewrite E2, bind_Ok.
  apply bind_Ok_inv in E. destruct E as ([d idx] & E3 & E).
  apply bind_Ok_inv in E. destruct E as (d2 & E4 & E). injection E as <-.
  assert (HX : exists h1 b1,
    (if fe_size e >? 0
     then
      '(h0, b, idx) <- (if len data - fe_size e =? 0
        then h0 <- m_copy h (v_sl v) (fe_off e) data ;; Ok (h0, v_sl v, st_index s)
        else '(h0, b) <- m_ReplaceAt h (v_sl v) (fe_off e) (fe_size e) data ;;
             Ok (h0, b, updateFieldOffsets (st_index s) (fe_off e + fe_size e) (len data - fe_size e))) ;;
      Ok (h0, b, upd idx f (mkFE (fe_off e) (u32 (len data)) true))
     else
      '(h0, b) <- m_InsertAt h (v_sl v) (findInsertPosition (st_index s) f) data ;;
      Ok (h0, b, upd (updateFieldOffsets (st_index s) (findInsertPosition (st_index s) f) (len data)) f
                     (mkFE (u32 (findInsertPosition (st_index s) f)) (u32 (len data)) true)))
    = Ok (h1, b1, idx) /\ lands h (v_sl v) d h1 b1).
  { rewrite SD in E3. destruct (fe_size e >? 0) eqn:G.
    - apply bind_Ok_inv in E3. destruct E3 as ([d1 idx1] & E3 & E5). injection E5 as <- <-.
      destruct (len data - fe_size e =? 0).
      + apply bind_Ok_inv in E3. destruct E3 as (d0 & E3 & E5). injection E5 as <- <-.
        rewrite (m_copy_ok _ _ _ _ _ E3), !bind_Ok. eexists _, _. split; [reflexivity|].
        apply copy_at_inv in E3. destruct E3 as [L _]. apply lands_then with (d1 := view h (v_sl v)); auto.
        now apply lands_self.
      + apply bind_Ok_inv in E3. destruct E3 as (d0 & E3 & E5). injection E5 as <- <-.
        destruct (m_ReplaceAt_ok h (v_sl v) (fe_off e) (fe_size e) data d0 W ltac:(lia) E3) as (h1 & b1 & -> & L).
        rewrite !bind_Ok. eauto.
    - apply bind_Ok_inv in E3. destruct E3 as (d0 & E3 & E5). injection E5 as <- <-.
      destruct (m_InsertAt_ok h (v_sl v) _ data d0 W E3) as (h1 & b1 & -> & L).
      rewrite !bind_Ok. eauto. }
  destruct HX as (h1 & b1 & -> & L). rewrite bind_Ok.
  destruct (lands_view _ _ _ _ _ W L) as [V1 W1].
  unfold m_updateHeaderSize. rewrite V1, E4, !bind_Ok.
  pose proof (updateHeaderSize_len _ _ E4) as L4.
  eexists _, _. split; [reflexivity|]. split.
  - rewrite (load_eq _ _ _ d2); [reflexivity|]. apply view_put_same; auto.
    rewrite L4, <- V1. now apply len_view.
  - cbn [v_sl st_data with_index with_data]. eapply lands_then; eauto.
Qed.

Lemma m_removeField_ok h v f s' :
  wf h (v_sl v) -> (forall e s, ensureFieldIndexParsed (load h v) = Ok s -> In e (st_index s) -> 0 <= fe_size e) ->
  removeField (load h v) f = Ok s' ->
  exists h' v', m_removeField h v f = Ok (h', v') /\ stores h v s' h' v'.
Proof.
  intros W NN E. unfold removeField in E. unfold m_removeField.
  apply bind_Ok_inv in E. destruct E as (s & E1 & E). rewrite E1, bind_Ok.
  pose proof (ensure_data _ _ E1) as SD. cbn [load st_data with_data] in SD.
  assert (Same : stores h v s h (mkV (v_sl v) s)).
  { split.
    - rewrite (load_eq _ _ _ _ eq_refl). rewrite <- SD. apply with_data_id.
    - rewrite SD. now apply lands_self. }
  destruct (f >=? len (st_index s)); [injection E as <-; eauto|].
  apply bind_Ok_inv in E. destruct E as (e & E2 & E). rewrite E2, bind_Ok.
  destruct (fe_size e =? 0); [injection E as <-; eauto|].
  apply bind_Ok_inv in E. destruct E as (d & E3 & E).
  apply bind_Ok_inv in E. destruct E as (d2 & E4 & E). injection E as <-.
  rewrite SD in E3.
  assert (Hn : 0 <= fe_size e).
  { apply (NN e s E1). apply index_inv in E2. destruct E2 as [_ E2]. eapply nth_error_In; eauto. }
  destruct (m_RemoveAt_ok h (v_sl v) _ _ d W Hn E3) as (h1 & b1 & -> & L). rewrite bind_Ok.
  destruct (lands_view _ _ _ _ _ W L) as [V1 W1].
  unfold m_updateHeaderSize. rewrite V1, E4, !bind_Ok.
  pose proof (updateHeaderSize_len _ _ E4) as L4.
  eexists _, _. split; [reflexivity|]. split.
  - rewrite (load_eq _ _ _ d2); [reflexivity|]. apply view_put_same; auto.
    rewrite L4, <- V1. now apply len_view.
  - cbn [v_sl st_data with_index with_data]. eapply lands_then; eauto.
Qed.
