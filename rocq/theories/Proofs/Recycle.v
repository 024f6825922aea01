(** Structs that are released and handed out again keep apart. *)
From Coq Require Import List Permutation.
From Verif.Spec Require Export Recycle.
From Verif.Proofs Require Export ViewProofs.
Import ListNotations.

(** ** Lists *)
Lemma set_nth_split {A} (a : list A) x b y : set_nth (length a) y (a ++ x :: b) = a ++ y :: b.
Proof. induction a; cbn [length app set_nth]; [reflexivity|now rewrite IHa]. Qed.
Lemma remove_at_split {A} (a : list A) x b : remove_at (length a) (a ++ x :: b) = a ++ b.
Proof.
  unfold remove_at. rewrite firstn_app, firstn_all, Nat.sub_diag. cbn [firstn]. rewrite app_nil_r. f_equal.
  induction a; cbn [length app skipn] in *; auto.
Qed.
Lemma remove_at_out {A} i (l : list A) : nth_error l i = None -> remove_at i l = l.
Proof. intros E. apply nth_error_None in E. unfold remove_at. rewrite firstn_all2, skipn_all2 by lia. apply app_nil_r. Qed.
Lemma Forall2_split {A B} (P : A -> B -> Prop) a x b l :
  Forall2 P (a ++ x :: b) l ->
  exists a' y b', l = a' ++ y :: b' /\ length a' = length a /\ Forall2 P a a' /\ P x y /\ Forall2 P b b'.
Proof.
  revert l. induction a as [|z a IH]; intros l H; inversion H as [|? y ? r Hy Hr]; subst.
  - exists [], y, r. auto.
  - destruct (IH _ Hr) as (a' & y' & b' & -> & L & F1 & F2 & F3). exists (y :: a'), y', b'. cbn. auto 10.
Qed.
Lemma Forall2_mid {A B} (P : A -> B -> Prop) a x b a' y b' :
  Forall2 P a a' -> P x y -> Forall2 P b b' -> Forall2 P (a ++ x :: b) (a' ++ y :: b').
Proof. intros F1 F2 F3. apply Forall2_app; auto. Qed.
Lemma Forall2_impl2 {A B} (P Q : A -> B -> Prop) l r :
  (forall x y, In x l -> P x y -> Q x y) -> Forall2 P l r -> Forall2 Q l r.
Proof. intros H F. induction F; constructor; [apply H; cbn; auto|]. apply IHF. intros. apply H; cbn; auto. Qed.
Lemma Forall2_len {A B} (P : A -> B -> Prop) l r : Forall2 P l r -> length l = length r.
Proof. intros F. induction F; cbn; auto. Qed.
Lemma NoDup_swap {A} (a : list A) x y b : NoDup (a ++ x :: b) -> (y = x \/ ~ In y (a ++ b)) -> NoDup (a ++ y :: b).
Proof.
  intros N [->|H]; auto. apply (Permutation_NoDup (Permutation_middle a b y)). constructor; auto.
  now apply NoDup_remove_1 in N.
Qed.

(** ** What one step leaves alone *)
Definition frame (h : heap) (a : nat) (h' : heap) (a' : nat) : Prop :=
  (a' = a \/ (length h <= a')%nat) /\
  forall s, wf h s -> sl_arr s <> a -> wf h' s /\ view h' s = view h s.
Lemma wf_put_other h s s' d : sl_arr s <> sl_arr s' -> wf h s -> wf (put h s' d) s.
Proof. intros N (A & B & C & D). unfold wf. rewrite put_length, array_put_ne by auto. auto. Qed.
Lemma frame_put h s d : frame h (sl_arr s) (put h s d) (sl_arr s).
Proof. split; auto. intros s' W N. split; [now apply wf_put_other|now apply view_put_other]. Qed.
Lemma lands_frame h s d h' s' : lands h s d h' s' -> frame h (sl_arr s) h' (sl_arr s').
Proof.
  intros [(_ & -> & ->)|(_ & z & -> & ->)].
  - change (sl_arr (reslice s (len d))) with (sl_arr s). apply frame_put.
  - split; [right; cbn; lia|]. intros s' W N. split; [now apply wf_app|]. apply view_app. apply W.
Qed.
Lemma m_call h v n m o :
  wf h (v_sl v) -> reached n (load h v) m -> direct o -> ok_op n 0 m o ->
  exists h' v', m_do_op h v o = Ok (h', v') /\ do_op (load h v) o = Ok (load h' v') /\
    wf h' (v_sl v') /\ reached n (load h' v') (apply_op m o) /\ frame h (sl_arr (v_sl v)) h' (sl_arr (v_sl v')).
Proof.
  intros W HR HD HO. destruct (reached_good _ _ _ HR) as (g & Hg & S & F).
  destruct (op_sim_all o _ _ _ _ [] S HO (fun _ => F)) as (s' & E & S' & F').
  destruct (m_do_op_ok _ _ _ _ _ _ _ _ W S F HD E) as (h' & v' & E2 & L & A).
  exists h', v'. rewrite L. split; auto. split; auto. split; [eapply lands_view; eauto|].
  split; [eapply R_op; eauto|]. eapply lands_frame; eauto.
Qed.
Lemma reached_room h v n m : wf h (v_sl v) -> reached n (load h v) m -> 8 <= sl_len (v_sl v).
Proof.
  intros W HR. destruct (reached_good _ _ _ HR) as (g & _ & S & _). apply Sim_data_f in S.
  change (st_data (load h v)) with (view h (v_sl v)) in S. rewrite <- (len_view _ _ W), S. unfold wire_struct.
  rewrite len_app. pose proof (len_nonneg (wire_msg m)). change (len (header g FTStruct (8 + len (wire_msg m)))) with 8. lia.
Qed.

(** ** New *)
Lemma NewFrom_ok h s n : wf h s -> sl_len s = 8 ->
  exists h' v, m_NewFrom h s n = Ok (h', v) /\ New n = Ok (load h' v) /\ wf h' (v_sl v) /\ v_sl v = s /\
    frame h (sl_arr s) h' (sl_arr s).
Proof.
  intros W L. unfold m_NewFrom. pose proof (len_view _ _ W) as LV. rewrite L in LV.
  assert (ES : slice (view h s) 0 8 = Ok (view h s)).
  { unfold slice. rewrite LV. change ((0 <=? 0) && (0 <=? 8) && (8 <=? 8)) with true. cbv iota. f_equal. change (8 - 0) with 8.
    unfold drop, take. change (Z.to_nat 0) with 0%nat. cbn [skipn]. apply firstn_all2. unfold len in LV. lia. }
  rewrite ES, bind_Ok, EncodeHeader_spec, bind_Ok by lia.
  assert (ED : drop 8 (view h s) = []).
  { unfold drop. apply skipn_all2. unfold len in LV. lia. }
  rewrite ED, app_nil_r. eexists _, _. split; [reflexivity|]. cbn [v_sl].
  assert (LH : len (hdr 0 FTStruct 8) = 8) by apply len_hdr.
  assert (C : 8 <= sl_cap s) by (destruct W as (_ & _ & W & _); lia).
  split; [|split; [apply wf_put; auto; lia|split; [reflexivity|apply frame_put]]].
  unfold load. cbn [v_sl v_st]. rewrite view_put_same by (auto; lia). apply New_spec.
Qed.
Lemma New_ok h n :
  exists h' v, m_New h n = Ok (h', v) /\ New n = Ok (load h' v) /\ wf h' (v_sl v) /\ sl_arr (v_sl v) = length h /\
    frame h (length h) h' (length h).
Proof.
  destruct (m_New_ok h n) as (h' & v & s & E & EN & EL & W). exists h', v. subst s. split; auto. split; auto. split; auto.
  unfold m_New, m_NewSegment in E. apply bind_Ok_inv in E. destruct E as (d & _ & E). injection E as <- <-.
  cbn [v_sl sl_arr]. split; auto. split; auto. intros s WS N. split.
  - apply wf_put_other; [auto|now apply wf_app].
  - rewrite view_put_other by auto. apply view_app. apply WS.
Qed.

(** ** The invariant *)
Definition arrs (w : world) : list nat := map (fun v => sl_arr (v_sl v)) w.(w_live) ++ map sl_arr w.(w_pool) ++ map sl_arr w.(w_held).
Definition lives (n : nat) (h : heap) (v : vst) (l : list op) : Prop :=
  wf h (v_sl v) /\ as_new n h v l /\ reached n (load h v) (sem [] l).
Definition keeps (n : nat) (h : heap) (s : sl) (l : list op) : Prop := wf h s /\ bytes_of n h s l.
Definition idle (h : heap) (s : sl) : Prop := wf h s /\ sl_len s = 8.
Record Inv (n : nat) (base : nat) (w : world) (g : log) : Prop := {
  i_live : Forall2 (lives n w.(w_heap)) w.(w_live) (fst g);
  i_held : Forall2 (keeps n w.(w_heap)) w.(w_held) (snd g);
  i_pool : Forall (idle w.(w_heap)) w.(w_pool);
  i_apart : NoDup (arrs w);
  i_base : forall a, In a (arrs w) -> (base <= a)%nat;
  i_size : (base <= length w.(w_heap))%nat
}.

Lemma lives_frame n h a h' a' v l : frame h a h' a' -> sl_arr (v_sl v) <> a -> lives n h v l -> lives n h' v l.
Proof.
  intros [_ F] N (W & A & R). destruct (F _ W N) as [W' V]. unfold lives, as_new, load in *. rewrite V. auto.
Qed.
Lemma keeps_frame n h a h' a' s l : frame h a h' a' -> sl_arr s <> a -> keeps n h s l -> keeps n h' s l.
Proof. intros [_ F] N (W & A). destruct (F _ W N) as [W' V]. unfold keeps, bytes_of in *. rewrite V. auto. Qed.
Lemma idle_frame h a h' a' s : frame h a h' a' -> sl_arr s <> a -> idle h s -> idle h' s.
Proof. intros [_ F] N (W & A). destruct (F _ W N) as [W' V]. split; auto. Qed.

Lemma lives_all n h a h' a' L G : frame h a h' a' -> ~ In a (map (fun v => sl_arr (v_sl v)) L) ->
  Forall2 (lives n h) L G -> Forall2 (lives n h') L G.
Proof.
  intros F N. apply Forall2_impl2. intros v l I. eapply lives_frame; eauto. intros E. apply N. rewrite <- E.
  apply (in_map (fun v => sl_arr (v_sl v)) _ _ I).
Qed.
Lemma keeps_all n h a h' a' L G : frame h a h' a' -> ~ In a (map sl_arr L) ->
  Forall2 (keeps n h) L G -> Forall2 (keeps n h') L G.
Proof.
  intros F N. apply Forall2_impl2. intros v l I. eapply keeps_frame; eauto. intros E. apply N. rewrite <- E. now apply in_map.
Qed.
Lemma idle_all h a h' a' L : frame h a h' a' -> ~ In a (map sl_arr L) -> Forall (idle h) L -> Forall (idle h') L.
Proof.
  intros F N H. rewrite Forall_forall in *. intros s I. eapply idle_frame; eauto. intros E. apply N. rewrite <- E. now apply in_map.
Qed.
Lemma arrs_known n b w g a : Inv n b w g -> In a (arrs w) -> (a < length w.(w_heap))%nat.
Proof.
  intros [L H P _ _] I. unfold arrs in I. apply in_app_or in I. destruct I as [I|I]; [|apply in_app_or in I; destruct I as [I|I]].
  - apply in_map_iff in I. destruct I as (v & <- & I). clear -L I. induction L as [|? ? ? ? [(X & _) _] L IH]; [destruct I|].
    destruct I as [->|I]; auto.
  - apply in_map_iff in I. destruct I as (s & <- & I). rewrite Forall_forall in P. destruct (P _ I) as [(X & _) _]. exact X.
  - apply in_map_iff in I. destruct I as (s & <- & I). clear -H I. induction H as [|? ? ? ? [(X & _) _] L IH]; [destruct I|].
    destruct I as [->|I]; auto.
Qed.
Lemma build_snoc n l o s s' : build n l = Ok s -> do_op s o = Ok s' -> build n (l ++ [o]) = Ok s'.
Proof.
  unfold build. intros E E2. apply bind_Ok_inv in E. destruct E as (s0 & -> & E). rewrite bind_Ok. revert s0 E.
  induction l as [|x l IH]; intros s0 E; cbn [app run] in *.
  - injection E as ->. rewrite E2. reflexivity.
  - apply bind_Ok_inv in E. destruct E as (s1 & -> & E). rewrite bind_Ok. auto.
Qed.
Lemma sem_snoc m l o : sem m (l ++ [o]) = apply_op (sem m l) o.
Proof. revert m. induction l as [|x l IH]; intros m; cbn [app sem]; auto. Qed.

(** ** The steps *)
Definition outside (base : nat) (h h' : heap) : Prop :=
  forall s, wf h s -> (sl_arr s < base)%nat -> wf h' s /\ view h' s = view h s.
Lemma frame_outside base h a h' a' : (base <= a)%nat -> frame h a h' a' -> outside base h h'.
Proof. intros B [_ F] s W N. apply F; auto. lia. Qed.
Lemma outside_refl base h : outside base h h.
Proof. intros s W _. auto. Qed.
Lemma outside_trans base h1 h2 h3 : outside base h1 h2 -> outside base h2 h3 -> outside base h1 h3.
Proof. intros A B s W N. destruct (A s W N) as [W2 E2]. destruct (B s W2 N) as [W3 E3]. split; congruence. Qed.

Lemma not_in3 {A} (x : A) a b c d : NoDup ((a ++ x :: b) ++ c ++ d) -> ~ In x (a ++ b) /\ ~ In x c /\ ~ In x d.
Proof.
  rewrite <- app_assoc. cbn [app]. intros N. apply NoDup_remove_2 in N. rewrite !in_app_iff in N. rewrite !in_app_iff. tauto.
Qed.

Section Step.
Context (n base : nat).

(** A call on one struct. *)
Lemma call_step w g i o : Inv n base w g ->
  (forall l, nth_error (fst g) i = Some l -> direct o /\ ok_op n 0 (sem [] l) o) ->
  forall v, nth_error w.(w_live) i = Some v ->
  exists h' v' l, m_do_op w.(w_heap) v o = Ok (h', v') /\ nth_error (fst g) i = Some l /\
    as_new n w.(w_heap) v l /\ do_op (load w.(w_heap) v) o = Ok (load h' v') /\
    Inv n base (mkW h' (set_nth i v' w.(w_live)) w.(w_pool) w.(w_held)) (set_nth i (l ++ [o]) (fst g), snd g) /\
    outside base w.(w_heap) h'.
Proof.
  intros I HO v EV. pose proof (arrs_known n base w g) as K. pose proof I as I0. destruct I as [L H P N B Z0].
  destruct (nth_error_split _ _ EV) as (a & b & EL & EI). subst i. rewrite EL in L.
  destruct (Forall2_split _ _ _ _ _ L) as (a' & l & b' & EG & LA & F1 & (W & A & R) & F2).
  assert (ENL : nth_error (fst g) (length a) = Some l).
  { rewrite EG, <- LA, nth_error_app2, Nat.sub_diag by lia. reflexivity. }
  destruct (HO _ ENL) as [HD HK].
  destruct (m_call _ _ _ _ _ W R HD HK) as (h' & v' & E1 & E2 & W' & R' & F).
  exists h', v', l. split; auto. split; auto. split; auto. split; auto.
  set (ar := fun v => sl_arr (v_sl v)).
  assert (NA : NoDup ((map ar a ++ ar v :: map ar b) ++ map sl_arr w.(w_pool) ++ map sl_arr w.(w_held))).
  { unfold arrs in N. rewrite EL, map_app in N. exact N. }
  destruct (not_in3 _ _ _ _ _ NA) as (N1 & N2 & N3). rewrite in_app_iff in N1.
  assert (IV : In (ar v) (arrs w)).
  { unfold arrs. rewrite EL, map_app, !in_app_iff. left. right. left. reflexivity. }
  split; [|eapply frame_outside; [apply B; exact IV|exact F]].
  rewrite EL, set_nth_split, EG, <- LA, set_nth_split.
  split; cbn [w_heap w_live w_pool w_held fst snd].
  - apply Forall2_mid.
    + eapply lives_all; eauto.
    + split; auto. split; [eapply build_snoc; eauto|]. rewrite sem_snoc. auto.
    + eapply lives_all; eauto.
  - eapply keeps_all; eauto.
  - eapply idle_all; eauto.
  - unfold arrs. cbn [w_live w_pool w_held]. rewrite map_app, <- app_assoc in *. cbn [map app] in *.
    apply (NoDup_swap _ (ar v)); [exact NA|]. destruct F as [[EA|EA] _]; [left; exact EA|right].
    intros X. assert (X2 : In (sl_arr (v_sl v')) (arrs w)).
    { unfold arrs. rewrite EL, map_app. cbn [map]. rewrite !in_app_iff in X. rewrite !in_app_iff. cbn [In]. tauto. }
    apply (K _ I0) in X2. lia.
  - unfold arrs. cbn [w_live w_pool w_held]. rewrite map_app. cbn [map]. intros x X. rewrite !in_app_iff in X. cbn [In] in X.
    destruct F as [[EA|EA] _]; [apply B; unfold arrs; rewrite EL, map_app; cbn [map]; rewrite !in_app_iff; cbn [In]|].
    + destruct X as [[X|[X|X]]|X]; auto. left. right. left. congruence.
    + destruct X as [[X|[X|X]]|X]; try (apply B; unfold arrs; rewrite EL, map_app; cbn [map]; rewrite !in_app_iff; cbn [In]; tauto).
      subst x. lia.
  - destruct W' as (X & _). destruct F as [EA F]. pose proof (K _ I0 IV).
    unfold ar in *. destruct EA as [EA|EA]; [|lia].
    specialize (B _ IV). unfold ar in B. lia.
Qed.

Lemma Marshal_op s s' : do_op s OMarshal = Ok s' -> Marshal s = Ok (s', st_data s').
Proof.
  cbn [do_op]. intros E. apply bind_Ok_inv in E. destruct E as ([s1 d] & E & E1). injection E1 as ->. rewrite E. f_equal. f_equal.
  unfold Marshal in E. apply bind_Ok_inv in E. destruct E as (d' & _ & E). injection E as <- <-. reflexivity.
Qed.
Lemma hold_step w g b l st st' : Inv n base w g -> build n l = Ok st -> Marshal st = Ok (st', b) ->
  Inv n base (mkW (w.(w_heap) ++ [b]) w.(w_live) w.(w_pool) (w.(w_held) ++ [mkSl (length w.(w_heap)) 0 (len b) (len b)])) (fst g, snd g ++ [l]) /\
  outside base w.(w_heap) (w.(w_heap) ++ [b]).
Proof.
  intros I EB EM. pose proof (arrs_known n base w g) as K. pose proof I as I0. destruct I as [L H P N B Z0].
  assert (NI : ~ In (length w.(w_heap)) (arrs w)) by (intros X; apply (K _ I0) in X; lia).
  assert (F : frame w.(w_heap) (length w.(w_heap)) (w.(w_heap) ++ [b]) (length w.(w_heap))).
  { split; auto. intros s W _. split; [now apply wf_app|]. apply view_app. apply W. }
  pose proof NI as NI2. unfold arrs in NI2. rewrite !in_app_iff in NI2.
  split; [|eapply frame_outside; eauto].
  assert (Wb : wf (w.(w_heap) ++ [b]) (mkSl (length w.(w_heap)) 0 (len b) (len b))).
  { apply wf_fresh; pose proof (len_nonneg b); lia. }
  assert (Vb : view (w.(w_heap) ++ [b]) (mkSl (length w.(w_heap)) 0 (len b) (len b)) = b).
  { rewrite view_fresh. unfold take, len. rewrite Nat2Z.id. apply firstn_all. }
  split; cbn [w_heap w_live w_pool w_held fst snd].
  - eapply lives_all; eauto; tauto.
  - apply Forall2_app; [eapply keeps_all; eauto; tauto|]. constructor; [|constructor]. split; auto. exists st, st'. rewrite Vb. auto.
  - eapply idle_all; eauto; tauto.
  - unfold arrs. cbn [w_live w_pool w_held]. rewrite map_app, !app_assoc. cbn [map]. rewrite <- (app_nil_r [_]).
    apply (Permutation_NoDup (Permutation_middle _ [] _)). rewrite app_nil_r. cbn [sl_arr]. constructor; rewrite <- app_assoc; auto.
  - unfold arrs. cbn [w_live w_pool w_held]. rewrite map_app. cbn [map sl_arr]. intros x X. rewrite !in_app_iff in X. cbn [In] in X.
    destruct X as [X|[X|[X|[X|[]]]]]; [| | |lia]; apply B; unfold arrs; rewrite !in_app_iff; tauto.
  - rewrite app_length. lia.
Qed.

Lemma new_step w g h' v : Inv n base w g -> m_New w.(w_heap) n = Ok (h', v) ->
  Inv n base (mkW h' (w.(w_live) ++ [v]) w.(w_pool) w.(w_held)) (fst g ++ [[]], snd g) /\ outside base w.(w_heap) h'.
Proof.
  intros I E. pose proof (arrs_known n base w g) as K. pose proof I as I0. destruct I as [L H P N B Z0].
  destruct (New_ok w.(w_heap) n) as (h1 & v1 & E1 & EN & W & EA & F). rewrite E in E1. injection E1 as <- <-.
  assert (NI : ~ In (length w.(w_heap)) (arrs w)) by (intros X; apply (K _ I0) in X; lia).
  pose proof NI as NI2. unfold arrs in NI2. rewrite !in_app_iff in NI2.
  split; [|eapply frame_outside; eauto].
  split; cbn [w_heap w_live w_pool w_held fst snd].
  - apply Forall2_app; [eapply lives_all; eauto; tauto|]. constructor; [|constructor]. split; auto. split.
    + unfold as_new, build. rewrite EN. reflexivity.
    + constructor. exact EN.
  - eapply keeps_all; eauto; tauto.
  - eapply idle_all; eauto; tauto.
  - unfold arrs. cbn [w_live w_pool w_held]. rewrite map_app, <- app_assoc. cbn [map app].
    apply (Permutation_NoDup (Permutation_middle _ _ _)). rewrite EA. constructor; auto.
  - unfold arrs. cbn [w_live w_pool w_held]. rewrite map_app. cbn [map]. intros x X. rewrite !in_app_iff in X. cbn [In] in X.
    destruct X as [[X|[X|[]]]|[X|X]]; [|lia| |]; apply B; unfold arrs; rewrite !in_app_iff; tauto.
  - destruct W as (X & _). lia.
Qed.

Lemma pick_step w g k s : Inv n base w g -> nth_error w.(w_pool) k = Some s ->
  exists h' v, m_NewFrom w.(w_heap) s n = Ok (h', v) /\
  Inv n base (mkW h' (w.(w_live) ++ [v]) (remove_at k w.(w_pool)) w.(w_held)) (fst g ++ [[]], snd g) /\ outside base w.(w_heap) h'.
Proof.
  intros I EK. destruct I as [L H P N B Z0].
  destruct (nth_error_split _ _ EK) as (p & q & EP & EI). subst k. rewrite EP in P.
  apply Forall_app in P. destruct P as [P1 P2]. destruct (Forall_inv P2) as [W LS]. apply Forall_inv_tail in P2. rename P2 into P3.
  destruct (NewFrom_ok _ _ n W LS) as (h' & v & E & EN & W' & EV & F). exists h', v. split; auto.
  set (ar := fun v => sl_arr (v_sl v)) in *.
  assert (PM : Permutation (arrs w) (sl_arr s :: map ar w.(w_live) ++ (map sl_arr p ++ map sl_arr q) ++ map sl_arr w.(w_held))).
  { unfold arrs. rewrite EP, map_app. cbn [map]. fold ar. rewrite <- app_assoc. cbn [app].
    rewrite !app_assoc. rewrite <- !app_assoc. rewrite (app_assoc (map ar _)). symmetry.
    etransitivity; [|apply Permutation_middle]. rewrite <- !app_assoc. reflexivity. }
  pose proof (Permutation_NoDup PM N) as N2. apply NoDup_cons_iff in N2. destruct N2 as [NI N3]. rewrite !in_app_iff in NI.
  assert (IS : In (sl_arr s) (arrs w)) by (apply (Permutation_in _ (Permutation_sym PM)); left; reflexivity).
  split; [|eapply frame_outside; [apply B; exact IS|exact F]].
  rewrite EP, remove_at_split.
  assert (PM2 : Permutation (arrs w) (arrs (mkW h' (w.(w_live) ++ [v]) (p ++ q) w.(w_held)))).
  { etransitivity; [exact PM|]. unfold arrs. cbn [w_live w_pool w_held]. rewrite !map_app. cbn [map]. fold ar. rewrite <- EV.
    rewrite <- (app_assoc (map ar w.(w_live))). cbn [app]. apply Permutation_middle. }
  split; cbn [w_heap w_live w_pool w_held fst snd].
  - apply Forall2_app; [eapply lives_all; eauto; tauto|]. constructor; [|constructor]. split; auto. split.
    + unfold as_new, build. rewrite EN. reflexivity.
    + constructor. exact EN.
  - eapply keeps_all; eauto; tauto.
  - apply Forall_app. split; eapply idle_all; eauto; tauto.
  - apply (Permutation_NoDup PM2 N).
  - intros x X. apply B. apply (Permutation_in _ (Permutation_sym PM2) X).
  - destruct W' as (X & _). rewrite EV in X. specialize (B _ IS). lia.
Qed.

Lemma release_step w g i v : Inv n base w g -> nth_error w.(w_live) i = Some v ->
  exists h' s, m_Release w.(w_heap) v = Ok (h', s) /\
  Inv n base (mkW h' (remove_at i w.(w_live)) (w.(w_pool) ++ [s]) w.(w_held)) (remove_at i (fst g), snd g) /\ outside base w.(w_heap) h'.
Proof.
  intros I EV. destruct I as [L H P N B Z0].
  destruct (nth_error_split _ _ EV) as (a & b & EL & EI). subst i. rewrite EL in L.
  destruct (Forall2_split _ _ _ _ _ L) as (a' & l & b' & EG & LA & F1 & (W & A & R) & F2).
  pose proof (reached_room _ _ _ _ W R) as RM. assert (C : 8 <= sl_cap (v_sl v)) by (destruct W as (_ & _ & W & _); lia).
  unfold m_Release, m_Reset. replace (sl_cap (v_sl v) <? 8) with false by lia. eexists _, _. split; [reflexivity|].
  set (ar := fun v => sl_arr (v_sl v)) in *.
  assert (PM : Permutation (arrs w) (ar v :: (map ar a ++ map ar b) ++ map sl_arr w.(w_pool) ++ map sl_arr w.(w_held))).
  { unfold arrs. rewrite EL, map_app. cbn [map]. fold ar. rewrite <- !app_assoc. cbn [app]. symmetry. apply Permutation_middle. }
  pose proof (Permutation_NoDup PM N) as N2. apply NoDup_cons_iff in N2. destruct N2 as [NI N3]. rewrite !in_app_iff in NI.
  assert (IS : In (ar v) (arrs w)) by (apply (Permutation_in _ (Permutation_sym PM)); left; reflexivity).
  pose proof (frame_put w.(w_heap) (v_sl v) (zeros 8)) as F. fold (ar v) in F.
  split; [|eapply frame_outside; [apply B; exact IS|exact F]].
  rewrite EL, remove_at_split, EG, <- LA, remove_at_split.
  assert (PM2 : Permutation (arrs w) (arrs (mkW (put w.(w_heap) (v_sl v) (zeros 8)) (a ++ b) (w.(w_pool) ++ [reslice (v_sl v) 8]) w.(w_held)))).
  { etransitivity; [exact PM|]. unfold arrs. cbn [w_live w_pool w_held]. rewrite !map_app. cbn [map]. fold ar.
    change (sl_arr (reslice (v_sl v) 8)) with (ar v). rewrite <- !app_assoc. cbn [app].
    rewrite !(app_assoc (map ar a)), !(app_assoc (map ar a ++ map ar b)). apply Permutation_middle. }
  split; cbn [w_heap w_live w_pool w_held fst snd].
  - apply Forall2_app; eapply lives_all; eauto; tauto.
  - eapply keeps_all; eauto; tauto.
  - apply Forall_app. split; [eapply idle_all; eauto; tauto|]. constructor; [|constructor].
    split; [|reflexivity]. apply wf_reslice; [|lia]. apply wf_put; auto.
  - apply (Permutation_NoDup PM2 N).
  - intros x X. apply B. apply (Permutation_in _ (Permutation_sym PM2) X).
  - rewrite put_length. exact Z0.
Qed.

Lemma step_ok w g e : Inv n base w g ->
  (forall i o l, e = ECall i o -> nth_error (fst g) i = Some l -> direct o /\ ok_op n 0 (sem [] l) o) ->
  exists w', w_step n w e = Ok w' /\ Inv n base w' (note g e) /\ outside base w.(w_heap) w'.(w_heap).
Proof.
  intros I HO. destruct g as [gl gh]. cbn [fst] in HO.
  assert (NO : forall i, nth_error w.(w_live) i = None -> nth_error gl i = None).
  { intros i E. apply nth_error_None in E. apply nth_error_None. pose proof (Forall2_len _ _ _ (i_live _ _ _ _ I)) as LL. cbn [fst] in LL. lia. }
  destruct e as [k|i o|i|i]; cbn [w_step note].
  - destruct (nth_error w.(w_pool) k) as [s|] eqn:EK.
    + destruct (pick_step _ _ _ _ I EK) as (h' & v & -> & I' & O). rewrite bind_Ok. eexists. split; [reflexivity|]. auto.
    + destruct (New_ok w.(w_heap) n) as (h' & v & E & _). destruct (new_step _ _ _ _ I E) as [I' O]. rewrite E, bind_Ok.
      eexists. split; [reflexivity|]. auto.
  - destruct (nth_error w.(w_live) i) as [v|] eqn:EV.
    + destruct (call_step _ _ i o I (fun l => HO i o l eq_refl) _ EV) as (h' & v' & l & -> & EG & _ & _ & I' & O).
      cbn [fst snd] in *. rewrite EG, bind_Ok. eexists. split; [reflexivity|]. auto.
    + rewrite (NO _ EV). exists w. split; auto. split; auto. apply outside_refl.
  - destruct (nth_error w.(w_live) i) as [v|] eqn:EV.
    + assert (HM : forall l, nth_error (fst (gl, gh)) i = Some l -> direct OMarshal /\ ok_op n 0 (sem [] l) OMarshal) by (intros; split; exact Logic.I).
      destruct (call_step _ _ i OMarshal I HM _ EV) as (h' & v' & l & E & EG & A & ED & I' & O).
      cbn [fst snd] in *. rewrite EG. unfold m_MarshalSafe. cbn [m_do_op] in E. rewrite E, !bind_Ok. eexists. split; [reflexivity|].
      destruct (hold_step _ _ _ _ _ _ I' A (Marshal_op _ _ ED)) as [I2 O2]. cbn [w_heap w_live w_pool w_held fst snd] in *.
      split; [exact I2|]. eapply outside_trans; eauto.
    + rewrite (NO _ EV). exists w. split; auto. split; auto. apply outside_refl.
  - destruct (nth_error w.(w_live) i) as [v|] eqn:EV.
    + destruct (release_step _ _ _ _ I EV) as (h' & s & -> & I' & O). rewrite bind_Ok. eexists. split; [reflexivity|]. auto.
    + rewrite (remove_at_out _ _ (NO _ EV)). exists w. split; auto. split; auto. apply outside_refl.
Qed.
Lemma run_ok es : forall w g, Inv n base w g ->
  (forall a i o b l, es = a ++ ECall i o :: b -> nth_error (fst (fold_left note a g)) i = Some l -> direct o /\ ok_op n 0 (sem [] l) o) ->
  exists w', w_run n w es = Ok w' /\ Inv n base w' (fold_left note es g) /\ outside base w.(w_heap) w'.(w_heap).
Proof.
  induction es as [|e es IH]; intros w g I HO; cbn [w_run fold_left].
  - exists w. split; auto. split; auto. apply outside_refl.
  - destruct (step_ok w g e I) as (w1 & -> & I1 & O1).
    { intros i o l -> EN. exact (HO [] i o es l eq_refl EN). }
    rewrite bind_Ok. destruct (IH w1 (note g e) I1) as (w2 & E2 & I2 & O2).
    { intros a i o b l -> EN. exact (HO (e :: a) i o b l eq_refl EN). }
    exists w2. split; auto. split; auto. eapply outside_trans; eauto.
Qed.
End Step.
Lemma start_ok n h : Inv n (length h) (mkW h [] [] []) ([], []).
Proof. split; cbn; auto using NoDup_nil. intros a []. Qed.
