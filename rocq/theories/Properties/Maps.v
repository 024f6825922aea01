(** C19-C21: maps. *)
From Verif.Spec Require Import MapSpec Reach.
From Verif.Model Require Import Struct Maps.
From Verif.Proofs Require Import BaseLemmas WireLemmas SimLemmas GetLemmas ReachLemmas MapLemmas MapCodec Demo.
From Verif.Properties Require Import ListProps.
From Coq Require Import Lia.

(** ** C19 *)

(** After every history of Set, Delete and Clear: Get and Has answer what the history
    says for every key, Keys is strictly increasing and has exactly the keys present,
    Values and All go along with it, Len is their number. *)
Theorem C19_map_is_finite_map : forall kt h, Forall (mop_ok kt) h ->
  exists m, run_map kt NewMaps h = Ok m /\
    (forall k, key_ok kt k ->
       exists o, holds kt (rev h) k o /\ mp_Get kt m k = Ok o /\
         mp_Has kt m k = Ok (match o with Some _ => true | None => false end)) /\
    StronglySorted (key_lt kt) (mp_Keys m) /\
    (forall k, key_ok kt k -> ((exists k', In k' (mp_Keys m) /\ same_key kt k k') <-> ~ holds kt (rev h) k None)) /\
    Forall2 (fun k v => holds kt (rev h) k (Some v)) (mp_Keys m) (mp_Values m) /\
    mp_All m (fun _ _ => true) = Ok (combine (mp_Keys m) (mp_Values m)) /\
    mp_Len m = len (mp_Keys m).
Proof.
  intros kt h H. destruct (run_map_spec kt h [] NewMaps (Inv_new kt) H) as (m & E & I).
  rewrite app_nil_r in I. exists m. split; auto. split; [|split; [|split; [|split; [|split]]]].
  - intros k Hk. destruct (Get_spec kt _ m k I Hk) as (o & E1 & E2 & E3). eauto.
  - destruct I as [[I _] _]. exact I.
  - intros k Hk. apply Inv_in; auto.
  - destruct I as [_ [I _]]. exact I.
  - eapply All_spec, I.
  - reflexivity.
Qed.
(** The contents are a function of the history: exactly one answer for every key. *)
Theorem C19_contents_unique : forall kt h k, Forall (mop_ok kt) h -> key_ok kt k ->
  exists o, holds kt h k o /\ forall o', holds kt h k o' -> o' = o.
Proof.
  intros kt h k H Hk. destruct (holds_total kt h k H Hk) as [o Ho]. exists o. split; auto.
  intros o' Ho'. eapply holds_fun; eassumption.
Qed.
(** A consumer that stops All sees a prefix. *)
Lemma all_from_prefix fuel m y : forall i l, all_from fuel m (fun _ _ => true) i = Ok l ->
  exists l1 l2, all_from fuel m y i = Ok l1 /\ l = l1 ++ l2.
Proof.
  induction fuel as [|fuel IH]; intros i l; cbn [all_from].
  - intros E. injection E as <-. exists [], []. auto.
  - destruct (i <? len (mp_keys m)); [|intros E; injection E as <-; exists [], []; auto].
    destruct (index (mp_keys m) i) as [k| | |]; cbn [bind]; try discriminate.
    destruct (index (mp_vals m) i) as [v| | |]; cbn [bind]; try discriminate.
    intros E. apply bind_Ok_inv in E. destruct E as (r & E & E2). injection E2 as <-.
    destruct (y k v).
    + destruct (IH _ _ E) as (l1 & l2 & -> & ->). exists ((k, v) :: l1), l2. auto.
    + exists [(k, v)], r. auto.
Qed.
Theorem C19_iteration_prefix : forall kt h m y, Forall (mop_ok kt) h -> run_map kt NewMaps h = Ok m ->
  exists l l', mp_All m y = Ok l /\ combine (mp_Keys m) (mp_Values m) = l ++ l'.
Proof.
  intros kt h m y H E. destruct (run_map_spec kt h [] NewMaps (Inv_new kt) H) as (m' & E' & I).
  rewrite E in E'. injection E' as <-. apply All_spec in I. unfold mp_All in *.
  destruct (all_from_prefix _ _ y _ _ I) as (l1 & l2 & E1 & E2). eauto.
Qed.
Print Assumptions C19_map_is_finite_map.
Print Assumptions C19_contents_unique.
Print Assumptions C19_iteration_prefix.

(** Non-vacuity: strings inserted out of order, overwritten, deleted; floats with both
    zeros and a NaN. *)
Definition demo_h : list mop :=
  [MSet (KStr [98]) (MNum 1); MSet (KStr [97; 122]) (MNum 2); MSet (KStr [97]) (MNum 3); MDelete (KStr [120]);
   MSet (KStr [98]) (MNum 4); MDelete (KStr [97; 122]); MSet (KStr []) (MNum 5)].
Example demo_h_ok : Forall (mop_ok KTStr) demo_h /\
  run_map KTStr NewMaps demo_h = Ok (mkMap [KStr []; KStr [97]; KStr [98]] [MNum 5; MNum 3; MNum 4] true).
Proof. split; [repeat constructor; cbn; lia|reflexivity]. Qed.
Definition neg0 : Z := 2147483648.
Example demo_float :
  Forall (mop_ok (KTNum KF32)) [MSet (KNum 1065353216) (MNum 1); MSet (KNum 0) (MNum 2); MSet (KNum 2143289344) (MNum 3);
                                MSet (KNum neg0) (MNum 4); MSet (KNum 3212836864) (MNum 5)] /\
  run_map (KTNum KF32) NewMaps [MSet (KNum 1065353216) (MNum 1); MSet (KNum 0) (MNum 2); MSet (KNum 2143289344) (MNum 3);
                                MSet (KNum neg0) (MNum 4); MSet (KNum 3212836864) (MNum 5)]
  = Ok (mkMap [KNum 2143289344; KNum 3212836864; KNum 0; KNum 1065353216] [MNum 3; MNum 5; MNum 4; MNum 1] true).
Proof. split; [unfold neg0; repeat constructor; cbn; lia|vm_compute; reflexivity]. Qed.

(** ** C20 *)

(** Two histories that leave the same contents write the same bytes, for keys with one
    bit pattern each (every key that is not a float, and floats without -0 and with one
    NaN). *)
Theorem C20_deterministic_partial : forall kt vt h1 h2 m1 m2,
  Forall (mop_ok kt) h1 -> Forall (mop_ok kt) h2 -> Forall (mop_canon kt) h1 -> Forall (mop_canon kt) h2 ->
  (forall k o, key_ok kt k -> (holds kt (rev h1) k o <-> holds kt (rev h2) k o)) ->
  run_map kt NewMaps h1 = Ok m1 -> run_map kt NewMaps h2 = Ok m2 ->
  mp_Keys m1 = mp_Keys m2 /\ mp_Values m1 = mp_Values m2 /\
  (forall parent f p1 p2 m1' m2', mp_dirty m1 = mp_dirty m2 ->
     mp_Sync kt vt parent f m1 = Ok (p1, m1') -> mp_Sync kt vt parent f m2 = Ok (p2, m2') ->
     st_data p1 = st_data p2).
Proof.
  intros kt vt h1 h2 m1 m2 O1 O2 C1 C2 HE E1 E2.
  destruct (run_map_spec kt h1 [] NewMaps (Inv_new kt) O1) as (m1' & E1' & I1). rewrite E1 in E1'. injection E1' as <-.
  destruct (run_map_spec kt h2 [] NewMaps (Inv_new kt) O2) as (m2' & E2' & I2). rewrite E2 in E2'. injection E2' as <-.
  rewrite app_nil_r in I1, I2.
  pose proof (run_canon kt h1 [] NewMaps m1 (Inv_new kt) O1 C1 ltac:(constructor) E1) as K1.
  pose proof (run_canon kt h2 [] NewMaps m2 (Inv_new kt) O2 C2 ltac:(constructor) E2) as K2.
  assert (EK : mp_keys m1 = mp_keys m2).
  { pose proof (proj1 I1) as Q1. pose proof (proj1 I2) as Q2. apply (sorted_unique kt); auto.
    - intros a b Ia Ib. rewrite Forall_forall in K1, K2. destruct Q1 as [_ Q1], Q2 as [_ Q2].
      rewrite Forall_forall in Q1, Q2. apply canon_eq; auto.
    - intros k Hk. rewrite (Inv_in kt _ _ k I1 Hk), (Inv_in kt _ _ k I2 Hk). rewrite HE; tauto. }
  assert (EV : mp_vals m1 = mp_vals m2).
  { destruct I1 as ((_ & OK) & F1 & _), I2 as (_ & F2 & _). rewrite <- EK in F2.
    clear -OK F1 F2 HE. revert F2. generalize (mp_vals m2) as v2. revert OK.
    induction F1 as [|k v ks vs H1 F1 IH]; intros OK v2 F2; inversion F2 as [|? w ? ? H2 F2']; subst; auto.
    inversion OK; subst. f_equal; [|apply IH; auto]. apply HE in H1; auto.
    pose proof (holds_fun _ _ _ _ _ H1 H2) as E. congruence. }
  split; [exact EK|]. split; [exact EV|].
  intros parent f p1 p2 m1' m2' ED S1 S2. destruct m1 as [k1 v1 d1], m2 as [k2 v2 d2]. cbn in EK, EV, ED. subst.
  rewrite S1 in S2. injection S2 as <- _. reflexivity.
Qed.
(** With float keys the property is false: the map remembers which zero came first. *)
Theorem C20_signed_zero_refuted : exists h1 h2 m1 m2 v,
  Forall (mop_ok (KTNum KF32)) h1 /\ Forall (mop_ok (KTNum KF32)) h2 /\
  (forall k o, key_ok (KTNum KF32) k -> (holds (KTNum KF32) (rev h1) k o <-> holds (KTNum KF32) (rev h2) k o)) /\
  run_map (KTNum KF32) NewMaps h1 = Ok m1 /\ run_map (KTNum KF32) NewMaps h2 = Ok m2 /\
  v = VTNum KU8 /\
  encEntries (KTNum KF32) v (mp_keys m1) (mp_vals m1) <> encEntries (KTNum KF32) v (mp_keys m2) (mp_vals m2).
Proof.
  exists [MSet (KNum 0) (MNum 7)], [MSet (KNum neg0) (MNum 7)].
  eexists _, _, _. split; [repeat constructor; cbn; lia|]. split; [unfold neg0; repeat constructor; cbn; lia|].
  split; [|split; [vm_compute; reflexivity|split; [vm_compute; reflexivity|split; [reflexivity|vm_compute; discriminate]]]].
  assert (SZ : same_key (KTNum KF32) (KNum 0) (KNum neg0)) by (right; vm_compute; auto).
  intros k o Hk. cbn [rev app]. split; intros H; inversion H; subst.
  - apply H_set. eapply same_key_trans; eassumption.
  - apply H_set_other; auto. intros C. apply H5. eapply same_key_trans; [exact C|]. apply same_key_sym; auto.
  - apply H_set. eapply same_key_trans; [eassumption|]. apply same_key_sym; auto.
  - apply H_set_other; auto. intros C. apply H5. eapply same_key_trans; [exact C|]. auto.
Qed.
Print Assumptions C20_deterministic_partial.
Print Assumptions C20_signed_zero_refuted.

Example demo_canon : Forall (mop_canon KTStr) demo_h /\
  run_map KTStr NewMaps [MSet (KStr []) (MNum 5); MSet (KStr [97]) (MNum 3); MSet (KStr [98]) (MNum 4)] =
  Ok (mkMap [KStr []; KStr [97]; KStr [98]] [MNum 5; MNum 3; MNum 4] true).
Proof. split; [repeat constructor|reflexivity]. Qed.

(** ** C21 *)

Lemma holds_from kt h k v : holds kt h k (Some v) -> exists k', In (MSet k' v) h.
Proof.
  intros H. remember (Some v) as o. revert Heqo. induction H; intros EO; try discriminate.
  - injection EO as ->. eexists. left. reflexivity.
  - destruct (IHholds EO). eexists. right. eassumption.
  - destruct (IHholds EO). eexists. right. eassumption.
Qed.
Definition mop_val (vt : valty) (o : mop) : Prop := match o with MSet _ v => val_ok vt v | _ => True end.
Lemma run_vals kt vt h m : Forall (mop_ok kt) h -> Forall (mop_val vt) h -> run_map kt NewMaps h = Ok m ->
  Forall (key_ok kt) (mp_keys m) /\ Forall (val_ok vt) (mp_vals m) /\ length (mp_keys m) = length (mp_vals m).
Proof.
  intros H HV E. destruct (run_map_spec kt h [] NewMaps (Inv_new kt) H) as (m' & E' & I). rewrite E in E'. injection E' as <-.
  rewrite app_nil_r in I. split; [apply I|]. split; [|symmetry; eapply Inv_len; eassumption].
  destruct I as (_ & F & _). induction F as [|k v ks vs H1 F IH]; constructor; auto.
  apply holds_from in H1. destruct H1 as (k' & HI). apply in_rev in HI. rewrite Forall_forall in HV. apply HV in HI. exact HI.
Qed.
Lemma run_dirty kt h : forall g m m', Inv kt g m -> Forall (mop_ok kt) h -> run_map kt m h = Ok m' ->
  mp_dirty m = true \/ (exists k v, In (MSet k v) h) -> mp_dirty m' = true.
Proof.
  induction h as [|o h IH]; intros g m m' HI Ho E HD; cbn [run_map] in E.
  - injection E as <-. destruct HD as [HD|(k & v & [])]; auto.
  - inversion Ho as [|? ? O1 O2]; subst. destruct (do_mop_spec kt g m o HI O1) as (m1 & E1 & I1).
    rewrite E1 in E. cbn [bind] in E. apply (IH (o :: g) m1 m'); auto.
    destruct o as [k v|k|]; cbn in E1, O1.
    + destruct (Set_spec kt g m k v HI O1) as (m2 & E2 & _ & D & _). rewrite E2 in E1. injection E1 as ->. auto.
    + destruct (Delete_spec kt g m k HI O1) as (m2 & E2 & _ & D & _). rewrite E2 in E1. injection E1 as ->.
      destruct HD as [HD|(k' & v & [HD|HD])]; [auto|discriminate|eauto].
    + injection E1 as <-. destruct HD as [HD|(k' & v & [HD|HD])]; [|discriminate|eauto].
      left. unfold mp_Clear. destruct (_ >? _); auto.
Qed.
Lemma mp_Sync_dirty kt vt s f m : mp_dirty m = true -> Forall (key_ok kt) (mp_keys m) -> Forall (val_ok vt) (mp_vals m) ->
  length (mp_keys m) = length (mp_vals m) ->
  mp_Sync kt vt s f m =
  (s' <- sync_map s f (key_ft kt) (val_ft vt) (encEntries kt vt (mp_keys m) (mp_vals m)) ;;
   Ok (s', mkMap (mp_keys m) (mp_vals m) false)).
Proof.
  intros D HK HV HL. unfold mp_Sync, sync_map, map_field. rewrite D. cbn [negb].
  rewrite <- (len_encEntries kt vt _ _ HK HV).
  destruct (mp_keys m) as [|k ks] eqn:EK.
  - reflexivity.
  - destruct (mp_vals m) as [|v vs] eqn:EV; [discriminate|].
    destruct (len_encKey kt k (Forall_inv HK)) as [LK PK].
    assert (P : 0 < len (encEntries kt vt (k :: ks) (v :: vs))).
    { cbn [encEntries]. rewrite !len_app. pose proof (len_nonneg (encValue vt v)). pose proof (len_nonneg (encEntries kt vt ks vs)). lia. }
    rewrite len_cons. pose proof (len_nonneg ks). destruct (Z.eqb_spec (1 + len ks) 0); [lia|].
    destruct (Z.eqb_spec (len (encEntries kt vt (k :: ks) (v :: vs))) 0); [lia|].
    destruct (EncodeMapHeader _ _ _ _ _) as [fd| | |]; cbn [bind]; auto.
    destruct (copy_at fd _ _) as [fd'| | |]; cbn [bind]; auto.
Qed.

Lemma GetMap_spec n s m f kt vt ks vs : reached n s m -> 0 <= f ->
  seen n m f = Some (VMap (key_ft kt) (val_ft vt) (encEntries kt vt ks vs)) ->
  Forall (key_ok kt) ks -> Forall (val_ok vt) vs -> length ks = length vs ->
  let g := ghosts kt vt (pad_len (len (encEntries kt vt ks vs))) in
  GetMap kt vt s f = Ok (Some (mkMap (ks ++ repeat (zero_key kt) g) (vs ++ repeat (zero_val vt) g) false)).
Proof.
  intros HR Hf HS HK HV HL g. destruct (reached_good _ _ _ HR) as (h & _ & SIM & _).
  pose proof (Sim_seen _ _ _ _ _ f SIM Hf) as L. rewrite HS in L.
  destruct L as (p & q & EO & ED & Hp & HVV & Hf16 & HT).
  unfold GetMap. rewrite EO. cbn [bind].
  assert (LW : len (wire_value f (VMap (key_ft kt) (val_ft vt) (encEntries kt vt ks vs))) = 8 + len (padded (encEntries kt vt ks vs))).
  { rewrite wire_form, len_app. cbn [v_rest]. rewrite HeaderLemmas.len_hdr. reflexivity. }
  pose proof (len_nonneg (padded (encEntries kt vt ks vs))).
  destruct (Z.eqb_spec (len (wire_value f (VMap (key_ft kt) (val_ft vt) (encEntries kt vt ks vs)))) 0); [lia|].
  rewrite ED, slice_field. cbn [bind]. unfold ParseMapFromSegment. change HeaderSize with 8.
  destruct (Z.ltb_spec (len (wire_value f (VMap (key_ft kt) (val_ft vt) (encEntries kt vt ks vs)))) 8); [lia|].
  pose proof (pad_len_range (len (encEntries kt vt ks vs))) as PR.
  assert (LP : len (padded (encEntries kt vt ks vs)) = len (encEntries kt vt ks vs) + pad_len (len (encEntries kt vt ks vs))) by apply len_padded.
  destruct HVV as (_ & _ & _ & HSZ). pose proof (len_nonneg (encEntries kt vt ks vs)).
  rewrite wire_form in *. cbn [v_rest v_type v_f40] in *. unfold padded in *.
  set (hd := HeaderLemmas.hdr _ _ _) in *.
  assert (LH : len hd = 8) by apply HeaderLemmas.len_hdr. rewrite <- LH at 1.
  rewrite parse_enc; auto; try lia.
  clear -LH LP LW PR H1. apply Nat2Z.inj_lt. rewrite Z2Nat.id by lia.
  match goal with |- _ < Z.of_nat (length ?l) => change (Z.of_nat (length l)) with (len l) end. rewrite LW, LP. lia.
Qed.

(** Write any map through any history, marshal, unmarshal and read it: the entries come
    back in order, followed by as many zero entries as fit into the padding. *)
Theorem C21_what_comes_back : forall n n' s m f kt vt h rest mp,
  reached n s m -> 0 <= f < Z.of_nat n -> f < Z.of_nat n' -> f < 2 ^ 16 ->
  Forall (mop_ok kt) h -> Forall (mop_val vt) h -> run_map kt NewMaps h = Ok mp ->
  flook f m = None \/ (exists k v, In (MSet k v) h) ->
  let e := encEntries kt vt (mp_Keys mp) (mp_Values mp) in
  8 + len (padded e) < 2 ^ 24 -> len (st_data s) + 8 + len (padded e) < 2 ^ 32 ->
  exists s1 mp1 s2 b s0 t, mp_Sync kt vt s f mp = Ok (s1, mp1) /\ Marshal s1 = Ok (s2, b) /\ New n' = Ok s0 /\
    Unmarshal s0 (b ++ rest) = Ok t /\
    match mp_Keys mp with
    | [] => GetMap kt vt t f = Ok None
    | _ => let g := ghosts kt vt (pad_len (len e)) in
           exists mp', GetMap kt vt t f = Ok (Some mp') /\
             mp_Keys mp' = mp_Keys mp ++ repeat (zero_key kt) g /\
             mp_Values mp' = mp_Values mp ++ repeat (zero_val vt) g
    end.
Proof.
  intros n n' s m f kt vt h rest mp HR Hf Hf' Hf16 HO HV E HD e He He32.
  destruct (run_vals kt vt h mp HO HV E) as (HK & HVV & HL).
  destruct (reached_sorted _ _ _ HR) as (SO & _ & _ & _).
  destruct (mp_dirty mp) eqn:D.
  - assert (HOK : ok_op n 0 m (OMap f (key_ft kt) (val_ft vt) e)).
    { cbn [ok_op apply_op valid_value]. split; auto. split; auto. split.
      - split; [destruct kt as [[]|]; (split; [discriminate|reflexivity])|].
        split; [destruct vt as [[]| | | | | |]; (split; [discriminate|reflexivity])|].
        split; [apply encEntries_bytes; auto|auto].
      - eapply fits_mset; eauto. rewrite wire_form, len_app, HeaderLemmas.len_hdr. cbn [v_rest]. lia. }
    destruct (write_read n n' s m _ rest HR HOK) as (s1 & s2 & b & s0 & t & E1 & E2 & E3 & E4 & HT & _).
    rewrite mp_Sync_dirty by auto. cbn [do_op] in E1. unfold e, mp_Keys, mp_Values in E1. rewrite E1. cbn [bind].
    eexists s1, _, s2, b, s0, t. split; [reflexivity|]. split; [auto|]. split; [auto|]. split; [auto|].
    cbn [apply_op] in HT. unfold mp_Keys, mp_Values in *.
    destruct (mp_keys mp) as [|k ks] eqn:EK.
    + subst e. cbn [encEntries nil_b] in HT.
      destruct (reached_good _ _ _ HT) as (g & _ & SIM & _).
      pose proof (Sim_seen _ _ _ _ _ f SIM ltac:(lia)) as L. rewrite seen_mset in L by (auto; lia).
      unfold GetMap. rewrite L. reflexivity.
    + assert (NB : nil_b e = false).
      { destruct e eqn:EE; auto. exfalso. clear - HK HL EE e. destruct (mp_vals mp) as [|v vs]; [discriminate HL|].
        destruct (len_encKey kt k (Forall_inv HK)) as [LK PK].
        assert (Z0 : len (encEntries kt vt (k :: ks) (v :: vs)) = 0) by (fold e; rewrite EE; reflexivity).
        cbn [encEntries] in Z0. rewrite len_app in Z0.
        pose proof (len_nonneg (encValue vt v ++ encEntries kt vt ks vs)). lia. }
      rewrite NB in HT.
      assert (HS : seen n' (mset false f (VMap (key_ft kt) (val_ft vt) e) m) f = Some (VMap (key_ft kt) (val_ft vt) e))
        by (rewrite seen_mset; auto; lia).
      subst e. pose proof (GetMap_spec n' t _ f kt vt _ _ HT ltac:(lia) HS HK HVV HL) as G.
      cbn zeta in G |- *. rewrite G. eexists. split; [reflexivity|]. split; reflexivity.
  - (* nothing was ever set *)
    destruct HD as [HD|HD].
    2:{ exfalso. pose proof (run_dirty kt h [] NewMaps mp (Inv_new kt) HO E (or_intror HD)). congruence. }
    assert (EK : mp_keys mp = []).
    { destruct (run_map_spec kt h [] NewMaps (Inv_new kt) HO) as (m' & E' & I). rewrite E in E'. injection E' as <-.
      destruct (mp_keys mp) as [|k ks] eqn:EK; auto. exfalso.
      assert (SK : exists x, In x (mp_keys mp) /\ same_key kt k x).
      { exists k. rewrite EK. split; [left; auto|apply same_key_refl]. }
      destruct I as (_ & F & _). rewrite EK in F. inversion F as [|? v ? ? H1 _]; subst.
      apply holds_from in H1. destruct H1 as (k' & HI). rewrite app_nil_r in HI. apply in_rev in HI.
      pose proof (run_dirty kt h [] NewMaps mp (Inv_new kt) HO E (or_intror (ex_intro _ k' (ex_intro _ v HI)))). congruence. }
    unfold mp_Sync. rewrite D. cbn [negb].
    destruct (reached_unmarshal n n' s m rest HR) as (s2 & b & s0 & t & E1 & E2 & E3 & HT).
    exists s, mp, s2, b, s0, t. split; auto. split; auto. split; auto. split; auto.
    unfold mp_Keys. rewrite EK.
    destruct (reached_good _ _ _ HT) as (g & _ & SIM & _).
    pose proof (Sim_seen _ _ _ _ _ f SIM ltac:(lia)) as L. unfold seen in L. rewrite HD in L.
    destruct (_ && _); unfold GetMap; rewrite L; reflexivity.
Qed.

(** The entries come back exactly when no zero entry fits into the padding: always for
    struct and Any values. *)
Theorem C21_map_roundtrip_partial : forall n n' s m f kt vt h rest mp,
  reached n s m -> 0 <= f < Z.of_nat n -> f < Z.of_nat n' -> f < 2 ^ 16 ->
  Forall (mop_ok kt) h -> Forall (mop_val vt) h -> run_map kt NewMaps h = Ok mp ->
  mp_Keys mp <> [] ->
  let e := encEntries kt vt (mp_Keys mp) (mp_Values mp) in
  8 + len (padded e) < 2 ^ 24 -> len (st_data s) + 8 + len (padded e) < 2 ^ 32 ->
  (match zero_val_size vt with None => True | Some z => pad_len (len e) < zero_key_size kt + z end) ->
  exists s1 mp1 s2 b s0 t mp', mp_Sync kt vt s f mp = Ok (s1, mp1) /\ Marshal s1 = Ok (s2, b) /\ New n' = Ok s0 /\
    Unmarshal s0 (b ++ rest) = Ok t /\ GetMap kt vt t f = Ok (Some mp') /\
    mp_Keys mp' = mp_Keys mp /\ mp_Values mp' = mp_Values mp /\
    (forall k, mp_Get kt mp' k = mp_Get kt mp k).
Proof.
  intros n n' s m f kt vt h rest mp HR Hf Hf' Hf16 HO HV E HN e He He32 HP.
  assert (HD : exists k v, In (MSet k v) h).
  { destruct (run_map_spec kt h [] NewMaps (Inv_new kt) HO) as (m' & E' & I). rewrite E in E'. injection E' as <-.
    unfold mp_Keys in HN. destruct I as (_ & F & _). inversion F as [EQ|k v ? ? H1 F' EQ]; [congruence|].
    apply holds_from in H1. destruct H1 as (k' & HI). rewrite app_nil_r in HI. apply in_rev in HI. eauto. }
  destruct (C21_what_comes_back n n' s m f kt vt h rest mp HR Hf Hf' Hf16 HO HV E (or_intror HD) He He32)
    as (s1 & mp1 & s2 & b & s0 & t & E1 & E2 & E3 & E4 & EG).
  destruct (mp_Keys mp) as [|k ks] eqn:EK; [congruence|]. cbn zeta in EG.
  destruct EG as (mp' & EG & EK' & EV').
  assert (G0 : ghosts kt vt (pad_len (len e)) = O).
  { unfold ghosts. destruct (zero_val_size vt); auto. pose proof (pad_len_range (len e)). rewrite Z.div_small by lia. reflexivity. }
  unfold e, mp_Keys, mp_Values in *. clear e. rewrite ?EK in *. rewrite G0 in EK', EV'. cbn [repeat] in EK', EV'.
  rewrite app_nil_r in EK', EV'.
  exists s1, mp1, s2, b, s0, t, mp'. do 7 (split; auto).
  intros k'. unfold mp_Get, findKey. rewrite EK', EV', EK. reflexivity.
Qed.
Print Assumptions C21_what_comes_back.
Print Assumptions C21_map_roundtrip_partial.

(** The property is false in general: one entry of a uint8 -> uint8 map comes back as
    four entries, and the zero keys behind it break the order of the keys. *)
Theorem C21_map_roundtrip_refuted : exists h mp s s1 mp1 s2 b s0 t mp',
  Forall (mop_ok (KTNum KU8)) h /\ Forall (mop_val (VTNum KU8)) h /\ run_map (KTNum KU8) NewMaps h = Ok mp /\
  New 1 = Ok s /\ mp_Sync (KTNum KU8) (VTNum KU8) s 0 mp = Ok (s1, mp1) /\ Marshal s1 = Ok (s2, b) /\
  New 1 = Ok s0 /\ Unmarshal s0 b = Ok t /\ GetMap (KTNum KU8) (VTNum KU8) t 0 = Ok (Some mp') /\
  mp_Len mp = 1 /\ mp_Len mp' = 4 /\
  mp_Get (KTNum KU8) mp (KNum 9) = Ok (Some (MNum 8)) /\ mp_Get (KTNum KU8) mp' (KNum 9) = Ok None.
Proof.
  eexists [MSet (KNum 9) (MNum 8)], _, _, _, _, _, _, _, _, _.
  split; [repeat constructor; cbn; lia|]. split; [repeat constructor; cbn; lia|].
  repeat (split; [vm_compute; reflexivity|]). vm_compute; reflexivity.
Qed.
(** A nested map as value is not written at all: the entry is lost. *)
Theorem C21_nested_map_refuted : exists h mp s s1 mp1 s2 b s0 t mp',
  run_map (KTNum KU64) NewMaps h = Ok mp /\
  New 1 = Ok s /\ mp_Sync (KTNum KU64) VTMap s 0 mp = Ok (s1, mp1) /\ Marshal s1 = Ok (s2, b) /\
  New 1 = Ok s0 /\ Unmarshal s0 b = Ok t /\ GetMap (KTNum KU64) VTMap t 0 = Ok (Some mp') /\
  mp_Len mp = 1 /\ mp_Len mp' = 0.
Proof.
  eexists [MSet (KNum 9) MMap], _, _, _, _, _, _, _, _, _.
  repeat (split; [vm_compute; reflexivity|]). vm_compute; reflexivity.
Qed.
Print Assumptions C21_map_roundtrip_refuted.
Print Assumptions C21_nested_map_refuted.

(** Non-vacuity of the positive theorem: a string -> int64 map in a used struct. *)
Example demo_map : exists n s m, reached n s m /\ 0 <= 2 < Z.of_nat n /\ m <> [] /\
  Forall (mop_val (VTNum KI64)) demo_h /\
  exists mp, run_map KTStr NewMaps demo_h = Ok mp /\ mp_Keys mp <> [] /\
    let e := encEntries KTStr (VTNum KI64) (mp_Keys mp) (mp_Values mp) in
    8 + len (padded e) < 2 ^ 24 /\ len (st_data s) + 8 + len (padded e) < 2 ^ 32 /\ pad_len (len e) < 4 + 8.
Proof.
  destruct (reached_build 11 [OScalar 1 KI64 7]) as (s & E & R); [legal|].
  exists 11%nat, s, (sem [] [OScalar 1 KI64 7]). split; [exact R|]. split; [lia|]. split; [discriminate|].
  split; [repeat constructor; cbn; lia|]. exists (mkMap [KStr []; KStr [97]; KStr [98]] [MNum 5; MNum 3; MNum 4] true).
  split; [reflexivity|]. split; [intros C; discriminate C|]. cbn zeta.
  assert (EE : len (padded (encEntries KTStr (VTNum KI64) [KStr []; KStr [97]; KStr [98]] [MNum 5; MNum 3; MNum 4])) = 40 /\
               pad_len (len (encEntries KTStr (VTNum KI64) [KStr []; KStr [97]; KStr [98]] [MNum 5; MNum 3; MNum 4])) = 2)
    by (vm_compute; auto).
  cbn [mp_Keys mp_Values mp_keys mp_vals]. destruct EE as [-> ->].
  assert (ES : len (st_data s) = 24) by (vm_compute in E; injection E as <-; vm_compute; reflexivity).
  rewrite ES. change (2 ^ 24) with 16777216. change (2 ^ 32) with 4294967296. lia.
Qed.

(** *** A map that is written more than once *)

(** Any history of a map on a field: edits, writes to the struct, and calls on other fields. *)
Definition writable (kt : keyty) (vt : valty) (s : strct) (mp : mapobj) : Prop :=
  let e := encEntries kt vt (mp_Keys mp) (mp_Values mp) in
  8 + len (padded e) < 2 ^ 24 /\ len (st_data s) + 8 + len (padded e) < 2 ^ 32.
Inductive map_history (n : nat) (s0 : strct) (f : Z) (kt : keyty) (vt : valty) : strct -> mapobj -> list mop -> Prop :=
| MH_new : map_history n s0 f kt vt s0 NewMaps []
| MH_edit s mp h o mp' : map_history n s0 f kt vt s mp h -> mop_ok kt o -> mop_val vt o -> do_mop kt mp o = Ok mp' ->
    map_history n s0 f kt vt s mp' (o :: h)
| MH_sync s mp h s' mp' : map_history n s0 f kt vt s mp h -> writable kt vt s mp -> mp_Sync kt vt s f mp = Ok (s', mp') ->
    map_history n s0 f kt vt s' mp' h
| MH_other s mp h o s' : map_history n s0 f kt vt s mp h -> (forall m, reached n s m -> ok_op n 0 m o) -> op_field o <> Some f ->
    do_op s o = Ok s' -> map_history n s0 f kt vt s' mp h.
(** The field as it should be: absent for an empty map, else the encoded entries. *)
Definition map_field_of (kt : keyty) (vt : valty) (mp : mapobj) : option value :=
  match mp_Keys mp with
  | [] => None
  | _ => Some (VMap (key_ft kt) (val_ft vt) (encEntries kt vt (mp_Keys mp) (mp_Values mp)))
  end.

Lemma edit_marks kt mp o mp' : do_mop kt mp o = Ok mp' -> mp_dirty mp' = true \/ mp' = mp.
Proof.
  destruct o as [k v|k|]; cbn [do_mop]; intros E.
  - unfold mp_Set in E. apply bind_Ok_inv in E. destruct E as (i & _ & E). destruct (i >=? 0).
    + destruct (i <? len (mp_vals mp)); [|discriminate]. injection E as <-. auto.
    + apply bind_Ok_inv in E. destruct E as (j & _ & E). apply bind_Ok_inv in E. destruct E as (ks & _ & E).
      apply bind_Ok_inv in E. destruct E as (vs & _ & E). injection E as <-. auto.
  - unfold mp_Delete in E. apply bind_Ok_inv in E. destruct E as (i & _ & E). destruct (i >=? 0).
    + apply bind_Ok_inv in E. destruct E as (ks & _ & E). apply bind_Ok_inv in E. destruct E as (vs & _ & E). injection E as <-. auto.
    + injection E as <-. auto.
  - injection E as <-. unfold mp_Clear. destruct (_ >? _); auto.
Qed.
Lemma inv_vals kt vt h m : Forall (mop_val vt) h -> Inv kt h m ->
  Forall (key_ok kt) (mp_keys m) /\ Forall (val_ok vt) (mp_vals m) /\ length (mp_keys m) = length (mp_vals m).
Proof.
  intros HV I. split; [apply I|]. split; [|symmetry; eapply Inv_len; eassumption].
  destruct I as (_ & F & _). induction F as [|k v ks vs H1 F IH]; constructor; auto.
  apply holds_from in H1. destruct H1 as (k' & HI). rewrite Forall_forall in HV. apply HV in HI. exact HI.
Qed.
Lemma inv_flag kt h ks vs d d' : Inv kt h (mkMap ks vs d) -> Inv kt h (mkMap ks vs d').
Proof. intros I. exact I. Qed.

Definition hist_inv (n : nat) (m0 : msg) (f : Z) (kt : keyty) (vt : valty) (s : strct) (mp : mapobj) (h : list mop) : Prop :=
  Inv kt h mp /\ Forall (mop_val vt) h /\
  exists m, reached n s m /\ (mp_dirty mp = false -> flook f m = map_field_of kt vt mp).
Lemma sync_step n m0 f kt vt s mp h :
  0 <= f < Z.of_nat n -> f < 2 ^ 16 -> hist_inv n m0 f kt vt s mp h -> writable kt vt s mp ->
  exists s' mp' m m', mp_Sync kt vt s f mp = Ok (s', mp') /\ reached n s m /\ reached n s' m' /\
    flook f m' = map_field_of kt vt mp /\ (forall g, g <> f -> flook g m' = flook g m) /\
    mp_Keys mp' = mp_Keys mp /\ mp_Values mp' = mp_Values mp /\ mp_dirty mp' = false.
Proof.
  intros Hf Hf16 (I & HV & m & HR & HD) [W1 W2]. destruct (inv_vals _ _ _ _ HV I) as (HK & HVV & HL).
  destruct (reached_sorted _ _ _ HR) as (SO & _).
  destruct (mp_dirty mp) eqn:D.
  - set (e := encEntries kt vt (mp_Keys mp) (mp_Values mp)) in *.
    assert (HOK : ok_op n 0 m (OMap f (key_ft kt) (val_ft vt) e)).
    { cbn [ok_op apply_op valid_value]. split; auto. split; auto. split.
      - split; [destruct kt as [[]|]; (split; [discriminate|reflexivity])|].
        split; [destruct vt as [[]| | | | | |]; (split; [discriminate|reflexivity])|].
        split; [apply encEntries_bytes; auto|auto].
      - eapply fits_mset; eauto. rewrite wire_form, len_app, HeaderLemmas.len_hdr. cbn [v_rest]. lia. }
    destruct (reached_op _ _ _ _ HR HOK) as (s1 & E1 & HR1). cbn [do_op] in E1.
    rewrite mp_Sync_dirty by auto. unfold e, mp_Keys, mp_Values in E1. rewrite E1. cbn [bind].
    eexists s1, _, m, _. split; [reflexivity|]. split; auto. split; [exact HR1|]. split; [|split; [|auto]].
    + cbn [apply_op]. unfold mset, map_field_of.
      assert (NB : nil_b e = match mp_Keys mp with [] => true | _ => false end).
      { unfold e, mp_Keys, mp_Values. destruct (mp_keys mp) as [|k ks]; [reflexivity|]. destruct (mp_vals mp) as [|v vs]; [discriminate HL|].
        destruct (len_encKey kt k (Forall_inv HK)) as [LK PK]. destruct (encEntries kt vt (k :: ks) (v :: vs)) eqn:EE; auto. exfalso.
        assert (Z0 : len (encEntries kt vt (k :: ks) (v :: vs)) = 0) by (rewrite EE; reflexivity).
        cbn [encEntries] in Z0. rewrite len_app in Z0.
        pose proof (len_nonneg (encValue vt v ++ encEntries kt vt ks vs)). lia. }
      rewrite NB. destruct (mp_Keys mp); [rewrite flook_fdel|rewrite flook_fput]; rewrite ?Z.eqb_refl; auto.
    + intros g Hg. cbn [apply_op]. now apply flook_mset_ne.
  - unfold mp_Sync. rewrite D. cbn [negb]. exists s, mp, m, m. repeat (split; [auto; fail|]). auto.
Qed.
Lemma hist_ok n s0 m0 f kt vt s mp h :
  reached n s0 m0 -> flook f m0 = None -> 0 <= f < Z.of_nat n -> f < 2 ^ 16 ->
  map_history n s0 f kt vt s mp h -> hist_inv n m0 f kt vt s mp h.
Proof.
  intros HR H0 Hf Hf16 H. induction H.
  - split; [apply Inv_new|]. split; [constructor|]. exists m0. split; auto.
  - destruct IHmap_history as (I & HV & m & R & HD). destruct (do_mop_spec kt h mp o I H1) as (mp1 & E1 & I1).
    assert (mp1 = mp') by congruence. subst mp1. split; auto. split; [constructor; auto|]. exists m. split; auto.
    intros D. destruct (edit_marks _ _ _ _ H3) as [X|X]; [congruence|]. subst. auto.
  - destruct (sync_step _ _ _ _ _ _ _ _ Hf Hf16 IHmap_history H1) as (s1 & mp1 & m & m' & E & _ & R' & F & _ & EK & EV & _).
    rewrite H2 in E. injection E as <- <-. destruct IHmap_history as (I & HV & _). split; [|split; auto].
    + destruct mp as [ks vs d], mp' as [ks' vs' d']. unfold mp_Keys, mp_Values in *. cbn in *. subst. eapply inv_flag; eauto.
    + exists m'. split; auto. intros _. rewrite F. unfold map_field_of. rewrite EK, EV. reflexivity.
  - destruct IHmap_history as (I & HV & m & R1 & HD). split; auto. split; auto.
    destruct (reached_op _ _ _ _ R1 (H1 _ R1)) as (s1 & E1 & R2). assert (s1 = s') by congruence. subst s1.
    destruct (reached_sorted _ _ _ R1) as (SO & _).
    exists (apply_op m o). split; auto. intros D. rewrite flook_apply_ne by auto. auto.
Qed.

(** However often the map was written before: each write leaves in the field exactly the
    entries the map holds now (nothing when it is empty), which are what the edits say, and
    leaves the other fields alone. *)
Theorem C21_every_write : forall n s0 m0 f kt vt s mp h,
  reached n s0 m0 -> flook f m0 = None -> 0 <= f < Z.of_nat n -> f < 2 ^ 16 ->
  map_history n s0 f kt vt s mp h -> writable kt vt s mp ->
  exists s' mp' m m', mp_Sync kt vt s f mp = Ok (s', mp') /\ reached n s m /\ reached n s' m' /\
    flook f m' = map_field_of kt vt mp /\ (forall g, g <> f -> flook g m' = flook g m) /\
    mp_Keys mp' = mp_Keys mp /\ mp_Values mp' = mp_Values mp /\
    (forall k, key_ok kt k -> exists o, holds kt h k o /\ mp_Get kt mp k = Ok o) /\
    (forall k, key_ok kt k -> ((exists k', In k' (mp_Keys mp) /\ same_key kt k k') <-> ~ holds kt h k None)).
Proof.
  intros n s0 m0 f kt vt s mp h HR H0 Hf Hf16 H W. pose proof (hist_ok _ _ _ _ _ _ _ _ _ HR H0 Hf Hf16 H) as HI.
  destruct (sync_step _ _ _ _ _ _ _ _ Hf Hf16 HI W) as (s1 & mp1 & m & m' & A1 & A2 & A3 & A4 & A5 & A6 & A7 & _).
  exists s1, mp1, m, m'. repeat (split; [auto; fail|]). destruct HI as (I & _). split.
  - intros k Hk. destruct (Get_spec kt _ mp k I Hk) as (o & E1 & E2 & _). eauto.
  - intros k Hk. apply Inv_in; auto.
Qed.
Print Assumptions C21_every_write.

(** Set, write, Delete, and the next write: the hypotheses are met, and the field is gone. *)
Example map_twice : exists s0 s mp, New 3 = Ok s0 /\ reached 3 s0 [] /\
  map_history 3 s0 1 (KTNum KU8) (VTNum KU8) s mp [MDelete (KNum 9); MSet (KNum 9) (MNum 8)] /\
  writable (KTNum KU8) (VTNum KU8) s mp /\ mp_dirty mp = true /\ mp_Keys mp = [].
Proof.
  assert (E : exists s0, New 3 = Ok s0) by (eexists; reflexivity). destruct E as (s0 & E).
  eexists s0, _, _. split; auto. split; [now apply R_new|]. vm_compute in E. injection E as <-. split.
  { eapply MH_edit; [eapply MH_sync; [eapply MH_edit; [apply MH_new| | |vm_compute; reflexivity]| |vm_compute; reflexivity]| | |vm_compute; reflexivity].
    1,2,4,5: cbn; lia. split; vm_compute; reflexivity. }
  repeat split; vm_compute; reflexivity.
Qed.
