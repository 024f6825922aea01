(** C115: Go reflection shows what the message holds.  C116: reading by reflection changes nothing.  C117: Set and Clear by
    reflection do what the setters do.  C118: Fields goes through the declared fields in order. *)
From Verif.Proofs Require Import Demo ListHeapProofs GoReflect.

(** ** C115 *)
(** A field that is not set: Has says so, Get gives nil. *)
Theorem C115_unset :
  forall reg fs h m f d, reached (length fs) (h_s h) m -> 0 <= f -> nth_error fs (Z.to_nat f) = Some d -> flook f m = None ->
    Has h f = Ok false /\ exists h', GetValue reg h fs f = Ok (h', None).
Proof.
  intros reg fs h m f d HR Hf EN EV. split.
  - unfold Has. rewrite (has_field _ _ _ _ HR Hf). unfold has. now rewrite (seen_in _ _ _ _ Hf EN), EV.
  - destruct (get_value reg fs h m f d HR Hf EN) as (s & _ & _ & ->). rewrite EV. eauto.
Qed.
(** The full statement: a field that is set is shown with the value it has. *)
Definition shown_as_held : Prop :=
  forall reg fs h m f d v, reached (length fs) (h_s h) m -> 0 <= f -> nth_error fs (Z.to_nat f) = Some d ->
    well_described reg d -> flook f m = Some v -> fits_type (fd_ty d) v ->
    Has h f = Ok true /\ exists h' r, GetValue reg h fs f = Ok (h', Some r) /\ shows reg d v r.
Lemma held_valid n s m f v : reached n s m -> flook f m = Some v -> valid_value v.
Proof.
  intros HR EV. destruct (reached_sorted _ _ _ HR) as (_ & (_ & VM) & _). rewrite Forall_forall in VM.
  apply flook_In in EV. exact (proj2 (VM _ EV)).
Qed.
(** Proved for numbers, bools, enums, strings, bytes, structs, lists of numbers and lists of structs; what is missing is
    [kept]: lists of bools, strings and bytes, Any values, maps, imported enums of 16 bits. *)
Theorem C115_get_partial :
  forall reg fs h m f d v, reached (length fs) (h_s h) m -> 0 <= f -> nth_error fs (Z.to_nat f) = Some d ->
    well_described reg d -> flook f m = Some v -> fits_type (fd_ty d) v -> kept d v ->
    Has h f = Ok true /\ exists h' r, GetValue reg h fs f = Ok (h', Some r) /\ shows reg d v r.
Proof.
  intros reg fs h m f d v HR Hf EN HW EV FT KP. split.
  - unfold Has. rewrite (has_field _ _ _ _ HR Hf). unfold has. now rewrite (seen_in _ _ _ _ Hf EN), EV.
  - destruct (get_value reg fs h m f d HR Hf EN) as (s & RS & _ & ->). rewrite EV.
    destruct (got_shows reg fs (with_s h s) m f d v RS Hf EN EV FT HW KP (held_valid _ _ _ _ _ HR EV)) as (h' & r & E & SH & _). eauto.
Qed.
(** A list of bools is shown with false items behind it, up to the next multiple of 64: it is right only where the length is
    such a multiple. *)
Theorem C115_bools :
  forall reg fs h m f d l, reached (length fs) (h_s h) m -> 0 <= f -> nth_error fs (Z.to_nat f) = Some d ->
    flook f m = Some (VBools l) -> fd_ty d = FTListBools ->
    exists h', GetValue reg h fs f = Ok (h', Some (RList (RBools (l ++ repeat false (64 * ((length l + 63) / 64) - length l))))).
Proof.
  intros reg fs h m f d l HR Hf EN EV FT. destruct (get_value reg fs h m f d HR Hf EN) as (s & RS & _ & ->). rewrite EV.
  exists (with_s h s). eapply got_bools; eauto.
Qed.
(** A list of strings or bytes is always shown empty. *)
Theorem C115_blobs :
  forall reg fs h m f d str l, reached (length fs) (h_s h) m -> 0 <= f -> nth_error fs (Z.to_nat f) = Some d ->
    flook f m = Some (VBlobs str l) -> fits_type (fd_ty d) (VBlobs str l) ->
    exists h', GetValue reg h fs f = Ok (h', Some (RList (RBlobs str []))).
Proof.
  intros reg fs h m f d str l HR Hf EN EV FT. destruct (get_value reg fs h m f d HR Hf EN) as (s & RS & _ & ->). rewrite EV.
  cbn [fits_type] in FT. rewrite (got_blobs _ _ _ _ str FT). eauto.
Qed.
(** Get of a field with a map, an Any or a list of Any panics. *)
Theorem C115_panics :
  forall reg fs h m f d v, reached (length fs) (h_s h) m -> 0 <= f -> nth_error fs (Z.to_nat f) = Some d ->
    flook f m = Some v -> fd_ty d = FTAny \/ fd_ty d = FTListAny \/ fd_ty d = FTMap -> GetValue reg h fs f = Panic.
Proof.
  intros reg fs h m f d v HR Hf EN EV FT. destruct (get_value reg fs h m f d HR Hf EN) as (s & RS & _ & ->). rewrite EV.
  now apply got_panics.
Qed.

(** ** C116 *)
(** The full statement: after Get, a list field shows through its accessor what it showed before. *)
Definition reading_is_reading : Prop :=
  forall reg sch fs h m f t d h' o h1 i v, schema_ok (length fs) sch -> hreached sch (length fs) h m -> sch f = Some t ->
    nth_error fs (Z.to_nat f) = Some d -> fd_ty d = match t with LBools => FTListBools | LNums k => list_type k
                                                    | LBlobs str => if str then FTListStrings else FTListBytes end ->
    GetValue reg h fs f = Ok (h', o) -> h_list h f t = Ok (h1, i) -> h_read h1 i = Ok v ->
    exists h2 j, h_list h' f t = Ok (h2, j) /\ h_read h2 j = Ok v.
(** Reading a field that is not a list of numbers, bytes or strings leaves the message, its bytes and every list object as they
    were. *)
Theorem C116_partial :
  forall reg fs h m f d h' o, reached (length fs) (h_s h) m -> 0 <= f -> nth_error fs (Z.to_nat f) = Some d ->
    ~ object_list (fd_ty d) -> GetValue reg h fs f = Ok (h', o) ->
    reached (length fs) (h_s h') m /\ st_data (h_s h') = st_data (h_s h) /\
    h_objs h' = h_objs h /\ h_lists h' = h_lists h /\ h_dirty h' = h_dirty h.
Proof.
  intros reg fs h m f d h' o HR Hf EN NO E. destruct (get_value reg fs h m f d HR Hf EN) as (s & RS & ED & EG). rewrite EG in E.
  destruct (flook f m) as [v|].
  - apply got_quiet in E; auto. subst h'. auto.
  - inversion E. subst. auto.
Qed.
(** Reading any field leaves the message and its bytes as they are. *)
Theorem C116_bytes :
  forall reg fs h m f d h' o, reached (length fs) (h_s h) m -> 0 <= f -> nth_error fs (Z.to_nat f) = Some d ->
    GetValue reg h fs f = Ok (h', o) -> reached (length fs) (h_s h') m /\ st_data (h_s h') = st_data (h_s h).
Proof.
  intros reg fs h m f d h' o HR Hf EN E. destruct (get_value reg fs h m f d HR Hf EN) as (s & RS & ED & EG). rewrite EG in E.
  destruct (flook f m) as [v|].
  - apply got_struct in E. cbn [with_s h_s] in E. rewrite E. auto.
  - inversion E. subst. auto.
Qed.
(** Reading a list of numbers leaves behind a list object with the items of the message, whatever the accessor showed before:
    edits of the list that are not yet written are no longer seen.  Lists held by the program are as they were. *)
Theorem C116_numbers :
  forall reg fs h m f d k l, reached (length fs) (h_s h) m -> 0 <= f -> nth_error fs (Z.to_nat f) = Some d ->
    flook f m = Some (VNums k l) -> fd_ty d = list_type k ->
    exists h' i, GetValue reg h fs f = Ok (h', Some (RList (RNums k l))) /\ h_list h' f (LNums k) = Ok (h', i) /\
      h_read h' i = Ok (VNums k l) /\ (forall j x, h_read h j = Ok x -> h_read h' j = Ok x).
Proof.
  intros reg fs h m f d k l HR Hf EN EV FT. eapply read_numbers; eauto.
  pose proof (held_valid _ _ _ _ _ HR EV) as VV. apply VV.
Qed.
(** Reading a list of strings or bytes makes the accessor show an empty list. *)
Theorem C116_emptied :
  forall reg fs h m f d str l, reached (length fs) (h_s h) m -> 0 <= f -> nth_error fs (Z.to_nat f) = Some d ->
    flook f m = Some (VBlobs str l) -> fits_type (fd_ty d) (VBlobs str l) ->
    exists h' i, GetValue reg h fs f = Ok (h', Some (RList (RBlobs str []))) /\ h_list h' f (LBlobs str) = Ok (h', i) /\
      h_read h' i = Ok (VBlobs str []).
Proof.
  intros reg fs h m f d str l HR Hf EN EV FT. destruct (get_value reg fs h m f d HR Hf EN) as (s & RS & _ & ->). rewrite EV.
  cbn [fits_type] in FT. rewrite (got_blobs _ _ _ _ str FT). eexists. exists (length (h_objs h)). split; [reflexivity|].
  assert (NT : nth_error (h_objs h ++ [mkL f (CBlobs str [] false)]) (length (h_objs h)) = Some (mkL f (CBlobs str [] false))).
  { rewrite nth_error_app2, Nat.sub_diag by lia. reflexivity. }
  split.
  - unfold h_list, h_register. cbn [h_lists h_objs SetList GetList fst snd]. rewrite Z.eqb_refl. cbn [with_s h_objs].
    rewrite NT. cbn [lo_c c_type]. destruct (lty_eq_dec (LBlobs str) (LBlobs str)); [reflexivity|congruence].
  - unfold h_read, h_register. cbn [h_objs with_s]. rewrite NT. reflexivity.
Qed.

(** ** C117 *)
(** The full statement: Set of a value of the type of the field stores it; the zero value unsets the field. *)
Definition set_stores : Prop :=
  forall fs h m f d v w, reached (length fs) (h_s h) m -> 0 <= f < 2 ^ 16 -> nth_error fs (Z.to_nat f) = Some d ->
    has_type v (fd_ty d) -> stands_for v w -> valid_value w -> fits 0 (mset (zero_value w) f w m) ->
    exists s, Set_ h fs f v = Ok (with_s h s) /\ reached (length fs) s (mset (zero_value w) f w m).
(** Proved without [taken]: not for the empty string, nil bytes and lists. *)
Theorem C117_set_partial :
  forall fs h m f d v w, reached (length fs) (h_s h) m -> 0 <= f < 2 ^ 16 -> nth_error fs (Z.to_nat f) = Some d ->
    has_type v (fd_ty d) -> stands_for v w -> valid_value w -> fits 0 (mset (zero_value w) f w m) -> taken v ->
    exists s, Set_ h fs f v = Ok (with_s h s) /\ reached (length fs) s (mset (zero_value w) f w m).
Proof. exact set_taken. Qed.
(** Get after Set gives the value back, and nil for a zero value; the other fields hold what they held. *)
Theorem C117_get_partial :
  forall reg fs h m f d v w, reached (length fs) (h_s h) m -> 0 <= f < 2 ^ 16 -> nth_error fs (Z.to_nat f) = Some d ->
    well_described reg d -> has_type v (fd_ty d) -> stands_for v w -> valid_value w -> fits 0 (mset (zero_value w) f w m) ->
    taken v -> kept d w ->
    exists s h', Set_ h fs f v = Ok (with_s h s) /\
      (if zero_value w then GetValue reg (with_s h s) fs f = Ok (h', None)
       else exists r, GetValue reg (with_s h s) fs f = Ok (h', Some r) /\ shows reg d w r) /\
      exists m', reached (length fs) s m' /\ forall g, g <> f -> flook g m' = flook g m.
Proof.
  intros reg fs h m f d v w HR Hf EN HW HT SF VV FI TK KP.
  destruct (set_taken fs h m f d v w HR Hf EN HT SF VV FI TK) as (s & ES & RS). exists s.
  assert (OT : exists m', reached (length fs) s m' /\ forall g, g <> f -> flook g m' = flook g m).
  { exists (mset (zero_value w) f w m). split; auto. intros g NG. destruct (reached_sorted _ _ _ HR) as (SO & _).
    destruct (zero_value w); cbn [mset]; [rewrite flook_fdel by auto|rewrite flook_fput by auto]; destruct (Z.eqb_spec g f); congruence. }
  assert (FT : fits_type (fd_ty d) w).
  { clear - HT SF TK. destruct v as [b|k z|k z g|b|b|c cfs|l]; cbn in *; try tauto.
    - subst w. exact HT.
    - destruct SF as [_ ->]. exact HT.
    - destruct SF as (_ & -> & _). exact HT.
    - subst w. cbn. auto.
    - subst w. cbn. auto.
    - destruct SF as (n & c0 & _ & _ & ->). exact HT. }
  destruct (zero_value w) eqn:EZ.
  - assert (EV : flook f (mset true f w m) = None).
    { cbn [mset]. destruct (reached_sorted _ _ _ HR) as (SO & _). rewrite flook_fdel by auto. now rewrite Z.eqb_refl. }
    destruct (C115_unset reg fs (with_s h s) _ f d RS ltac:(lia) EN EV) as (_ & h' & E). exists h'. auto.
  - assert (EV : flook f (mset false f w m) = Some w).
    { cbn [mset]. destruct (reached_sorted _ _ _ HR) as (SO & _). rewrite flook_fput by auto. now rewrite Z.eqb_refl. }
    destruct (C115_get_partial reg fs (with_s h s) _ f d w RS ltac:(lia) EN HW EV FT KP) as (_ & h' & r & E & SH).
    exists h'. split; auto. split; eauto.
Qed.
(** An enum value whose number is not one of its group cannot be set. *)
Theorem C117_enum_panics :
  forall fs h f d k z g, 0 <= f -> nth_error fs (Z.to_nat f) = Some d -> has_type (REnum k z (Some g)) (fd_ty d) ->
    (k = KU8 \/ k = KU16) -> in_range k z -> (forall e, In e g -> e_num e <> z) -> Set_ h fs f (REnum k z (Some g)) = Panic.
Proof.
  intros fs h f d k z g Hf EN HT HK HZ NE. unfold Set_. rewrite (index_nth_error _ _ d) by auto. rewrite bind_Ok. cbn [Any has_type] in *.
  assert (EB : ByValue g z = None).
  { unfold ByValue. destruct (find _ g) as [e|] eqn:EF; auto. exfalso. apply find_some in EF. destruct EF as [I E]. apply Z.eqb_eq in E.
    apply (NE e I). rewrite E. unfold u16. apply Z.mod_small. destruct HK; subst k; cbn in HZ; lia. }
  rewrite EB. cbn [option_map bind]. rewrite HT. destruct HK; subst k; reflexivity.
Qed.
(** The full statement for Clear: the field is not set afterwards. *)
Definition clear_clears : Prop :=
  forall fs h m f d, reached (length fs) (h_s h) m -> 0 <= f < 2 ^ 16 -> nth_error fs (Z.to_nat f) = Some d ->
    exists s, Clear h fs f = Ok (with_s h s) /\ reached (length fs) s (fdel f m).
(** Proved for numbers, bools, enums, strings, bytes and structs; lists, maps and Any values stay. *)
Theorem C117_clear_partial :
  forall fs h m f d, reached (length fs) (h_s h) m -> 0 <= f < 2 ^ 16 -> nth_error fs (Z.to_nat f) = Some d ->
    single_type (fd_ty d) ->
    exists s, Clear h fs f = Ok (with_s h s) /\ reached (length fs) s (fdel f m).
Proof. exact clear_single. Qed.

(** ** C118 *)
(** The full statement: the caller is given the declared fields in order, each with its value or nil, until it wants no more. *)
Definition goes_through (cond : fdesc -> value -> Prop) : Prop :=
  forall reg fs h m yield, reached (length fs) (h_s h) m -> Forall (well_described reg) fs ->
    (forall f d v, 0 <= f -> nth_error fs (Z.to_nat f) = Some d -> flook f m = Some v -> fits_type (fd_ty d) v /\ cond d v) ->
    exists h' g, Fields reg h fs yield = Ok (h', g) /\ (length g <= length fs)%nat /\
      (forall i x d, nth_error g i = Some x -> nth_error fs i = Some d -> told reg m (Z.of_nat i) d x) /\
      (forall j, (0 < j < length g)%nat -> yield (firstn j g) = true) /\
      ((length g < length fs)%nat -> (0 < length g)%nat /\ yield g = false).
(** Proved for messages whose values are [kept]. *)
Theorem C118_fields_partial : goes_through kept.
Proof.
  intros reg fs h m yield HR HW HV.
  destruct (fields_told reg fs m yield HV HW fs [] h [] eq_refl HR eq_refl) as (h' & g & E & LG & _ & TG & YG & SG & _).
  - intros i x d E. destruct i; discriminate.
  - cbn. intros. lia.
  - exists h', g. split; [exact E|]. split; [lia|]. auto.
Qed.
(** A struct with a declared field that is not set has no String: it panics, or a deeper value does. *)
Theorem C118_string :
  forall sprint fuel reg fs h m f d x, reached (length fs) (h_s h) m -> 0 <= f -> nth_error fs (Z.to_nat f) = Some d ->
    flook f m = None -> String_ sprint fuel reg (RStruct h fs) <> Ok x.
Proof. intros sprint fuel reg fs h m f d x HR Hf EN EV. eapply string_struct; eauto. Qed.

(** ** The hypotheses can be met; where the full statements fail *)
Definition gr_pkg : bytes := [97; 47; 98].                      (* a/b *)
Definition gr_color : group := [mkE [82] 1; mkE [71] 2].
Definition gr_reg : registry := fun p => if Ingest.bytes_eqb p gr_pkg then Some [([67], gr_color)] else None.
Definition gr_child : list fdesc := [Fd [75] FTUint8 (Some (gr_pkg, [98; 46; 67])) None; Fd [66] FTBytes None None; Fd [70] FTFloat32 None None].
Definition gr_fs : list fdesc :=
  [Fd [78] FTInt16 None None; Fd [89] FTBool None None; Fd [83] FTStruct None (Some gr_child); Fd [84] FTString None None;
   Fd [67] FTUint8 (Some (gr_pkg, [98; 46; 67])) None; Fd [76] FTListBools None None; Fd [85] FTListUint16 None None;
   Fd [87] FTListStrings None None; Fd [81] FTListStructs None (Some gr_child); Fd [65] FTAny None None;
   Fd [68] FTUint16 (Some (gr_pkg, [67])) None].
Definition gr_kept_ops : list op :=
  [OScalar 0 KI16 (-5); OBytes 3 true [104; 105]; ONested 2 3 demo_child; OScalar 4 KU8 2; ONums 6 KU16 [1; 65535; 3];
   OStructs 8 3 [demo_child; []]; OScalar 10 KU16 1].
Definition gr_ops : list op :=
  gr_kept_ops ++ [OBools 5 [true; false; true]; OBlobs 7 true [[97; 98; 99; 100]; [101; 102; 103; 104]]; OAny 9 (map Z.of_nat (seq 1 16)) 3 demo_child].
Definition gr_s (ops : list op) : strct := match build 11 ops with Ok s => s | _ => mkStruct [] [] false false None false [] end.
Example gr_kept_reached : reached 11 (gr_s gr_kept_ops) (sem [] gr_kept_ops).
Proof.
  destruct (reached_build 11 gr_kept_ops) as (s & E & R). { unfold gr_kept_ops, demo_child. legal. }
  unfold gr_s. rewrite E. exact R.
Qed.
Example gr_reached : reached 11 (gr_s gr_ops) (sem [] gr_ops).
Proof.
  destruct (reached_build 11 gr_ops) as (s & E & R). { unfold gr_ops, gr_kept_ops, demo_child. legal. }
  unfold gr_s. rewrite E. exact R.
Qed.

Example gr_described : Forall (well_described gr_reg) gr_fs.
Proof.
  assert (NN : forall d, fd_enum d = None -> (fd_ty d = FTStruct \/ fd_ty d = FTListStructs -> fd_child d <> None) -> well_described gr_reg d).
  { intros d E C. split; auto. intros e H. congruence. }
  assert (EC : forall n, n = [98; 46; 67] \/ n = [67] -> enum_is gr_reg (gr_pkg, n) gr_color).
  { intros n H. exists [67], [([67], gr_color)]. split; [|repeat split; cbn; auto; repeat constructor; cbn; tauto].
    split; [cbn; intuition discriminate|]. destruct H; subst n; [right|left; reflexivity].
    exists [98]. split; [cbn; intuition discriminate|reflexivity]. }
  assert (EE : forall d n, fd_enum d = Some (gr_pkg, n) -> n = [98; 46; 67] \/ n = [67] ->
                In (fd_ty d) [FTUint8; FTUint16; FTListUint8; FTListUint16] -> well_described gr_reg d).
  { intros d n E H I. split.
    - intros e He. rewrite E in He. inversion He. subst e. split; auto. exists gr_color. auto.
    - intros HT. exfalso. unfold FTUint8, FTUint16, FTListUint8, FTListUint16, FTStruct, FTListStructs in *. cbn in I. lia. }
  unfold gr_fs. repeat apply Forall_cons; try apply Forall_nil;
    first [apply NN; [reflexivity|intros [H|H]; first [discriminate H|cbn; discriminate]] | eapply EE; [reflexivity|cbn; auto|cbn; auto]].
Qed.
(** C115: a string, an enum of an imported package, a nested struct. *)
Example C115_nonvacuous :
  exists h' r, GetValue gr_reg (hstart (gr_s gr_ops)) gr_fs 4 = Ok (h', Some r) /\
    shows gr_reg (Fd [67] FTUint8 (Some (gr_pkg, [98; 46; 67])) None) (VScalar KU8 2) r.
Proof.
  pose proof gr_described as W. rewrite Forall_forall in W.
  refine (proj2 (C115_get_partial gr_reg gr_fs (hstart (gr_s gr_ops)) _ 4 _ _ gr_reached ltac:(lia) eq_refl _ eq_refl eq_refl I)).
  apply W, (nth_error_In gr_fs 4). reflexivity.
Qed.
Theorem C115_refuted : ~ shown_as_held.
Proof.
  intro C. pose proof gr_described as W. rewrite Forall_forall in W.
  destruct (C gr_reg gr_fs (hstart (gr_s gr_ops)) _ 5 _ _ gr_reached ltac:(lia) eq_refl (W _ (nth_error_In gr_fs 5 eq_refl)) eq_refl eq_refl)
    as (_ & h' & r & E & SH).
  destruct (C115_bools gr_reg gr_fs (hstart (gr_s gr_ops)) _ 5 _ _ gr_reached ltac:(lia) eq_refl eq_refl eq_refl) as (h2 & E2).
  rewrite E2 in E. inversion E as [[EH ER]]. subst r. cbn in SH. discriminate SH.
Qed.
(** C116: the strings are gone from the accessor after one Get, and from the wire after one Append. *)
Definition gr_sch : schema := fun f => if f =? 7 then Some (LBlobs true) else None.
Example gr_hreached : hreached gr_sch 11 (hstart (gr_s gr_ops)) (sem [] gr_ops).
Proof.
  exists (gr_s gr_ops), (sem [] gr_ops), []. split; [exact gr_reached|]. split; [|constructor].
  intros f t v E EV. unfold gr_sch in E. destruct (Z.eqb_spec f 7); [|discriminate]. subst f. inversion E. subst t.
  vm_compute in EV. inversion EV. reflexivity.
Qed.
Theorem C116_refuted : ~ reading_is_reading.
Proof.
  intro C.
  destruct (C116_emptied gr_reg gr_fs (hstart (gr_s gr_ops)) _ 7 _ _ _ gr_reached ltac:(lia) eq_refl eq_refl eq_refl)
    as (h' & i & E & EL & EI).
  assert (SO : schema_ok (length gr_fs) gr_sch).
  { intros f t H. unfold gr_sch in H. destruct (Z.eqb_spec f 7); [|discriminate]. inversion H. subst. cbn. split; [lia|]. split; [lia|discriminate]. }
  assert (H1 : exists h1 j, h_list (hstart (gr_s gr_ops)) 7 (LBlobs true) = Ok (h1, j) /\ h_read h1 j = Ok (VBlobs true [[97; 98; 99; 100]; [101; 102; 103; 104]])).
  { assert (B : (p <- h_list (hstart (gr_s gr_ops)) 7 (LBlobs true) ;; h_read (fst p) (snd p)) = Ok (VBlobs true [[97; 98; 99; 100]; [101; 102; 103; 104]]))
      by (vm_compute; reflexivity).
    destruct (h_list (hstart (gr_s gr_ops)) 7 (LBlobs true)) as [[h1 j]| | |]; try discriminate B. exists h1, j. auto. }
  destruct H1 as (h1 & j & E1 & R1).
  destruct (C gr_reg gr_sch gr_fs (hstart (gr_s gr_ops)) _ 7 (LBlobs true) _ _ _ _ _ _ SO gr_hreached eq_refl eq_refl eq_refl E E1 R1)
    as (h2 & j2 & E2 & R2).
  rewrite EL in E2. inversion E2. subst. congruence.
Qed.

(** Get of the strings, then one Append through the accessor and a Marshal: the message that is sent has only the new string. *)
Example C116_lost :
  (p <- GetValue gr_reg (hstart (gr_s gr_ops)) gr_fs 7 ;; q <- h_list (fst p) 7 (LBlobs true) ;;
   h <- h_edit (fst q) (snd q) (EBlobs (EAppend [[120; 121; 122; 123]])) ;; r <- h_Marshal h ;;
   s <- New 11 ;; s2 <- Unmarshal s (snd r) ;; t <- h_list (hstart s2) 7 (LBlobs true) ;; h_read (fst t) (snd t))
  = Ok (VBlobs true [[120; 121; 122; 123]]).
Proof. vm_compute. reflexivity. Qed.
Example C116_numbers_nonvacuous :
  exists h' i, GetValue gr_reg (hstart (gr_s gr_ops)) gr_fs 6 = Ok (h', Some (RList (RNums KU16 [1; 65535; 3]))) /\
    h_list h' 6 (LNums KU16) = Ok (h', i) /\ h_read h' i = Ok (VNums KU16 [1; 65535; 3]).
Proof.
  destruct (C116_numbers gr_reg gr_fs (hstart (gr_s gr_ops)) _ 6 _ _ _ gr_reached ltac:(lia) eq_refl eq_refl eq_refl) as (h' & i & A & B & C & _).
  exists h', i. auto.
Qed.
(** C117: an enum, a string. *)
Example C117_nonvacuous :
  exists s h' r, Set_ (hstart (gr_s gr_ops)) gr_fs 10 (REnum KU16 2 (Some gr_color)) = Ok (with_s (hstart (gr_s gr_ops)) s) /\
    GetValue gr_reg (with_s (hstart (gr_s gr_ops)) s) gr_fs 10 = Ok (h', Some r) /\
    shows gr_reg (Fd [68] FTUint16 (Some (gr_pkg, [67])) None) (VScalar KU16 2) r.
Proof.
  pose proof gr_described as W. rewrite Forall_forall in W.
  destruct (C117_get_partial gr_reg gr_fs (hstart (gr_s gr_ops)) _ 10 _ (REnum KU16 2 (Some gr_color)) (VScalar KU16 2) gr_reached
              ltac:(lia) eq_refl (W _ (nth_error_In gr_fs 10 eq_refl)) eq_refl) as (s & h' & ES & EG & _).
  - split; auto. split; auto. exists gr_color, (mkE [71] 2). cbn. auto.
  - vm_compute. split; [discriminate|reflexivity].
  - vm_compute. reflexivity.
  - exact I.
  - intros e H. inversion H. cbn. intuition discriminate.
  - cbn [zero_value is_zero] in EG. destruct EG as (r & EG & SH). exists s, h', r. auto.
Qed.
(** Set of the empty string panics, of a list too; Clear of a list leaves it. *)
Theorem C117_refuted : ~ set_stores.
Proof.
  intro C.
  destruct (C gr_fs (hstart (gr_s gr_ops)) _ 3 _ (RStr []) (VBytes true []) gr_reached ltac:(lia) eq_refl eq_refl eq_refl) as (s & E & _).
  - vm_compute. auto.
  - vm_compute. reflexivity.
  - vm_compute in E. discriminate E.
Qed.
Theorem C117_clear_refuted : ~ clear_clears.
Proof.
  intro C. destruct (C gr_fs (hstart (gr_s gr_ops)) _ 6 _ gr_reached ltac:(lia) eq_refl) as (s & E & R).
  assert (EC : forall x, Clear (hstart x) gr_fs 6 = Ok (hstart x)) by reflexivity.
  assert (IJ : forall x y, Ok (hstart x) = Ok (with_s (hstart x) y) -> x = y) by (intros x y H; now inversion H).
  rewrite EC in E. pose proof (IJ _ _ E) as ES.
  pose proof (has_field _ _ _ 6 R ltac:(lia)) as F. rewrite <- ES in F. vm_compute in F. discriminate F.
Qed.
(** C118 *)
Example C118_nonvacuous :
  exists h' g, Fields gr_reg (hstart (gr_s gr_kept_ops)) gr_fs (fun g => Nat.ltb (length g) 7) = Ok (h', g) /\ length g = 7%nat /\
    map fst g = [[78]; [89]; [83]; [84]; [67]; [76]; [85]].
Proof.
  assert (B : (p <- Fields gr_reg (hstart (gr_s gr_kept_ops)) gr_fs (fun g => Nat.ltb (length g) 7) ;; Ok (map fst (snd p)))
              = Ok [[78]; [89]; [83]; [84]; [67]; [76]; [85]]) by (vm_compute; reflexivity).
  destruct (Fields _ _ _ _) as [[h' g]| | |]; try discriminate B. exists h', g. rewrite bind_Ok in B. inversion B as [E]. cbn [snd].
  cbn [snd] in E.
  assert (L : length (map fst g) = 7%nat) by (rewrite E; reflexivity). rewrite map_length in L. auto.
Qed.
Example C118_hypotheses_met :
  forall f d v, 0 <= f -> nth_error gr_fs (Z.to_nat f) = Some d -> flook f (sem [] gr_kept_ops) = Some v ->
    fits_type (fd_ty d) v /\ kept d v.
Proof.
  intros f d v Hf EN EV. assert (LT : (Z.to_nat f < 11)%nat) by (apply (nth_error_Some gr_fs); congruence).
  assert (CS : f = 0 \/ f = 1 \/ f = 2 \/ f = 3 \/ f = 4 \/ f = 5 \/ f = 6 \/ f = 7 \/ f = 8 \/ f = 9 \/ f = 10) by lia.
  repeat (destruct CS as [CS|CS]); subst f; cbn in EN; inversion EN; subst d; vm_compute in EV;
    try discriminate EV; inversion EV; subst v; cbn; auto.
  split; auto. intros e H. inversion H. cbn. intuition discriminate.
Qed.
Theorem C118_refuted : ~ goes_through (fun _ _ => True).
Proof.
  intro C. destruct (C gr_reg gr_fs (hstart (gr_s gr_ops)) _ (fun _ => true) gr_reached gr_described) as (h' & g & E & _).
  - intros f d v Hf EN EV. split; auto.
    assert (LT : (Z.to_nat f < 11)%nat) by (apply (nth_error_Some gr_fs); congruence).
    assert (CS : f = 0 \/ f = 1 \/ f = 2 \/ f = 3 \/ f = 4 \/ f = 5 \/ f = 6 \/ f = 7 \/ f = 8 \/ f = 9 \/ f = 10) by lia.
    repeat (destruct CS as [CS|CS]); subst f; cbn in EN; inversion EN; subst d; vm_compute in EV;
      try discriminate EV; inversion EV; subst v; cbn; auto.
  - assert (EP : (p <- Fields gr_reg (hstart (gr_s gr_ops)) gr_fs (fun _ => true) ;; Ok (map fst (snd p))) = Panic) by (vm_compute; reflexivity).
    rewrite E in EP. discriminate EP.
Qed.

Print Assumptions C115_unset.
Print Assumptions C115_get_partial.
Print Assumptions C115_bools.
Print Assumptions C115_blobs.
Print Assumptions C115_panics.
Print Assumptions C115_refuted.
Print Assumptions C116_partial.
Print Assumptions C116_bytes.
Print Assumptions C116_numbers.
Print Assumptions C116_emptied.
Print Assumptions C116_refuted.
Print Assumptions C117_set_partial.
Print Assumptions C117_get_partial.
Print Assumptions C117_enum_panics.
Print Assumptions C117_clear_partial.
Print Assumptions C117_refuted.
Print Assumptions C117_clear_refuted.
Print Assumptions C118_fields_partial.
Print Assumptions C118_string.
Print Assumptions C118_refuted.
