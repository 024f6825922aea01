(** C18: list objects, the cache behind the accessors, and what Marshal writes of them. *)
From Verif.Proofs Require Import Demo ListHeapProofs.

(** A list object is a sequence: whatever happened before, an edit has the effect the caller
    asked for, an index out of range panics, and no other list is touched. *)
Theorem C18_list_is_sequence :
  forall sch n h m i o, schema_ok n sch -> hreached sch n h m -> nth_error (h_objs h) i = Some o ->
    exists v, h_read h i = Ok v /\ lty_of v = Some (c_type (lo_c o)) /\ sch (lo_f o) = Some (c_type (lo_c o)) /\
      forall e, edit_typed (c_type (lo_c o)) e ->
        match edited v e with
        | Some v' => exists h', h_edit h i e = Ok h' /\ h_read h' i = Ok v' /\ hreached sch n h' m /\
            (forall j, j <> i -> h_read h' j = h_read h j)
        | None => h_edit h i e = Panic
        end.
Proof.
  intros sch n h m i o HS HR EO. pose proof (hreached_inv _ _ _ _ HS HR) as HI.
  destruct (hi_objs _ _ _ _ HI _ _ EO) as (HT & v & HV). exists v. unfold h_read at 1. rewrite EO.
  split; [now apply read_cval|]. split; [now apply cval_type|]. split; auto. intros e He.
  pose proof (h_edit_ok sch n h m i o v e HI EO HV He) as HE. destruct (edited v e); auto.
  destruct HE as (h' & c & E & HI' & HC & _ & _ & EOB & _). exists h'. split; auto. split; [|split].
  - unfold h_read. rewrite EOB, nth_error_set_nth_eq by (apply nth_error_Some; congruence). cbn [lo_c]. now apply read_cval.
  - destruct HR as (s & m0 & cs & R1 & R2 & R3). exists s, m0, (cs ++ [CEdit i e]). repeat split; auto.
    assert (X : hcall sch n h m (CEdit i e) h' m) by (econstructor; eauto).
    clear - R3 X. induction R3; cbn [app]; [econstructor; [eauto|constructor]|econstructor; eauto].
  - intros j NJ. unfold h_read. rewrite EOB, nth_error_set_nth_neq by auto. reflexivity.
Qed.

(** The accessor never fails.  It returns the object it returned before; the first time, it
    returns what the struct holds in that field, or an empty list; nothing else changes. *)
Theorem C18_accessor :
  forall sch n h m f t, schema_ok n sch -> hreached sch n h m -> sch f = Some t ->
    exists h' i v, h_list h f t = Ok (h', i) /\ h_read h' i = Ok v /\ lty_of v = Some t /\
      h_list h' f t = Ok (h', i) /\
      (forall j w, h_read h j = Ok w -> h_read h' j = Ok w) /\
      (forall j, GetList f (h_lists h) = Some j -> h' = h /\ i = j) /\
      (GetList f (h_lists h) = None ->
       v = match flook f m with Some w => as_read w | None => empty_list t end).
Proof.
  intros sch n h m f t HS HR Hf. pose proof (hreached_inv _ _ _ _ HS HR) as HI.
  destruct (h_list_ok sch n h m f t HS HI Hf) as (h' & i & o & E & HI' & HG & EO & HT & _ & _ & HX & HM).
  destruct (hi_objs _ _ _ _ HI' _ _ EO) as (_ & v & HV). exists h', i, v. split; auto.
  split; [unfold h_read; rewrite EO; now apply read_cval|]. split; [rewrite <- HT; now apply cval_type|].
  split. { unfold h_list. rewrite HG, EO. destruct (lty_eq_dec (c_type (lo_c o)) t); congruence. }
  split. { intros j w Hj. unfold h_read in *. destruct (nth_error (h_objs h) j) as [x|] eqn:EX; [|discriminate].
           rewrite (HX _ _ EX). auto. }
  split. { intros j Hj. rewrite Hj in HM. exact HM. }
  intros Hn. rewrite Hn in HM. destruct HM as (_ & _ & _ & HM).
  destruct (flook f m); destruct HM as [_ HM]; eapply cval_fun; eauto.
Qed.

(** The full property: an edit is contained in the next Marshal output. *)
Definition edits_reach_wire : Prop :=
  forall sch n h m i o e h' h'' v b, schema_ok n sch -> hreached sch n h m ->
    nth_error (h_objs h) i = Some o -> edit_typed (c_type (lo_c o)) e ->
    h_edit h i e = Ok h' -> h_read h' i = Ok v -> room h' -> h_Marshal h' = Ok (h'', b) ->
    reader_sees (lo_f o) (c_type (lo_c o)) b (received v).

(** What holds: a list that the accessor creates, on a field that holds nothing, is written
    with all its edits by the next Marshal, whatever else is done in between.
    Missing: lists that came from the wire, and edits after the first Marshal; for those the
    property is false (below). *)
Theorem C18_new_list_written_partial :
  forall sch n h0 m0 f t h1 i cs h2 m2,
    schema_ok n sch -> hreached sch n h0 m0 -> sch f = Some t ->
    GetList f (h_lists h0) = None -> flook f m0 = None ->
    h_list h0 f t = Ok (h1, i) -> hcalls sch n h1 m0 cs h2 m2 ->
    ~ In (CClear f) cs -> ~ In (CSync f) cs -> (forall b, ~ In (CMarshal b) cs) -> room h2 ->
    exists v h3 b, edited_all (empty_list t) (edits_of i cs) = Some v /\ h_read h2 i = Ok v /\
      h_Marshal h2 = Ok (h3, b) /\ reader_sees f t b (received v).
Proof.
  intros sch n h0 m0 f t h1 i cs h2 m2 HS HR Hf HN HF EL HC N1 N2 N3 HRM.
  pose proof (hreached_inv _ _ _ _ HS HR) as HI.
  destruct (h_list_ok sch n h0 m0 f t HS HI Hf) as (h' & i' & o & E & HI' & HG & EO & HT & _ & _ & HX & HM).
  rewrite EL in E. inv E. rewrite HN in HM. destruct HM as (_ & _ & _ & HM). rewrite HF in HM. destruct HM as [ED HV].
  destruct (fresh_calls sch n h' m0 cs h2 m2 f (c_type (lo_c o)) i' (empty_list (c_type (lo_c o)))) as (v & EV & HFR); auto.
  { split; [rewrite ED; apply in_or_app; right; now left|]. split; auto. exists o. split; auto. split; auto.
    right. destruct (c_type (lo_c o)); reflexivity. }
  pose proof (hinv_calls _ _ _ _ _ _ _ HS HC HI') as HI2.
  destruct (h_Marshal_ok sch n h2 m2 HS HI2 HRM) as (h3 & b & g & EM & _). exists v, h3, b. split; auto.
  assert (HR2 : exists o2, nth_error (h_objs h2) i' = Some o2 /\ cval (lo_c o2) v) by (destruct HFR as (_ & _ & o2 & A & B & _); eauto).
  destruct HR2 as (o2 & EO2 & HV2).
  split; [unfold h_read; rewrite EO2; now apply read_cval|]. split; auto.
  pose proof (marshal_reader _ _ _ _ _ _ _ _ HS HI2 HRM EM Hf) as RS.
  assert (HU : single h2).
  { apply (single_calls sch n h' m0 cs h2 m2); auto. apply (single_call sch n h0 m0 (CList f i') h' m0); auto.
    - eapply H_list; eauto.
    - eapply hreached_single; eauto. }
  rewrite (fresh_marshal _ _ _ _ _ _ _ _ HS HI2 HU HFR Hf) in RS. unfold received, written in *.
  assert (LT : lty_of v = Some (c_type (lo_c o))).
  { rewrite (cval_type _ _ HV2). f_equal. destruct HFR as (HDD & _).
    destruct (hi_dirty _ _ _ _ HI2 _ _ HDD) as (x & X1 & X2).
    assert (x = o2) by congruence. subst x. destruct (hi_objs _ _ _ _ HI2 _ _ EO2) as (Y & _). rewrite X2 in Y. congruence. }
  destruct (list_empty v) eqn:LE; auto. destruct v; try discriminate; destruct l; try discriminate; inv LT; rewrite <- H0 in RS; exact RS.
Qed.

(** What is lost.  Once a list is in the cache without being registered, nothing but clearing
    the field changes what Marshal writes for it. *)
Lemma quiet_written sch n h m cs h' m' h'' b f t :
  schema_ok n sch -> hinv sch n h m -> quiet f h -> sch f = Some t -> hcalls sch n h m cs h' m' ->
  ~ In (CClear f) cs -> room h' -> h_Marshal h' = Ok (h'', b) ->
  reader_sees f t b (match flook f m with Some v => as_read v | None => empty_list t end).
Proof.
  intros HS HI HQ Hf HC HN HR EM. destruct (quiet_calls _ _ _ _ _ _ _ _ _ HS HC HI HQ Hf HN) as [[_ HD] E].
  pose proof (hinv_calls _ _ _ _ _ _ _ HS HC HI) as HI'.
  pose proof (marshal_reader _ _ _ _ _ _ _ _ HS HI' HR EM Hf) as RS.
  rewrite flush_other in RS; auto.
  - now rewrite E in RS.
  - apply (reached_sorted _ _ _ (hi_reached _ _ _ _ HI')).
  - eapply hinv_knows_all; eauto.
Qed.

(** After a Marshal, no edit of a list the program already has is ever written again: every
    later Marshal writes for that field what the first one wrote. *)
Theorem C18_edits_after_marshal_lost :
  forall sch n h0 m0 h1 b1 f t i cs h2 m1 m2 h3 b2 v,
    schema_ok n sch -> hreached sch n h0 m0 -> sch f = Some t -> room h0 ->
    hcall sch n h0 m0 (CMarshal b1) h1 m1 -> GetList f (h_lists h1) = Some i ->
    hcalls sch n h1 m1 cs h2 m2 -> ~ In (CClear f) cs -> room h2 -> h_Marshal h2 = Ok (h3, b2) ->
    reader_sees f t b1 v -> reader_sees f t b2 v.
Proof.
  intros sch n h0 m0 h1 b1 f t i cs h2 m1 m2 h3 b2 v HS HR Hf HRM HM HG HC HN HRM2 EM2 RS.
  pose proof (hreached_inv _ _ _ _ HS HR) as HI. pose proof (hinv_call _ _ _ _ _ _ _ HS HI HM) as HI1.
  inversion HM; subst. destruct (h_Marshal_ok sch n h0 m0 HS HI HRM) as (h' & b & g & E & _ & _ & _ & ED & _).
  match goal with X : h_Marshal h0 = Ok (h1, b1) |- _ => rename X into HX end. rewrite HX in E. inv E.
  assert (HQ : quiet f h') by (split; [eauto|]; rewrite ED; auto).
  pose proof (quiet_written _ _ _ _ _ _ _ _ _ _ _ HS HI1 HQ Hf HC HN HRM2 EM2) as RS2.
  pose proof (marshal_reader _ _ _ _ _ _ _ _ HS HI HRM HX Hf) as RS1.
  destruct (HS _ _ Hf) as (A & _).
  destruct (RS n []) as (s0 & r & r' & j & X1 & X2 & X3 & X4); [lia|].
  destruct (RS1 n []) as (y0 & y & y' & k & Y1 & Y2 & Y3 & Y4); [lia|].
  assert (v = match flook f (flush (h_objs h0) (h_dirty h0) m0) with Some v => as_read v | None => empty_list t end) by congruence.
  subst v. exact RS2.
Qed.

(** The edits of a list that was read from the wire are never written. *)
Theorem C18_edits_of_received_list_lost :
  forall sch n h0 m0 f t v h1 i cs h2 m2 h3 b,
    schema_ok n sch -> hreached sch n h0 m0 -> sch f = Some t ->
    GetList f (h_lists h0) = None -> flook f m0 = Some v ->
    h_list h0 f t = Ok (h1, i) -> hcalls sch n h1 m0 cs h2 m2 -> ~ In (CClear f) cs ->
    room h2 -> h_Marshal h2 = Ok (h3, b) -> reader_sees f t b (as_read v).
Proof.
  intros sch n h0 m0 f t v h1 i cs h2 m2 h3 b HS HR Hf HN HF EL HC NC HRM EM.
  pose proof (hreached_inv _ _ _ _ HS HR) as HI.
  destruct (h_list_ok sch n h0 m0 f t HS HI Hf) as (h' & i' & o & E & HI' & HG & EO & HT & _ & _ & HX & HM).
  rewrite EL in E. inv E. rewrite HN in HM. destruct HM as (_ & _ & _ & HM). rewrite HF in HM. destruct HM as [ED HV].
  assert (HQ : quiet f h').
  { split; [eauto|]. intros j. rewrite ED. intros HIn. pose proof (hreached_single _ _ _ _ HS HR _ _ HIn). congruence. }
  pose proof (quiet_written _ _ _ _ _ _ _ _ _ _ _ HS HI' HQ Hf HC NC HRM EM) as RS. now rewrite HF in RS.
Qed.

(** A list edit alone, after a Marshal, leaves the next output the same to the byte. *)
Fixpoint only_edits (cs : list call) : Prop :=
  match cs with [] => True | CEdit _ _ :: r => only_edits r | _ => False end.
Theorem C18_same_bytes_after_marshal :
  forall sch n h0 m0 h1 b1 cs h2 m1 m2 h3 b2,
    schema_ok n sch -> hreached sch n h0 m0 -> hcall sch n h0 m0 (CMarshal b1) h1 m1 ->
    hcalls sch n h1 m1 cs h2 m2 -> only_edits cs -> h_Marshal h2 = Ok (h3, b2) -> b2 = b1.
Proof.
  intros sch n h0 m0 h1 b1 cs h2 m1 m2 h3 b2 HS HR HM HC HO EM.
  pose proof (hreached_inv _ _ _ _ HS HR) as HI. pose proof (hinv_call _ _ _ _ _ _ _ HS HI HM) as HI1.
  inversion HM; subst. match goal with X : room h0 |- _ => rename X into HRM end.
  match goal with X : h_Marshal h0 = Ok (h1, b1) |- _ => rename X into HX end.
  destruct (h_Marshal_ok sch n h0 m0 HS HI HRM) as (h' & b & g & E & _ & _ & _ & ED & _ & EB).
  rewrite HX in E. inv E.
  assert (G : h_dirty h2 = [] /\ st_data (h_s h2) = st_data (h_s h') /\ hinv sch n h2 m2).
  { clear - HC HO ED HI1 HS. induction HC; [auto|]. destruct c; try contradiction. inversion H; subst.
    match goal with X : nth_error (h_objs h) i = Some o |- _ => rename X into XO end.
    match goal with X : edit_typed _ e |- _ => rename X into XT end.
    match goal with X : h_edit h i e = _ |- _ => rename X into XE end.
    destruct (hi_objs _ _ _ _ HI1 _ _ XO) as (_ & v & HV). pose proof (h_edit_ok sch n h m1 i o v e HI1 XO HV XT) as E.
    destruct (edited v e); [|congruence]. destruct E as (hh & c & E & HI' & _ & _ & _ & _ & _ & EDD & EDS).
    rewrite XE in E. inv E. destruct (IHHC HO) as (A & B & C); auto; try congruence. split; auto. split; auto. congruence. }
  destruct G as (G1 & G2 & G3). unfold h_Marshal, syncDirtyLists in EM. rewrite G1 in EM.
  cbn [sync_all bind with_dirty h_s] in EM. destruct (reached_marshal _ _ _ (hi_reached _ _ _ _ G3)) as (s' & ? & EM' & _).
  rewrite EM' in EM. cbn [bind] in EM. inv EM. congruence.
Qed.

(** ** A concrete case: a type whose fields 1 and 2 are lists of strings and of uint16 *)
Definition sch_demo : schema := fun f => if f =? 1 then Some (LBlobs true) else if f =? 2 then Some (LNums KU16) else None.
Lemma sch_demo_ok : schema_ok 3 sch_demo.
Proof.
  intros f t. unfold sch_demo. destruct (Z.eqb_spec f 1); [|destruct (Z.eqb_spec f 2); [|discriminate]];
  intros E; inv E; repeat split; try lia; discriminate.
Qed.
Definition s_demo : strct := match New 3 with Ok s => s | _ => mkStruct [] [] false false None false [] end.
Lemma s_demo_reached : reached 3 s_demo [].
Proof. apply R_new. reflexivity. Qed.
Lemma demo_start : hreached sch_demo 3 (hstart s_demo) [].
Proof. exists s_demo, [], []. split; [apply s_demo_reached|]. split; [intros f t v _ E; discriminate|constructor]. Qed.

Definition e1 : edit := ENums (EAppend [5; 6]).
Definition hd (r : res (hstruct * nat)) : hstruct := match r with Ok (h, _) => h | _ => hstart s_demo end.
Definition he (r : res hstruct) : hstruct := match r with Ok h => h | _ => hstart s_demo end.
Definition d1 := hd (h_list (hstart s_demo) 2 (LNums KU16)).
Definition d2 := he (h_edit d1 0 e1).
Definition d3 := he (h_edit d2 0 (ENums (ESet 1 9))).
Example new_list_case :
  hcalls sch_demo 3 d1 [] [CEdit 0 e1; CEdit 0 (ENums (ESet 1 9))] d3 [] /\
  h_list (hstart s_demo) 2 (LNums KU16) = Ok (d1, 0%nat) /\ room d3 /\
  h_read d3 0 = Ok (VNums KU16 [5; 9]).
Proof.
  split; [|repeat split; vm_compute; reflexivity].
  econstructor. { eapply H_edit; [vm_compute; reflexivity| |vm_compute; reflexivity]. cbn. repeat constructor; vm_compute; discriminate. }
  econstructor. { eapply H_edit; [vm_compute; reflexivity| |vm_compute; reflexivity]. cbn. repeat constructor; vm_compute; discriminate. }
  constructor.
Qed.

(** The property as stated is false: append, Marshal, append again, Marshal. *)
Definition d4 := match h_Marshal d3 with Ok (h, _) => h | _ => d3 end.
Definition b4 := match h_Marshal d3 with Ok (_, b) => b | _ => [] end.
Definition d5 := he (h_edit d4 0 (ENums (EAppend [7]))).
Definition d6 := match h_Marshal d5 with Ok (h, _) => h | _ => d5 end.
Definition b6 := match h_Marshal d5 with Ok (_, b) => b | _ => [] end.
Lemma d4_reached : exists m, hreached sch_demo 3 d4 m.
Proof.
  destruct new_list_case as (HC & EL & HR & _). eexists. exists s_demo, [], ([CList 2 0] ++ [CEdit 0 e1; CEdit 0 (ENums (ESet 1 9))] ++ [CMarshal b4]).
  split; [apply s_demo_reached|]. split; [intros f t v _ E; discriminate|].
  eapply hcalls_app; [econstructor; [|constructor]|eapply hcalls_app; [exact HC|econstructor; [|constructor]]].
  - eapply H_list; [|exact EL]. reflexivity.
  - apply H_marshal; [exact HR|]. vm_compute. reflexivity.
Qed.
Theorem C18_edits_reach_wire_refuted : ~ edits_reach_wire.
Proof.
  intros H. destruct d4_reached as (m & HR).
  assert (EO : exists o, nth_error (h_objs d4) 0 = Some o /\ lo_f o = 2 /\ c_type (lo_c o) = LNums KU16) by (vm_compute; eauto).
  destruct EO as (o & EO & EF & ET).
  specialize (H sch_demo 3%nat d4 m 0%nat o (ENums (EAppend [7])) d5 d6 (VNums KU16 [5; 9; 7]) b6 sch_demo_ok HR EO).
  rewrite ET, EF in H.
  destruct (H ltac:(cbn; repeat constructor; vm_compute; discriminate) ltac:(vm_compute; reflexivity) ltac:(vm_compute; reflexivity)
              ltac:(vm_compute; reflexivity) ltac:(vm_compute; reflexivity) 3%nat [])
    as (s0 & r & r' & i & E1 & E2 & E3 & E4); [lia|].
  vm_compute in E1. inv E1. vm_compute in E2. inv E2. vm_compute in E3. inv E3. vm_compute in E4. discriminate.
Qed.

(** A struct that holds a list the program has not asked for yet, as after Unmarshal. *)
Example received_case : exists r m, hreached sch_demo 3 (hstart r) m /\ flook 2 m = Some (VNums KU16 [5; 9]).
Proof.
  destruct (reached_build 3 [ONums 2 KU16 [5; 9]]) as (s & _ & HR); [legal|].
  destruct (reached_unmarshal 3 3 s _ [] HR) as (s' & b & s0 & r & _ & _ & _ & HT).
  exists r, (sem [] [ONums 2 KU16 [5; 9]]). split; [|reflexivity]. exists r, (sem [] [ONums 2 KU16 [5; 9]]), [].
  split; [exact HT|]. split; [|constructor]. intros f t v. unfold sch_demo. cbn [sem fold_left apply_op].
  destruct (Z.eqb_spec f 1); [subst; discriminate|]. destruct (Z.eqb_spec f 2); [subst|discriminate].
  intros E F. vm_compute in F. inv F. exact E.
Qed.

Print Assumptions C18_list_is_sequence.
Print Assumptions C18_accessor.
Print Assumptions C18_new_list_written_partial.
Print Assumptions C18_edits_after_marshal_lost.
Print Assumptions C18_edits_of_received_list_lost.
Print Assumptions C18_same_bytes_after_marshal.
Print Assumptions C18_edits_reach_wire_refuted.
