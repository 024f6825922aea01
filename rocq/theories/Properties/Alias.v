(** C32: a struct obtained with GetNestedStruct is a view into its parent. *)
From Verif.Spec Require Import Views.
From Verif.Proofs Require Import ViewProofs.

(** Any program of scalar, string, bytes and nested struct setters, ClearField, Marshal and
    recording calls, run on structs in memory, succeeds and gives the same struct as on
    values, so the properties of [reached] structs hold of it. *)
Theorem C32_memory_program h n l :
  Forall direct l -> ok_run n 0 [] l ->
  exists h0 v0 h' v', m_New h n = Ok (h0, v0) /\ m_run h0 v0 l = Ok (h', v') /\
    build n l = Ok (load h' v') /\ wf h' (v_sl v') /\ reached n (load h' v') (sem [] l).
Proof.
  intros HD HO. destruct (m_New_ok h n) as (h0 & v0 & s & E & EN & EL & W).
  destruct (m_run_reached h0 v0 n [] l) as (h' & v' & E2 & E3 & W' & R); auto.
  { rewrite EL. now constructor. }
  exists h0, v0, h', v'. split; auto. split; auto. split; [|auto].
  unfold build. rewrite EN, bind_Ok, <- EL. exact E3.
Qed.
Print Assumptions C32_memory_program.

(** Getting the view changes no answer of the parent, and the view reads as the child. *)
Theorem C32_view_reads h p n m f c n' p' v :
  child_of h p n m f c n' p' v ->
  (forall q, answer (load h p') q = answer (load h p) q) /\ reached n' (load h v) c /\
  reads_as h p' n m /\ reads_as h v n' c.
Proof.
  intros H. destruct (child_situation _ _ _ _ _ _ _ _ _ H) as (g & pre & post & SU & Hf & Ep & EA & EG).
  destruct H as (W & HR & HS & HG). split; auto.
  assert (RC : reached n' (load h v) c) by (eapply R_nested; eauto).
  split; auto. split.
  - intros q r HE. rewrite EA. eapply reached_answer; eauto.
  - intros q r HE. eapply reached_answer; eauto.
Qed.
Print Assumptions C32_view_reads.

(** Whatever legal calls are made on the view, the view itself reads as its calls say, and
    every field of the parent with a smaller number than the child keeps its value. *)
Theorem C32_earlier_fields_partial h p n m f c n' p' v l :
  child_of h p n m f c n' p' v -> Forall direct l -> ok_run n' 0 c l ->
  exists h' v', m_run h v l = Ok (h', v') /\ reads_as h' v' n' (sem c l) /\
    forall q r, query_field q < f -> expects n m q r -> answer (load h' p') q = r.
Proof.
  intros H HD HO. destruct (child_situation _ _ _ _ _ _ _ _ _ H) as (g & pre & post & SU & Hf & Ep & EA & EG).
  assert (SU' := SU). destruct SU' as [SP SF _ SW SV _ SC [SS SB] SG].
  assert (WV : wf h (v_sl v)).
  { rewrite SC. eapply sub_view; eauto. }
  destruct (m_run_framed h (v_sl v) h v n' f c l) as (h' & v' & E & FR); auto using framed_refl.
  destruct (m_run_step h v n' f c l) as (h1 & v1 & E1 & W1 & S1 & F1); auto.
  rewrite E in E1. injection E1 as <- <-.
  exists h', v'. split; auto. split.
  - intros q r HE. eapply answer_expects; eauto.
  - intros q r Hq HE. eapply earlier_fields; eauto.
Qed.
Print Assumptions C32_earlier_fields_partial.

(** Calls that leave the encoded size of the child as it is write through: the parent then
    is well formed and holds exactly the new child, all its other fields as before. *)
Theorem C32_same_size_partial h p n m f c n' p' v l :
  child_of h p n m f c n' p' v -> Forall direct l -> ok_run n' 0 c l -> keeps_size c l ->
  exists h' v', m_run h v l = Ok (h', v') /\ reads_as h' v' n' (sem c l) /\
    reads_as h' p' n (fput f (VStruct (sem c l)) m) /\
    exists s b, Marshal (load h' p') = Ok (s, b) /\ carries b (fput f (VStruct (sem c l)) m).
Proof.
  intros H HD HO HK. destruct (child_situation _ _ _ _ _ _ _ _ _ H) as (g & pre & post & SU & Hf & Ep & EA & EG).
  assert (SU' := SU). destruct SU' as [SP SF _ SW SV _ SC [SS SB] SG].
  assert (WV : wf h (v_sl v)).
  { rewrite SC. eapply sub_view; eauto. }
  destruct (m_run_same h v n' f c l) as (h' & v' & E & EV & EH & ES); auto.
  destruct (m_run_step h v n' f c l) as (h1 & v1 & E1 & W1 & S1 & F1); auto.
  rewrite E in E1. injection E1 as <- <-.
  destruct (parent_updated _ _ _ _ _ _ _ _ _ _ _ (sem c l) SU) as [SN FN]; [apply S1|auto|].
  rewrite <- EH in SN, FN.
  exists h', v'. split; auto. split; [|split].
  - intros q r HE. eapply answer_expects; eauto.
  - intros q r HE. eapply answer_expects; eauto.
  - destruct (Sim_marshal _ _ _ _ _ SN FN) as (s & EM & _). exists s, (st_data (load h' p')). split; auto.
    exists g. split; auto. split; [now apply Sim_data_f in SN|].
    destruct (Sim_fits _ _ _ _ _ SN) as [A B]. change (len (@nil Z)) with 0 in A. auto.
Qed.
Print Assumptions C32_same_size_partial.

(** Once a call makes the child larger than the capacity of the view, the view has moved to
    an array of its own: that call and all later ones leave the bytes of the parent as they
    were, so the parent never sees them. *)
Theorem C32_outgrown_view_partial h p n m f c n' p' v l1 o l2 :
  child_of h p n m f c n' p' v -> Forall direct (l1 ++ o :: l2) -> ok_run n' 0 c (l1 ++ o :: l2) ->
  exists h1 v1, m_run h v l1 = Ok (h1, v1) /\
    (sl_arr (v_sl v1) = sl_arr (v_sl p') ->
     sl_cap (v_sl v1) < size (sem c (l1 ++ [o])) ->
     exists h2 v2, m_run h v (l1 ++ o :: l2) = Ok (h2, v2) /\ load h2 p' = load h1 p').
Proof.
  intros H HD HO. destruct (child_situation _ _ _ _ _ _ _ _ _ H) as (g & pre & post & SU & Hf & Ep & EA & EG).
  assert (SU' := SU). destruct SU' as [SP SF _ SW SV _ SC [SS SB] SG].
  assert (WV : wf h (v_sl v)).
  { rewrite SC. eapply sub_view; eauto. }
  apply Forall_app in HD. destruct HD as [HD1 HD]. inv HD.
  apply ok_run_app in HO. destruct HO as [HO1 [HO2 HO3]].
  destruct (m_run_step h v n' f c l1) as (h1 & v1 & E1 & W1 & S1 & F1); auto.
  exists h1, v1. split; auto. intros HA HC.
  destruct (m_step h1 v1 n' f (sem c l1) o) as (h2 & v2 & E2 & W2 & S2 & F2 & L2); auto.
  rewrite sem_app in HC. cbn [sem] in HC.
  destruct L2 as [(L & _)|(L & z & Eh & Ev)].
  { rewrite len_wire_struct in L. unfold size in HC. lia. }
  assert (PA : (sl_arr (v_sl p') < length h1)%nat) by (rewrite <- HA; apply W1).
  destruct (m_run_elsewhere h2 v2 n' f (apply_op (sem c l1) o) l2 (v_sl p')) as (h3 & v3 & E3 & EV3); auto.
  { rewrite Eh, app_length. lia. }
  { rewrite Ev. cbn. lia. }
  exists h3, v3. split.
  - rewrite m_run_app, E1, bind_Ok. cbn [m_run]. rewrite E2, bind_Ok. exact E3.
  - unfold load. f_equal. rewrite EV3, Eh. now apply view_app.
Qed.
Print Assumptions C32_outgrown_view_partial.

(** The exact effect of one call: in place, the new bytes of the child are written over the
    bytes of the parent from the start of the child on, whatever stands there. *)
Theorem C32_exact_effect_partial h p n m f c n' p' v o :
  child_of h p n m f c n' p' v -> direct o -> ok_op n' 0 c o ->
  exists h' v' pre post, m_do_op h v o = Ok (h', v') /\
    view h (v_sl p') = pre ++ wire_struct f c ++ post /\
    view h' (v_sl p') =
      if size (apply_op c o) <=? sl_cap (v_sl v)
      then take (sl_len (v_sl p'))
             (pre ++ wire_struct f (apply_op c o) ++
              drop (size (apply_op c o)) (wire_struct f c ++ post))
      else pre ++ wire_struct f c ++ post.
Proof.
  intros H HD HO. destruct (child_situation _ _ _ _ _ _ _ _ _ H) as (g & pre & post & SU & Hf & Ep & EA & EG).
  assert (SU' := SU). destruct SU' as [SP SF _ SW SV _ SC [SS SB] SG].
  assert (WV : wf h (v_sl v)).
  { rewrite SC. eapply sub_view; eauto. }
  destruct (m_step h v n' f c o) as (h2 & v2 & E2 & W2 & S2 & F2 & L2); auto.
  exists h2, v2, pre, post. split; auto. split; auto.
  pose proof (len_view _ _ SW) as LV. rewrite SV, !len_app in LV.
  pose proof (len_nonneg pre). pose proof (len_nonneg post). pose proof (len_nonneg (wire_struct f c)).
  pose proof (len_nonneg (wire_struct f (apply_op c o))).
  assert (LW : len (wire_struct f (apply_op c o)) = size (apply_op c o)) by apply len_wire_struct.
  destruct L2 as [(L & Eh & _)|(L & z & Eh & _)]; rewrite LW in L.
  - replace (_ <=? _) with true by lia. rewrite Eh, SC.
    assert (CC : sl_cap (v_sl v) = sl_cap (v_sl p') - len pre) by (rewrite SC; reflexivity).
    rewrite sub_put by (auto; lia).
    rewrite SV. rewrite (take_app_exact (len pre) pre) by auto. do 3 f_equal. rewrite LW.
    replace (len pre + size (apply_op c o)) with (size (apply_op c o) + len pre) by lia.
    rewrite <- (drop_drop _ (len pre)) by lia. now rewrite (drop_app_exact (len pre) pre).
  - replace (_ <=? _) with false by lia. rewrite Eh, view_app; auto. apply SW.
Qed.
Print Assumptions C32_exact_effect_partial.

(** ** The full statement is false *)

(** A message with a nested struct {0: 5} in field 0 and 7 in field 1, in memory. *)
Ltac legal :=
  repeat first [exact I | apply conj];
  try (vm_compute; reflexivity); try (vm_compute; intuition discriminate); try (vm_compute; repeat constructor).
Definition parent_calls : list op := [ONested 0 3 [OScalar 0 KI32 5; OScalar 1 KI32 6]; OScalar 2 KI32 7].
Lemma parent_direct : Forall direct parent_calls.
Proof. repeat constructor. Qed.
Lemma parent_legal : ok_run 3 0 [] parent_calls.
Proof. cbn [parent_calls ok_run ok_op]. legal. Qed.

(** The memory and the parent after these calls, and after GetNestedStruct of field 0. *)
Definition example : res (heap * vst * vst * vst) :=
  '(h, p) <- m_New [] 3 ;; '(h, p) <- m_run h p parent_calls ;;
  '(p', v) <- m_GetNestedStruct h p 0 3 ;;
  match v with Some v => Ok (h, p, p', v) | None => Err end.
Lemma example_child h p p' v :
  example = Ok (h, p, p', v) ->
  child_of h p 3 (sem [] parent_calls) 0 [(0, VScalar KI32 5); (1, VScalar KI32 6)] 3 p' v.
Proof.
  destruct (C32_memory_program [] 3 parent_calls parent_direct parent_legal)
    as (h0 & v0 & h1 & p1 & E0 & E1 & _ & W & R).
  unfold example. rewrite E0, bind_Ok, E1, bind_Ok. intros E.
  apply bind_Ok_inv in E. destruct E as ([p2 [v2|]] & E2 & E); [|discriminate E].
  injection E as <- <- <- <-. split; auto.
Qed.

Ltac example_state HC :=
  destruct example as [[[[h p] p'] v]| | |] eqn:EX; [|vm_compute in EX; discriminate EX..];
  pose proof (example_child _ _ _ _ EX) as HC; vm_compute in EX; injection EX as <- <- <- <-.

(** Setting a new field of the child overwrites the first bytes of the parent's next
    field: the parent reads 9 where 7 was stored. *)
Theorem C32_isolated_refuted :
  ~ (forall h p n m f c n' p' v o h' v', child_of h p n m f c n' p' v -> direct o -> ok_op n' 0 c o ->
       m_do_op h v o = Ok (h', v') ->
       forall q r, query_field q <> f -> expects n m q r -> answer (load h' p') q = r).
Proof.
  intros H. example_state HC.
  match type of HC with child_of ?h _ _ _ _ _ _ _ ?v =>
    destruct (m_do_op h v (OScalar 2 KI32 9)) as [[h' v']| | |] eqn:ED; [|vm_compute in ED; discriminate ED..] end.
  specialize (fun h v => H _ _ _ _ _ _ _ _ _ (OScalar 2 KI32 9) h v HC I). cbn [ok_op] in H.
  refine (_ (H _ _ _ ED (QScalar 2 KI32) (Ok (ANum 7)) _ _)).
  - vm_compute in ED. injection ED as <- <-. vm_compute. discriminate.
  - legal.
  - discriminate.
  - legal.
Qed.
Print Assumptions C32_isolated_refuted.

(** Clearing a field of the child leaves its last bytes behind in the parent: what the
    parent marshals now has a field 1 that nobody stored. *)
Theorem C32_well_formed_refuted :
  ~ (forall h p n m f c n' p' v o h' v', child_of h p n m f c n' p' v -> direct o -> ok_op n' 0 c o ->
       m_do_op h v o = Ok (h', v') ->
       forall s b s0 t, Marshal (load h' p') = Ok (s, b) -> New n = Ok s0 -> Unmarshal s0 b = Ok t ->
       forall q r, query_field q <> f -> expects n m q r -> answer t q = r).
Proof.
  intros H. example_state HC.
  match type of HC with child_of ?h _ _ _ _ _ _ ?p ?v =>
    destruct (m_do_op h v (OClear 0)) as [[h' v']| | |] eqn:ED; [|vm_compute in ED; discriminate ED..];
    destruct (Marshal (load h' p)) as [[s b]| | |] eqn:EM;
      [|exfalso; vm_compute in ED; injection ED as <- <-; vm_compute in EM; discriminate EM..] end.
  destruct (New 3) as [s0| | |] eqn:EN; [|vm_compute in EN; discriminate EN..].
  destruct (Unmarshal s0 b) as [t| | |] eqn:EU;
    [|exfalso; vm_compute in ED; injection ED as <- <-; vm_compute in EM; injection EM as <- <-;
      vm_compute in EN; injection EN as <-; vm_compute in EU; discriminate EU..].
  specialize (fun h v => H _ _ _ _ _ _ _ _ _ (OClear 0) h v HC I). cbn [ok_op] in H.
  refine (_ (H _ _ _ ED _ _ _ _ EM EN EU (QHas 1) (Ok (ABool false)) _ _)).
  - vm_compute in ED. injection ED as <- <-. vm_compute in EM. injection EM as <- <-.
    vm_compute in EN. injection EN as <-. vm_compute in EU. injection EU as <-. vm_compute. discriminate.
  - legal.
  - discriminate.
  - legal.
Qed.
Print Assumptions C32_well_formed_refuted.

(** The hypotheses of the theorems above are met by this parent, with calls of each kind. *)
Example views_inhabited :
  exists h p n m f c n' p' v, child_of h p n m f c n' p' v /\ f = 0 /\
    (exists l, l <> [] /\ Forall direct l /\ ok_run n' 0 c l /\ keeps_size c l /\ sem c l <> c) /\
    (exists o, direct o /\ ok_op n' 0 c o /\ sl_cap (v_sl v) < size (apply_op c o)).
Proof.
  example_state HC. eexists _, _, _, _, _, _, _, _, _. split; [exact HC|]. split; [reflexivity|]. split.
  - exists [OScalar 0 KI32 8; OScalar 1 KI32 (-1)]. split; [discriminate|]. split; [repeat constructor|].
    split; [|split; [|discriminate]].
    + cbn [ok_run ok_op]. legal.
    + legal.
  - exists (OBytes 2 false (zeros 100)). split; [exact I|]. split.
    + cbn [ok_op]. split; [lia|]. split; [lia|]. split; [|vm_compute; reflexivity].
      cbn [valid_value]. apply Forall_forall. intros x Hx. apply repeat_spec in Hx. lia.
    + vm_compute. reflexivity.
Qed.
