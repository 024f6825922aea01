(** C26: recorded operations. *)
From Verif.Spec Require Import Recording.
From Verif.Proofs Require Import Demo RecordProofs.
From Verif.Properties Require Import Alias.

(** Whatever legal calls are made on a struct, switching recording on and off and draining
    in between: everything that DrainRecordedOps returns, put together, is what was pending
    before followed by the operations of the calls made while recording was on, each once
    and in order; and nothing is left behind. *)
Theorem C26_drained n s m l :
  reached n s m -> ok_run n 0 m l ->
  exists s' ops, run_drains s (l ++ [ODrain]) = Ok (s', ops) /\ reached n s' (sem m l) /\
    ops = pending s ++ performed (st_recording s) l /\ pending s' = [].
Proof.
  intros R HK. assert (HK' : ok_run n 0 m (l ++ [ODrain])) by (apply ok_run_app; split; [auto|cbn; auto]).
  destruct (drained (l ++ [ODrain]) n s m R HK') as (s' & ops & E & ER & R' & EO).
  rewrite sem_app in R'. cbn [sem apply_op] in R'. exists s', ops. split; auto. split; auto.
  destruct (reached_run n l s m R HK) as (s1 & E1 & _).
  assert (st_ops s' = []) as EP.
  { rewrite run_snoc, E1, bind_Ok in ER. cbn in ER. now inv ER. }
  rewrite EP, app_nil_r in EO. split; [|exact EP]. rewrite EO. unfold pending, DrainRecordedOps. cbn [snd]. f_equal.
  generalize (st_recording s). clear. induction l as [|o r IH]; intros b.
  - cbn. now destruct b.
  - destruct o; cbn [performed app]; rewrite ?IH; reflexivity.
Qed.
Print Assumptions C26_drained.

(** Setters of scalar, string, bytes and nested struct fields: applying what a struct has
    recorded to another struct with the same starting message gives the same final message,
    read field by field and marshalled. *)
Theorem C26_replay_partial l s h p m calls :
  reached (length l) s m -> st_recording s = true -> pending s = [] ->
  wf h (v_sl p) -> reached (length l) (load h p) m ->
  Forall (fits_type l) calls -> ok_run (length l) 0 m calls -> len calls <= MaxPatchOps ->
  exists s' ops, run_drains s (calls ++ [ODrain]) = Ok (s', ops) /\ reached (length l) s' (sem m calls) /\
  exists h' p', m_Apply h p l PatchVersion ops = Ok (h', p') /\
    reads_as h' p' (length l) (sem m calls) /\
    exists t b, Marshal (load h' p') = Ok (t, b) /\ carries b (sem m calls).
Proof.
  intros R ON PE W R' HF HK HL. destruct (C26_drained _ _ _ _ R HK) as (s' & ops & E & RS & EO & _).
  rewrite ON, PE in EO. cbn [app] in EO. subst ops.
  exists s', (performed true calls). split; auto. split; auto.
  destruct (reached_good _ _ _ R') as (g & Hg & S & F).
  destruct (replay MaxPatchNestingDepth l g calls HF h p m) as (h' & p' & EA & (W1 & S1 & F1 & _)); auto.
  { split; auto. }
  exists h', p'. unfold m_Apply. replace (PatchVersion =? PatchVersion) with true by reflexivity.
  assert (LP : len (performed true calls) <= len calls).
  { clear - HF. induction HF as [|o r Ho Hr IH]; [cbn; lia|]. rewrite len_cons.
    destruct o; cbn [performed records app]; rewrite ?len_cons; try contradiction; lia. }
  replace (MaxPatchOps <? _) with false by lia. cbn [negb]. split; auto. split.
  - intros q r HE. eapply answer_expects; eauto.
  - destruct (Sim_marshal _ _ _ _ _ S1 F1) as (t & EM & _). exists t, (st_data (load h' p')). split; auto.
    exists g. split; auto. split; [now apply Sim_data_f in S1|].
    destruct (Sim_fits _ _ _ _ _ S1) as [A B]. change (len (@nil Z)) with 0 in A. auto.
Qed.
Print Assumptions C26_replay_partial.

(** ClearField is a change that is not recorded: the full statement is false. *)
Definition fits_type_or_clear (l : mapping) (o : op) : Prop :=
  fits_type l o \/ exists f d, o = OClear f /\ descr l f = Some d.
Theorem C26_clear_refuted :
  ~ (forall l s h p m calls s' ops h' p',
       reached (length l) s m -> st_recording s = true -> pending s = [] ->
       wf h (v_sl p) -> reached (length l) (load h p) m ->
       Forall (fits_type_or_clear l) calls -> ok_run (length l) 0 m calls -> len calls <= MaxPatchOps ->
       run_drains s (calls ++ [ODrain]) = Ok (s', ops) -> m_Apply h p l PatchVersion ops = Ok (h', p') ->
       reads_as h' p' (length l) (sem m calls)).
Proof.
  intros H.
  destruct (C32_memory_program [] 1 [OScalar 0 KI32 5; ORecord true]) as (h0 & v0 & h1 & p1 & E0 & E1 & EB & W & R).
  { repeat constructor. }
  { Demo.legal. }
  assert (RC : st_recording (load h1 p1) = true /\ pending (load h1 p1) = []).
  { generalize (load h1 p1), EB. clear. intros s EB. vm_compute in EB. injection EB as <-. auto. }
  assert (RD : exists s', run_drains (load h1 p1) [OClear 0; ODrain] = Ok (s', [])).
  { generalize (load h1 p1), EB. clear. intros s EB. vm_compute in EB. injection EB as <-. eexists. vm_compute. reflexivity. }
  destruct RC as [RC1 RC2]. destruct RD as [s' RD].
  specialize (H [Some (DScalar KI32)] (load h1 p1) h1 p1 _ [OClear 0] s' [] h1 p1 R RC1 RC2 W R).
  assert (HH : reads_as h1 p1 1 (sem (sem [] [OScalar 0 KI32 5; ORecord true]) [OClear 0])).
  { apply H; auto.
    - constructor; [|constructor]. right. exists 0, (DScalar KI32). auto.
    - cbn. lia.
    - vm_compute. discriminate. }
  specialize (HH (QHas 0) (Ok (ABool false))). revert HH. generalize (load h1 p1), EB. clear. intros s EB.
  vm_compute in EB. injection EB as <-. intros HH. refine (_ (HH _)).
  - vm_compute. discriminate.
  - Demo.legal.
Qed.
Print Assumptions C26_clear_refuted.

(** The hypotheses of C26_replay_partial are met by a type with every kind of field it
    covers and calls that set, overwrite and clear. *)
Example replay_inhabited :
  exists l s h p m calls, reached (length l) s m /\ st_recording s = true /\ pending s = [] /\
    wf h (v_sl p) /\ reached (length l) (load h p) m /\ m <> [] /\
    Forall (fits_type l) calls /\ ok_run (length l) 0 m calls /\ len calls <= MaxPatchOps /\
    len (performed true calls) = 6 /\ sem m calls <> m.
Proof.
  destruct (C32_memory_program [] 4 [OScalar 0 KI32 5; OBytes 1 true [104; 105]; ORecord true]) as (h0 & v0 & h1 & p1 & E0 & E1 & EB & W & R).
  { repeat constructor. }
  { Demo.legal. }
  exists [Some (DScalar KI32); Some (DBytes true); Some (DStruct [Some (DScalar KU8)]); Some (DScalar KF64)],
    (load h1 p1), h1, p1, (sem [] [OScalar 0 KI32 5; OBytes 1 true [104; 105]; ORecord true]),
    [OScalar 0 KI32 (-70000); OBytes 1 true []; ORead; ONested 2 1 [OScalar 0 KU8 9]; ODrain;
     OScalar 3 KF64 4607182418800017408; OScalar 3 KF64 (2 ^ 63); OMarshal; ONil 2].
  assert (RC : st_recording (load h1 p1) = true /\ pending (load h1 p1) = []).
  { generalize (load h1 p1), EB. clear. intros s EB. vm_compute in EB. injection EB as <-. auto. }
  destruct RC as [RC1 RC2].
  split; [exact R|]. split; [exact RC1|]. split; [exact RC2|]. split; [exact W|]. split; [exact R|].
  split; [discriminate|]. split.
  { repeat first [apply Forall_nil | apply Forall_cons]; cbn [fits_type]; try exact I; try reflexivity.
    - eexists. split; reflexivity.
    - eexists. reflexivity. }
  split; [Demo.legal|]. split; [vm_compute; discriminate|]. split; [vm_compute; reflexivity|vm_compute; discriminate].
Qed.
