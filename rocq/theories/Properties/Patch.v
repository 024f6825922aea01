(** C27: Diff and Apply, for structs of scalar, string, bytes and nested struct fields. *)
From Verif.Spec Require Import Patches.
From Verif.Proofs Require Import Demo PatchAgree.
From Verif.Properties Require Import Alias.

(** The patch that Diff returns for two messages of a type can be marshalled and read back,
    and applied to the first message it makes every getter of the type answer as on the
    second, provided no nested struct that both messages have changes its encoded size.
    Fields that are not of the type keep their values. *)
Theorem C27_apply_diff_partial l h p to m m' :
  wf h (v_sl p) -> reached (length l) (load h p) m -> reached (length l) to m' ->
  patchable l -> typed l m -> typed l m' -> small_enough l m m' ->
  each_field (fun d f => nested_same_size d (flook f m) (flook f m')) l ->
  exists ops b, Diff l (load h p) to = Ok ops /\ patch_bytes ops = Ok b /\ read_patch b = Ok (PatchVersion, ops) /\
  exists h' p' m1, m_Apply h p l PatchVersion ops = Ok (h', p') /\
    agree l (load h' p') to /\ reads_as h' p' (length l) m1 /\
    (forall f, len l <= f -> flook f m1 = flook f m) /\
    exists s b', Marshal (load h' p') = Ok (s, b') /\ carries b' m1.
Proof.
  intros W R R' (HL & HD & HN) HT HT' HB HS.
  destruct (reached_good _ _ _ R) as (g & Hg & S & F). destruct (reached_good _ _ _ R') as (g' & Hg' & S' & F').
  unfold small_enough, size in HB.
  assert (LO : len (wire_msg m') >= 0) by (pose proof (len_nonneg (wire_msg m')); lia).
  assert (LO' : len (wire_msg m) >= 0) by (pose proof (len_nonneg (wire_msg m)); lia).
  pose proof (overheads_nonneg l) as OV.
  assert (LL : len l <= 2 ^ 16) by (unfold MaxPatchOps in HL; lia).
  assert (ED : Diff l (load h p) to = Ok (mdiff 0 l m m')) by (eapply Diff_is; eauto; lia).
  destruct (Sim_fits _ _ _ _ _ S') as [_ V'].
  pose proof (vsizes_le 0 l m' (proj1 V')) as BL.
  destruct (mdiff_bounded l 0 m m') as [BV BS]; auto; try lia.
  destruct (patch_written (mdiff 0 l m m')) as (PW & PV & PF); auto; [lia|].
  exists (mdiff 0 l m m'), (wire (patch_msg (mdiff 0 l m m'))).
  split; auto. split; auto. split; [apply patch_read; auto; lia|].
  destruct (apply_diff l h p g m m') as (h' & p' & c' & EA & ST & SM & TM & KM); auto; try lia.
  { split; auto. }
  exists h', p', c'. unfold m_Apply. replace (PatchVersion =? PatchVersion) with true by reflexivity.
  pose proof (mdiff_len l 0 m m'). replace (MaxPatchOps <? _) with false by (unfold len in *; lia).
  cbn [negb]. split; auto. destruct ST as (W1 & S1 & F1 & _). split; [|split; [|split]].
  - eapply (agree_iff l _ _ g g' c' m'); eauto.
  - intros q r HE. eapply answer_expects; eauto.
  - intros f Hf. apply KM. auto.
  - destruct (Sim_marshal _ _ _ _ _ S1 F1) as (s & EM & _). exists s, (st_data (load h' p')). split; auto.
    exists g. split; auto. split; [now apply Sim_data_f in S1|].
    destruct (Sim_fits _ _ _ _ _ S1) as [A B]. change (len (@nil Z)) with 0 in A. auto.
Qed.
Print Assumptions C27_apply_diff_partial.

(** Diff finds nothing exactly when the getters agree. *)
Theorem C27_empty_diff l from to m m' :
  reached (length l) from m -> reached (length l) to m' ->
  patchable l -> typed l m -> typed l m' -> small_enough l m m' ->
  (Diff l from to = Ok [] <-> agree l from to).
Proof.
  intros R R' (HL & HD & HN) HT HT' HB.
  destruct (reached_good _ _ _ R) as (g & Hg & S & F). destruct (reached_good _ _ _ R') as (g' & Hg' & S' & F').
  unfold small_enough, size in HB. pose proof (len_nonneg (wire_msg m)).
  assert (LL : len l <= 2 ^ 16) by (unfold MaxPatchOps in HL; lia).
  rewrite <- (agree_iff l from to g g' m m') by auto. rewrite <- mdiff_nil by auto.
  rewrite (Diff_is l from to g g' m m') by (auto; lia). split; [intros E; now injection E|now intros ->].
Qed.
Print Assumptions C27_empty_diff.

(** A patch that is marshalled is read back with the same operations in the same order. *)
Theorem C27_patch_bytes ops :
  Forall valid_rop ops -> ops_size ops < 2 ^ 32 - 64 ->
  exists b, patch_bytes ops = Ok b /\ read_patch b = Ok (PatchVersion, ops).
Proof.
  intros V HL. exists (wire (patch_msg ops)). split; [now apply patch_written|now apply patch_read].
Qed.
Print Assumptions C27_patch_bytes.

(** Diff never makes a patch for a type with a map or an Any in it. *)
Theorem C27_unsupported_field l from to ops :
  In (Some DOther) l -> Diff l from to <> Ok ops.
Proof.
  unfold Diff. generalize 0 at 1. intros i HI. revert i ops. induction l as [|x r IH]; intros i ops E; [contradiction|].
  destruct HI as [->|HI].
  - discriminate E.
  - destruct x as [d|]; cbn [diff_fields] in E.
    + apply bind_Ok_inv in E. destruct E as (x & E1 & E). apply bind_Ok_inv in E. destruct E as (y & E2 & _).
      eapply IH; eauto.
    + eapply IH; eauto.
Qed.
Print Assumptions C27_unsupported_field.

(** ** The full statement is false *)

(** Field 0 is a struct of three int32, field 2 an int32. *)
Definition pair_type : mapping := [Some (DScalar KI32); Some (DScalar KI32); Some (DScalar KI32)].
Definition parent_type : mapping := [Some (DStruct pair_type); None; Some (DScalar KI32)].
Definition target_calls : list op :=
  [ONested 0 3 [OScalar 0 KI32 5; OScalar 1 KI32 6; OScalar 2 KI32 9]; OScalar 2 KI32 7].
Lemma target_legal : ok_run 3 0 [] target_calls.
Proof. cbn [target_calls ok_run ok_op]. legal. Qed.
(** The memory and struct of Properties/Alias.v: {0: {0: 5, 1: 6}, 2: 7}. *)
Definition parent_example : res (heap * vst) := '(h, p) <- m_New [] 3 ;; m_run h p parent_calls.

Lemma parent_patchable : patchable parent_type.
Proof.
  split; [vm_compute; discriminate|]. split; [apply Nat.leb_le; reflexivity|].
  cbn. repeat split; vm_compute; discriminate.
Qed.

(** When the nested struct gets one more field, applying the patch overwrites field 2, which
    is 7 in both messages. *)
Theorem C27_apply_diff_refuted :
  ~ (forall l h p to m m' ops h' p',
       wf h (v_sl p) -> reached (length l) (load h p) m -> reached (length l) to m' ->
       patchable l -> typed l m -> typed l m' -> small_enough l m m' ->
       Diff l (load h p) to = Ok ops -> m_Apply h p l PatchVersion ops = Ok (h', p') ->
       agree l (load h' p') to).
Proof.
  intros H.
  destruct (C32_memory_program [] 3 parent_calls parent_direct parent_legal)
    as (h0 & v0 & h1 & p1 & E0 & E1 & _ & W & R).
  assert (EX : parent_example = Ok (h1, p1)) by (unfold parent_example; rewrite E0, bind_Ok; exact E1).
  destruct (reached_build 3 target_calls target_legal) as (to & ET & RT).
  destruct (Diff parent_type (load h1 p1) to) as [ops| | |] eqn:ED;
    [|vm_compute in EX, ET; injection EX as <- <-; injection ET as <-; vm_compute in ED; discriminate ED..].
  destruct (m_Apply h1 p1 parent_type PatchVersion ops) as [[h' p']| | |] eqn:EA;
    [|vm_compute in EX, ET; injection EX as <- <-; injection ET as <-; vm_compute in ED; injection ED as <-;
      vm_compute in EA; discriminate EA..].
  specialize (H parent_type h1 p1 to _ _ ops h' p' W R RT).
  refine (_ (H _ _ _ _ ED EA)).
  - intros (_ & (a & b & A & B & C) & _). clear H.
    vm_compute in EX, ET; injection EX as <- <-; injection ET as <-. vm_compute in ED; injection ED as <-.
    vm_compute in EA; injection EA as <- <-. vm_compute in A, B. injection A as <-. injection B as <-.
    destruct C as [C|[[[] _]|[C _]]]; discriminate C.
  - exact parent_patchable.
  - cbv. repeat split; discriminate.
  - cbv. repeat split; discriminate.
  - vm_compute. reflexivity.
Qed.
Print Assumptions C27_apply_diff_refuted.

(** The hypotheses of C27_apply_diff_partial are met by two messages that differ in every
    way it covers: a number, a string, a cleared field, a nested struct that changes, one
    that goes and one that comes. *)
Definition wide_type : mapping :=
  [Some (DStruct pair_type); Some (DBytes true); Some (DScalar KI32); Some (DScalar KF64);
   Some (DStruct pair_type); Some (DStruct pair_type)].
Definition wide_from : list op :=
  [ONested 0 3 [OScalar 0 KI32 5; OScalar 1 KI32 6]; OBytes 1 true [104; 105]; OScalar 2 KI32 7;
   OScalar 3 KF64 1; ONested 4 3 [OScalar 1 KI32 3]].
Definition wide_to : list op :=
  [ONested 0 3 [OScalar 0 KI32 5; OScalar 1 KI32 (-6)]; OBytes 1 true [104; 101; 108; 108; 111; 33; 33; 33; 33];
   OScalar 3 KF64 9221120237041090561; ONested 5 3 [OScalar 2 KI32 3]].
Example apply_diff_inhabited :
  exists l h p to m m', wf h (v_sl p) /\ reached (length l) (load h p) m /\ reached (length l) to m' /\
    patchable l /\ typed l m /\ typed l m' /\ small_enough l m m' /\
    each_field (fun d f => nested_same_size d (flook f m) (flook f m')) l /\
    exists ops, Diff l (load h p) to = Ok ops /\ map r_fn ops = [0; 1; 2; 3; 4; 5].
Proof.
  destruct (C32_memory_program [] 6 wide_from) as (h0 & v0 & h1 & p1 & E0 & E1 & EB & W & R).
  { repeat constructor. }
  { unfold wide_from. Demo.legal. }
  destruct (reached_build 6 wide_to) as (to & ET & RT).
  { unfold wide_to. Demo.legal. }
  assert (P : patchable wide_type).
  { split; [vm_compute; discriminate|]. split; [apply Nat.leb_le; reflexivity|].
    cbn. repeat split; vm_compute; discriminate. }
  assert (T1 : typed wide_type (sem [] wide_from)) by (cbv; repeat split; discriminate).
  assert (T2 : typed wide_type (sem [] wide_to)) by (cbv; repeat split; discriminate).
  assert (B : small_enough wide_type (sem [] wide_from) (sem [] wide_to)) by (vm_compute; reflexivity).
  exists wide_type, h1, p1, to, (sem [] wide_from), (sem [] wide_to).
  repeat (split; [assumption|]). split; [cbv; repeat split|].
  clear E0 E1 R RT. revert EB ET. generalize (load h1 p1). intros s EB ET.
  vm_compute in EB, ET. injection EB as <-. injection ET as <-.
  eexists. split; [vm_compute; reflexivity|reflexivity].
Qed.
