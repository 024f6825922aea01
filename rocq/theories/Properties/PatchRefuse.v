(** C27: patches that Apply refuses. *)
From Verif.Model Require Import Patch PatchLists.
From Verif.Proofs Require Import Demo PatchListProofs.
From Verif.Properties Require Import PatchLists.

(** A patch of another version, one with too many operations, and one that holds a number with too few
    bytes at any place are refused. *)
Theorem C27_bad_patch_refused h base l version ops :
  (version <> PatchVersion -> m_Apply h base l version ops = Err) /\
  (MaxPatchOps < len ops -> m_Apply h base l version ops = Err) /\
  (forall o k, In o ops -> r_type o = OpSet -> descr l (r_fn o) = Some (DScalar k) -> len (r_data o) < kind_width k ->
     forall r, m_Apply h base l version ops <> Ok r).
Proof.
  unfold m_Apply. repeat split.
  - intros H. destruct (Z.eqb_spec version PatchVersion); [congruence|reflexivity].
  - intros H. destruct (negb _); [reflexivity|]. destruct (Z.ltb_spec MaxPatchOps (len ops)); [reflexivity|lia].
  - intros o k HI HT HD HL r. destruct (negb _); [discriminate|]. destruct (MaxPatchOps <? len ops); [discriminate|].
    revert h base. induction ops as [|a ops IH]; [contradiction|]. intros h base. cbn [m_apply_ops]. destruct HI as [->|HI].
    + replace (m_apply_op MaxPatchNestingDepth h base l o) with (@Err (heap * vst)); [discriminate|].
      unfold MaxPatchNestingDepth. cbn [m_apply_op]. rewrite HT. change (OpSet =? OpSet) with true. cbn iota. unfold m_applySet. rewrite HD.
      replace (len (r_data o) <? kind_width k) with true by lia. reflexivity.
    + destruct (m_apply_op MaxPatchNestingDepth h base l a) as [[h' v']| | |]; try discriminate. cbn [bind]. now apply IH.
Qed.

(** The same on list fields: a number with too few bytes, a negative index, an operation that is not one
    on lists. *)
Definition bad_op (t : lty) (o : rop) : Prop :=
  ((r_type o = OpListSet \/ r_type o = OpListInsert) /\
     (r_index o < 0 \/ match t with LNums k => len (r_data o) < kind_width k | _ => False end)) \/
  (r_type o = OpListRemove /\ r_index o < 0) \/
  r_type o = OpSet \/ r_type o = OpStructPatch \/ r_type o = OpListStructPatch.
Ltac ops := repeat match goal with |- context [?a =? ?b] =>
  let r := eval vm_compute in (a =? b) in match r with true => change (a =? b) with true | false => change (a =? b) with false end end; cbn [orb]; cbn iota.
Lemma bad_op_refused l h o t : ldescr l (r_fn o) = Some t -> bad_op t o -> forall r, apply_list_op l h o <> Ok r.
Proof.
  intros HD HB r. unfold apply_list_op. rewrite HD.
  destruct HB as [[[HT|HT] HB]|[[HT HI]|[HT|[HT|HT]]]]; rewrite HT; ops; try discriminate.
  - unfold apply_set. destruct HB as [HB|HB]; [replace (r_index o <? 0) with true by lia; discriminate|]. destruct (r_index o <? 0); [discriminate|].
    destruct t as [|k|b]; [contradiction| |contradiction].
    destruct (SyncDirtyListsForField h (r_fn o)) as [h'| | |]; try discriminate. cbn [bind]. destruct (item_data (h_s h') (r_fn o) (kind_width k)) as [[d|]| | |]; try discriminate.
    cbn [bind]. destruct (_ >=? _); [discriminate|]. replace (len (r_data o) <? kind_width k) with true by lia. discriminate.
  - unfold apply_insert. destruct HB as [HB|HB]; [replace (r_index o <? 0) with true by lia; discriminate|]. destruct (r_index o <? 0); [discriminate|].
    destruct t as [|k|b]; [contradiction| |contradiction]. replace (len (r_data o) <? kind_width k) with true by lia. discriminate.
  - unfold apply_remove. replace (r_index o <? 0) with true by lia. discriminate.
Qed.
Theorem C27_lists_bad_patch_refused l base version ops :
  (version <> PatchVersion -> ApplyLists l base version ops = Err) /\
  (MaxPatchOps < len ops -> ApplyLists l base version ops = Err) /\
  (forall o t, In o ops -> ldescr l (r_fn o) = Some t -> bad_op t o -> forall r, ApplyLists l base version ops <> Ok r).
Proof.
  unfold ApplyLists. repeat split.
  - intros H. destruct (Z.eqb_spec version PatchVersion); [congruence|reflexivity].
  - intros H. destruct (negb _); [reflexivity|]. destruct (Z.ltb_spec MaxPatchOps (len ops)); [reflexivity|lia].
  - intros o t HI HD HB r. destruct (negb _); [discriminate|]. destruct (MaxPatchOps <? len ops); [discriminate|].
    revert base. induction ops as [|a ops IH]; [contradiction|]. intros base. cbn [apply_list_ops]. destruct HI as [->|HI].
    + pose proof (bad_op_refused l base o t HD HB) as H. destruct (apply_list_op l base o); try discriminate. exfalso. now apply (H a).
    + destruct (apply_list_op l base a); try discriminate. cbn [bind]. now apply IH.
Qed.
(** An index behind the end of a list of bools, strings or bytes is refused, and so is a bool without a
    byte: Set and Remove need an item there, Insert may add at the end. *)
Definition bad_item (t : lty) (v : value) (o : rop) : Prop :=
  (r_type o = OpListSet /\ (items v <= r_index o \/ (t = LBools /\ r_data o = []))) \/
  (r_type o = OpListInsert /\ (items v < r_index o \/ (t = LBools /\ r_data o = []))) \/
  (r_type o = OpListRemove /\ items v <= r_index o).
Theorem C27_bad_item_refused lm sch n base mb t v o rest : schema_ok n sch -> describes lm sch -> hreached sch n base mb ->
  sch (r_fn o) = Some t -> ~ is_nums t -> shown base (r_fn o) t v -> bad_item t v o ->
  ApplyLists lm base PatchVersion (o :: rest) = Err.
Proof.
  intros HS HD HR Hf HN HV HO. unfold ApplyLists. change (negb (PatchVersion =? PatchVersion)) with false. destruct (MaxPatchOps <? _); [reflexivity|]. cbn [apply_list_ops].
  pose proof (hreached_inv _ _ _ _ HS HR) as HI. apply (shown_shows sch n base mb) in HV; auto.
  destruct (get_list_ok sch n base mb (r_fn o) t HS HI Hf) as (h' & j & v' & EG & HI' & HV1 & HV2 & ES & _).
  assert (v' = v) by exact (shows_fun _ _ _ _ _ _ HV1 HV). subst v'.
  destruct (shows_typed sch n base mb (r_fn o) t v HS HI Hf HV) as [_ TY].
  replace (apply_list_op lm base o) with (@Err hstruct); [reflexivity|].
  unfold apply_list_op. rewrite (HD (r_fn o)), Hf.
  destruct HO as [[HT HX]|[[HT HX]|[HT HX]]]; rewrite HT; ops; [unfold apply_set|unfold apply_insert|unfold apply_remove];
    (destruct (Z.ltb_spec (r_index o) 0) as [|EN]; [reflexivity|]); destruct v; cbn in TY; try discriminate; injection TY as <-; cbn [items] in HX;
    try (exfalso; apply HN; exact I); rewrite EG; cbn [bind]; try (destruct j as [j|]; [|reflexivity]; cbn [slice_of] in ES); rewrite ES; cbn [bind];
    repeat match goal with
    | |- _ = (if ?b then _ else _) => destruct b eqn:?; [reflexivity|]
    | |- _ => exfalso; destruct HX as [HX|[HX1 HX2]]; [lia|]; try discriminate HX1; rewrite HX2 in *; discriminate
    end; try (exfalso; lia).
Qed.
(** The struct of Properties/PatchLists.v: its list of strings has fewer than nine items. *)
Example C27_bad_item_case : exists v, shown pl_a 1 (LBlobs true) v /\ bad_item (LBlobs true) v (mkRop 1 OpListSet 9 [65]) /\
  ApplyLists pl_map pl_a PatchVersion [mkRop 1 OpListSet 9 [65]] = Err /\
  bad_op (LNums KU16) (mkRop 2 OpListInsert 0 [7]) /\ ldescr pl_map 2 = Some (LNums KU16).
Proof.
  exists (VBlobs true [[97]]). split; [exact (proj1 pl_a_1)|]. split; [left; split; [reflexivity|left; vm_compute; congruence]|].
  split; [vm_compute; reflexivity|]. split; [|reflexivity]. left. split; [right; reflexivity|]. right. reflexivity.
Qed.
Print Assumptions C27_bad_patch_refused.
Print Assumptions C27_lists_bad_patch_refused.
Print Assumptions C27_bad_item_refused.
