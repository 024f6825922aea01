(** C26 on list fields: edits of lists are recorded, and what is recorded can be replayed. *)
From Verif.Proofs Require Import Demo ListReplay.
From Verif.Properties Require Import PatchLists.

(** While recording is on, every edit through a list accessor is recorded, once and in order,
    as the operations that stand for it; while it is off, none is. *)
Theorem C26_list_edits_recorded :
  forall sch n h m es h' count, schema_ok n sch -> hreached sch n h m -> typed_edits sch es ->
    Forall (fun p => short_items (snd p)) es -> stays_below sch h es count -> (forall f, count f < 2 ^ 31) ->
    run_edits sch h es = Ok h' ->
    pending (h_s h') = pending (h_s h) ++ (if st_recording (h_s h) then edits_log (read_list sch h) es else []) /\
    st_recording (h_s h') = st_recording (h_s h).
Proof.
  intros sch n h m es h' count HS HR HT HE HB HC ER. pose proof (hreached_inv _ _ _ _ HS HR) as HI.
  destruct (replay_edits sch n count HS HC es h m h' (read_list sch h) HR ER HT HE HB) as (cur' & _ & _ & A & B & _); auto.
  intros f t Hf. apply (shown_shows sch n h m); auto. now apply (read_shown sch n h m).
Qed.
Print Assumptions C26_list_edits_recorded.

(** The full property: the drained operations, applied to another struct that shows the same
    lists as the recording one did at the start, lead to the same lists. *)
Definition list_edits_replay : Prop :=
  forall lm sch n h m es h' count base mb, schema_ok n sch -> describes lm sch ->
    hreached sch n h m -> st_recording (h_s h) = true -> pending (h_s h) = [] ->
    typed_edits sch es -> Forall (fun p => short_items (snd p)) es -> stays_below sch h es count -> (forall f, count f < 2 ^ 31) ->
    run_edits sch h es = Ok h' ->
    hreached sch n base mb -> same_lists sch h base ->
    len (st_data (h_s base)) + new_numbers count 0 lm < 2 ^ 32 -> len (pending (h_s h')) <= MaxPatchOps ->
    exists base', ApplyLists lm base PatchVersion (pending (h_s h')) = Ok base' /\ same_lists sch h' base'.

(** What holds.  Missing: a base with number lists that are not written yet, where Apply
    fails (below). *)
Theorem C26_list_edits_replay_partial :
  forall lm sch n h m es h' count base mb, schema_ok n sch -> describes lm sch ->
    hreached sch n h m -> st_recording (h_s h) = true -> pending (h_s h) = [] ->
    typed_edits sch es -> Forall (fun p => short_items (snd p)) es -> stays_below sch h es count -> (forall f, count f < 2 ^ 31) ->
    run_edits sch h es = Ok h' ->
    hreached sch n base mb -> same_lists sch h base -> numbers_written sch base ->
    len (st_data (h_s base)) + new_numbers count 0 lm < 2 ^ 32 -> len (pending (h_s h')) <= MaxPatchOps ->
    exists base', ApplyLists lm base PatchVersion (pending (h_s h')) = Ok base' /\ same_lists sch h' base' /\
      (** number lists also on the wire *)
      (ListReach.room base' -> exists b' b, h_Marshal base' = Ok (b', b) /\
         forall f k v, sch f = Some (LNums k) -> shown h' f (LNums k) v -> reader_sees f (LNums k) b v).
Proof.
  intros lm sch n h m es h' count base mb HS HD HR ON PE HT HE HB HC ER RB SL NW HZ HM.
  pose proof (hreached_inv _ _ _ _ HS HR) as HI. pose proof (hreached_inv _ _ _ _ HS RB) as IB.
  pose proof (hreached_single _ _ _ _ HS RB) as UB. pose proof (hreached_clean _ _ _ _ HS RB) as CB.
  assert (C0 : forall f t, sch f = Some t -> shows h m f t (read_list sch h f)).
  { intros f t Hf. apply (shown_shows sch n h m); auto. now apply (read_shown sch n h m). }
  destruct (replay_edits sch n count HS HC es h m h' (read_list sch h) HR ER HT HE HB C0) as (cur' & RH & SH & _ & OP & RP).
  pose proof (hreached_inv _ _ _ _ HS RH) as IH.
  change (pending (h_s h')) with (st_ops (h_s h')) in *. change (pending (h_s h)) with (st_ops (h_s h)) in PE.
  rewrite ON, PE in OP. cbn [app] in OP. rewrite OP in *.
  destruct (RP lm _ base mb HD HZ) as (base' & mb' & EA & [IB' RD' _]).
  { constructor; auto.
    - intros f t Hf. assert (SB : shows base mb f t (read_list sch h f)).
      { apply (shown_shows sch n base mb); auto. apply SL; auto. now apply (read_shown sch n h m). }
      split; auto. destruct t as [|k|]; cbn [is_nums]; try contradiction. intros _. split.
      + intros i o Hi EO. apply UB in Hi. exact (NW f k Hf i o Hi EO).
      + unfold shows in SB. destruct (GetList f (h_lists base)) as [i|] eqn:EG.
        * destruct SB as (o & EO & HV). apply (CB f (LNums k) i o); auto. exact I. exact (NW f k Hf i o EG EO).
        * symmetry. exact SB.
    - destruct (reached_sorted _ _ _ (hi_reached _ _ _ _ IB)) as (_ & _ & _ & LD). rewrite LD. pose proof (slack_init count mb lm 0). lia. }
  exists base'. split. { unfold ApplyLists. change (negb (PatchVersion =? PatchVersion)) with false. cbn iota.
    replace (MaxPatchOps <? _) with false by lia. exact EA. }
  assert (Q : forall f t v, sch f = Some t -> shown h' f t v -> v = cur' f).
  { intros f t v Hf HV. apply (shown_shows sch n h' m) in HV; auto. exact (shows_fun _ _ _ _ _ _ HV (SH f t Hf)). }
  split.
  - intros f t v Hf HV. rewrite (Q f t v Hf HV). apply (shown_shows sch n base' mb'); auto. apply (RD' f t Hf).
  - intros HRM. destruct (h_Marshal_ok sch n base' mb' HS IB' HRM) as (h3 & b & g & EM & _). exists h3, b. split; auto.
    intros f k v Hf HV. pose proof (marshal_reader _ _ _ _ _ _ _ _ HS IB' HRM EM Hf) as RS. rewrite (Q f _ v Hf HV).
    destruct (RD' f _ Hf) as [_ X]. destruct (X I) as [X1 X2]. pose proof (synced_wr sch n base' mb' f IB' X1) as W. unfold wr in W.
    rewrite W in RS. unfold rd in X2. rewrite X2 in RS. exact RS.
Qed.
Print Assumptions C26_list_edits_replay_partial.

(** ** A concrete case, on the type of Properties/PatchLists.v: the list of strings ["a"] and
    the list of numbers [1], neither written yet; recording is on *)
Definition lr_h : hstruct := Eval vm_compute in with_s pl_a (SetRecording (h_s pl_a) true).
Lemma lr_reached : hreached pl_sch 3 lr_h [].
Proof.
  change lr_h with (with_s pl_a (SetRecording (h_s pl_a) true)).
  assert (C : hcall pl_sch 3 pl_a [] (CPlain (ORecord true)) (with_s pl_a (SetRecording (h_s pl_a) true)) []).
  { change (@nil (Z * value)) with (apply_op [] (ORecord true)) at 2. constructor; [split; [discriminate|exact I]|exact I|reflexivity]. }
  exact (hreached_call _ _ _ _ _ _ _ pl_a_reached C).
Qed.
Definition lr_edits : list (Z * edit) :=
  [(2, ENums (EAppend [2; 3])); (1, EBlobs (ESet 0 [98])); (2, ENums (ESet 0 7)); (1, EBlobs (ESetAll [[99]; []]))].
Definition lr_end : hstruct := Eval vm_compute in match run_edits pl_sch lr_h lr_edits with Ok h => h | _ => lr_h end.
Lemma lr_1 : shown lr_h 1 (LBlobs true) (VBlobs true [[97]]) /\ forall w, shown lr_h 1 (LBlobs true) w -> w = VBlobs true [[97]].
Proof. show_is. Qed.
Lemma lr_2 : shown lr_h 2 (LNums KU16) (VNums KU16 [1]) /\ forall w, shown lr_h 2 (LNums KU16) w -> w = VNums KU16 [1].
Proof. show_is. Qed.
Lemma lr_typed : typed_edits pl_sch lr_edits.
Proof. repeat (apply Forall_cons || apply Forall_nil); eexists; (split; [reflexivity|]); cbn; typed. Qed.
Lemma lr_short : Forall (fun p => short_items (snd p)) lr_edits.
Proof. repeat (apply Forall_cons || apply Forall_nil); cbn; auto; typed; cbn; lia. Qed.
Lemma lr_below : stays_below pl_sch lr_h lr_edits (fun _ => 10).
Proof.
  apply (stays_below_added pl_sch 3 lr_h []); [apply pl_schema|apply lr_reached|apply lr_typed|].
  intros f t v Hf. revert f t Hf v. apply (pl_fields (fun f t => forall v, shown lr_h f t v -> items v + added lr_edits <= 10)); intros v HV;
    [apply lr_1 in HV|apply lr_2 in HV]; subst; vm_compute; congruence.
Qed.
Lemma lr_same h : shown h 1 (LBlobs true) (VBlobs true [[97]]) -> shown h 2 (LNums KU16) (VNums KU16 [1]) -> same_lists pl_sch lr_h h.
Proof.
  intros A B f t v Hf. revert f t Hf v. apply (pl_fields (fun f t => forall v, shown lr_h f t v -> shown h f t v)); intros v HV;
    [apply lr_1 in HV|apply lr_2 in HV]; subst; auto.
Qed.
Example replay_case :
  hreached pl_sch 3 lr_h [] /\ st_recording (h_s lr_h) = true /\ pending (h_s lr_h) = [] /\ typed_edits pl_sch lr_edits /\
  Forall (fun p => short_items (snd p)) lr_edits /\ stays_below pl_sch lr_h lr_edits (fun _ => 10) /\
  run_edits pl_sch lr_h lr_edits = Ok lr_end /\ same_lists pl_sch lr_h pl_c /\
  len (st_data (h_s pl_c)) + new_numbers (fun _ => 10) 0 pl_map < 2 ^ 32 /\
  pending (h_s lr_end) =
    [mkRop 2 OpListInsert 1 [2; 0]; mkRop 2 OpListInsert 2 [3; 0]; mkRop 1 OpListSet 0 [98]; mkRop 2 OpListSet 0 [7; 0];
     mkRop 1 OpListReplace (-1) [2; 0; 0; 0; 1; 0; 0; 0; 99; 0; 0; 0; 0]].
Proof.
  split; [apply lr_reached|]. split; [reflexivity|]. split; [reflexivity|]. split; [apply lr_typed|]. split; [apply lr_short|].
  split; [apply lr_below|]. split; [vm_compute; reflexivity|]. split; [apply lr_same; [apply pl_c_1|apply pl_c_2]|].
  split; vm_compute; reflexivity.
Qed.

(** The property as stated is false: the base shows the same lists, but its list of numbers
    is not written yet, and the first insert fails. *)
Theorem C26_list_edits_replay_refuted : ~ list_edits_replay.
Proof.
  intros H. destruct replay_case as (A & B & C & D & E & F & G & _ & _ & PE).
  destruct (H pl_map pl_sch 3%nat lr_h [] lr_edits lr_end (fun _ => 10) pl_a [] pl_schema pl_describes A B C D E F ltac:(cbn; intros; lia) G
              pl_a_reached (lr_same pl_a (proj1 pl_a_1) (proj1 pl_a_2))) as (b & EA & _).
  { vm_compute. reflexivity. }
  { rewrite PE. vm_compute. congruence. }
  rewrite PE in EA. vm_compute in EA. discriminate.
Qed.
Print Assumptions C26_list_edits_replay_refuted.
