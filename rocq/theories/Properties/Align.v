(** C31: length of marshalled messages. *)
From Coq Require Import Lia.
From Verif Require Import Model.Base Model.Header Model.Field Model.Struct Model.Pack Spec.Message
  Spec.History Spec.Query Spec.Reach Spec.Align Spec.Packed
  Proofs.BaseLemmas Proofs.HeaderLemmas Proofs.WireLemmas Proofs.SimLemmas Proofs.GetLemmas Proofs.ReachLemmas
  Proofs.Demo Properties.Pack.

Lemma padded_mod b : len (padded b) mod 8 = 0.
Proof. rewrite len_padded. unfold pad_len. lia. Qed.

Lemma nums_len k l : len (nums_data k l) = Z.of_nat (kind_size k) * len l.
Proof.
  unfold nums_data. induction l as [|x l IH]; [change (len (@nil Z)) with 0; cbn; lia|].
  cbn [map concat]. rewrite len_app, IH, len_le_enc, len_cons. lia.
Qed.

Lemma wire_msg_mod m :
  Forall (fun p => forall f, len (wire_value f (snd p)) mod 8 = unpadded (snd p) mod 8) m ->
  len (wire_msg m) mod 8 = sum (map (fun p => unpadded (snd p)) m) mod 8.
Proof.
  unfold wire_msg. induction 1 as [|p m Hp _ IH]; [reflexivity|].
  cbn [map concat sum fold_right]. rewrite len_app. specialize (Hp (fst p)).
  unfold sum in IH. set (a := fold_right _ _ _) in *. set (b := len (concat _)) in *. lia.
Qed.

Lemma wire_value_mod v : forall f, len (wire_value f v) mod 8 = unpadded v mod 8.
Proof.
  induction v using value_ind'; intros f; rewrite len_wire_value; cbn [v_rest].
  - cbn [unpadded]. destruct (is_wide k); [rewrite len_le_enc; reflexivity|reflexivity].
  - cbn [unpadded]. pose proof (padded_mod b). lia.
  - cbn [unpadded]. pose proof (padded_mod (bit_bytes l)). lia.
  - cbn [unpadded]. rewrite nums_len. lia.
  - cbn [unpadded]. pose proof (padded_mod (concat (map blob l))). lia.
  - cbn [unpadded]. pose proof (wire_msg_mod m H). lia.
  - cbn [unpadded].
    assert (G : forall i, len (wire_items i l) mod 8
       = sum (map (fun m => sum (map (fun p => unpadded (snd p)) m)) l) mod 8).
    { induction H as [|m l Hm _ IH]; intros i; [reflexivity|].
      cbn [wire_items map sum fold_right]. rewrite len_app, len_wire_struct.
      specialize (IH (i + 1)). pose proof (wire_msg_mod m Hm).
      unfold sum in *. set (a := fold_right _ _ (map (fun m => _) l)) in *. lia. }
    specialize (G 0). lia.
  - cbn [unpadded]. rewrite len_app. lia.
  - cbn [unpadded].
    assert (len (concat (map (fun p => fst p ++ snd p) l)) = sum (map (fun p => len (fst p) + len (snd p)) l)).
    { induction l as [|p l IH]; [reflexivity|]. cbn [map concat sum fold_right]. rewrite !len_app, IH. reflexivity. }
    lia.
  - cbn [unpadded]. pose proof (padded_mod e). lia.
Qed.

Lemma whole_unpadded v : whole_words v -> unpadded v mod 8 = 0.
Proof.
  induction v using value_ind'; cbn [whole_words unpadded]; try reflexivity.
  - auto.
  - induction H as [|p m Hp _ IH]; [reflexivity|]. intros [H1 H2]. specialize (IH H2). specialize (Hp H1).
    cbn [map sum fold_right]. unfold sum in *. set (a := fold_right _ _ _) in *. lia.
  - induction H as [|m l Hm _ IH]; [reflexivity|]. intros [H1 H2]. specialize (IH H2).
    assert (sum (map (fun p => unpadded (snd p)) m) mod 8 = 0).
    { clear - Hm H1. induction Hm as [|p m Hp _ IH]; [reflexivity|]. destruct H1 as [H1 H2].
      specialize (IH H2). specialize (Hp H1).
      cbn [map sum fold_right]. unfold sum in *. set (a := fold_right _ _ _) in *. lia. }
    cbn [map sum fold_right]. unfold sum in *.
    set (a := fold_right Z.add 0 (map (fun m => fold_right _ _ _) l)) in *.
    set (b := fold_right _ _ _) in *. lia.
  - auto.
  - induction l as [|p l IH]; [reflexivity|]. intros [H1 H2]. specialize (IH H2).
    cbn [map sum fold_right]. unfold sum in *. set (a := fold_right _ _ _) in *. lia.
Qed.

(** Exactly how long a marshalled message is, modulo 8, for every struct that can be
    built or decoded. *)
Theorem C31_length_mod_8 : forall n s m, reached n s m ->
  exists s' b, Marshal s = Ok (s', b) /\ len b mod 8 = unpadded_msg m mod 8.
Proof.
  intros n s m HR. destruct (reached_marshal _ _ _ HR) as (s' & f & EM & _ & Hf & ED).
  exists s', (st_data s). split; [exact EM|]. rewrite ED. rewrite <- wire_VStruct. apply wire_value_mod.
Qed.
Print Assumptions C31_length_mod_8.

(** Full statement: every marshalled message is a whole number of words.  It holds for
    messages without partial-word number lists or Any contents, and those can be packed
    and unpacked; it fails for the others. *)
Definition always_aligned : Prop :=
  forall n s m s' b, reached n s m -> Marshal s = Ok (s', b) -> len b mod 8 = 0.

Theorem C31_aligned_partial : forall n s m pool1 pool2, reached n s m ->
  whole_words (VStruct m) ->
  exists s' b p, Marshal s = Ok (s', b) /\ len b mod 8 = 0 /\
    Pack pool1 b = Ok (Some p) /\ Unpack pool2 p = Ok b.
Proof.
  intros n s m pool1 pool2 HR HW. destruct (C31_length_mod_8 n s m HR) as (s' & b & EM & EL).
  pose proof (whole_unpadded _ HW) as HU. unfold unpadded_msg in EL. rewrite HU in EL.
  destruct (reached_marshal _ _ _ HR) as (s2 & f & EM2 & _ & Hf & ED).
  rewrite EM in EM2. injection EM2 as <- ->.
  destruct (reached_good _ _ _ HR) as (g & _ & S & _). destruct (Sim_fits _ _ _ _ _ S) as [F V].
  unfold fits in F. change (len (@nil Z)) with 0 in F. pose proof (len_nonneg (wire_msg m)).
  destruct (C28_pack_unpack pool1 pool2 (st_data s) []) as (p & HP & HUn).
  - rewrite ED. apply wire_struct_bytes, V.
  - exact EL.
  - rewrite ED, len_wire_struct. change (2 ^ 32) with 4294967296 in F.
    change (2 ^ 47) with 140737488355328. lia.
  - exists s', (st_data s), p. rewrite app_nil_r in HUn. auto.
Qed.
Print Assumptions C31_aligned_partial.

(** Any message with partial-word content is refused by Pack. *)
Theorem C31_unaligned_not_packable : forall n s m pooled, reached n s m ->
  unpadded_msg m mod 8 <> 0 ->
  exists s' b, Marshal s = Ok (s', b) /\ Pack pooled b = Err.
Proof.
  intros n s m pooled HR HU. destruct (C31_length_mod_8 n s m HR) as (s' & b & EM & EL).
  exists s', b. split; [exact EM|]. apply C28_unaligned_refused. lia.
Qed.
Print Assumptions C31_unaligned_not_packable.

Definition odd_list : list op := [ONums 0 KU16 [1; 2; 3]].
Lemma odd_list_reached : exists s, build 1 odd_list = Ok s /\ reached 1 s (sem [] odd_list).
Proof. apply reached_build. unfold odd_list. legal. Qed.
Theorem C31_aligned_refuted : ~ always_aligned.
Proof.
  intros H. destruct odd_list_reached as (s & _ & R).
  destruct (C31_length_mod_8 _ _ _ R) as (s' & b & EM & EL).
  rewrite (H _ _ _ _ _ R EM) in EL. vm_compute in EL. discriminate.
Qed.
Print Assumptions C31_aligned_refuted.
Example C31_unaligned_sample : unpadded_msg (sem [] odd_list) mod 8 <> 0.
Proof. vm_compute. discriminate. Qed.

Definition even_list : list op :=
  [ONums 0 KU16 [1; 2; 3; 4]; OBytes 1 true [104; 105; 33]; ONested 2 3 demo_child; OScalar 3 KI64 5].
Example C31_aligned_sample : exists s, build 4 even_list = Ok s /\ reached 4 s (sem [] even_list) /\
  whole_words (VStruct (sem [] even_list)).
Proof.
  destruct (reached_build 4 even_list) as (s & E & R).
  - unfold even_list, demo_child. legal.
  - exists s. split; [exact E|]. split; [exact R|]. vm_compute. repeat split.
Qed.
