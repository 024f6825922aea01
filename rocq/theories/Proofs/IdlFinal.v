(** Ordered enums and resolved types. *)
From Coq Require Import ZArith List Bool String Lia Permutation Sorted.
Import ListNotations.
From Verif.Model Require Import Base Utf8 Field Any ClawText Idl.
From Verif.Spec Require Import Idl.
From Verif.Proofs Require Import BaseLemmas IngestProofs IdlBase IdlSound.
Local Open Scope Z_scope.

Lemma set_nth_len {A} (x : A) l : forall i, length (set_nth i x l) = length l.
Proof. induction l as [|y l IH]; intros [|i]; cbn; auto. Qed.
Lemma fill_ok vs : forall l l', Forall (fun v => 0 <= ev_value v) vs -> NoDup (map ev_value vs) -> fillSlots l vs = Ok l' ->
  length l' = length l /\ Forall (fun v => ev_value v < len l) vs /\ Forall (fun v => nth_error l' (Z.to_nat (ev_value v)) = Some v) vs /\
  forall i, ~ In (Z.of_nat i) (map ev_value vs) -> nth_error l' i = nth_error l i.
Proof.
  induction vs as [|v q IH]; intros l l' P N H; cbn [fillSlots] in H.
  - inversion H; subst. repeat split; constructor.
  - inversion P as [|? ? P1 P2]; inversion N as [|? ? N1 N2]; subst. destruct (Z.ltb_spec (ev_value v) (len l)) as [L|]; [|discriminate].
    destruct (IH _ _ P2 N2 H) as (A & B & C & D). unfold len in *. rewrite set_nth_len in *. split; [exact A|]. split; [constructor; assumption|]. split.
    + constructor; [|exact C]. rewrite D by (rewrite Z2Nat.id by lia; exact N1). rewrite nth_error_set, Nat.eqb_refl.
      destruct (nth_error l (Z.to_nat (ev_value v))) eqn:E; [reflexivity|]. apply nth_error_None in E. lia.
    + intros i I. cbn in I. rewrite D by tauto. rewrite nth_error_set. destruct (Nat.eqb_spec (Z.to_nat (ev_value v)) i); [|reflexivity]. exfalso. apply I. left. lia.
Qed.
Lemma fill_some vs : forall l, Forall (fun v => ev_value v < len l) vs -> exists l', fillSlots l vs = Ok l'.
Proof.
  induction vs as [|v q IH]; intros l F; cbn [fillSlots]; [eauto|]. inversion F as [|? ? F1 F2]; subst.
  destruct (Z.ltb_spec (ev_value v) (len l)); [|lia]. apply IH. unfold len in *. rewrite set_nth_len. exact F2.
Qed.
Lemma order_ok e l : Forall (fun v => 0 <= ev_value v) (e_vals e) -> NoDup (map ev_value (e_vals e)) -> OrderByValues e = Ok l ->
  Permutation l (e_vals e) /\ StronglySorted Z.le (map ev_value l).
Proof.
  intros P N H. unfold OrderByValues in H. step H. inversion H; subst; clear H. rename E into H. destruct (fill_ok _ _ _ P N H) as (A & B & C & _).
  rewrite repeat_length in A. split; [|apply sorted_map, sortBy_sorted]. rewrite sortBy_perm. symmetry. apply NoDup_Permutation_bis.
  - eapply NoDup_map_inv; exact N.
  - lia.
  - intros v I. rewrite Forall_forall in C. apply C in I. eapply nth_error_In; exact I.
Qed.
Lemma order_iff e : Forall (fun v => 0 <= ev_value v) (e_vals e) -> NoDup (map ev_value (e_vals e)) ->
  (exists l, OrderByValues e = Ok l) <-> Permutation (map ev_value (e_vals e)) (map Z.of_nat (seq 0 (length (e_vals e)))).
Proof.
  intros P N. split.
  - intros (l & H). unfold OrderByValues in H. step H. rename E into F. destruct (fill_ok _ _ _ P N F) as (A & B & _ & _).
    apply NoDup_Permutation_bis; [exact N|rewrite !map_length, seq_length; lia|]. intros i I. apply in_map_iff in I. destruct I as (v & <- & I).
    rewrite Forall_forall in *. specialize (P _ I). specialize (B _ I). cbn in P, B. unfold len in B. rewrite repeat_length in B.
    apply in_map_iff. exists (Z.to_nat (ev_value v)). rewrite in_seq. lia.
  - intros Q. destruct (fill_some (e_vals e) (repeat zeroEV (length (e_vals e)))) as (l & L).
    + apply Forall_forall. intros v I. unfold len. rewrite repeat_length. apply (in_map ev_value) in I. apply (Permutation_in _ Q) in I.
      apply in_map_iff in I. destruct I as (k & <- & I). apply in_seq in I. lia.
    + unfold OrderByValues. rewrite L. cbn. eauto.
Qed.
Lemma order_panics e : (exists l, OrderByValues e = Ok l) \/ OrderByValues e = Panic.
Proof.
  unfold OrderByValues. assert (H : forall vs l, (exists l', fillSlots l vs = Ok l') \/ fillSlots l vs = Panic).
  { induction vs as [|v q IH]; intros l; cbn [fillSlots]; [eauto|]. destruct (_ <? _); auto. }
  destruct (H (e_vals e) (repeat zeroEV (length (e_vals e)))) as [(l & ->)| ->]; cbn; eauto.
Qed.

Lemma imports_imported f p : imports_pkg f p -> imported f p = true.
Proof. intros (l & path & L & I). unfold imported. rewrite L. apply existsb_exists. exists (p, path). split; [exact I|]. apply bytes_eqb_refl. Qed.
Lemma resolve_to f ext w d c n i isList fd' :
  stands_for f ext w d -> resolveTo (mkFd c n i FTUnknown false isList w false false None) (Some d) = Ok fd' ->
  final_type f ext fd' /\ fd_name fd' = n /\ fd_index fd' = i /\ fd_comment fd' = c.
Proof.
  intros S H. pose proof (fin_declared f ext c n i w d isList false S) as F.
  unfold resolveTo in H. destruct d as [e|s]; cbn in F |- *.
  - destruct (Z.eqb_spec (e_size e) 8); [inversion H; subst; cbn in *; auto|]. destruct (e_size e =? 16); [inversion H; subst; auto|discriminate].
  - inversion H; subst. auto.
Qed.
Lemma resolve_sound f ext before s after fd fd' : f_idents f = before ++ DStruct s :: after ->
  field_type f before (s_name s) fd -> resolveField f ext fd = Ok fd' ->
  final_type f ext fd' /\ fd_name fd' = fd_name fd /\ fd_index fd' = fd_index fd /\ fd_comment fd' = fd_comment fd.
Proof.
  intros D T H. unfold resolveField in H.
  assert (K : fd_type fd <> FTUnknown -> fd' = fd) by (intros N; apply Z.eqb_neq in N; rewrite N in H; congruence).
  assert (IB : forall d, In d before -> In d (f_idents f)) by (intros d I; rewrite D; apply in_or_app; auto).
  inversion T; subst; cbn [fd_type fd_name fd_index fd_comment] in *.
  - rewrite K; [cbn; split; [apply fin_builtin; assumption|auto]|].
    assert (A : In (name, t, lt) builtin_types) by assumption. cbn in A.
    repeat (destruct A as [A|A]; [inversion A; subst; destruct isList; discriminate|]). contradiction.
  - rewrite K by discriminate. cbn. split; [apply fin_map; assumption|auto].
  - rewrite K by (destruct isList; discriminate). cbn. split; [|auto].
    pose proof (fin_declared f ext c n i (s_name s) (DStruct s) isList true) as F. cbn in F. apply F. apply sf_here; [rewrite D; apply in_or_app; cbn; auto|reflexivity].
  - rewrite K. { cbn. split; [|auto]. apply fin_declared. apply sf_here; auto. }
    destruct d as [e|s']; cbn; [destruct (e_size e =? 8)|]; destruct isList; discriminate.
  - change (FTUnknown =? FTUnknown) with true in H. cbv iota in H. cbn [fd_ident] in H.
    destruct (existsb (fun c0 => c0 =? 46) w); cbn [negb] in H.
    + destruct (splitAt 46 w) as [|p [|m [|]]] eqn:S; try discriminate. destruct (imported f p) eqn:I; [|discriminate]. destruct (ext w) as [g|] eqn:X; [|discriminate].
      pose proof (find_decl (f_idents g) m) as FD. destruct (ident_of (f_idents g) m) as [d|]; [|discriminate]. destruct FD as (J & N).
      eapply resolve_to; [|exact H]. eapply sf_there; eauto; [apply dotted_split; exact S|apply imported_ok; exact I].
    + pose proof (find_decl (f_idents f) w) as FD. destruct (ident_of (f_idents f) w) as [d|]; [|discriminate]. destruct FD as (J & N).
      eapply resolve_to; [|exact H]. apply sf_here; auto.
Qed.
