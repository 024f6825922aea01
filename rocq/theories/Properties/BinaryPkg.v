(** C149: integers in little endian bytes (Model/BinaryPkg.v; the words are in Spec/BinaryPkg.v). *)
From Coq Require Import Lia List.
Import ListNotations.
From Verif.Model Require Import Base BinaryPkg.
From Verif.Spec Require Import BinaryPkg.
From Verif.Proofs Require Import BaseLemmas BinaryPkg.
Open Scope list_scope. Open Scope Z_scope.

(** The functions per type: what is put is what is read, in as many bytes as the type has, and nothing else changes. *)
Theorem C149_direct t b v : fits t v -> (tbytes t <= length b)%nat ->
  exists b', PutT t b v = Ok b' /\ holds_le (tbytes t) v b b' /\ GetT t b' = Ok v.
Proof. intros F L. destruct (put_holds _ _ v L) as (b' & E & Q). exists b'. split; [exact E|]. split; [exact Q|]. eapply GetT_holds; eauto. Qed.
(** Slices that are too short panic, in both directions. *)
Theorem C149_short t b v : (length b < tbytes t)%nat -> PutT t b v = Panic /\ GetT t b = Panic.
Proof. intros L. split; [apply put_short, L|apply GetT_short, L]. Qed.
(** Through writers and readers: the reader is left at the byte behind the integer. *)
Theorem C149_direct_buffer t v rest : fits t v ->
  exists w, PutBufferT t v = Ok w /\ length w = tbytes t /\ GetBufferT t (w ++ rest) = Ok (v, rest).
Proof.
  intros F. exists (le_enc (tbytes t) v). unfold PutBufferT, PutT.
  rewrite put_ok by (unfold zeros; rewrite repeat_length; lia). split; [|split; [apply le_enc_length|]].
  - rewrite skipn_all2 by (unfold zeros; rewrite repeat_length; lia). rewrite app_nil_r. reflexivity.
  - unfold GetBufferT. rewrite len_app, len_le_enc. pose proof (len_nonneg rest). destruct (Z.ltb_spec (Z.of_nat (tbytes t) + len rest) (Z.of_nat (tbytes t))); [lia|].
    unfold take, drop. rewrite Nat2Z.id. rewrite firstn_app, firstn_all2 by (rewrite le_enc_length; lia). rewrite le_enc_length, Nat.sub_diag, firstn_O, app_nil_r.
    rewrite skipn_app, skipn_all2 by (rewrite le_enc_length; lia). rewrite le_enc_length, Nat.sub_diag.
    rewrite <- (app_nil_r (le_enc _ _)), GetT_app by exact F. reflexivity.
Qed.
Theorem C149_reader_short t r : (length r < tbytes t)%nat -> GetBufferT t r = Err.
Proof. intros L. unfold GetBufferT, len. destruct (Z.ltb_spec (Z.of_nat (length r)) (Z.of_nat (tbytes t))); [reflexivity|lia]. Qed.
(** The generic readers are the readers per type, for the eight types by name. *)
Theorem C149_get t b : it_named t = true -> Get t b = GetT t b /\ GetBuffer t b = GetBufferT t b.
Proof.
  intros N. unfold Get, GetBuffer. rewrite N. split; [|reflexivity]. pose proof (tb_pos t). destruct b as [|x b].
  - cbn. symmetry. apply GetT_short. cbn. lia.
  - destruct (index_ok_ex (x :: b) (len (x :: b) - 1)) as (y & ->); [rewrite len_cons; pose proof (len_nonneg b); lia|]. reflexivity.
Qed.
(** For types of another name they panic, whatever is read. *)
Theorem C149_get_other t b : it_named t = false -> Get t b = Panic /\ GetBuffer t b = Panic.
Proof.
  intros N. unfold Get, GetBuffer. rewrite N. split; [|reflexivity]. destruct b as [|x b]; [reflexivity|].
  destruct (index_ok_ex (x :: b) (len (x :: b) - 1)) as (y & ->); [rewrite len_cons; pose proof (len_nonneg b); lia|]. reflexivity.
Qed.
(** The generic Put is the Put of the type for uint8, uint16, uint32, uint64 and int64. *)
Theorem C149_put_partial t b v : it_named t = true -> it_signed t = false \/ it_size t = I8 -> Put t b v = PutT t b v.
Proof.
  intros N Q. assert (E : le_put 8 b 0 (u64 v) = le_put 8 b 0 v).
  { destruct (Nat.lt_ge_cases (length b) 8) as [L|L]; [rewrite !put_short by lia; reflexivity|]. rewrite !put_ok by lia. rewrite enc64. reflexivity. }
  unfold Put, PutT. destruct t as [g z m]. cbn in *. subst m. destruct Q as [-> | ->]; cbn; [destruct z; auto|]. destruct g; exact E.
Qed.
(** For every other type it writes eight bytes, and panics when there are fewer; with eight bytes or more the integer is read back. *)
Theorem C149_put_other t b v : it_named t = false \/ (it_signed t = true /\ it_size t <> I8) ->
  ((length b < 8)%nat -> Put t b v = Panic) /\
  ((8 <= length b)%nat -> exists b', Put t b v = Ok b' /\ holds_le 8 (u64 v) b b' /\ (fits t v -> GetT t b' = Ok v)).
Proof.
  intros Q. assert (E : Put t b v = le_put 8 b 0 (u64 v)).
  { unfold Put. destruct t as [g z m]. cbn in *. destruct Q as [-> | (-> & Q)]; [reflexivity|]. rewrite andb_false_r. reflexivity. }
  rewrite E. split; [apply put_short|]. intros L. destruct (put_holds 8 b (u64 v) L) as (b' & E2 & H). exists b'. split; [exact E2|]. split; [exact H|].
  intros F. assert (LT : (tbytes t <= 8)%nat) by (destruct t as [g [] m]; cbn; lia).
  assert (E3 : b' = le_enc 8 (u64 v) ++ skipn 8 b) by (rewrite put_ok in E2 by exact L; congruence).
  rewrite E3. replace (le_enc 8 (u64 v)) with (le_enc 8 v) by (symmetry; apply enc64).
  replace 8%nat with (tbytes t + (8 - tbytes t))%nat at 1 by lia. rewrite le_enc_app, <- app_assoc. apply GetT_app, F.
Qed.
(** The generic PutBuffer works for int64 and panics for every other type, whatever the value. *)
Theorem C149_putbuffer t v : it_named t = true -> PutBuffer t v = if it_signed t then match it_size t with I8 => PutBufferT t v | _ => Panic end else Panic.
Proof.
  intros N. destruct t as [g z m]. cbn in N. subst m. unfold PutBuffer. destruct g; cbn [it_named it_signed it_size andb].
  - assert (O : forall z, z <> I8 -> Put (mkIT true z true) (zeros (Z.of_nat (tbytes (mkIT true z true)))) v = Panic).
    { intros z0 NZ. apply C149_put_other; [right; auto|]. unfold zeros. rewrite repeat_length, Nat2Z.id. destruct z0; cbn; try lia. congruence. }
    destruct z; try (apply O; discriminate). unfold PutBufferT. apply C149_put_partial; auto.
  - destruct z; reflexivity.
Qed.

(** Put into a slice of the size of the type, for every type: false, int16 panics; and with room it overwrites what follows. *)
Theorem C149_put_refuted : ~ (forall t b v, it_named t = true -> fits t v -> (tbytes t <= length b)%nat -> exists b', Put t b v = Ok b' /\ holds_le (tbytes t) v b b').
Proof. intros A. destruct (A (mkIT true I2 true) [0; 0] 5 eq_refl) as (b' & E & _); [cbn; lia|cbn; lia|discriminate]. Qed.
Example C149_put_overwrites : Put (mkIT true I2 true) [0; 0; 9; 9; 9; 9; 9; 9] (-2) = Ok [254; 255; 255; 255; 255; 255; 255; 255].
Proof. reflexivity. Qed.
Theorem C149_putbuffer_refuted : ~ (forall t v, it_named t = true -> fits t v -> exists w, PutBuffer t v = Ok w).
Proof. intros A. destruct (A (mkIT false I4 true) 5 eq_refl) as (b' & E); [cbn; lia|discriminate]. Qed.

Example C149_case : PutT (mkIT true I4 true) [1; 2; 3; 4; 5] (-2) = Ok [254; 255; 255; 255; 5] /\ GetT (mkIT true I4 true) [254; 255; 255; 255; 5] = Ok (-2) /\
  GetT (mkIT false I4 true) [254; 255; 255; 255; 5] = Ok (2 ^ 32 - 2).
Proof. repeat split. Qed.

Print Assumptions C149_direct.
Print Assumptions C149_short.
Print Assumptions C149_direct_buffer.
Print Assumptions C149_reader_short.
Print Assumptions C149_get.
Print Assumptions C149_get_other.
Print Assumptions C149_put_partial.
Print Assumptions C149_put_other.
Print Assumptions C149_putbuffer.
Print Assumptions C149_put_refuted.
Print Assumptions C149_putbuffer_refuted.
