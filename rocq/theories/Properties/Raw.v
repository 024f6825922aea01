(** C88: a plain Go struct made into a Claw struct, sent, and made into a plain Go struct again. *)
From Coq Require Import ZArith List Bool Permutation Lia.
Import ListNotations.
From Verif.Model Require Import Base Field Header Segment Struct Scalar Lists Maps MapApi Raw.
From Verif.Spec Require Import Message MapSpec Reach Raw.
From Verif.Proofs Require Import BaseLemmas ReachLemmas RepLemmas RawProofs.
Open Scope Z_scope.

(** For every declaration and every value of its Raw struct: NewXxxFromRaw, Marshal, Unmarshal and ToRaw
    succeed, and what comes back is the value but for the losses [back] names. *)
Theorem C88_raw_roundtrip : forall E id raw rest,
  (forall id, len (E id) <= 2 ^ 16) -> Forall2 (typed E) (E id) raw -> 8 + total raw_size raw < 2 ^ 32 ->
  exists s s' b s0 t raw' N, FromRaw E id raw = Ok s /\ Marshal s = Ok (s', b) /\ New (length (E id)) = Ok s0 /\
    Unmarshal s0 (b ++ rest) = Ok t /\ (forall n, (N <= n)%nat -> ToRaw E n id t = Ok raw') /\ backs E (E id) raw raw'.
Proof.
  intros E id raw rest HE HT HZ.
  destruct (from_ok E HE id raw) as (s & c & raw' & E1 & R1 & _ & B1 & _ & N & RD); auto.
  { apply Forall_forall. intros v _. now apply put_raw_ok. }
  destruct (reached_unmarshal _ (length (E id)) _ _ rest R1) as (s' & b & s0 & t & E2 & E3 & E4 & R2).
  exists s, s', b, s0, t, raw', N. split; auto. split; auto. split; auto. split; auto. split; auto.
  intros n Hn. destruct (reached_good _ _ _ R2) as (g & _ & SIM & _). eapply RD; eauto.
Qed.
(** If nothing in it is of the kind that is lost, the same value comes back. *)
Theorem C88_raw_identity : forall E id raw rest,
  (forall id, len (E id) <= 2 ^ 16) -> Forall2 (typed E) (E id) raw -> Forall2 (plain E) (E id) raw -> 8 + total raw_size raw < 2 ^ 32 ->
  exists s s' b s0 t raw' N, FromRaw E id raw = Ok s /\ Marshal s = Ok (s', b) /\ New (length (E id)) = Ok s0 /\
    Unmarshal s0 (b ++ rest) = Ok t /\ (forall n, (N <= n)%nat -> ToRaw E n id t = Ok raw') /\ Forall2 same_raw raw raw'.
Proof.
  intros E id raw rest HE HT HP HZ.
  destruct (C88_raw_roundtrip E id raw rest HE HT HZ) as (s & s' & b & s0 & t & raw' & N & E1 & E2 & E3 & E4 & RD & B).
  exists s, s', b, s0, t, raw', N. repeat (split; [auto|]).
  eapply backs_keep; eauto. apply Forall_forall. intros v _. apply plain_keeps.
Qed.
Print Assumptions C88_raw_roundtrip.
Print Assumptions C88_raw_identity.

(** There and back, with fuel. *)
Definition there_and_back (E : nat -> list rty) (n id : nat) (raw : list rawval) : res (list rawval) :=
  s <- FromRaw E id raw ;; '(_, b) <- Marshal s ;; s0 <- New (length (E id)) ;; t <- Unmarshal s0 b ;; ToRaw E n id t.

(** A struct with every type of field, and a value of it. *)
Definition demo_types (id : nat) : list rty :=
  match id with
  | O => [RTNum KI32; RTStr; RTBytes; RTMsg 1; RTBools; RTNums KU16; RTStrs true; RTMsgs 1; RTMap KTStr VTStruct 1; RTMap (KTNum KI64) VTStr 0; RTAny]
  | S O => [RTNum KF64; RTMsg 1]
  | _ => []
  end.
Definition demo_raw : list rawval :=
  [RawNum (-7); RawStr [104; 105]; RawBytes (Some [1; 2; 3]); RawMsg (Some [RawNum 5; RawMsg (Some [RawNum 6; RawMsg None])]);
   RawBools (Some [true; false]); RawNums (Some [1; 2]); RawStrs (Some [[97; 98; 99; 100]]);
   RawMsgs (Some [Some [RawNum 1; RawMsg None]; Some [RawNum 0; RawMsg None]]);
   RawMap (Some [(KStr [98], RawMsg (Some [RawNum 3; RawMsg None])); (KStr [97], RawMsg (Some [RawNum 0; RawMsg None]))]);
   RawMap (Some [(KNum 3, RawStr [120; 120; 120; 120]); (KNum (-3), RawStr [121; 121; 121; 121])]); RawAny None].
Example demo_fields : forall id, len (demo_types id) <= 2 ^ 16.
Proof. intros [|[|id]]; discriminate. Qed.
Ltac bl := repeat (constructor; [lia|]); constructor.
Example demo_typed : Forall2 (typed demo_types) (demo_types 0) demo_raw.
Proof.
  assert (T1 : forall z, 0 <= z < 2 ^ 64 -> Forall2 (typed demo_types) (demo_types 1) [RawNum z; RawMsg None]).
  { intros z Hz. constructor; [constructor; exact Hz|]. constructor; [|constructor]. constructor. }
  constructor; [constructor; cbn; lia|]. constructor; [apply ty_str; bl|]. constructor; [apply ty_bytes; bl|].
  constructor; [apply ty_msg; constructor; [constructor; cbn; lia|constructor; [apply ty_msg; apply T1; lia|constructor]]|].
  constructor; [constructor|]. constructor; [apply ty_nums; [discriminate|repeat (constructor; [cbn; lia|]); constructor]|].
  constructor; [constructor; [constructor; [bl|constructor]|reflexivity]|].
  constructor; [constructor; repeat (constructor; [constructor; apply T1; lia|]); constructor|].
  constructor; [apply ty_map with (ty := RTMsg 1); auto; try reflexivity|].
  { repeat (constructor; [split; [cbn; bl|constructor; apply T1; lia]|]). constructor. }
  { repeat constructor; cbn; discriminate. }
  constructor; [apply ty_map with (ty := RTStr); auto; try reflexivity|].
  { repeat (constructor; [split; [cbn; lia|constructor; bl]|]). constructor. }
  { repeat constructor; cbn; discriminate. }
  constructor; [constructor|constructor].
Qed.
Example demo_plain : Forall2 (plain demo_types) (demo_types 0) demo_raw.
Proof.
  assert (T1 : forall z, keep_num KF64 z = z -> Forall2 (plain demo_types) (demo_types 1) [RawNum z; RawMsg None]) by (intros; repeat constructor; auto).
  assert (NZ : forall z q, z <> 0 -> ~ Forall zero_raw (RawNum z :: q)).
  { intros z q Hz HF. apply Forall_inv in HF. unfold zero_raw in HF. intuition congruence. }
  constructor; [constructor; reflexivity|]. constructor; [constructor|]. constructor; [constructor; discriminate|].
  constructor; [constructor; [|apply NZ; discriminate]|].
  { constructor; [constructor; reflexivity|]. constructor; [|constructor]. constructor; [apply T1; reflexivity|apply NZ; discriminate]. }
  constructor; [constructor; discriminate|]. constructor; [constructor; discriminate|]. constructor; [constructor; discriminate|].
  constructor; [constructor; [discriminate|repeat (constructor; [eexists; split; [reflexivity|]; apply T1; reflexivity|]); constructor]|].
  constructor; [constructor; [discriminate|repeat (constructor; [constructor; apply T1; reflexivity|]); constructor]|].
  constructor; [constructor; [discriminate|repeat (constructor; [constructor|]); constructor]|].
  constructor; [constructor|constructor].
Qed.
(** The entries of the maps come back sorted, the rest as it was. *)
Example demo_back : 8 + total raw_size demo_raw < 2 ^ 32 /\
  there_and_back demo_types 4 0 demo_raw = Ok (
  [RawNum (-7); RawStr [104; 105]; RawBytes (Some [1; 2; 3]); RawMsg (Some [RawNum 5; RawMsg (Some [RawNum 6; RawMsg None])]);
   RawBools (Some [true; false]); RawNums (Some [1; 2]); RawStrs (Some [[97; 98; 99; 100]]);
   RawMsgs (Some [Some [RawNum 1; RawMsg None]; Some [RawNum 0; RawMsg None]]);
   RawMap (Some [(KStr [97], RawMsg (Some [RawNum 0; RawMsg None])); (KStr [98], RawMsg (Some [RawNum 3; RawMsg None]))]);
   RawMap (Some [(KNum (-3), RawStr [121; 121; 121; 121]); (KNum 3, RawStr [120; 120; 120; 120])]); RawAny None]).
Proof. split; [reflexivity|]. vm_compute. reflexivity. Qed.

(** What is lost.  A value in a field of type Any or []Any is dropped without an error. *)
Theorem C88_raw_identity_refuted_any : exists E raw raw', Forall2 (typed E) (E O) raw /\ there_and_back E 2 0 raw = Ok raw' /\
  raw = [RawAny (Some tt)] /\ raw' = [RawAny None].
Proof. exists (fun _ => [RTAny]), [RawAny (Some tt)], [RawAny None]. repeat split. repeat constructor. Qed.
(** Minus zero comes back as zero. *)
Theorem C88_raw_identity_refuted_minus_zero : exists E raw raw', Forall2 (typed E) (E O) raw /\ there_and_back E 2 0 raw = Ok raw' /\
  raw = [RawNum (2 ^ 63)] /\ raw' = [RawNum 0].
Proof.
  exists (fun _ => [RTNum KF64]), [RawNum (2 ^ 63)], [RawNum 0]. split; [repeat constructor; lia|]. split; [vm_compute; reflexivity|auto].
Qed.
(** A pointer to a struct in which nothing is set comes back as nil, a nil pointer in a list is left out. *)
Theorem C88_raw_identity_refuted_pointers : exists E raw raw', Forall2 (typed E) (E O) raw /\ there_and_back E 2 0 raw = Ok raw' /\
  raw = [RawMsg (Some []); RawMsgs (Some [None; Some []])] /\ raw' = [RawMsg None; RawMsgs (Some [Some []])].
Proof.
  exists (fun id => match id with O => [RTMsg 1; RTMsgs 1] | _ => [] end), [RawMsg (Some []); RawMsgs (Some [None; Some []])], [RawMsg None; RawMsgs (Some [Some []])].
  split; [|split; [vm_compute; reflexivity|auto]].
  repeat apply Forall2_cons; repeat constructor.
Qed.
(** The entry of key 0 of a map of small numbers comes back with the value 0, and a list of one string with
    one string more. *)
Theorem C88_raw_roundtrip_refuted : exists E raw raw', there_and_back E 2 0 raw = Ok raw' /\
  E O = [RTMap (KTNum KU8) (VTNum KU8) 0; RTStrs true] /\
  raw = [RawMap (Some [(KNum 0, RawNum 5)]); RawStrs (Some [[]])] /\ raw' = [RawMap (Some [(KNum 0, RawNum 0)]); RawStrs (Some [[]; []])].
Proof.
  exists (fun _ => [RTMap (KTNum KU8) (VTNum KU8) 0; RTStrs true]), [RawMap (Some [(KNum 0, RawNum 5)]); RawStrs (Some [[]])], [RawMap (Some [(KNum 0, RawNum 0)]); RawStrs (Some [[]; []])].
  split; [vm_compute; reflexivity|auto].
Qed.
Print Assumptions C88_raw_identity_refuted_any.
Print Assumptions C88_raw_identity_refuted_minus_zero.
Print Assumptions C88_raw_identity_refuted_pointers.
Print Assumptions C88_raw_roundtrip_refuted.
