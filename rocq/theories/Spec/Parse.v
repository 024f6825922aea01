(** Vocabulary for decoding arbitrary bytes. *)
From Verif.Spec Require Export Message Query Reach.

(** The eight bytes at [p] are a field header: field number, type and 40-bit value, little
    endian (docs/encoding/encoding.md). *)
Definition header_at (data : bytes) (p fn ft f40 : Z) : Prop :=
  0 <= p /\ p + 8 <= len data /\  0 <= fn < 2 ^ 16 /\ 0 <= ft < 2 ^ 8 /\ 0 <= f40 < 2 ^ 40 /\  take 8 (drop p data) = le_enc 2 fn ++ le_enc 1 ft ++ le_enc 5 f40.

(** The field types whose header can announce size zero: a nested struct, a list other than
    bools and Any, a map. *)
Definition zero_sized (ft f40 : Z) : bool :=
  ((ft =? 14) || ((42 <=? ft) && (ft <=? 54))) && (f40 =? 0) || (ft =? 55) && (f40 / 2 ^ 16 =? 0).

