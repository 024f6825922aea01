(** IsSet tracking: which fields a history of calls marks, and the bits that record them. *)
From Verif.Spec Require Export History.

(** The fields a call marks as set: the setters mark a field they store; removing a field
    and the list and map accessors mark nothing. *)
Definition marked (o : op) : list Z :=
  match o with
  | OScalar f k v => if is_zero k v then [] else [f]
  | OBytes f _ b => if nil_b b then [] else [f]
  | ONested f _ l => if nil_b (sem [] l) then [] else [f]
  | OAny f _ _ _ => [f]
  | OAnyRaw f _ raw => if nil_b raw then [] else [f]
  | OAnys f l => if nil_b l then [] else [f]
  | _ => []
  end.
Definition marks (l : list op) : list Z := concat (map marked l).

(** Seven fields to a byte: byte j holds fields 7j .. 7j+6, lowest bit first. *)
Fixpoint bit_byte (j : Z) (F : list Z) : Z :=
  match F with
  | [] => 0
  | f :: r => Z.lor (if f / 7 =? j then 2 ^ (f mod 7) else 0) (bit_byte j r)
  end.

(** Bytes of the trailer for a type with n fields. *)
Definition trailer_len (n : Z) : Z := (Z.max 1 ((n + 6) / 7) + 7) / 8 * 8.

(** The third byte, read as a field type, is that of a struct, a list or a map. *)
Definition clashes (F : list Z) : bool :=
  let b := bit_byte 2 F in (b =? 14) || ((42 <=? b) && (b <=? 55)).

(** The trailer: the bit bytes, with the continuation bit (0x80) on all but the last byte
    that holds fields, padded with zero bytes to a multiple of eight. *)
Definition trailer (n : nat) (F : list Z) : bytes :=
  map (fun j => bit_byte (Z.of_nat j) F +
                if Z.of_nat j <? Z.max 1 ((Z.of_nat n + 6) / 7) - 1 then 128 else 0)
      (seq 0 (Z.to_nat (trailer_len (Z.of_nat n)))).
