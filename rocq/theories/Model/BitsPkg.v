(** clawc/internal/bits/bits.go: bit ranges and single bits of unsigned integers.  A type of constraints.Unsigned has w bits;
    exact says that it is one of uint8 .. uint64 by name (uint, uintptr and defined types meet no case of the type switches). *)
From Verif.Model Require Import Base.
Local Open Scope Z_scope.

(** SetValue, 18-26: val is of any unsigned type. *)
Definition SetValue (w val store start end_ : Z) : res Z :=
  if end_ <=? start then Panic
  else Ok (Z.lor store (Z.shiftl (val mod 2 ^ w) start mod 2 ^ w)).
(** GetValue, 34-36: w1 bits in the result. *)
Definition GetValue (w1 store mask start : Z) : Z := Z.shiftr (Z.land store mask) start mod 2 ^ w1.
(** setBits, 132-172, of a uint that is 0, and Mask, 126-128. *)
Definition Mask (w start end_ : Z) : res Z :=
  if end_ <=? start then Panic
  else if 64 <? end_ then Panic
  else
    let width := end_ - start in
    let mask := if width =? 64 then 2 ^ 64 - 1 else Z.shiftl (2 ^ width - 1) start mod 2 ^ 64 in
    Ok (mask mod 2 ^ w).
(** GetBit, 39-59. *)
Definition GetBit (exact : bool) (w store pos : Z) : res bool :=
  if exact && (w - 1 <? pos) then Panic
  else Ok (negb (Z.land store (Z.shiftl 1 pos mod 2 ^ w) =? 0)).
(** SetBit, 63-87. *)
Definition SetBit (exact : bool) (w store pos : Z) (val : bool) : res Z :=
  if exact && (w - 1 <? pos) then Panic
  else if val then Ok (Z.lor store (Z.shiftl 1 pos mod 2 ^ w))
  else Ok (Z.ldiff store (Z.shiftl 1 pos mod 2 ^ w)).
(** ClearBit, 90-93. *)
Definition ClearBit (w store pos : Z) : Z := Z.ldiff store (Z.shiftl 1 pos mod 2 ^ w).
(** ClearBytes, 96-100; i is a uint8 that stays below to. *)
Fixpoint ClearBytes_go (fuel : nat) (b : bytes) (i to : Z) : res bytes :=
  match fuel with
  | O => Hang
  | S fuel => if i <? to then (if i <? len b then ClearBytes_go fuel (upd b i 0) (i + 1) to else Panic) else Ok b
  end.
Definition ClearBytes (b : bytes) (from to : Z) : res bytes := ClearBytes_go 256 b from to.
(** ClearBits, 103-120: from and to are uint8. *)
Definition ClearBits (w store from to : Z) : Z :=
  if to <=? from then store
  else
    let width := to - from in
    let m := if width =? 64 then 2 ^ 64 - 1 else Z.shiftl ((Z.shiftl 1 width mod 2 ^ 64 - 1) mod 2 ^ 64) from mod 2 ^ 64 in
    Z.ldiff store (m mod 2 ^ w).
