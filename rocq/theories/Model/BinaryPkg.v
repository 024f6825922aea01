(** clawc/internal/binary/binary.go: integers in little endian bytes, once with generic functions and once with a function per type. *)
From Verif.Model Require Import Base.
Local Open Scope Z_scope.

(** A type of constraints.Integer: signed, bytes, and whether it is one of int8 .. uint64 by name.  int, uint, uintptr and every
    defined type meet the constraint too, but no case of the type switches. *)
Inductive isize := I1 | I2 | I4 | I8.
Record itype := mkIT { it_signed : bool; it_size : isize; it_named : bool }.
Definition nbytes (s : isize) : nat := match s with I1 => 1 | I2 => 2 | I4 => 4 | I8 => 8 end.
Definition tbytes (t : itype) : nat := nbytes (it_size t).
(** The conversion T(x). *)
Definition conv (t : itype) (x : Z) : Z :=
  let n := 8 * Z.of_nat (tbytes t) in if it_signed t then sN n x else x mod 2 ^ n.

(** GetInt8 .. GetUint64, 146-189.  Simplification: the chain of shifts and ors is le_dec. *)
Definition GetT (t : itype) (b : bytes) : res Z := x <- le_get (Z.of_nat (tbytes t)) b ;; Ok (conv t x).
(** PutInt8 .. PutUint64, 191-229. *)
Definition PutT (t : itype) (b : bytes) (v : Z) : res bytes := le_put (tbytes t) b 0 v.
(** GetBufferInt8 .. GetBufferUint64, 231-313.  The reader is what it has left; io.ReadFull fails when that is too little. *)
Definition GetBufferT (t : itype) (r : bytes) : res (Z * bytes) :=
  if len r <? Z.of_nat (tbytes t) then Err else x <- GetT t (take (Z.of_nat (tbytes t)) r) ;; Ok (x, drop (Z.of_nat (tbytes t)) r).
(** PutBufferInt8 .. PutBufferUint64, 315-372: what is written. *)
Definition PutBufferT (t : itype) (v : Z) : res bytes := PutT t (zeros (Z.of_nat (tbytes t))) v.

(** Get, 16-41: 17 wants a byte; a type of another name ends in the panic of 40. *)
Definition Get (t : itype) (b : bytes) : res Z :=
  _ <- index b (len b - 1) ;; if it_named t then GetT t b else Panic.
(** GetBuffer, 44-104. *)
Definition GetBuffer (t : itype) (r : bytes) : res (Z * bytes) := if it_named t then GetBufferT t r else Panic.
(** Put, 107-120: uint8, uint16 and uint32 have a case, everything else is put as a uint64. *)
Definition Put (t : itype) (b : bytes) (v : Z) : res bytes :=
  if it_named t && negb (it_signed t) then
    match it_size t with
    | I1 => le_put 1 b 0 v
    | I2 => le_put 2 b 0 v
    | I4 => le_put 4 b 0 v
    | I8 => le_put 8 b 0 (u64 v)
    end
  else le_put 8 b 0 (u64 v).
(** PutBuffer, 123-143: the bytes it writes.  Only the signed types get a slice; the others keep nil. *)
Definition PutBuffer (t : itype) (v : Z) : res bytes :=
  let b := if it_named t && it_signed t then zeros (Z.of_nat (tbytes t)) else [] in
  Put t b v.
