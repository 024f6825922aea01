(** Base vocabulary of the model: results, bytes, fixed-width integers, slices.
    Go integers and bytes are [Z]; every truncation the Go code performs by a
    conversion is written out with the functions below. *)
From Coq Require Export ZArith List Bool.
Export ListNotations.
Global Open Scope Z_scope.

(** Outcome of a Go call.  [Err] is a returned error, [Panic] a run-time panic,
    [Hang] stands for "ran out of fuel" in a loop the Go code does not bound. *)
Inductive res (A : Type) : Type :=
| Ok (a : A)
| Err
| Panic
| Hang.
Arguments Ok {A} a.
Arguments Err {A}.
Arguments Panic {A}.
Arguments Hang {A}.

Definition bind {A B} (x : res A) (f : A -> res B) : res B :=
  match x with
  | Ok a => f a
  | Err => Err
  | Panic => Panic
  | Hang => Hang
  end.
Notation "x <- e ;; f" := (bind e (fun x => f))
  (at level 61, e at next level, right associativity).
Notation "' p <- e ;; f" := (bind e (fun p => f))
  (at level 61, p pattern, e at next level, right associativity).

Notation byte := Z (only parsing).
Notation bytes := (list Z) (only parsing).

(** Go [len]. *)
Definition len {A} (l : list A) : Z := Z.of_nat (length l).
Definition take {A} (n : Z) (l : list A) : list A := firstn (Z.to_nat n) l.
Definition drop {A} (n : Z) (l : list A) : list A := skipn (Z.to_nat n) l.
Definition zeros (n : Z) : bytes := repeat 0 (Z.to_nat n).

(** Go slicing [l[a:b]].  Simplification: the bound checked is the length of the
    buffer, not its capacity (the capacity-aware model is in Model/Alias.v). *)
Definition slice {A} (l : list A) (a b : Z) : res (list A) :=
  if (0 <=? a) && (a <=? b) && (b <=? len l)
  then Ok (take (b - a) (drop a l)) else Panic.

(** Go indexing [l[i]]. *)
Definition index {A} (l : list A) (i : Z) : res A :=
  if (0 <=? i) && (i <? len l) then
    match nth_error l (Z.to_nat i) with Some x => Ok x | None => Panic end
  else Panic.

(** Go [l[i] = x]. *)
Fixpoint set_nth {A} (n : nat) (x : A) (l : list A) : list A :=
  match l, n with
  | [], _ => []
  | _ :: r, O => x :: r
  | y :: r, S n' => y :: set_nth n' x r
  end.
Definition upd {A} (l : list A) (i : Z) (x : A) : list A := set_nth (Z.to_nat i) x l.

(** Go [copy(buf[off:], src)]: copies min(len(buf)-off, len(src)) bytes; slicing
    past the end panics. *)
Definition copy_at (buf : bytes) (off : Z) (src : bytes) : res bytes :=
  if (0 <=? off) && (off <=? len buf) then
    let n := Z.min (len buf - off) (len src) in
    Ok (take off buf ++ take n src ++ drop (off + n) buf)
  else Panic.

(** Fixed width conversions. *)
Definition u8 (v : Z) : Z := v mod 2 ^ 8.
Definition u16 (v : Z) : Z := v mod 2 ^ 16.
Definition u32 (v : Z) : Z := v mod 2 ^ 32.
Definition u64 (v : Z) : Z := v mod 2 ^ 64.
Definition sN (n v : Z) : Z :=
  let w := v mod 2 ^ n in if w <? 2 ^ (n - 1) then w else w - 2 ^ n.
Definition s8 (v : Z) : Z := sN 8 v.
Definition s16 (v : Z) : Z := sN 16 v.
Definition s32 (v : Z) : Z := sN 32 v.
Definition s64 (v : Z) : Z := sN 64 v.

(** encoding/binary LittleEndian.  [le_enc n v] are the bytes PutUint(8n) writes,
    [le_dec] is the value Uint(8n) reads from exactly those n bytes. *)
Fixpoint le_enc (n : nat) (v : Z) : bytes :=
  match n with
  | O => []
  | S n' => (v mod 256) :: le_enc n' (v / 256)
  end.
Fixpoint le_dec (l : bytes) : Z :=
  match l with
  | [] => 0
  | b :: r => b + 256 * le_dec r
  end.

(** binary.LittleEndian.UintN(buf): reads the first n bytes, panics when short. *)
Definition le_get (n : Z) (buf : bytes) : res Z :=
  h <- slice buf 0 n ;; Ok (le_dec h).
(** binary.LittleEndian.PutUintN(buf, v): panics when short. *)
Definition le_put (n : nat) (buf : bytes) (off v : Z) : res bytes :=
  if (0 <=? off) && (off + Z.of_nat n <=? len buf)
  then copy_at buf off (le_enc n v) else Panic.
