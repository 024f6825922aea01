(** UTF-8 as Go's runtime and unicode/utf8 treat it.  These are standard library functions; the
    model follows the Go specification ("for range" over a string) and the documentation of
    unicode/utf8.  Bit operations on disjoint bit fields are written arithmetically. *)
From Coq Require Import ZArith List Bool.
Import ListNotations.
From Verif.Model Require Import Base.
Open Scope Z_scope.

(** utf8.AppendRune (and strings.Builder.WriteRune): surrogates and values above MaxRune are written
    as U+FFFD. *)
Definition AppendRune (r : Z) : bytes :=
  if (0 <=? r) && (r <? 0x80) then [r]
  else if (0 <=? r) && (r <? 0x800) then [0xC0 + r / 64; 0x80 + r mod 64]
  else if (r <? 0) || ((0xD800 <=? r) && (r <=? 0xDFFF)) || (0x10FFFF <? r) then [0xEF; 0xBF; 0xBD]
  else if r <? 0x10000 then [0xE0 + r / 4096; 0x80 + (r / 64) mod 64; 0x80 + r mod 64]
  else [0xF0 + r / 262144; 0x80 + (r / 4096) mod 64; 0x80 + (r / 64) mod 64; 0x80 + r mod 64].

Definition in_range (lo hi b : Z) : bool := (lo <=? b) && (b <=? hi).
(** The range of the second byte after first byte [p0] (the acceptRanges table); an empty range for
    bytes that start no sequence. *)
Definition second (p0 : Z) : Z * Z :=
  if p0 =? 0xE0 then (0xA0, 0xBF) else if p0 =? 0xED then (0x80, 0x9F)
  else if p0 =? 0xF0 then (0x90, 0xBF) else if p0 =? 0xF4 then (0x80, 0x8F)
  else (0x80, 0xBF).

(** utf8.DecodeRune: the rune and its width; (U+FFFD, 1) for an invalid encoding. *)
Definition DecodeRune (s : bytes) : Z * nat :=
  let bad := (0xFFFD, 1%nat) in
  match s with
  | [] => (0xFFFD, 0%nat)
  | p0 :: q =>
    if p0 <? 0x80 then (p0, 1%nat)
    else if in_range 0xC2 0xDF p0 then
      match q with
      | b1 :: _ => if in_range 0x80 0xBF b1 then ((p0 mod 32) * 64 + b1 mod 64, 2%nat) else bad
      | _ => bad
      end
    else if in_range 0xE0 0xEF p0 then
      match q with
      | b1 :: b2 :: _ =>
        if in_range (fst (second p0)) (snd (second p0)) b1 && in_range 0x80 0xBF b2
        then ((p0 mod 16) * 4096 + (b1 mod 64) * 64 + b2 mod 64, 3%nat) else bad
      | _ => bad
      end
    else if in_range 0xF0 0xF4 p0 then
      match q with
      | b1 :: b2 :: b3 :: _ =>
        if in_range (fst (second p0)) (snd (second p0)) b1 && in_range 0x80 0xBF b2 && in_range 0x80 0xBF b3
        then ((p0 mod 8) * 262144 + (b1 mod 64) * 4096 + (b2 mod 64) * 64 + b3 mod 64, 4%nat) else bad
      | _ => bad
      end
    else bad
  end.

(** "for _, r := range s"; the fuel is the length of the string. *)
Fixpoint range_fuel (n : nat) (s : bytes) : list Z :=
  match n, s with
  | S n, _ :: _ => let '(r, w) := DecodeRune s in r :: range_fuel n (skipn w s)
  | _, _ => []
  end.
Definition runes (s : bytes) : list Z := range_fuel (length s) s.
