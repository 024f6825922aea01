(** Unicode text, its UTF-8 form, and JSON string literals (RFC 8259, section 7). *)
From Coq Require Import ZArith List Bool.
Import ListNotations.
Open Scope Z_scope.

(** Unicode scalar values. *)
Definition scalar (r : Z) : Prop := 0 <= r <= 0x10FFFF /\ ~ 0xD800 <= r <= 0xDFFF.
(** UTF-8 (RFC 3629, section 3). *)
Definition utf8_of (r : Z) : list Z :=
  if r <? 0x80 then [r]
  else if r <? 0x800 then [0xC0 + r / 64; 0x80 + r mod 64]
  else if r <? 0x10000 then [0xE0 + r / 4096; 0x80 + (r / 64) mod 64; 0x80 + r mod 64]
  else [0xF0 + r / 262144; 0x80 + (r / 4096) mod 64; 0x80 + (r / 64) mod 64; 0x80 + r mod 64].
Definition utf8 (rs : list Z) : list Z := flat_map utf8_of rs.

Inductive hexdigit : Z -> Z -> Prop :=
| hd_09 c : 48 <= c <= 57 -> hexdigit c (c - 48)
| hd_af c : 97 <= c <= 102 -> hexdigit c (c - 87)
| hd_AF c : 65 <= c <= 70 -> hexdigit c (c - 55).

(** The characters after a backslash and what they stand for. *)
Definition simple_escapes : list (Z * Z) := [(34, 34); (92, 92); (47, 47); (98, 8); (102, 12); (110, 10); (114, 13); (116, 9)].
Inductive hex4 : list Z -> Z -> Prop :=
| h4 a b c d va vb vc vd : hexdigit a va -> hexdigit b vb -> hexdigit c vc -> hexdigit d vd ->
    hex4 [a; b; c; d] (((va * 16 + vb) * 16 + vc) * 16 + vd).
(** [jchars b rs]: between the quotes, the bytes [b] stand for the code points [rs]. *)
Inductive jchars : list Z -> list Z -> Prop :=
| jc_nil : jchars [] []
| jc_plain r b rs : scalar r -> 0x20 <= r -> r <> 34 -> r <> 92 -> jchars b rs -> jchars (utf8_of r ++ b) (r :: rs)
| jc_esc e r b rs : In (e, r) simple_escapes -> jchars b rs -> jchars (92 :: e :: b) (r :: rs)
| jc_uni h r b rs : hex4 h r -> scalar r -> jchars b rs -> jchars (92 :: 117 :: h ++ b) (r :: rs)
| jc_pair h1 h2 r1 r2 b rs : hex4 h1 r1 -> hex4 h2 r2 -> 0xD800 <= r1 <= 0xDBFF -> 0xDC00 <= r2 <= 0xDFFF -> jchars b rs ->
    jchars (92 :: 117 :: h1 ++ 92 :: 117 :: h2 ++ b) (0x10000 + (r1 - 0xD800) * 1024 + (r2 - 0xDC00) :: rs).
Inductive jstring : list Z -> list Z -> Prop :=
| js b rs : jchars b rs -> jstring (34 :: b ++ [34]) rs.

(** Reading the text between the quotes from the left, no quote comes that no backslash escapes,
    and it does not end inside an escape. *)
Fixpoint closed_text (s : list Z) : bool :=
  match s with
  | [] => true
  | c :: q =>
    if c =? 92 then match q with [] => false | _ :: q' => closed_text q' end
    else negb (c =? 34) && closed_text q
  end.
