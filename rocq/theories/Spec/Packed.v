(** The packed format, as the package documentation describes it, independent of
    the packing and unpacking code. *)
From Verif Require Import Model.Base.

(** Place the bytes [ds] at the positions whose bit is set in [t] (lowest bit is the
    first byte), zero elsewhere. *)
Fixpoint spread (n : nat) (t : Z) (ds : bytes) : bytes :=
  match n with
  | O => []
  | S n' => if Z.odd t then hd 0 ds :: spread n' (t / 2) (tl ds)
            else 0 :: spread n' (t / 2) ds
  end.

Fixpoint popcount (n : nat) (t : Z) : Z :=
  match n with
  | O => 0
  | S n' => (if Z.odd t then 1 else 0) + popcount n' (t / 2)
  end.

(** [expands p u]: the packed stream [p] stands for the bytes [u]. *)
Inductive expands : bytes -> bytes -> Prop :=
| X_nil : expands [] []
| X_word t ds p u :
    0 < t < 255 -> len ds = popcount 8 t ->
    expands p u ->
    expands (t :: ds ++ p) (spread 8 t ds ++ u)
| X_zero c p u :
    0 <= c < 256 ->
    expands p u ->
    expands (0 :: c :: p) (zeros (8 * (c + 1)) ++ u)
| X_literal c w ws p u :
    0 <= c < 256 -> len w = 8 -> len ws = 8 * c ->
    expands p u ->
    expands (255 :: w ++ c :: ws ++ p) (w ++ ws ++ u).

(** A packed message: both sizes, then the stream. *)
Definition packed_form (p m : bytes) : Prop :=
  exists body, p = le_enc 8 (len m) ++ le_enc 8 (len body) ++ body /\ expands body m.

(** The stream is cut inside the bytes of a word: after complete groups standing for
    [u] comes a tag whose bytes are not all there. *)
Definition cut_in_word (p u : bytes) : Prop :=
  exists p1 t short, p = p1 ++ t :: short /\ expands p1 u /\
    0 <= t < 256 /\ len short < popcount 8 t.
