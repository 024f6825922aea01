(** Structs on a slice of the caller. *)
From Verif.Model Require Export Recycle.
From Verif.Spec Require Export Reach Views.

(** The bytes of s are not among those that data can come to show by growing to its capacity. *)
Definition clear_of (s data : sl) : Prop :=
  sl_arr s <> sl_arr data \/ sl_off data + sl_cap data <= sl_off s \/ sl_off s + sl_len s <= sl_off data.
(** data starts with what Marshal gave for a struct that stood for m. *)
Definition holds (h : heap) (data : sl) (m : msg) : Prop :=
  exists n0 w w' b rest, reached n0 w m /\ Marshal w = Ok (w', b) /\ view h data = b ++ rest.
