(** What a program sees of a list of structs, and what a reader of the message does. *)
From Verif.Model Require Export StructsList.

Section Spec.
Context {V : Type} (venc : V -> bytes) (vdec : bytes -> res V) (vread : bytes -> res (V * bytes))
  (vdiff : V -> V -> res (option bytes)) (vapply : bytes -> V -> res V) (junk : V -> V)
  (beyond : fstate V -> Z -> V -> res (fstate V)).

(** The items of the list that the accessor gives. *)
Definition shown (s : fstate V) : list V :=
  match f_cache s with
  | Some i => map (val junk) (o_items (objAt s i))
  | None => match f_seg s with Some l => l | None => [] end
  end.
(** The items that are in the message. *)
Definition wire (s : fstate V) : list V := match f_seg s with Some l => l | None => [] end.
(** Edits of a plain list. *)
Definition in_range (l : list V) (k : Z) : bool := (0 <=? k) && (k <? len l).
Definition plain (l : list V) (e : edit V) : option (list V) :=
  match e with
  | EAccess | EMarshal => Some l
  | EAppend x => Some (l ++ x)
  | ESetItem k v | EChange k v => if in_range l k then Some (upd l k v) else None
  | ESetAll x => Some x
  end.
Fixpoint plains (l : list V) (es : list (edit V)) : option (list V) :=
  match es with [] => Some l | e :: q => match plain l e with Some l => plains l q | None => None end end.
(** Edits of the list itself, which Marshal or a change of an item is not. *)
Definition of_list (e : edit V) : Prop := match e with EMarshal | EChange _ _ => False | _ => True end.

(** An item that can be written and read. *)
Definition good_item (v : V) : Prop := venc v <> [] /\ vdec (venc v) = Ok v /\ forall r, vread (venc v ++ r) = Ok (v, r).
(** Two items for which Diff and Apply work (C27). *)
Definition good_pair (x y : V) : Prop :=
  exists d, vdiff x y = Ok d /\ match d with None => x = y | Some p => vapply p x = Ok y end.
Definition good_pairs (a b : list V) : Prop := forall k x y, nth_error a k = Some x -> nth_error b k = Some y -> good_pair x y.
(** Made in memory: a new struct, edited, and not yet marshalled. *)
Definition made (s : fstate V) : Prop := exists es, ~ In EMarshal es /\ run junk beyond f_new es = Ok s.
(** The edits whose recording can be replayed; edits with good items. *)
Definition recordable (e : edit V) : Prop := match e with EMarshal | EChange _ _ | ESetAll [] => False | _ => True end.
Definition edit_good (e : edit V) : Prop :=
  match e with EAppend l | ESetAll l => Forall good_item l | ESetItem _ v | EChange _ v => good_item v | _ => True end.
End Spec.
