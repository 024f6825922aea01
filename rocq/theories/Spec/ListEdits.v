(** What a list is to its user: a sequence that can be appended to, changed at an index and
    replaced, whatever the type of its items. *)
From Verif.Spec Require Export Message.

Inductive ledit (A : Type) :=
| EAppend (l : list A)       (* Append(l...) *)
| ESet (i : Z) (x : A)       (* Set(i, x) *)
| ESetAll (l : list A).      (* SetAll(l) *)
Arguments EAppend {A} _. Arguments ESet {A} _ _. Arguments ESetAll {A} _.

(** The sequence after an edit; None when the index is out of range. *)
Definition after_edit {A} (l : list A) (e : ledit A) : option (list A) :=
  match e with
  | EAppend x => Some (l ++ x)
  | ESet i x =>
      if (0 <=? i) && (i <? len l)
      then Some (firstn (Z.to_nat i) l ++ x :: skipn (S (Z.to_nat i)) l) else None
  | ESetAll x => Some x
  end.

(** List types and the edits on their values. *)
Inductive lty := LBools | LNums (k : kind) | LBlobs (str : bool).
Inductive edit := EBools (e : ledit bool) | ENums (e : ledit Z) | EBlobs (e : ledit bytes).

Definition lty_of (v : value) : option lty :=
  match v with
  | VBools _ => Some LBools | VNums k _ => Some (LNums k) | VBlobs s _ => Some (LBlobs s) | _ => None
  end.
Definition empty_list (t : lty) : value :=
  match t with LBools => VBools [] | LNums k => VNums k [] | LBlobs s => VBlobs s [] end.
Definition list_empty (v : value) : bool :=
  match v with VBools [] | VNums _ [] | VBlobs _ [] => true | _ => false end.
Definition edited (v : value) (e : edit) : option value :=
  match v, e with
  | VBools l, EBools e => option_map VBools (after_edit l e)
  | VNums k l, ENums e => option_map (VNums k) (after_edit l e)
  | VBlobs s l, EBlobs e => option_map (VBlobs s) (after_edit l e)
  | _, _ => None
  end.
Fixpoint edited_all (v : value) (es : list edit) : option value :=
  match es with
  | [] => Some v
  | e :: r => match edited v e with Some v => edited_all v r | None => None end
  end.

(** The arguments of an edit are values of the item type. *)
Definition items_of {A} (e : ledit A) : list A :=
  match e with EAppend l | ESetAll l => l | ESet _ x => [x] end.
Definition edit_typed (t : lty) (e : edit) : Prop :=
  match t, e with
  | LBools, EBools _ => True
  | LNums k, ENums e => Forall (in_range k) (items_of e)
  | LBlobs _, EBlobs e => Forall byte_list (items_of e)
  | _, _ => False
  end.
(** What a field holds when a list is written to it: nothing for the empty list. *)
Definition written (v : value) : option value := if list_empty v then None else Some v.
