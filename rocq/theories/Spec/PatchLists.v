(** What it means that a patch leads from the lists of one struct to those of another. *)
From Verif.Model Require Export PatchLists.
From Verif.Spec Require Export ListReach Patches.

(** [shown h f t v]: a program that asks for list field f and reads it gets v. *)
Definition shown (h : hstruct) (f : Z) (t : lty) (v : value) : Prop :=
  exists h' i, h_list h f t = Ok (h', i) /\ h_read h' i = Ok v.
(** The getter does not return nil. *)
Definition has_list (h : hstruct) (f : Z) (t : lty) : Prop :=
  exists h' i, get_list h f t = Ok (h', Some i).

(** How many items. *)
Definition items (v : value) : Z :=
  match v with VBools l => len l | VNums _ l => len l | VBlobs _ l => len l | _ => 0 end.
(** The same list to a reader. *)
Definition same_list (v w : value) : Prop :=
  match v, w with
  | VBools a, VBools b => a = b
  | VBlobs s a, VBlobs s' b => s = s' /\ a = b
  | VNums k a, VNums k' b => k = k' /\ Forall2 (equal_numbers k) a b
  | _, _ => False
  end.

(** The mapping and the schema are the same struct type. *)
Definition describes (l : lmapping) (sch : schema) : Prop := forall f, ldescr l f = sch f.
(** The list object of the field has no edits since it was read or last written. *)
Definition no_unwritten (h : hstruct) (f : Z) : Prop :=
  forall i o, GetList f h.(h_lists) = Some i -> nth_error h.(h_objs) i = Some o -> is_dirty o.(lo_c) = false.
(** The list object of the field is waiting to be written. *)
Definition waiting (h : hstruct) (f : Z) : Prop :=
  exists i o, GetList f h.(h_lists) = Some i /\ In (f, i) h.(h_dirty) /\
    nth_error h.(h_objs) i = Some o /\ is_dirty o.(lo_c) = true.

(** Sizes: indices are int32, an item is shorter than 4 GiB, and the struct has room for the
    new number lists beside the old ones. *)
Definition indexed (v : value) : Prop :=
  items v < 2 ^ 31 /\ match v with VBlobs _ l => Forall (fun b => len b < 2 ^ 32) l | _ => True end.
Fixpoint new_numbers (count : Z -> Z) (i : Z) (l : lmapping) : Z :=
  match l with
  | [] => 0
  | Some (LNums _) :: r => 8 + 8 * count i + new_numbers count (i + 1) r
  | _ :: r => new_numbers count (i + 1) r
  end.
(** What a program reads in list field f. *)
Definition read_list (sch : schema) (h : hstruct) (f : Z) : value :=
  match sch f with
  | Some t =>
      match h_list h f t with
      | Ok (h', i) => match h_read h' i with Ok v => v | _ => empty_list t end
      | _ => empty_list t
      end
  | None => VBools []
  end.

(** base is a struct of the same type that shows the same lists as from. *)
Definition same_lists (sch : schema) (from base : hstruct) : Prop :=
  forall f t v, sch f = Some t -> shown from f t v -> shown base f t v.
(** Diff asks for the lists of bytes that are not set; it fails on them (below). *)
Definition bytes_present (sch : schema) (h : hstruct) : Prop :=
  forall f, sch f = Some (LBlobs false) -> has_list h f (LBlobs false).
Definition all_indexed (sch : schema) (h : hstruct) : Prop :=
  forall f t v, sch f = Some t -> shown h f t v -> indexed v.
Definition is_number_list (t : lty) : Prop := exists k, t = LNums k.
Definition numbers_written (sch : schema) (h : hstruct) : Prop :=
  forall f k, sch f = Some (LNums k) -> no_unwritten h f.
