(** What recording is meant to record of edits of lists. *)
From Verif.Spec Require Export Recording PatchLists.

(** Edits through the list accessors: field and edit. *)
Fixpoint run_edits (sch : schema) (h : hstruct) (es : list (Z * edit)) : res hstruct :=
  match es with
  | [] => Ok h
  | (f, e) :: r =>
      match sch f with
      | Some t => '(h, i) <- h_list h f t ;; h <- h_edit h i e ;; run_edits sch h r
      | None => Err
      end
  end.

(** The operations that stand for an edit of the sequence l: one insert per appended item,
    at the position it gets. *)
Section Ops.
Context {A : Type} (f : Z) (item : A -> bytes) (all : list A -> bytes).
Fixpoint inserts_at (i : Z) (x : list A) : list rop :=
  match x with [] => [] | y :: r => mkRop f OpListInsert i (item y) :: inserts_at (i + 1) r end.
Definition ops_of (l : list A) (e : ledit A) : list rop :=
  match e with
  | EAppend x => inserts_at (len l) x
  | ESet i x => [mkRop f OpListSet i (item x)]
  | ESetAll x => [mkRop f OpListReplace NoListIndex (all x)]
  end.
End Ops.
Definition bool_byte (b : bool) : Z := if b then 1 else 0.
Definition counted (b : bytes) : bytes := little_endian 4 (len b) ++ b.
Definition edit_ops (f : Z) (v : value) (e : edit) : list rop :=
  match v, e with
  | VBools l, EBools e => ops_of f (fun b => [bool_byte b]) (map bool_byte) l e
  | VNums k l, ENums e => ops_of f (little_endian (width k)) (fun x => concat (map (little_endian (width k)) x)) l e
  | VBlobs _ l, EBlobs e => ops_of f (fun b => b) (fun x => little_endian 4 (len x) ++ concat (map counted x)) l e
  | _, _ => []
  end.
(** The operations of a sequence of edits, made on a struct that shows the lists [now]. *)
Fixpoint edits_log (now : Z -> value) (es : list (Z * edit)) : list rop :=
  match es with
  | [] => []
  | (f, e) :: r =>
      edit_ops f (now f) e ++
      match edited (now f) e with
      | Some v => edits_log (fun g => if g =? f then v else now g) r
      | None => []
      end
  end.

(** No list gets longer than [count] of its field, and no item is 4 GiB long. *)
Definition stays_below (sch : schema) (h : hstruct) (es : list (Z * edit)) (count : Z -> Z) : Prop :=
  forall es1 es2 h1 f t v, es = es1 ++ es2 -> run_edits sch h es1 = Ok h1 -> sch f = Some t -> shown h1 f t v ->
    items v <= count f.
Definition short_items (e : edit) : Prop :=
  match e with EBlobs e => Forall (fun b => len b < 2 ^ 32) (items_of e) | _ => True end.
