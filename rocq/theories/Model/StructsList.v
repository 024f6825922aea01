(** Lists of structs of one struct: segment/lists.go:973-1260 (Structs), getters.go:236-258 (GetListStructs, ClearField), struct.go:271-341 (the
    list cache and the lists to be written), the generated accessors (clawc/internal/idl/struct.tmpl:490-560), and what Diff and Apply
    (languages/go/patch) do with them.  One field f of one struct; the other fields are left out.  An item is seen as the value its fields
    have (type V); how it is written, read, compared and patched are arguments: [venc] is Marshal and MarshalWriter, [vdec] Unmarshal,
    [vread] UnmarshalReader, [vdiff] diffStructToPatch with the Marshal of the patch (None: no operations), [vapply] the Unmarshal of a
    patch with the loop over its operations.  Items that several list objects share by pointer are copied here: only the newest object is ever
    used again.  The structs that a program appends or sets are its own new ones, none of them twice. *)
From Verif.Model Require Export PatchLists.

(** An item of a list: a struct of its own, or one whose bytes are a part of the parent's segment (parseFromSegment, 1020-1052), or
    the same after the parent's segment was written to. *)
Inductive item (V : Type) := Own (v : V) | View (v : V) | Stale (v : V).
Arguments Own {V}. Arguments View {V}. Arguments Stale {V}.
(** A *Structs. *)
Record lobj (V : Type) := mkO { o_items : list (item V); o_dirty : bool }.
Arguments mkO {V}. Arguments o_items {V}. Arguments o_dirty {V}.
(** The field in the parent's segment; the parent's lists[f]; the objects there are; the parent's dirtyLists of this field. *)
Record fstate (V : Type) := mkF { f_seg : option (list V); f_cache : option nat; f_objs : list (lobj V); f_wait : list nat }.
Arguments mkF {V}. Arguments f_seg {V}. Arguments f_cache {V}. Arguments f_objs {V}. Arguments f_wait {V}.

(** New, and Unmarshal of a message in which the field has these items. *)
Definition f_new {V} : fstate V := mkF None None [] [].
Definition f_read {V} (l : list V) : fstate V := mkF (Some l) None [] [].

(** What a program does with the field through the accessor: ask for the list, Append, Set, SetAll, change the item number i by its own
    setters so that it has the value v; Marshal. *)
Inductive edit (V : Type) := EAccess | EAppend (l : list V) | ESetItem (i : Z) (v : V) | ESetAll (l : list V) | EChange (i : Z) (v : V) | EMarshal.
Arguments EAccess {V}. Arguments EAppend {V}. Arguments ESetItem {V}. Arguments ESetAll {V}. Arguments EChange {V}. Arguments EMarshal {V}.

Section Structs.
(** junk: what is read in an item whose bytes were written over; beyond: what happens where the bytes of an item that is a part of the
    parent's segment are changed.  Both may be anything. *)
Context {V : Type} (venc : V -> bytes) (vdec : bytes -> res V) (vread : bytes -> res (V * bytes))
  (vdiff : V -> V -> res (option bytes)) (vapply : bytes -> V -> res V)
  (junk : V -> V) (beyond : fstate V -> Z -> V -> res (fstate V)) (f : Z).
Notation st := (fstate V).

Definition val (x : item V) : V := match x with Own v | View v => v | Stale v => junk v end.
Definition objAt (s : st) (i : nat) : lobj V := nth i (f_objs s) (mkO [] false).
Definition putObj (s : st) (i : nat) (o : lobj V) : st :=
  mkF (f_seg s) (f_cache s) (firstn i (f_objs s) ++ o :: skipn (S i) (f_objs s)) (f_wait s).

(** NewStructs, 1000-1017. *)
Definition NewStructs (s : st) : st * nat :=
  let i := length (f_objs s) in
  (mkF (f_seg s) (Some i) (f_objs s ++ [mkO (match f_seg s with Some l => map View l | None => [] end) false]) (f_wait s ++ [i]), i).
(** GetListStructs, getters.go:236-249. *)
Definition GetListStructs (s : st) : st * option nat :=
  match f_cache s with
  | Some i => (s, Some i)
  | None => match f_seg s with None => (s, None) | Some _ => let (s, i) := NewStructs s in (s, Some i) end
  end.
(** The accessor XxxList, struct.tmpl:496-512. *)
Definition XxxList (s : st) : st * nat :=
  match GetListStructs s with (s, Some i) => (s, i) | (s, None) => NewStructs s end.
(** ClearField, getters.go:253-258. *)
Definition ClearStructs (s : st) : st := mkF None None (f_objs s) [].
(** Append 1060-1080, Set 1095-1114, SetAll 1117-1133: without the recording. *)
Definition append (s : st) (i : nat) (l : list (item V)) : st := putObj s i (mkO (o_items (objAt s i) ++ l) true).
Definition upd {A} (l : list A) (k : Z) (x : A) : list A := take k l ++ x :: drop (k + 1) l.
Definition setItem (s : st) (i : nat) (k : Z) (x : item V) : res st :=
  if (k <? 0) || (k >=? len (o_items (objAt s i))) then Panic
  else Ok (putObj s i (mkO (upd (o_items (objAt s i)) k x) true)).
Definition setAll (s : st) (i : nat) (l : list (item V)) : st := putObj s i (mkO l true).
(** Get, 1082-1087, and then setters of the item; the list does not notice. *)
Definition changeItem (s : st) (i : nat) (k : Z) (v : V) : res st :=
  if (k <? 0) || (k >=? len (o_items (objAt s i))) then Panic
  else match nth_error (o_items (objAt s i)) (Z.to_nat k) with
       | Some (Own _) => Ok (putObj s i (mkO (upd (o_items (objAt s i)) k (Own v)) (o_dirty (objAt s i))))
       | Some _ => beyond s k v
       | None => Panic
       end.

(** SyncToSegment, 1190-1240: insertField and removeField move the bytes of the segment. *)
Definition stale (x : item V) : item V := match x with View v => Stale v | y => y end.
Definition sync (s : st) (i : nat) : st :=
  let o := objAt s i in
  if o_dirty o then
    let s := putObj s i (mkO (o_items o) false) in
    mkF (match o_items o with [] => None | l => Some (map val l) end) (f_cache s) (map (fun o => mkO (map stale (o_items o)) (o_dirty o)) (f_objs s)) (f_wait s)
  else s.
(** syncDirtyLists, struct.go:304-312, as part of Marshal. *)
Definition Marshal (s : st) : st := let s := fold_left sync (f_wait s) s in mkF (f_seg s) (f_cache s) (f_objs s) [].

Definition step (s : st) (e : edit V) : res st :=
  match e with
  | EAccess => Ok (fst (XxxList s))
  | EAppend l => let (s, i) := XxxList s in Ok (append s i (map Own l))
  | ESetItem k v => let (s, i) := XxxList s in setItem s i k (Own v)
  | ESetAll l => let (s, i) := XxxList s in Ok (setAll s i (map Own l))
  | EChange k v => let (s, i) := XxxList s in changeItem s i k v
  | EMarshal => Ok (Marshal s)
  end.
Fixpoint run (s : st) (es : list (edit V)) : res st := match es with [] => Ok s | e :: q => s <- step s e ;; run s q end.

(** The operations that are recorded: Append 1065-1078, Set 1102-1113, SetAll 1122-1132 with encodeStructsForPatch 1136-1152. *)
Definition encodeStructs (l : list V) : bytes := le_enc 4 (len l) ++ concat (map venc l).
Definition recorded (s : st) (e : edit V) : list rop :=
  match e with
  | EAppend l => let (s, i) := XxxList s in
                 map (fun p => mkRop f OpListInsert (s32 (len (o_items (objAt s i)) + Z.of_nat (fst p))) (venc (snd p))) (combine (seq 0 (length l)) l)
  | ESetItem k v => [mkRop f OpListSet (s32 k) (venc v)]
  | ESetAll l => [mkRop f OpListReplace NoListIndex (encodeStructs l)]
  | _ => []
  end.
Fixpoint records (s : st) (es : list (edit V)) : list rop :=
  match es with [] => [] | e :: q => recorded s e ++ match step s e with Ok s => records s q | _ => [] end end.

(** ** Diff: diffListStructs, diff.go:687-776, createListReplaceStructs, 1032-1060 *)
Fixpoint patches (i : Z) (a b : list V) : res (list rop) :=
  match a, b with
  | x :: a, y :: b =>
      d <- vdiff x y ;; r <- patches (i + 1) a b ;;
      Ok (match d with None => r | Some p => mkRop f OpListStructPatch (s32 i) p :: r end)
  | _, _ => Ok []
  end.
Definition replaceStructs (b : list V) : list rop := [mkRop f OpListReplace NoListIndex (if len b =? 0 then [] else encodeStructs b)].
Definition diff_structs (a b : list V) : res (list rop) :=
  if (len a =? 0) && (len b =? 0) then Ok []
  else
    p <- patches 0 a b ;;
    let ops := p ++ list_inserts venc f a b ++ list_removes f a b in
    Ok (if (0 <? len ops) && ((len a + len b) / 2 <? len ops) then replaceStructs b else ops).
Definition items_of (s : st) (o : option nat) : list V := match o with Some i => map val (o_items (objAt s i)) | None => [] end.
Definition DiffStructs (from to : st) : res (st * st * list rop) :=
  let (from, i) := GetListStructs from in let (to, j) := GetListStructs to in
  ops <- diff_structs (items_of from i) (items_of to j) ;; Ok (from, to, ops).

(** ** Apply *)
(** applyListReplaceStructs, apply.go:291-312: the items.  The caller clips the number to one more than the data can hold. *)
Fixpoint readItems (n : nat) (data : bytes) : res (list V) :=
  match n with
  | O => Ok []
  | S n => '(v, rest) <- vread data ;; r <- readItems n rest ;; Ok (v :: r)
  end.
(** 212-236. *)
Definition applyReplace (s : st) (data : bytes) : res st :=
  if len data =? 0 then Ok (ClearStructs s)
  else if len data <? 4 then Err
  else
    let (s, i) := NewStructs s in
    l <- readItems (Z.to_nat (Z.min (Base.le_dec (take 4 data)) (len data + 1))) (drop 4 data) ;;
    Ok (match l with [] => s | _ => append s i (map Own l) end).
(** 318-320, 363-373. *)
Definition applySet (s : st) (k : Z) (data : bytes) : res st :=
  if k <? 0 then Err
  else match GetListStructs s with
       | (_, None) => Err
       | (s, Some i) => if k >=? len (o_items (objAt s i)) then Err else v <- vdec data ;; setItem s i k (Own v)
       end.
(** 434-436, 574-601. *)
Definition applyInsert (s : st) (k : Z) (data : bytes) : res st :=
  if k <? 0 then Err
  else
    let (s, o) := GetListStructs s in
    let existing := match o with Some i => o_items (objAt s i) | None => [] end in
    if k >? len existing then Err
    else v <- vdec data ;; let (s, i) := NewStructs s in Ok (append s i (ins existing k (Own v))).
(** 607-609, 730-749. *)
Definition applyRemove (s : st) (k : Z) : res st :=
  if k <? 0 then Err
  else match GetListStructs s with
       | (_, None) => Err
       | (s, Some i) =>
           let existing := o_items (objAt s i) in
           if k >=? len existing then Err
           else if len existing =? 1 then Ok (ClearStructs s)
           else let (s, i) := NewStructs s in Ok (append s i (del existing k))
       end.
(** applyListStructPatch, 751-788; the depth is left out.  A negative index is not looked for: Get panics. *)
Definition applyPatch (s : st) (k : Z) (data : bytes) : res st :=
  match GetListStructs s with
  | (_, None) => Err
  | (s, Some i) =>
      if k >=? len (o_items (objAt s i)) then Err
      else if k <? 0 then Panic
      else match nth_error (o_items (objAt s i)) (Z.to_nat k) with
           | Some x => v <- vapply data (val x) ;; changeItem s i k v
           | None => Panic
           end
  end.
(** applyOpWithDepth, 51-83, on the field (operations of other fields change other fields only); Set and StructPatch are refused (160, 182-184). *)
Definition apply_op (s : st) (o : rop) : res st :=
  if negb (r_fn o =? f) then Ok s
  else if r_type o =? OpClear then Ok (ClearStructs s)
  else if r_type o =? OpListReplace then applyReplace s (r_data o)
  else if r_type o =? OpListSet then applySet s (r_index o) (r_data o)
  else if r_type o =? OpListInsert then applyInsert s (r_index o) (r_data o)
  else if r_type o =? OpListRemove then applyRemove s (r_index o)
  else if r_type o =? OpListStructPatch then applyPatch s (r_index o) (r_data o)
  else if (r_type o =? OpSet) || (r_type o =? OpStructPatch) then Err
  else Ok s.
Fixpoint apply_ops (s : st) (ops : list rop) : res st := match ops with [] => Ok s | o :: r => s <- apply_op s o ;; apply_ops s r end.
(** Apply, 27-48. *)
Definition ApplyStructs (base : st) (version : Z) (ops : list rop) : res st :=
  if negb (version =? PatchVersion) then Err
  else if MaxPatchOps <? len ops then Err
  else apply_ops base ops.
End Structs.
