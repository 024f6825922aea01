(** The list objects of a struct: Bools, Numbers, Strings and Bytes of
    clawc/languages/go/segment/lists.go, the list cache and the dirty lists of struct.go,
    and the generated list accessors of clawc/internal/idl/struct.tmpl.
    Structs lists and maps use the same cache; they are not in this file (a Structs list
    registers itself also when it is read from the wire, lists.go:999-1017).  Items are
    values: Bytes.Append keeps the caller's slices (lists.go:819), which is not shown. *)
From Verif.Model Require Export Struct Scalar Lists.
From Verif.Spec Require Export ListEdits.

(** The content of a list object: Bools lists.go:16-21, Numbers 188-195 (with its element
    type), Strings 607-612 and Bytes 794-799 (the flag tells which). *)
Inductive content :=
| CBools (items : list bool) (dirty : bool)
| CNums (k : kind) (nu : numbers)
| CBlobs (str : bool) (items : list bytes) (dirty : bool).
Record lobj := mkL { lo_f : Z; lo_c : content }.
Definition is_dirty (c : content) : bool :=
  match c with CBools _ d | CBlobs _ _ d => d | CNums _ nu => nu.(nu_dirty) end.
Definition c_type (c : content) : lty :=
  match c with CBools _ _ => LBools | CNums k _ => LNums k | CBlobs s _ _ => LBlobs s end.

(** Struct with its lists (struct.go:36-40): the objects that exist, by identity, the cache
    by field number, the dirty lists in registration order. *)
Record hstruct := mkH { h_s : strct; h_objs : list lobj; h_lists : list (Z * nat); h_dirty : list (Z * nat) }.
Definition hstart (s : strct) : hstruct := mkH s [] [] [].

(** GetList, struct.go:279-284. *)
Fixpoint GetList (f : Z) (l : list (Z * nat)) : option nat :=
  match l with [] => None | (g, i) :: r => if f =? g then Some i else GetList f r end.
(** ClearListCache, struct.go:297-301; SetList, struct.go:287-292. *)
Definition ClearListCache (f : Z) (l : list (Z * nat)) : list (Z * nat) :=
  filter (fun p => negb (fst p =? f)) l.
Definition SetList (f : Z) (i : nat) (l : list (Z * nat)) : list (Z * nat) := (f, i) :: ClearListCache f l.

(** The parse in GetListBools, GetListNumbers, GetListStrings and GetListBytes,
    getters.go:21-51, 82-131, 150-181, 195-228. *)
Definition parse_list (s : strct) (f : Z) (t : lty) : res (option content) :=
  match t with
  | LBools => o <- get_bools s f ;; Ok (option_map (fun l => CBools l false) o)
  | LNums k => o <- get_numbers s f k ;; Ok (option_map (CNums k) o)
  | LBlobs b => o <- get_blobs s f ;; Ok (option_map (fun l => CBlobs b l false) o)
  end.
(** NewBools 24-32, NewNumbers 222-230, NewStrings 615-623 and NewBytes 802-810 on an absent field. *)
Definition new_content (t : lty) : content :=
  match t with LBools => CBools [] false | LNums k => CNums k nu_empty | LBlobs b => CBlobs b [] false end.

Definition lty_eq_dec (a b : lty) : {a = b} + {a <> b}.
Proof. decide equality; [decide equality|apply Bool.bool_dec]. Defined.

(** The generated accessor, struct.tmpl:373-381, 402-420, 440-448, 467-475: the cached
    object, or the list parsed from the segment, put in the cache only (SetList), or a new
    empty list, put in the cache and among the dirty lists (RegisterDirtyList,
    struct.go:272-276).  The cached object has the type of the field, else the type
    assertion panics; the fall back of GetListNumbers for another numeric type,
    getters.go:65-73, is not reached by generated accessors. *)
Definition h_list (h : hstruct) (f : Z) (t : lty) : res (hstruct * nat) :=
  match GetList f h.(h_lists) with
  | Some i =>
      match nth_error h.(h_objs) i with
      | Some o => if lty_eq_dec (c_type o.(lo_c)) t then Ok (h, i) else Panic
      | None => Panic
      end
  | None =>
      c <- parse_list h.(h_s) f t ;;
      s <- ensureFieldIndexParsed h.(h_s) ;;
      let i := length h.(h_objs) in
      match c with
      | Some c => Ok (mkH s (h.(h_objs) ++ [mkL f c]) (SetList f i h.(h_lists)) h.(h_dirty), i)
      | None => Ok (mkH s (h.(h_objs) ++ [mkL f (new_content t)]) (SetList f i h.(h_lists))
                        (h.(h_dirty) ++ [(f, i)]), i)
      end
  end.

(** Append, Set and SetAll of Bools (40-44, 69-75, 92-95), Strings (631-634, 657-662,
    675-678) and Bytes (818-821, 846-852, 867-873) on the items. *)
Definition edit_items {A} (l : list A) (e : ledit A) : res (list A) :=
  match e with
  | EAppend x => Ok (l ++ x)
  | ESet i x => if (i <? 0) || (i >=? len l) then Panic else Ok (upd l i x)
  | ESetAll x => Ok x
  end.
Definition edit_numbers (k : kind) (nu : numbers) (e : ledit Z) : res numbers :=
  match e with
  | EAppend x => Ok (nu_append k nu x)
  | ESet i x => nu_set k nu i x
  | ESetAll x => Ok (nu_setall k x)
  end.
(** Err stands for an edit that does not type check. *)
Definition edit_content (c : content) (e : edit) : res content :=
  match c, e with
  | CBools l _, EBools e => l <- edit_items l e ;; Ok (CBools l true)
  | CNums k nu, ENums e => nu <- edit_numbers k nu e ;; Ok (CNums k nu)
  | CBlobs b l _, EBlobs e => l <- edit_items l e ;; Ok (CBlobs b l true)
  | _, _ => Err
  end.

(** The operations an edit records, lists.go:45-57, 77-88, 97-112 (Bools), 350-362, 443-453,
    494-504 (Numbers), 636-645, 664-671, 680-689 (Strings), 823-834, 854-863, 875-884 (Bytes). *)
Definition b2z (b : bool) : Z := if b then 1 else 0.
(** encodeStringsForPatch 694-711, encodeBytesForPatch 889-906. *)
Definition encodeForPatch (l : list bytes) : bytes :=
  le_enc 4 (u32 (len l)) ++ concat (map (fun b => le_enc 4 (u32 (len b)) ++ b) l).
Definition rec_edit {A} (f start : Z) (enc : A -> bytes) (encAll : list A -> bytes) (e : ledit A) : list rop :=
  match e with
  | EAppend l => map (fun p => mkRop f OpListInsert (s32 (start + Z.of_nat (fst p))) (enc (snd p)))
                     (combine (seq 0 (length l)) l)
  | ESet i x => [mkRop f OpListSet (s32 i) (enc x)]
  | ESetAll l => [mkRop f OpListReplace NoListIndex (encAll l)]
  end.
Definition recorded (f : Z) (c : content) (e : edit) : list rop :=
  match c, e with
  | CBools l _, EBools e => rec_edit f (len l) (fun b => [b2z b]) (map b2z) e
  | CNums k nu, ENums e => rec_edit f nu.(nu_len) (put_item k) (fun l => concat (map (put_item k) l)) e
  | CBlobs _ l _, EBlobs e => rec_edit f (len l) (fun b => b) encodeForPatch e
  | _, _ => []
  end.

(** An edit through the object i. *)
Definition h_edit (h : hstruct) (i : nat) (e : edit) : res hstruct :=
  match nth_error h.(h_objs) i with
  | None => Panic
  | Some o =>
      c <- edit_content o.(lo_c) e ;;
      Ok (mkH (fold_left RecordOp (recorded o.(lo_f) o.(lo_c) e) h.(h_s))
              (set_nth i (mkL o.(lo_f) c) h.(h_objs)) h.(h_lists) h.(h_dirty))
  end.

(** Slice of the object i: Bools 139-143, Numbers 536-542, Strings 739-743, Bytes 934-941. *)
Definition read_content (c : content) : res value :=
  match c with
  | CBools l _ => Ok (VBools l)
  | CNums k nu => l <- nu_slice k nu ;; Ok (VNums k l)
  | CBlobs b l _ => Ok (VBlobs b l)
  end.
Definition h_read (h : hstruct) (i : nat) : res value :=
  match nth_error h.(h_objs) i with None => Panic | Some o => read_content o.(lo_c) end.

(** SyncToSegment: Bools 150-183, Numbers 545-575, Strings 749-790, Bytes 947-985. *)
Definition clean (c : content) : content :=
  match c with
  | CBools l _ => CBools l false
  | CNums k nu => CNums k (mkNumbers nu.(nu_data) nu.(nu_len) false)
  | CBlobs b l _ => CBlobs b l false
  end.
Definition sync_content (s : strct) (f : Z) (c : content) : res strct :=
  match c with
  | CBools l _ => sync_bools s f l
  | CNums k nu => sync_numbers s f k nu
  | CBlobs b l _ => sync_blobs s f (if b then FTListStrings else FTListBytes) l
  end.
Definition SyncToSegment (h : hstruct) (i : nat) : res hstruct :=
  match nth_error h.(h_objs) i with
  | None => Panic
  | Some o =>
      if is_dirty o.(lo_c) then
        s <- sync_content h.(h_s) o.(lo_f) o.(lo_c) ;;
        Ok (mkH s (set_nth i (mkL o.(lo_f) (clean o.(lo_c))) h.(h_objs)) h.(h_lists) h.(h_dirty))
      else Ok h
  end.
Fixpoint sync_all (h : hstruct) (l : list (Z * nat)) : res hstruct :=
  match l with [] => Ok h | p :: r => h <- SyncToSegment h (snd p) ;; sync_all h r end.
Definition with_dirty (h : hstruct) (d : list (Z * nat)) : hstruct := mkH h.(h_s) h.(h_objs) h.(h_lists) d.
Definition with_s (h : hstruct) (s : strct) : hstruct := mkH s h.(h_objs) h.(h_lists) h.(h_dirty).

(** syncDirtyLists, struct.go:304-312. *)
Definition syncDirtyLists (h : hstruct) : res hstruct :=
  h <- sync_all h h.(h_dirty) ;; Ok (with_dirty h []).
(** SyncDirtyListsForField, struct.go:317-329. *)
Definition SyncDirtyListsForField (h : hstruct) (f : Z) : res hstruct :=
  h <- sync_all h (filter (fun p => fst p =? f) h.(h_dirty)) ;;
  Ok (with_dirty h (filter (fun p => negb (fst p =? f)) h.(h_dirty))).
(** ClearField, getters.go:257-262, with removeDirtyListsForField, struct.go:333-341. *)
Definition h_Clear (h : hstruct) (f : Z) : res hstruct :=
  s <- removeField h.(h_s) f ;;
  Ok (mkH s h.(h_objs) (ClearListCache f h.(h_lists)) (filter (fun p => negb (fst p =? f)) h.(h_dirty))).
(** Marshal, struct.go:387-406; MarshalWriter, 363-382, writes the same bytes. *)
Definition h_Marshal (h : hstruct) : res (hstruct * bytes) :=
  h <- syncDirtyLists h ;;
  '(s, b) <- Marshal h.(h_s) ;;
  Ok (with_s h s, b).
