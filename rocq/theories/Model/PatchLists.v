(** languages/go/patch (diff.go, apply.go) on the list fields of a struct: lists of bools,
    numbers, strings and bytes, as objects in memory (Model/ListHeap.v).  Lists of structs
    are in Model/StructsList.v.  A list of enums is a list of uint8 or uint16 read through a cached list
    of another Go type (getters.go:59-73); that detour is not modelled. *)
From Verif.Model Require Export Patch ListHeap.

(** mapping.Map.Fields: the list type of each field; other fields are None here. *)
Definition lmapping := list (option lty).
Definition ldescr (l : lmapping) (f : Z) : option lty :=
  if (0 <=? f) && (f <? len l) then match nth_error l (Z.to_nat f) with Some d => d | None => None end
  else None.

(** ** The list functions of segment that Diff and Apply call *)

(** GetListBools, GetListNumbers, GetListStrings, GetListBytes, getters.go:16-232: None is nil. *)
Definition get_list (h : hstruct) (f : Z) (t : lty) : res (hstruct * option nat) :=
  match GetList f h.(h_lists) with
  | Some i =>
      match nth_error h.(h_objs) i with
      | Some o => if lty_eq_dec (c_type o.(lo_c)) t then Ok (h, Some i) else Panic
      | None => Panic
      end
  | None =>
      c <- parse_list h.(h_s) f t ;;
      s <- ensureFieldIndexParsed h.(h_s) ;;
      match c with
      | Some c =>
          let i := length h.(h_objs) in
          Ok (mkH s (h.(h_objs) ++ [mkL f c]) (SetList f i h.(h_lists)) h.(h_dirty), Some i)
      | None => Ok (with_s h s, None)
      end
  end.
(** NewBools, NewStrings, NewBytes, lists.go:24-32, 615-623, 802-810. *)
Definition new_list (h : hstruct) (f : Z) (t : lty) : hstruct * nat :=
  let i := length h.(h_objs) in
  (mkH h.(h_s) (h.(h_objs) ++ [mkL f (new_content t)]) (SetList f i h.(h_lists)) (h.(h_dirty) ++ [(f, i)]), i).
(** SetListNumbersRaw, getters.go:330-352. *)
Definition raw_set (h : hstruct) (f : Z) (k : kind) (itemData : bytes) : res hstruct :=
  s <- (if len itemData =? 0 then removeField h.(h_s) f
        else d <- numbers_field f k itemData ;; insertField h.(h_s) f d) ;;
  Ok (mkH s h.(h_objs) (ClearListCache f h.(h_lists)) h.(h_dirty)).
(** Slice of a list the getter returned; a nil list gives the empty slice. *)
Definition slice_of (h : hstruct) (o : option nat) (t : lty) : res value :=
  match o with Some i => h_read h i | None => Ok (empty_list t) end.

(** ** Diff *)

(** The three loops of diffListBool 358-401, diffListNumberTyped 460-492,
    diffListNumberFloat 527-562 and diffListBytes 609-640. *)
Definition list_sets {A} (eq : A -> A -> bool) (enc : A -> bytes) (f : Z) (a b : list A) : list rop :=
  flat_map (fun p : nat * (A * A) =>
    let '(i, (x, y)) := p in
    if eq x y then [] else [mkRop f OpListSet (s32 (Z.of_nat i)) (enc y)])
    (combine (seq 0 (length a)) (combine a b)).
Definition list_inserts {A} (enc : A -> bytes) (f : Z) (a b : list A) : list rop :=
  map (fun p => mkRop f OpListInsert (s32 (Z.of_nat (fst p))) (enc (snd p)))
      (combine (seq (length a) (length b - length a)) (skipn (length a) b)).
Definition list_removes {A} (f : Z) (a b : list A) : list rop :=
  map (fun i => mkRop f OpListRemove (s32 (Z.of_nat i)) [])
      (rev (seq (length b) (length a - length b))).
(** The rest of these functions; [rep] is the outcome of createListReplace.... *)
Definition diff_items {A} (eq : A -> A -> bool) (enc : A -> bytes) (rep : list A -> list rop)
    (f : Z) (a b : list A) : list rop :=
  if (len a =? 0) && (len b =? 0) then []
  else
    let ops := list_sets eq enc f a b ++ list_inserts enc f a b ++ list_removes f a b in
    if (0 <? len ops) && ((len a + len b) / 2 <? len ops) then rep b else ops.

(** createListReplaceBools 778-798, createListReplaceBytes 1008-1047. *)
Definition replace_bools (f : Z) (b : list bool) : list rop :=
  [mkRop f OpListReplace NoListIndex (map b2z b)].
Definition replace_blobs (f : Z) (b : list bytes) : list rop :=
  [mkRop f OpListReplace NoListIndex (if len b =? 0 then [] else encodeForPatch b)].
(** diffListNumberReplace 800-873 with encodeListNumber 875-918 and its float versions. *)
Definition replace_nums (f : Z) (k : kind) (a b : list Z) : list rop :=
  if (len a =? len b) && forallb (fun p => num_equal k (fst p) (snd p)) (combine a b) then []
  else [mkRop f OpListReplace NoListIndex (concat (map (num_data k) b))].

(** diffListBool 335-408, diffListNumber 410-568, diffListBytes 570-655: the operations
    from two slices. *)
Definition diff_values (f : Z) (a b : value) : list rop :=
  match a, b with
  | VBools a, VBools b => diff_items Bool.eqb (fun x => [b2z x]) (replace_bools f) f a b
  | VNums k a, VNums _ b => diff_items (num_equal k) (num_data k) (replace_nums f k a) f a b
  | VBlobs _ a, VBlobs _ b => diff_items bytes_equal (fun x => x) (replace_blobs f) f a b
  | _, _ => []
  end.
(** With the getters.  For a list of bytes the nil *Bytes is put into an interface value
    (diff.go:587-588), which is then not nil, and Len dereferences it. *)
Definition diff_list (from to : hstruct) (f : Z) (t : lty) : res (hstruct * hstruct * list rop) :=
  '(from, i) <- get_list from f t ;; '(to, j) <- get_list to f t ;;
  if match t, i, j with LBlobs false, None, _ | LBlobs false, _, None => true | _, _, _ => false end then Panic
  else
    a <- slice_of from i t ;; b <- slice_of to j t ;;
    Ok (from, to, diff_values f a b).
(** diffStructToPatch, diff.go:64-87, on the list fields. *)
Fixpoint diff_lists (from to : hstruct) (i : Z) (l : lmapping) : res (hstruct * hstruct * list rop) :=
  match l with
  | [] => Ok (from, to, [])
  | None :: r => diff_lists from to (i + 1) r
  | Some t :: r =>
      '(from, to, x) <- diff_list from to i t ;;
      '(from, to, y) <- diff_lists from to (i + 1) r ;; Ok (from, to, x ++ y)
  end.
Definition DiffLists (l : lmapping) (from to : hstruct) := diff_lists from to 0 l.

(** ** Apply *)

(** The item bytes of a number list in the segment: getNumberListItemData 402-428 (None:
    the field is not there) and applyListInsertNumber 506-519. *)
Definition item_data (s : strct) (f : Z) (itemSize : Z) : res (option bytes) :=
  '(offset, size) <- FieldOffset s f ;;
  if size =? 0 then Ok None
  else
    data <- slice s.(st_data) offset (offset + size) ;;
    if len data <? HeaderSize then Ok None
    else
      hd <- slice data 0 HeaderSize ;;
      '(_, _, totalSize) <- DecodeHeader hd ;;
      d <- slice data HeaderSize (HeaderSize + Z.quot (totalSize - HeaderSize) itemSize * itemSize) ;;
      Ok (Some d).

(** NewX followed by SetAll. *)
Definition fresh_list (h : hstruct) (f : Z) (v : value) : res hstruct :=
  match v with
  | VBools l => let '(h, i) := new_list h f LBools in h_edit h i (EBools (ESetAll l))
  | VBlobs b l => let '(h, i) := new_list h f (LBlobs b) in h_edit h i (EBlobs (ESetAll l))
  | _ => Panic
  end.

(** applyListReplaceBytes 256-274: the items.  [n] is the number of items still to read;
    the caller clips it to one more than the data can hold, where the loop fails anyway. *)
Fixpoint dec_items (n : nat) (data : bytes) : res (list bytes) :=
  match n with
  | O => Ok []
  | S n =>
      if len data <? 4 then Err
      else
        let itemLen := Base.le_dec (take 4 data) in
        let rest := drop 4 data in
        if len rest <? itemLen then Err
        else r <- dec_items n (drop itemLen rest) ;; Ok (take itemLen rest :: r)
  end.
Definition dec_list (data : bytes) : res (list bytes) :=
  if len data <? 4 then Err
  else dec_items (Z.to_nat (Z.min (Base.le_dec (take 4 data)) (len data + 1))) (drop 4 data).

(** applyListReplace 212-290. *)
Definition apply_replace (h : hstruct) (f : Z) (t : lty) (data : bytes) : res hstruct :=
  if len data =? 0 then h_Clear h f
  else match t with
       | LBools => fresh_list h f (VBools (map (fun b => negb (b =? 0)) data))
       | LNums k => raw_set h f k data
       | LBlobs b => l <- dec_list data ;; fresh_list h f (VBlobs b l)
       end.

(** The item an operation carries: data[0] != 0, or the bytes. *)
Definition first_bool (data : bytes) : bool := match data with x :: _ => negb (x =? 0) | [] => false end.

(** applyListSet 316-378 with applyListSetNumber 380-400. *)
Definition apply_set (h : hstruct) (f : Z) (t : lty) (i : Z) (data : bytes) : res hstruct :=
  if i <? 0 then Err
  else match t with
       | LNums k =>
           let sz := kind_width k in
           h <- SyncDirtyListsForField h f ;;
           d <- item_data h.(h_s) f sz ;;
           match d with
           | None => Err
           | Some d =>
               if i * sz >=? len d then Err
               else if len data <? sz then Err
               else d <- copy_at d (i * sz) (take sz data) ;; raw_set h f k d
           end
       | _ =>
           '(h, o) <- get_list h f t ;;
           match o with
           | None => Err
           | Some j =>
               v <- h_read h j ;;
               match v with
               | VBools l =>
                   if i >=? len l then Err
                   else if len data <? 1 then Err else h_edit h j (EBools (ESet i (first_bool data)))
               | VBlobs _ l => if i >=? len l then Err else h_edit h j (EBlobs (ESet i data))
               | _ => Panic
               end
           end
       end.

(** applyListInsert 432-589.  The number version does not write dirty lists first. *)
Definition ins {A} (l : list A) (i : Z) (x : A) : list A := take i l ++ x :: drop i l.
Definition apply_insert (h : hstruct) (f : Z) (t : lty) (i : Z) (data : bytes) : res hstruct :=
  if i <? 0 then Err
  else match t with
       | LNums k =>
           let sz := kind_width k in
           if len data <? sz then Err
           else
             d <- item_data h.(h_s) f sz ;;
             let existing := match d with Some d => d | None => [] end in
             if i >? len existing / sz then Err
             else raw_set h f k (take (i * sz) existing ++ take sz data ++ drop (i * sz) existing)
       | _ =>
           '(h, o) <- get_list h f t ;; v <- slice_of h o t ;;
           match v with
           | VBools l =>
               if i >? len l then Err
               else if len data <? 1 then Err else fresh_list h f (VBools (ins l i (first_bool data)))
           | VBlobs b l => if i >? len l then Err else fresh_list h f (VBlobs b (ins l i data))
           | _ => Panic
           end
       end.

(** applyListRemove 591-748. *)
Definition del {A} (l : list A) (i : Z) : list A := take i l ++ drop (i + 1) l.
Definition apply_remove (h : hstruct) (f : Z) (t : lty) (i : Z) : res hstruct :=
  if i <? 0 then Err
  else match t with
       | LNums k =>
           let sz := kind_width k in
           h <- SyncDirtyListsForField h f ;;
           d <- item_data h.(h_s) f sz ;;
           match d with
           | None => Err
           | Some d =>
               let n := len d / sz in
               if i >=? n then Err
               else if n =? 1 then h_Clear h f
               else raw_set h f k (take (i * sz) d ++ drop (i * sz + sz) d)
           end
       | _ =>
           '(h, o) <- get_list h f t ;;
           match o with
           | None => Err
           | Some j =>
               v <- h_read h j ;;
               match v with
               | VBools l =>
                   if i >=? len l then Err
                   else if len l =? 1 then h_Clear h f else fresh_list h f (VBools (del l i))
               | VBlobs b l =>
                   if i >=? len l then Err
                   else if len l =? 1 then h_Clear h f else fresh_list h f (VBlobs b (del l i))
               | _ => Panic
               end
           end
       end.

(** applyOpWithDepth 50-80 on a list field; Set and the struct patches are refused (154,
    178-180, 755-757); on a field the mapping does not have only the struct patches are. *)
Definition apply_list_op (l : lmapping) (h : hstruct) (o : rop) : res hstruct :=
  match ldescr l (r_fn o) with
  | None => if (r_type o =? OpStructPatch) || (r_type o =? OpListStructPatch) then Err else Ok h
  | Some t =>
      let f := r_fn o in
      if r_type o =? OpClear then h_Clear h f
      else if r_type o =? OpListReplace then apply_replace h f t (r_data o)
      else if r_type o =? OpListSet then apply_set h f t (r_index o) (r_data o)
      else if r_type o =? OpListInsert then apply_insert h f t (r_index o) (r_data o)
      else if r_type o =? OpListRemove then apply_remove h f t (r_index o)
      else if (r_type o =? OpSet) || (r_type o =? OpStructPatch) || (r_type o =? OpListStructPatch) then Err
      else Ok h
  end.
Fixpoint apply_list_ops (l : lmapping) (h : hstruct) (ops : list rop) : res hstruct :=
  match ops with [] => Ok h | o :: r => h <- apply_list_op l h o ;; apply_list_ops l h r end.
(** Apply, apply.go:27-48. *)
Definition ApplyLists (l : lmapping) (base : hstruct) (version : Z) (ops : list rop) : res hstruct :=
  if negb (version =? PatchVersion) then Err
  else if MaxPatchOps <? len ops then Err
  else apply_list_ops l base ops.
