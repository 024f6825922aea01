(** clawc/languages/go/segment/lists.go and the list getters of getters.go: the
    encoding of each list kind into its field bytes and back, and the in-memory
    list objects.  The registration of list objects with their parent struct
    (dirty lists, cache) is in Model/ListHeap.v. *)
From Verif.Model Require Import Base Field Header Segment Struct Scalar.

(** ** Bools *)

(** The packing loop of Bools.SyncToSegment, lists.go:172-178. *)
Fixpoint pack_bools (data : bytes) (i : Z) (items : list bool) : res bytes :=
  match items with
  | [] => Ok data
  | v :: r =>
      data <- (if v then
                 b <- index data (8 + i / 8) ;;
                 Ok (upd data (8 + i / 8) (Z.lor b (u8 (Z.shiftl 1 (i mod 8)))))
               else Ok data) ;;
      pack_bools data (i + 1) r
  end.

(** The field bytes of Bools.SyncToSegment, lists.go:161-178. *)
Definition bools_field (fieldNum : Z) (items : list bool) : res bytes :=
  let numBytes := (len items + 7) / 8 in
  let totalSize := HeaderSize + numBytes + paddingNeeded numBytes in
  fieldData <- EncodeHeader (zeros totalSize) fieldNum FTListBools (len items) ;;
  pack_bools fieldData 0 items.

(** Bools.SyncToSegment, lists.go:150-183, for a dirty list. *)
Definition sync_bools (parent : strct) (fieldNum : Z) (items : list bool) : res strct :=
  if len items =? 0 then removeField parent fieldNum
  else fieldData <- bools_field fieldNum items ;; insertField parent fieldNum fieldData.

(** The unpacking loop of GetListBools, getters.go:37-44.  [n] counts the items
    still to read; the loop stops with a panic at the first byte out of range. *)
Fixpoint unpack_bools (n : nat) (data : bytes) (i : Z) : res (list bool) :=
  match n with
  | O => Ok []
  | S n =>
      b <- index data (HeaderSize + i / 8) ;;
      r <- unpack_bools n data (i + 1) ;;
      Ok (negb (Z.land b (u8 (Z.shiftl 1 (i mod 8))) =? 0) :: r)
  end.

(** GetListBools on a list that is not cached, getters.go:21-44; None is nil.
    Simplification: the count is clipped to one item past the last byte, where the
    loop panics anyway, so that the model does not build a unary 2^40. *)
Definition get_bools (s : strct) (fieldNum : Z) : res (option (list bool)) :=
  '(offset, size) <- FieldOffset s fieldNum ;;
  if size =? 0 then Ok None
  else
    data <- slice s.(st_data) offset (offset + size) ;;
    if len data <? HeaderSize then Ok None
    else
      h <- slice data 0 HeaderSize ;;
      '(_, _, count) <- DecodeHeader h ;;
      l <- unpack_bools (Z.to_nat (Z.min count (8 * len data + 1))) data 0 ;;
      Ok (Some l).

(** ** Numbers *)

(** itemSize, lists.go:286-289 / reflect Size, getters.go:88. *)
Definition item_size (k : kind) : nat :=
  match k with
  | KBool | KI8 | KU8 => 1
  | KI16 | KU16 => 2
  | KI32 | KU32 | KF32 => 4
  | KI64 | KU64 | KF64 => 8
  end.
(** fieldType, lists.go:578-604. *)
Definition list_ft (k : kind) : Z :=
  match k with
  | KBool => 0
  | KI8 => FTListInt8 | KI16 => FTListInt16 | KI32 => FTListInt32 | KI64 => FTListInt64
  | KU8 => FTListUint8 | KU16 => FTListUint16 | KU32 => FTListUint32 | KU64 => FTListUint64
  | KF32 => FTListFloat32 | KF64 => FTListFloat64
  end.

(** Writing one item, lists.go:323-344 (also 419-440, 469-490).  Floats are bit
    patterns; the float32 -> float64 -> float32 detour through reflect is taken to
    be the identity on them (Go keeps every non-NaN value). *)
Definition put_item (k : kind) (v : Z) : bytes := le_enc (item_size k) v.
(** Reading one item, lists.go:378-401. *)
Definition get_item (k : kind) (b : bytes) : Z :=
  let u := le_dec b in
  match k with
  | KI8 => s8 u | KI16 => s16 u | KI32 => s32 u | KI64 => s64 u
  | _ => u
  end.

(** Numbers, lists.go:188-195, without parent, fieldNum and the unused header. *)
Record numbers := mkNumbers { nu_data : bytes; nu_len : Z; nu_dirty : bool }.
Definition nu_empty : numbers := mkNumbers [] 0 false.

(** Append, lists.go:297-348. *)
Fixpoint append_items (k : kind) (data : bytes) (values : list Z) : bytes :=
  match values with
  | [] => data
  | v :: r => append_items k (data ++ put_item k v) r
  end.
Definition nu_append (k : kind) (n : numbers) (values : list Z) : numbers :=
  mkNumbers (append_items k n.(nu_data) values) (n.(nu_len) + len values) true.

(** Get, lists.go:366-404. *)
Definition nu_get (k : kind) (n : numbers) (i : Z) : res Z :=
  if (i <? 0) || (i >=? n.(nu_len)) then Panic
  else
    let sz := Z.of_nat (item_size k) in
    b <- slice n.(nu_data) (i * sz) (i * sz + sz) ;;
    Ok (get_item k b).

(** Set, lists.go:407-441. *)
Definition nu_set (k : kind) (n : numbers) (i v : Z) : res numbers :=
  if (i <? 0) || (i >=? n.(nu_len)) then Panic
  else
    let sz := Z.of_nat (item_size k) in
    d <- le_put (item_size k) n.(nu_data) (i * sz) v ;;
    Ok (mkNumbers d n.(nu_len) true).

(** SetAll, lists.go:456-492. *)
Definition nu_setall (k : kind) (values : list Z) : numbers :=
  mkNumbers (append_items k [] values) (len values) true.

(** Slice, lists.go:536-542. *)
Fixpoint nu_slice_from (k : kind) (n : numbers) (cnt : nat) (i : Z) : res (list Z) :=
  match cnt with
  | O => Ok []
  | S cnt =>
      v <- nu_get k n i ;;
      r <- nu_slice_from k n cnt (i + 1) ;;
      Ok (v :: r)
  end.
Definition nu_slice (k : kind) (n : numbers) : res (list Z) :=
  nu_slice_from k n (Z.to_nat n.(nu_len)) 0.

(** The field bytes of Numbers.SyncToSegment, lists.go:556-568. *)
Definition numbers_field (fieldNum : Z) (k : kind) (data : bytes) : res bytes :=
  let totalSize := HeaderSize + len data in
  fieldData <- EncodeHeader (zeros totalSize) fieldNum (list_ft k) totalSize ;;
  copy_at fieldData 8 data.

(** Numbers.SyncToSegment, lists.go:545-575, for a dirty list. *)
Definition sync_numbers (parent : strct) (fieldNum : Z) (k : kind) (n : numbers) : res strct :=
  if n.(nu_len) =? 0 then removeField parent fieldNum
  else fieldData <- numbers_field fieldNum k n.(nu_data) ;; insertField parent fieldNum fieldData.

(** GetListNumbers on a list that is not cached, getters.go:75-138, and the same
    parse in NewNumbers, lists.go:201-217. *)
Definition get_numbers (s : strct) (fieldNum : Z) (k : kind) : res (option numbers) :=
  '(offset, size) <- FieldOffset s fieldNum ;;
  if size =? 0 then Ok None
  else
    data <- slice s.(st_data) offset (offset + size) ;;
    if len data <? HeaderSize then Ok None
    else
      h <- slice data 0 HeaderSize ;;
      '(_, _, totalSize) <- DecodeHeader h ;;
      let isz := Z.of_nat (item_size k) in
      let dataLen := (Z.quot (totalSize - HeaderSize) isz) * isz in
      if dataLen <? 0 then Panic
      else
        d <- slice data HeaderSize (HeaderSize + dataLen) ;;
        Ok (Some (mkNumbers d (dataLen / isz) false)).

(** ** Strings and Bytes *)

(** The item loop of Strings.SyncToSegment, lists.go:775-784 (Bytes: 973-979). *)
Fixpoint put_blobs (data : bytes) (offset : Z) (items : list bytes) : res bytes :=
  match items with
  | [] => Ok data
  | it :: r =>
      data <- le_put 4 data offset (u32 (len it)) ;;
      data <- copy_at data (offset + 4) it ;;
      put_blobs data (offset + 4 + len it) r
  end.
Fixpoint blobs_size (items : list bytes) : Z :=
  match items with [] => 0 | it :: r => 4 + len it + blobs_size r end.
(** lists.go:760-784 and 958-979. [ft] is FTListStrings or FTListBytes. *)
Definition blobs_field (fieldNum ft : Z) (items : list bytes) : res bytes :=
  let dataSize := blobs_size items in
  let totalSize := HeaderSize + dataSize + paddingNeeded dataSize in
  fieldData <- EncodeHeader (zeros totalSize) fieldNum ft totalSize ;;
  put_blobs fieldData 8 items.
(** SyncToSegment of Strings (lists.go:749-791) and Bytes (947-986), dirty list. *)
Definition sync_blobs (parent : strct) (fieldNum ft : Z) (items : list bytes) : res strct :=
  if len items =? 0 then removeField parent fieldNum
  else fieldData <- blobs_field fieldNum ft items ;; insertField parent fieldNum fieldData.

(** The item loop of GetListStrings, getters.go:161-174 (GetListBytes: 206-221).
    Every round moves pos by at least 4, so fuel [length data] is enough. *)
Fixpoint parse_blobs (fuel : nat) (data : bytes) (pos : Z) : res (list bytes) :=
  match fuel with
  | O => Hang
  | S fuel =>
      if pos + 4 <=? len data then
        rest <- slice data pos (len data) ;;
        strLen <- le_get 4 rest ;;
        let pos := pos + 4 in
        if strLen =? 0 then
          r <- parse_blobs fuel data pos ;; Ok ([] :: r)
        else if pos + strLen <=? len data then
          it <- slice data pos (pos + strLen) ;;
          r <- parse_blobs fuel data (pos + strLen) ;;
          Ok (it :: r)
        else Ok []
      else Ok []
  end.
(** GetListStrings / GetListBytes on a list that is not cached, getters.go:149-183, 194-230. *)
Definition get_blobs (s : strct) (fieldNum : Z) : res (option (list bytes)) :=
  '(offset, size) <- FieldOffset s fieldNum ;;
  if size =? 0 then Ok None
  else
    data <- slice s.(st_data) offset (offset + size) ;;
    if len data <? HeaderSize then Ok None
    else
      l <- parse_blobs (S (length data)) data HeaderSize ;;
      Ok (Some l).

(** ** Structs *)

(** The item loop of Structs.SyncToSegment, lists.go:1223-1231.  Each item is the
    segment of one struct, already synced (1203-1207); its field number is
    overwritten by its index.  Returns the items after the call and the bytes. *)
Fixpoint put_structs (i : Z) (items : list bytes) : res (list bytes * bytes) :=
  match items with
  | [] => Ok ([], [])
  | it :: r =>
      it <- EncodeHeaderFieldNum it (u16 i) ;;
      '(items', out) <- put_structs (i + 1) r ;;
      Ok (it :: items', it ++ out)
  end.
(** Structs.SyncToSegment, lists.go:1201-1231: field bytes. The copy loop fills the
    buffer exactly, so it is written as a concatenation. *)
Definition structs_field (fieldNum : Z) (items : list bytes) : res (list bytes * bytes) :=
  let totalSize := HeaderSize + fold_right (fun it n => len it + n) 0 items in
  hdr <- EncodeHeader (zeros HeaderSize) fieldNum FTListStructs totalSize ;;
  '(items', out) <- put_structs 0 items ;;
  Ok (items', hdr ++ out).
(** Structs.SyncToSegment for a dirty list, lists.go:1190-1238; the items' new
    segments are returned besides the parent. *)
Definition sync_structs (parent : strct) (fieldNum : Z) (items : list strct)
  : res (strct * list strct) :=
  if len items =? 0 then p <- removeField parent fieldNum ;; Ok (p, items)
  else
    '(segs, fieldData) <- structs_field fieldNum (map st_data items) ;;
    p <- insertField parent fieldNum fieldData ;;
    Ok (p, map (fun '(it, d) => with_data it d) (combine items segs)).

(** parseFromSegment, lists.go:1020-1052, for an item mapping with n fields. *)
Fixpoint parse_structs (fuel : nat) (data : bytes) (n : nat) (pos : Z) : res (list strct) :=
  match fuel with
  | O => Hang
  | S fuel =>
      if pos + HeaderSize <=? len data then
        h <- slice data pos (pos + HeaderSize) ;;
        '(_, fieldType, structSize) <- DecodeHeader h ;;
        if negb (fieldType =? FTStruct) then Ok []
        else if (structSize <? HeaderSize) || (pos + structSize >? len data) then Ok []
        else
          d <- slice data pos (pos + structSize) ;;
          idx <- parseFieldIndex d (repeat fe_zero n) ;;
          r <- parse_structs fuel data n (pos + structSize) ;;
          Ok (mkStruct d idx false false None false [] :: r)
      else Ok []
  end.
(** NewStructs on an existing field, lists.go:1000-1017. *)
Definition get_structs (s : strct) (fieldNum : Z) (n : nat) : res (list strct) :=
  '(offset, size) <- FieldOffset s fieldNum ;;
  if size >? HeaderSize then
    data <- slice s.(st_data) offset (offset + size) ;;
    if len data <? HeaderSize then Ok []
    else parse_structs (S (length data)) data n HeaderSize
  else Ok [].
