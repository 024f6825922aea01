(** clawc/languages/go/segment/struct.go and parseFieldIndex of bytes.go.
    The list cache and dirty list bookkeeping (struct.go:36-40, 271-341) live in
    Model/ListHeap.v on top of this record. *)
From Verif.Model Require Import Base Field Header Segment.

(** fieldEntry, struct.go:12-18; offset and size are uint32. *)
Record fentry := mkFE { fe_off : Z; fe_size : Z; fe_set : bool }.
Definition fe_zero : fentry := mkFE 0 0 false.

(** RecordedOp, struct.go:66-71; op codes struct.go:75-87; NoListIndex struct.go:90. *)
Record rop := mkRop { r_fn : Z; r_type : Z; r_index : Z; r_data : bytes }.
Definition OpSet : Z := 1.
Definition OpClear : Z := 2.
Definition OpStructPatch : Z := 3.
Definition OpListReplace : Z := 4.
Definition OpListSet : Z := 5.
Definition OpListInsert : Z := 6.
Definition OpListRemove : Z := 7.
Definition OpListStructPatch : Z := 8.
Definition OpMapSet : Z := 9.
Definition OpMapDelete : Z := 10.
Definition NoListIndex : Z := -1.

(** Struct, struct.go:21-51, without parent (never read: propagateSizeToParent,
    struct.go:261-269, does nothing) and without the list cache (Model/ListHeap.v).
    The mapping is reduced to its number of fields, which is the length of the
    field index (struct.go:98, 566; segment.go:76-127). *)
Record strct := mkStruct {
  st_data : bytes;
  st_index : list fentry;
  st_parsed : bool;
  st_isSetOn : bool;
  st_isSet : option bytes;
  st_recording : bool;
  st_ops : list rop }.

Definition with_data (s : strct) d :=
  mkStruct d s.(st_index) s.(st_parsed) s.(st_isSetOn) s.(st_isSet) s.(st_recording) s.(st_ops).
Definition with_index (s : strct) i :=
  mkStruct s.(st_data) i s.(st_parsed) s.(st_isSetOn) s.(st_isSet) s.(st_recording) s.(st_ops).
Definition with_parsed (s : strct) b :=
  mkStruct s.(st_data) s.(st_index) b s.(st_isSetOn) s.(st_isSet) s.(st_recording) s.(st_ops).
Definition with_isSetOn (s : strct) b :=
  mkStruct s.(st_data) s.(st_index) s.(st_parsed) b s.(st_isSet) s.(st_recording) s.(st_ops).
Definition with_isSet (s : strct) b :=
  mkStruct s.(st_data) s.(st_index) s.(st_parsed) s.(st_isSetOn) b s.(st_recording) s.(st_ops).
Definition with_recording (s : strct) b :=
  mkStruct s.(st_data) s.(st_index) s.(st_parsed) s.(st_isSetOn) s.(st_isSet) b s.(st_ops).
Definition with_ops (s : strct) o :=
  mkStruct s.(st_data) s.(st_index) s.(st_parsed) s.(st_isSetOn) s.(st_isSet) s.(st_recording) o.

(** len(mapping.Fields). *)
Definition nfields (s : strct) : Z := len s.(st_index).

(** New, struct.go:94-105, for a mapping with n fields.  The pools hand out a
    cleared segment and a cleared index (segment.go:50-74, 96-127). *)
Definition New (n : nat) : res strct :=
  d <- EncodeHeader NewSegment 0 FTStruct 8 ;;
  Ok (mkStruct d (repeat fe_zero n) false false None false []).

(** SetIsSetEnabled, struct.go:118-130. *)
Definition isset_numbytes (n : Z) : Z :=
  let nb := (n + 6) / 7 in if nb =? 0 then 1 else nb.
Definition SetIsSetEnabled (s : strct) (enabled : bool) : strct :=
  let s := with_isSetOn s enabled in
  match enabled, s.(st_isSet) with
  | true, None =>
      let padded := ((isset_numbytes (nfields s) + 7) / 8) * 8 in
      with_isSet s (Some (zeros padded))
  | _, _ => s
  end.

(** markFieldSet, struct.go:133-141. *)
Definition markFieldSet (s : strct) (fieldNum : Z) : strct :=
  match s.(st_isSetOn), s.(st_isSet) with
  | true, Some bits =>
      let byteIdx := fieldNum / 7 in
      let bitIdx := fieldNum mod 7 in
      if byteIdx <? len bits then
        match nth_error bits (Z.to_nat byteIdx) with
        | Some b => with_isSet s (Some (upd bits byteIdx (Z.lor b (u8 (Z.shiftl 1 bitIdx)))))
        | None => s
        end
      else s
  | _, _ => s
  end.

(** paddingNeeded, bytes.go:9-18; sizeWithPadding, bytes.go:21-23. *)
Definition paddingNeeded (size : Z) : Z :=
  if size <=? 0 then 0
  else let leftOver := size mod 8 in if leftOver =? 0 then 0 else 8 - leftOver.
Definition sizeWithPadding (size : Z) : Z := size + paddingNeeded size.

(** any.go:12 *)
Definition AnyHashSize : Z := 16.

(** The item scan of a []any field inside parseFieldIndex, bytes.go:258-269. Each
    round moves at least 16 bytes forward, so the fuel [S (length data)] given by
    the caller is never exhausted (Proofs/ParseLemmas.v, scan_any_no_hang). *)
Fixpoint scan_any (fuel : nat) (data : bytes) (count i itemPos : Z) : res Z :=
  match fuel with
  | O => Hang
  | S fuel =>
      if i <? count then
        if itemPos + AnyHashSize + HeaderSize >? len data then Ok itemPos
        else
          let itemPos := itemPos + AnyHashSize in
          h <- slice data itemPos (itemPos + HeaderSize) ;;
          '(_, _, structSize) <- DecodeHeader h ;;
          scan_any fuel data count (i + 1) (itemPos + structSize)
      else Ok itemPos
  end.

(** The size switch of parseFieldIndex, bytes.go:224-282, for the header at [pos]. *)
Definition field_size (data : bytes) (pos ft final40 : Z) : res Z :=
  if (ft =? FTBool) || (ft =? FTInt8) || (ft =? FTInt16) || (ft =? FTInt32)
     || (ft =? FTUint8) || (ft =? FTUint16) || (ft =? FTUint32) || (ft =? FTFloat32)
  then Ok HeaderSize
  else if (ft =? FTInt64) || (ft =? FTUint64) || (ft =? FTFloat64)
  then Ok (HeaderSize + 8)
  else if (ft =? FTString) || (ft =? FTBytes)
  then Ok (HeaderSize + final40 + paddingNeeded final40)
  else if ft =? FTStruct then Ok final40
  else if ft =? FTListBools then
    let numBytes := (final40 + 7) / 8 in
    Ok (HeaderSize + numBytes + paddingNeeded numBytes)
  else if ft =? FTMap then
    h <- slice data pos (pos + HeaderSize) ;;
    '(_, _, totalSize) <- DecodeMapHeader h ;;
    Ok totalSize
  else if ft =? FTAny then
    h <- slice data pos (pos + HeaderSize) ;;
    '(_, dataSize) <- DecodeAnyHeader h ;;
    Ok (HeaderSize + dataSize)
  else if ft =? FTListAny then
    itemPos <- scan_any (S (length data)) data final40 0 (pos + HeaderSize) ;;
    Ok (itemPos - pos)
  else if IsListType ft then Ok final40
  else Ok (if final40 <? HeaderSize then HeaderSize else final40).

(** The loop of parseFieldIndex, bytes.go:213-294. *)
Fixpoint parse_loop (fuel : nat) (data : bytes) (idx : list fentry) (pos : Z)
  : res (list fentry) :=
  match fuel with
  | O => Hang
  | S fuel =>
      if pos + HeaderSize <=? len data then
        h <- slice data pos (pos + HeaderSize) ;;
        '(fieldNum, fieldType, final40) <- DecodeHeader h ;;
        if fieldType =? 0 then Ok idx
        else
          fieldSize <- field_size data pos fieldType final40 ;;
          let idx := if fieldNum <? len idx
                     then upd idx fieldNum (mkFE (u32 pos) (u32 fieldSize) true)
                     else idx in
          parse_loop fuel data idx (pos + fieldSize)
      else Ok idx
  end.

(** parseFieldIndex, bytes.go:206-295, run with a given amount of fuel. *)
Definition parse_with (fuel : nat) (data : bytes) (idx : list fentry) : res (list fentry) :=
  if len data <=? HeaderSize then Ok idx else parse_loop fuel data idx HeaderSize.

(** The fuel is enough for every run that terminates at all: theorem
    parse_hang_forever in Properties/Parse.v. *)
Definition parseFieldIndex (data : bytes) (idx : list fentry) : res (list fentry) :=
  parse_with (S (length data)) data idx.

(** ensureFieldIndexParsed, struct.go:494-499. *)
Definition ensureFieldIndexParsed (s : strct) : res strct :=
  if s.(st_parsed) then Ok s
  else
    idx <- parseFieldIndex s.(st_data) s.(st_index) ;;
    Ok (with_parsed (with_index s idx) true).

(** findInsertPosition, struct.go:145-158. *)
Fixpoint find_pos (idx : list fentry) (pos : Z) : Z :=
  match idx with
  | [] => pos
  | e :: r => find_pos r (if fe_size e >? 0 then fe_off e + fe_size e else pos)
  end.
Definition findInsertPosition (idx : list fentry) (fieldNum : Z) : Z :=
  find_pos (take fieldNum idx) HeaderSize.

(** updateFieldOffsets, struct.go:162-169. *)
Definition updateFieldOffsets (idx : list fentry) (afterOffset delta : Z) : list fentry :=
  map (fun e => if (fe_size e >? 0) && (fe_off e >=? afterOffset)
                then mkFE (u32 (fe_off e + delta)) (fe_size e) (fe_set e) else e) idx.

(** updateHeaderSize, struct.go:255-258. *)
Definition updateHeaderSize (d : bytes) : res bytes :=
  _ <- slice d 0 8 ;;
  EncodeHeaderFinal40 d (len d).

(** insertField, struct.go:173-222. *)
Definition insertField (s : strct) (fieldNum : Z) (data : bytes) : res strct :=
  s <- ensureFieldIndexParsed s ;;
  if fieldNum >=? len s.(st_index) then Panic
  else
    let totalSize := len data in
    existing <- index s.(st_index) fieldNum ;;
    '(d, idx) <-
      (if fe_size existing >? 0 then
         let sizeDelta := totalSize - fe_size existing in
         '(d, idx) <-
           (if sizeDelta =? 0 then
              d <- copy_at s.(st_data) (fe_off existing) data ;; Ok (d, s.(st_index))
            else
              d <- ReplaceAt s.(st_data) (fe_off existing) (fe_size existing) data ;;
              Ok (d, updateFieldOffsets s.(st_index)
                       (fe_off existing + fe_size existing) sizeDelta)) ;;
         Ok (d, upd idx fieldNum (mkFE (fe_off existing) (u32 totalSize) true))
       else
         let insertPos := findInsertPosition s.(st_index) fieldNum in
         d <- InsertAt s.(st_data) insertPos data ;;
         let idx := updateFieldOffsets s.(st_index) insertPos totalSize in
         Ok (d, upd idx fieldNum (mkFE (u32 insertPos) (u32 totalSize) true))) ;;
    d <- updateHeaderSize d ;;
    Ok (with_index (with_data s d) idx).

(** removeField, struct.go:225-250. *)
Definition removeField (s : strct) (fieldNum : Z) : res strct :=
  s <- ensureFieldIndexParsed s ;;
  if fieldNum >=? len s.(st_index) then Ok s
  else
    existing <- index s.(st_index) fieldNum ;;
    if fe_size existing =? 0 then Ok s
    else
      d <- RemoveAt s.(st_data) (fe_off existing) (fe_size existing) ;;
      let idx := updateFieldOffsets s.(st_index)
                   (fe_off existing + fe_size existing) (- fe_size existing) in
      let idx := upd idx fieldNum fe_zero in
      d <- updateHeaderSize d ;;
      Ok (with_index (with_data s d) idx).

(** appendIsSetBitfield, struct.go:344-359: continuation bits on the first
    numBytes-1 bytes, then Append. *)
Fixpoint set_cont (n : nat) (bits : bytes) : bytes :=
  match n, bits with
  | S n, b :: r => Z.lor b 128 :: set_cont n r
  | _, _ => bits
  end.
Definition appendIsSetBitfield (s : strct) : strct :=
  match s.(st_isSetOn), s.(st_isSet) with
  | true, Some bits =>
      let bits := set_cont (Z.to_nat (isset_numbytes (nfields s) - 1)) bits in
      with_data (with_isSet s (Some bits)) (Append s.(st_data) bits)
  | _, _ => s
  end.

(** Marshal, struct.go:387-406, without the list synchronisation of line 389
    (Model/ListHeap.v).  Returns the struct after the call and the bytes. *)
Definition Marshal (s : strct) : res (strct * bytes) :=
  let s := match s.(st_isSetOn), s.(st_isSet) with
           | true, Some _ => with_isSetOn (appendIsSetBitfield s) false
           | _, _ => s
           end in
  d <- updateHeaderSize s.(st_data) ;;
  Ok (with_data s d, d).

(** Unmarshal, struct.go:427-448. *)
Definition Unmarshal (s : strct) (data : bytes) : res strct :=
  if len data <? HeaderSize then Err
  else
    h <- slice data 0 HeaderSize ;;
    '(_, fieldType, totalSize) <- DecodeHeader h ;;
    if negb (fieldType =? FTStruct) then Err
    else if totalSize >? len data then Err
    else
      d <- slice data 0 totalSize ;;
      Ok (with_parsed (with_data s d) false).

(** HasField, struct.go:502-508. The struct after the call is [ensureFieldIndexParsed s]. *)
Definition HasField (s : strct) (fieldNum : Z) : res bool :=
  s <- ensureFieldIndexParsed s ;;
  if fieldNum >=? len s.(st_index) then Ok false
  else e <- index s.(st_index) fieldNum ;; Ok (fe_size e >? 0).

(** FieldOffset, struct.go:511-518. *)
Definition FieldOffset (s : strct) (fieldNum : Z) : res (Z * Z) :=
  s <- ensureFieldIndexParsed s ;;
  if fieldNum >=? len s.(st_index) then Ok (0, 0)
  else e <- index s.(st_index) fieldNum ;; Ok (fe_off e, fe_size e).

(** SetRecording 575-580, RecordOp 588-592, DrainRecordedOps 596-604. *)
Definition SetRecording (s : strct) (enabled : bool) : strct := with_recording s enabled.
Definition RecordOp (s : strct) (op : rop) : strct :=
  if s.(st_recording) then with_ops s (s.(st_ops) ++ [op]) else s.
Definition DrainRecordedOps (s : strct) : strct * list rop := (with_ops s [], s.(st_ops)).
