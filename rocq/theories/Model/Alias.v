(** clawc/languages/go/segment: segments as Go slices over shared arrays, and the child
    structs GetNestedStruct returns, which are views into the array of their parent.
    Model/Segment.v, Model/Struct.v and Model/Scalar.v have the same functions on values;
    Proofs/AliasProofs.v shows that they agree.  Only the calls below are modelled on
    memory: the scalar, string, bytes and nested struct setters, ClearField, Marshal and
    the recording switches. *)
From Verif.Model Require Export Base Field Header Segment Struct Scalar.

(** The arrays allocated so far, by number. *)
Definition heap := list bytes.
Definition array (h : heap) (a : nat) : bytes := nth a h [].

(** A Go byte slice: array, offset in it, len and cap. *)
Record sl := mkSl { sl_arr : nat; sl_off : Z; sl_len : Z; sl_cap : Z }.

(** What Go guarantees of every slice. *)
Definition wf (h : heap) (s : sl) : Prop :=
  (sl_arr s < length h)%nat /\ 0 <= sl_off s /\ 0 <= sl_len s <= sl_cap s /\
  sl_off s + sl_cap s <= len (array h (sl_arr s)).

(** The bytes a slice shows. *)
Definition view (h : heap) (s : sl) : bytes := take (sl_len s) (drop (sl_off s) (array h (sl_arr s))).

(** Writing d at the start of a slice. *)
Definition put (h : heap) (s : sl) (d : bytes) : heap :=
  let a := array h (sl_arr s) in
  set_nth (sl_arr s) (take (sl_off s) a ++ d ++ drop (sl_off s + len d) a) h.

(** s.data[:n] for n up to the capacity. *)
Definition reslice (s : sl) (n : Z) : sl := mkSl (sl_arr s) (sl_off s) n (sl_cap s).

(** copy(s.data[off:], src); [src] has been read before, which agrees with Go's copy also
    when source and destination overlap. *)
Definition m_copy (h : heap) (s : sl) (off : Z) (src : bytes) : res heap :=
  d <- copy_at (view h s) off src ;; Ok (put h s d).

(** NewSegment, segment.go:149-157. *)
Definition m_NewSegment (h : heap) (capacity : Z) : heap * sl :=
  let c := Z.max capacity 64 in (h ++ [zeros c], mkSl (length h) 0 8 c).

(** EnsureCapacity, segment.go:181-190. *)
Definition m_EnsureCapacity (h : heap) (s : sl) (n : Z) : heap * sl :=
  let needed := sl_len s + n in
  if needed <=? sl_cap s then (h, s)
  else
    let newCap := Z.max (sl_cap s * 2) needed in
    (h ++ [view h s ++ zeros (newCap - sl_len s)], mkSl (length h) 0 (sl_len s) newCap).

(** InsertAt, segment.go:200-218. *)
Definition m_InsertAt (h : heap) (s : sl) (offset : Z) (data : bytes) : res (heap * sl) :=
  if (offset <? 0) || (offset >? sl_len s) then Panic
  else if len data =? 0 then Ok (h, s)
  else
    let '(h, s) := m_EnsureCapacity h s (len data) in
    let oldLen := sl_len s in
    let s := reslice s (oldLen + len data) in
    h <- (if offset <? oldLen
          then (tail <- slice (view h s) offset oldLen ;; m_copy h s (offset + len data) tail)
          else Ok h) ;;
    h <- m_copy h s offset data ;;
    Ok (h, s).

(** RemoveAt, segment.go:221-231. *)
Definition m_RemoveAt (h : heap) (s : sl) (offset n : Z) : res (heap * sl) :=
  if (offset <? 0) || (offset + n >? sl_len s) then Panic
  else if n =? 0 then Ok (h, s)
  else
    tail <- slice (view h s) (offset + n) (sl_len s) ;;
    h <- m_copy h s offset tail ;;
    Ok (h, reslice s (sl_len s - n)).

(** ReplaceAt, segment.go:235-257. *)
Definition m_ReplaceAt (h : heap) (s : sl) (offset n : Z) (newData : bytes) : res (heap * sl) :=
  if (offset <? 0) || (offset + n >? sl_len s) then Panic
  else
    let delta := len newData - n in
    if delta =? 0 then h <- m_copy h s offset newData ;; Ok (h, s)
    else
      '(h, s) <-
        (if delta >? 0 then
           let '(h, s) := m_EnsureCapacity h s delta in
           let oldLen := sl_len s in
           let s := reslice s (oldLen + delta) in
           tail <- slice (view h s) (offset + n) oldLen ;;
           h <- m_copy h s (offset + len newData) tail ;;
           Ok (h, s)
         else
           tail <- slice (view h s) (offset + n) (sl_len s) ;;
           h <- m_copy h s (offset + len newData) tail ;;
           Ok (h, reslice s (sl_len s + delta))) ;;
      h <- m_copy h s offset newData ;;
      Ok (h, s).

(** A struct whose segment is a slice; the st_data of [v_st] is not used. *)
Record vst := mkV { v_sl : sl; v_st : strct }.
(** The struct value at this moment. *)
Definition load (h : heap) (v : vst) : strct := with_data (v_st v) (view h (v_sl v)).

(** New, struct.go:94-105. *)
Definition m_New (h : heap) (n : nat) : res (heap * vst) :=
  let '(h, s) := m_NewSegment h 64 in
  d <- EncodeHeader (view h s) 0 FTStruct 8 ;;
  Ok (put h s d, mkV s (mkStruct [] (repeat fe_zero n) false false None false [])).

(** updateHeaderSize, struct.go:255-258. *)
Definition m_updateHeaderSize (h : heap) (s : sl) : res heap :=
  d <- updateHeaderSize (view h s) ;; Ok (put h s d).

(** insertField, struct.go:173-222. *)
Definition m_insertField (h : heap) (v : vst) (fieldNum : Z) (data : bytes) : res (heap * vst) :=
  s <- ensureFieldIndexParsed (load h v) ;;
  if fieldNum >=? len s.(st_index) then Panic
  else
    let totalSize := len data in
    existing <- index s.(st_index) fieldNum ;;
    '(h, b, idx) <-
      (if fe_size existing >? 0 then
         let sizeDelta := totalSize - fe_size existing in
         '(h, b, idx) <-
           (if sizeDelta =? 0 then
              h <- m_copy h (v_sl v) (fe_off existing) data ;; Ok (h, v_sl v, s.(st_index))
            else
              '(h, b) <- m_ReplaceAt h (v_sl v) (fe_off existing) (fe_size existing) data ;;
              Ok (h, b, updateFieldOffsets s.(st_index)
                          (fe_off existing + fe_size existing) sizeDelta)) ;;
         Ok (h, b, upd idx fieldNum (mkFE (fe_off existing) (u32 totalSize) true))
       else
         let insertPos := findInsertPosition s.(st_index) fieldNum in
         '(h, b) <- m_InsertAt h (v_sl v) insertPos data ;;
         let idx := updateFieldOffsets s.(st_index) insertPos totalSize in
         Ok (h, b, upd idx fieldNum (mkFE (u32 insertPos) (u32 totalSize) true))) ;;
    h <- m_updateHeaderSize h b ;;
    Ok (h, mkV b (with_index s idx)).

(** removeField, struct.go:225-250. *)
Definition m_removeField (h : heap) (v : vst) (fieldNum : Z) : res (heap * vst) :=
  s <- ensureFieldIndexParsed (load h v) ;;
  if fieldNum >=? len s.(st_index) then Ok (h, mkV (v_sl v) s)
  else
    existing <- index s.(st_index) fieldNum ;;
    if fe_size existing =? 0 then Ok (h, mkV (v_sl v) s)
    else
      '(h, b) <- m_RemoveAt h (v_sl v) (fe_off existing) (fe_size existing) ;;
      let idx := updateFieldOffsets s.(st_index)
                   (fe_off existing + fe_size existing) (- fe_size existing) in
      let idx := upd idx fieldNum fe_zero in
      h <- m_updateHeaderSize h b ;;
      Ok (h, mkV b (with_index s idx)).

(** The zero branch shared by all setters, e.g. scalar.go:17-24. *)
Definition m_clear (h : heap) (v : vst) (fieldNum : Z) : res (heap * vst) :=
  '(h, v) <- m_removeField h v fieldNum ;;
  Ok (h, mkV (v_sl v) (if (v_st v).(st_recording)
                       then RecordOp (v_st v) (mkRop fieldNum OpClear NoListIndex []) else v_st v)).
(** The tail shared by all setters, e.g. scalar.go:30-35. *)
Definition m_store (h : heap) (v : vst) (fieldNum : Z) (data rec : bytes) : res (heap * vst) :=
  '(h, v) <- m_insertField h v fieldNum data ;;
  let s := markFieldSet (v_st v) fieldNum in
  Ok (h, mkV (v_sl v) (if s.(st_recording)
                       then RecordOp s (mkRop fieldNum OpSet NoListIndex rec) else s)).

(** The setters of scalar.go:16-255: the zero test, the field bytes and the recorded
    bytes of each kind (floats are bit patterns, a bool is 0 or 1). *)
Definition m_zero (k : kind) (v : Z) : bool :=
  match k with
  | KBool => negb (v =? 1)
  | KF32 => f32_is_zero v
  | KF64 => f64_is_zero v
  | _ => v =? 0
  end.
Definition m_field (f : Z) (k : kind) (v : Z) : res bytes :=
  let hdr t x := EncodeHeader (zeros HeaderSize) f t x in
  match k with
  | KBool => hdr FTBool 1
  | KI8 => hdr FTInt8 (u8 v) | KI16 => hdr FTInt16 (u16 v) | KI32 => hdr FTInt32 (u32 v)
  | KU8 => hdr FTUint8 v | KU16 => hdr FTUint16 v | KU32 => hdr FTUint32 v
  | KF32 => hdr FTFloat32 v
  | KI64 => wide_field f FTInt64 (u64 v)
  | KU64 => wide_field f FTUint64 v
  | KF64 => wide_field f FTFloat64 v
  end.
Definition m_rec (k : kind) (v : Z) : bytes :=
  match k with
  | KBool => [1]
  | KI8 | KU8 => le_enc 1 v
  | KI16 | KU16 => le_enc 2 v
  | KI32 | KU32 | KF32 => le_enc 4 v
  | KI64 | KU64 | KF64 => le_enc 8 v
  end.
Definition m_set_scalar (h : heap) (v : vst) (f : Z) (k : kind) (x : Z) : res (heap * vst) :=
  if m_zero k x then m_clear h v f
  else data <- m_field f k x ;; m_store h v f data (m_rec k x).

(** SetBytes, bytes.go:31-66, and SetStringAsBytes, bytes.go:69-92. *)
Definition m_SetBytes (h : heap) (v : vst) (f : Z) (str : bool) (value : bytes) : res (heap * vst) :=
  if len value =? 0 then m_clear h v f
  else data <- bytes_field f (if str then FTString else FTBytes) value ;; m_store h v f data value.

(** SetNestedStruct, bytes.go:136-180.  The child is given by its value: its bytes are
    copied into the field. *)
Definition m_SetNestedStruct (h : heap) (v : vst) (f : Z) (child : option strct) : res (heap * vst) :=
  match child with
  | None => m_clear h v f
  | Some child =>
      if len child.(st_data) <=? HeaderSize then m_clear h v f
      else
        let childData := drop HeaderSize child.(st_data) in
        let childSize := len childData + HeaderSize in
        data <- EncodeHeader (zeros childSize) f FTStruct childSize ;;
        data <- copy_at data 8 childData ;;
        m_store h v f data child.(st_data)
  end.

(** GetNestedStruct, bytes.go:185-202: the parent with its index parsed (FieldOffset,
    struct.go:511-518), and a child whose segment is parent.seg.data[offset:offset+size],
    with the capacity that is left of the parent's. *)
Definition m_GetNestedStruct (h : heap) (p : vst) (f : Z) (n : nat) : res (vst * option vst) :=
  '(offset, size) <- FieldOffset (load h p) f ;;
  s <- ensureFieldIndexParsed (load h p) ;;
  let p := mkV (v_sl p) s in
  if size =? 0 then Ok (p, None)
  else if (0 <=? offset) && (0 <=? size) && (offset + size <=? sl_cap (v_sl p)) then
    let b := mkSl (sl_arr (v_sl p)) (sl_off (v_sl p) + offset) size (sl_cap (v_sl p) - offset) in
    idx <- parseFieldIndex (view h b) (repeat fe_zero n) ;;
    Ok (p, Some (mkV b (mkStruct [] idx false false None false [])))
  else Panic.

(** Marshal, struct.go:387-406, of a struct without IsSet tracking. *)
Definition m_Marshal (h : heap) (v : vst) : res (heap * vst) :=
  h <- m_updateHeaderSize h (v_sl v) ;; Ok (h, v).
