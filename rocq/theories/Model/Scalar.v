(** clawc/languages/go/segment/scalar.go and SetBytes/SetString/GetBytes of bytes.go.
    A float is its IEEE bit pattern; the Go test [value == 0] is true exactly on
    the patterns of +0 and -0. *)
From Verif.Model Require Import Base Field Header Segment Struct.

(** The zero branch shared by all setters, e.g. scalar.go:17-24. *)
Definition clear_scalar (s : strct) (fieldNum : Z) : res strct :=
  s <- removeField s fieldNum ;;
  Ok (if s.(st_recording) then RecordOp s (mkRop fieldNum OpClear NoListIndex []) else s).

(** The tail shared by all setters, e.g. scalar.go:30-35. *)
Definition store_field (s : strct) (fieldNum : Z) (data rec : bytes) : res strct :=
  s <- insertField s fieldNum data ;;
  let s := markFieldSet s fieldNum in
  Ok (if s.(st_recording) then RecordOp s (mkRop fieldNum OpSet NoListIndex rec) else s).

(** SetBool, scalar.go:16-36. *)
Definition SetBool (s : strct) (fieldNum : Z) (value : bool) : res strct :=
  if negb value then clear_scalar s fieldNum
  else hdr <- EncodeHeader (zeros HeaderSize) fieldNum FTBool 1 ;;
       store_field s fieldNum hdr [1].

(** SetInt8, scalar.go:39-57. *)
Definition SetInt8 (s : strct) (fieldNum value : Z) : res strct :=
  if value =? 0 then clear_scalar s fieldNum
  else hdr <- EncodeHeader (zeros HeaderSize) fieldNum FTInt8 (u8 value) ;;
       store_field s fieldNum hdr (le_enc 1 value).

(** SetInt16, scalar.go:60-78. *)
Definition SetInt16 (s : strct) (fieldNum value : Z) : res strct :=
  if value =? 0 then clear_scalar s fieldNum
  else hdr <- EncodeHeader (zeros HeaderSize) fieldNum FTInt16 (u16 value) ;;
       store_field s fieldNum hdr (le_enc 2 value).

(** SetInt32, scalar.go:81-99. *)
Definition SetInt32 (s : strct) (fieldNum value : Z) : res strct :=
  if value =? 0 then clear_scalar s fieldNum
  else hdr <- EncodeHeader (zeros HeaderSize) fieldNum FTInt32 (u32 value) ;;
       store_field s fieldNum hdr (le_enc 4 value).

(** header + 8 data bytes, scalar.go:112-114, 198-200, 245-247. *)
Definition wide_field (fieldNum ft v : Z) : res bytes :=
  data <- EncodeHeader (zeros (HeaderSize + 8)) fieldNum ft 0 ;;
  le_put 8 data 8 v.

(** SetInt64, scalar.go:102-122. *)
Definition SetInt64 (s : strct) (fieldNum value : Z) : res strct :=
  if value =? 0 then clear_scalar s fieldNum
  else data <- wide_field fieldNum FTInt64 (u64 value) ;;
       store_field s fieldNum data (le_enc 8 value).

(** SetUint8, scalar.go:125-143. *)
Definition SetUint8 (s : strct) (fieldNum value : Z) : res strct :=
  if value =? 0 then clear_scalar s fieldNum
  else hdr <- EncodeHeader (zeros HeaderSize) fieldNum FTUint8 value ;;
       store_field s fieldNum hdr (le_enc 1 value).

(** SetUint16, scalar.go:146-164; SetEnum (258-262) is SetUint16. *)
Definition SetUint16 (s : strct) (fieldNum value : Z) : res strct :=
  if value =? 0 then clear_scalar s fieldNum
  else hdr <- EncodeHeader (zeros HeaderSize) fieldNum FTUint16 value ;;
       store_field s fieldNum hdr (le_enc 2 value).

(** SetUint32, scalar.go:167-185. *)
Definition SetUint32 (s : strct) (fieldNum value : Z) : res strct :=
  if value =? 0 then clear_scalar s fieldNum
  else hdr <- EncodeHeader (zeros HeaderSize) fieldNum FTUint32 value ;;
       store_field s fieldNum hdr (le_enc 4 value).

(** SetUint64, scalar.go:188-208. *)
Definition SetUint64 (s : strct) (fieldNum value : Z) : res strct :=
  if value =? 0 then clear_scalar s fieldNum
  else data <- wide_field fieldNum FTUint64 value ;;
       store_field s fieldNum data (le_enc 8 value).

(** Go's [value == 0] on a float32 / float64 bit pattern. *)
Definition f32_is_zero (bits : Z) : bool := (bits =? 0) || (bits =? 2 ^ 31).
Definition f64_is_zero (bits : Z) : bool := (bits =? 0) || (bits =? 2 ^ 63).

(** SetFloat32, scalar.go:211-231. *)
Definition SetFloat32 (s : strct) (fieldNum bits : Z) : res strct :=
  if f32_is_zero bits then clear_scalar s fieldNum
  else hdr <- EncodeHeader (zeros HeaderSize) fieldNum FTFloat32 bits ;;
       store_field s fieldNum hdr (le_enc 4 bits).

(** SetFloat64, scalar.go:234-255. *)
Definition SetFloat64 (s : strct) (fieldNum bits : Z) : res strct :=
  if f64_is_zero bits then clear_scalar s fieldNum
  else data <- wide_field fieldNum FTFloat64 bits ;;
       store_field s fieldNum data (le_enc 8 bits).

(** final40 of a present field, scalar.go:266-270 and the other getters. *)
Definition get_final40 (s : strct) (fieldNum : Z) : res (option Z) :=
  '(offset, size) <- FieldOffset s fieldNum ;;
  if size =? 0 then Ok None
  else
    h <- slice s.(st_data) offset (offset + HeaderSize) ;;
    '(_, _, final40) <- DecodeHeader h ;;
    Ok (Some final40).
(** The 64-bit payload, scalar.go:306-311. *)
Definition get_wide (s : strct) (fieldNum : Z) : res (option Z) :=
  '(offset, size) <- FieldOffset s fieldNum ;;
  if size =? 0 then Ok None
  else
    rest <- slice s.(st_data) (offset + HeaderSize) (len s.(st_data)) ;;
    v <- le_get 8 rest ;;
    Ok (Some v).
Definition or0 (conv : Z -> Z) (o : option Z) : Z :=
  match o with Some v => conv v | None => 0 end.

(** GetBool 265-272. *)
Definition GetBool (s : strct) (fn : Z) : res bool :=
  o <- get_final40 s fn ;;
  Ok (match o with Some v => negb (v =? 0) | None => false end).
(** GetInt8 275-282, GetInt16 285-292, GetInt32 295-302. *)
Definition GetInt8 (s : strct) (fn : Z) : res Z := o <- get_final40 s fn ;; Ok (or0 s8 o).
Definition GetInt16 (s : strct) (fn : Z) : res Z := o <- get_final40 s fn ;; Ok (or0 s16 o).
Definition GetInt32 (s : strct) (fn : Z) : res Z := o <- get_final40 s fn ;; Ok (or0 s32 o).
(** GetInt64 305-312. *)
Definition GetInt64 (s : strct) (fn : Z) : res Z := o <- get_wide s fn ;; Ok (or0 s64 o).
(** GetUint8 315-322, GetUint16 325-332, GetUint32 335-342, GetUint64 345-352. *)
Definition GetUint8 (s : strct) (fn : Z) : res Z := o <- get_final40 s fn ;; Ok (or0 u8 o).
Definition GetUint16 (s : strct) (fn : Z) : res Z := o <- get_final40 s fn ;; Ok (or0 u16 o).
Definition GetUint32 (s : strct) (fn : Z) : res Z := o <- get_final40 s fn ;; Ok (or0 u32 o).
Definition GetUint64 (s : strct) (fn : Z) : res Z := o <- get_wide s fn ;; Ok (or0 (fun v => v) o).
(** GetFloat32 355-362, GetFloat64 365-373 (as bit patterns). *)
Definition GetFloat32 (s : strct) (fn : Z) : res Z := o <- get_final40 s fn ;; Ok (or0 u32 o).
Definition GetFloat64 (s : strct) (fn : Z) : res Z := o <- get_wide s fn ;; Ok (or0 (fun v => v) o).

(** The field bytes built by SetBytes (bytes.go:42-55) and SetStringAsBytes (78-84). *)
Definition bytes_field (fieldNum ft : Z) (value : bytes) : res bytes :=
  let dataLen := len value in
  let totalSize := HeaderSize + dataLen + paddingNeeded dataLen in
  data <- EncodeHeader (zeros totalSize) fieldNum ft dataLen ;;
  copy_at data 8 value.

(** SetBytes, bytes.go:31-66; SetString (26-28) is SetBytes. *)
Definition SetBytes (s : strct) (fieldNum : Z) (value : bytes) : res strct :=
  if len value =? 0 then clear_scalar s fieldNum
  else data <- bytes_field fieldNum FTBytes value ;; store_field s fieldNum data value.
Definition SetString := SetBytes.

(** SetStringAsBytes, bytes.go:69-92. *)
Definition SetStringAsBytes (s : strct) (fieldNum : Z) (value : bytes) : res strct :=
  if len value =? 0 then clear_scalar s fieldNum
  else data <- bytes_field fieldNum FTString value ;; store_field s fieldNum data value.

(** GetBytes, bytes.go:105-121 (nil is the empty list); GetString (95-101) and
    GetBytesCopy (124-132) return the same content. *)
Definition GetBytes (s : strct) (fieldNum : Z) : res bytes :=
  '(offset, size) <- FieldOffset s fieldNum ;;
  if size =? 0 then Ok []
  else
    h <- slice s.(st_data) offset (offset + HeaderSize) ;;
    '(_, _, final40) <- DecodeHeader h ;;
    if final40 =? 0 then Ok []
    else slice s.(st_data) (offset + HeaderSize) (offset + HeaderSize + final40).
Definition GetString := GetBytes.

(** SetNestedStruct, bytes.go:136-180, after child.syncDirtyLists (line 148,
    Model/ListHeap.v); [None] is a nil child. *)
Definition SetNestedStruct (parent : strct) (fieldNum : Z) (child : option strct) : res strct :=
  match child with
  | None => clear_scalar parent fieldNum
  | Some child =>
      if len child.(st_data) <=? HeaderSize then clear_scalar parent fieldNum
      else
        let childData := drop HeaderSize child.(st_data) in
        let childSize := len childData + HeaderSize in
        data <- EncodeHeader (zeros childSize) fieldNum FTStruct childSize ;;
        data <- copy_at data 8 childData ;;
        store_field parent fieldNum data child.(st_data)
  end.

(** GetNestedStruct, bytes.go:185-202, for a child mapping with n fields.  The child
    is given its own copy of the bytes here; the sharing is in Model/Alias.v.  The
    index is parsed at once but fieldIndexParsed stays false. *)
Definition GetNestedStruct (parent : strct) (fieldNum : Z) (n : nat) : res (option strct) :=
  '(offset, size) <- FieldOffset parent fieldNum ;;
  if size =? 0 then Ok None
  else
    d <- slice parent.(st_data) offset (offset + size) ;;
    idx <- parseFieldIndex d (repeat fe_zero n) ;;
    Ok (Some (mkStruct d idx false false None false [])).

(** ClearField, getters.go:253-258, without the list cache part (Model/ListHeap.v). *)
Definition ClearField (s : strct) (fieldNum : Z) : res strct := removeField s fieldNum.
