(** clawc/languages/go/segment/header.go *)
From Verif.Model Require Import Base.

(** header.go:15-17 *)
Definition HeaderSize : Z := 8.
Definition MaxFinal40 : Z := 2 ^ 40 - 1.
Definition final40Shift : Z := 24.

(** Clear bytes 3..7, then or the final40 bits into the little-endian uint64:
    header.go:36-47 and 81-91 (the same code twice). *)
Definition put_final40 (buf : bytes) (final40 : Z) : res bytes :=
  buf <- le_put 1 buf 3 0 ;;
  buf <- le_put 1 buf 4 0 ;;
  buf <- le_put 1 buf 5 0 ;;
  buf <- le_put 1 buf 6 0 ;;
  buf <- le_put 1 buf 7 0 ;;
  u <- le_get 8 buf ;;
  let u := Z.lor u (u64 (Z.shiftl final40 final40Shift)) in
  le_put 8 buf 0 u.

(** EncodeHeader, header.go:22-48. [buf] is the buffer before, the result the
    buffer after. fieldType is a byte, fieldNum a uint16. *)
Definition EncodeHeader (buf : bytes) (fieldNum fieldType final40 : Z) : res bytes :=
  if len buf <? HeaderSize then Panic
  else if final40 >? MaxFinal40 then Panic
  else
    buf <- le_put 2 buf 0 fieldNum ;;
    buf <- le_put 1 buf 2 fieldType ;;
    put_final40 buf final40.

(** DecodeHeader, header.go:51-63. *)
Definition DecodeHeader (buf : bytes) : res (Z * Z * Z) :=
  if len buf <? HeaderSize then Panic
  else
    fieldNum <- le_get 2 buf ;;
    fieldType <- index buf 2 ;;
    u <- le_get 8 buf ;;
    Ok (fieldNum, fieldType, Z.shiftr u final40Shift).

(** EncodeHeaderFieldNum, header.go:66-68. *)
Definition EncodeHeaderFieldNum (buf : bytes) (fieldNum : Z) : res bytes :=
  le_put 2 buf 0 fieldNum.

(** EncodeHeaderFieldType, header.go:71-73. *)
Definition EncodeHeaderFieldType (buf : bytes) (fieldType : Z) : res bytes :=
  le_put 1 buf 2 fieldType.

(** EncodeHeaderFinal40, header.go:76-92. *)
Definition EncodeHeaderFinal40 (buf : bytes) (final40 : Z) : res bytes :=
  if final40 >? MaxFinal40 then Panic else put_final40 buf final40.

(** DecodeHeaderFinal40, header.go:95-98. *)
Definition DecodeHeaderFinal40 (buf : bytes) : res Z :=
  u <- le_get 8 buf ;; Ok (Z.shiftr u final40Shift).

(** MakeHeader, header.go:101-105; EncodeScalarInHeader (109-111) is EncodeHeader. *)
Definition MakeHeader (fieldNum fieldType final40 : Z) : res bytes :=
  EncodeHeader (zeros HeaderSize) fieldNum fieldType final40.

(** header.go:119-127 *)
Definition MaxMapSize : Z := 2 ^ 24 - 1.
Definition mapValueTypeShift : Z := 8.
Definition mapSizeShift : Z := 16.

(** field.FTMap etc. are in Model/Field.v; 55 is field.FTMap. *)
Definition FTMap_code : Z := 55.

(** EncodeMapHeader, header.go:131-142.  keyType/valueType are bytes, totalSize a uint32. *)
Definition EncodeMapHeader (buf : bytes) (fieldNum keyType valueType totalSize : Z) : res bytes :=
  if totalSize >? MaxMapSize then Panic
  else
    let final40 := Z.lor (Z.lor (u64 (Z.shiftl keyType 0))
                                (u64 (Z.shiftl valueType mapValueTypeShift)))
                         (u64 (Z.shiftl totalSize mapSizeShift)) in
    EncodeHeader buf fieldNum FTMap_code final40.

(** DecodeMapHeader, header.go:146-154. *)
Definition DecodeMapHeader (buf : bytes) : res (Z * Z * Z) :=
  '(_, _, final40) <- DecodeHeader buf ;;
  Ok (Z.land (Z.shiftr final40 0) 255,
      Z.land (Z.shiftr final40 mapValueTypeShift) 255,
      Z.land (Z.shiftr final40 mapSizeShift) 16777215).

(** MakeMapHeader, header.go:157-161. *)
Definition MakeMapHeader (fieldNum keyType valueType totalSize : Z) : res bytes :=
  EncodeMapHeader (zeros HeaderSize) fieldNum keyType valueType totalSize.

(** any.go:19-25 *)
Definition FTAny_code : Z := 15.
Definition anySizeShift : Z := 8.

(** EncodeAnyHeader, any.go:63-73.  realType is a byte, dataSize a uint32. *)
Definition EncodeAnyHeader (buf : bytes) (fieldNum realType dataSize : Z) : res bytes :=
  if len buf <? HeaderSize then Panic
  else
    let final40 := Z.lor (u64 (Z.shiftl realType 0)) (u64 (Z.shiftl dataSize anySizeShift)) in
    EncodeHeader buf fieldNum FTAny_code final40.

(** DecodeAnyHeader, any.go:77-86. *)
Definition DecodeAnyHeader (buf : bytes) : res (Z * Z) :=
  if len buf <? HeaderSize then Panic
  else
    '(_, _, final40) <- DecodeHeader buf ;;
    Ok (u8 (Z.land (Z.shiftr final40 0) 255),
        u32 (Z.land (Z.shiftr final40 anySizeShift) 4294967295)).
