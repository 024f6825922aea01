(** clawc/languages/go/segment/any.go.  The interface assertions on TypeHasher and
    StructGetter (any.go:111-124, 300-311, ...) are taken to succeed: a value is given
    as its type hash and its struct. *)
From Verif.Model Require Import Base Field Header Segment Struct Scalar.

(** any.go:15 *)
Definition AnyMinSize : Z := HeaderSize + AnyHashSize.

(** The field bytes built by SetAny (any.go:134-159) and SetAnyRaw (256-268).
    dataSize is a uint32 and totalSize is computed from it. The pooled buffer of
    SetAny is cut to totalSize and then overwritten completely. *)
Definition any_field (fieldNum : Z) (typeHash rawData : bytes) : res bytes :=
  let dataSize := u32 (AnyHashSize + len rawData) in
  let totalSize := HeaderSize + dataSize in
  data <- EncodeAnyHeader (zeros totalSize) fieldNum FTStruct dataSize ;;
  data <- copy_at data HeaderSize typeHash ;;
  copy_at data (HeaderSize + AnyHashSize) rawData.

(** any.go:161-170, 270-278: insert, mark, record the bytes behind the header. *)
Definition store_any (s : strct) (fieldNum : Z) (data : bytes) : res strct :=
  store_field s fieldNum data (drop HeaderSize data).

(** SetAny, any.go:100-170; [None] is a nil value or a nil struct. *)
Definition SetAny (s : strct) (fieldNum : Z) (value : option (bytes * strct)) : res strct :=
  match value with
  | None => clear_scalar s fieldNum
  | Some (typeHash, inner) =>
      data <- any_field fieldNum typeHash inner.(st_data) ;;
      store_any s fieldNum data
  end.

(** GetAnyRaw, any.go:174-196: (data, hash) or None. *)
Definition GetAnyRaw (s : strct) (fieldNum : Z) : res (option (bytes * bytes)) :=
  '(offset, size) <- FieldOffset s fieldNum ;;
  if (size =? 0) || (size <? AnyMinSize) then Ok None
  else
    fieldData <- slice s.(st_data) offset (offset + size) ;;
    h <- slice fieldData 0 HeaderSize ;;
    '(_, fieldType, _) <- DecodeHeader h ;;
    if negb (fieldType =? FTAny) then Ok None
    else
      typeHash <- slice fieldData HeaderSize (HeaderSize + AnyHashSize) ;;
      data <- slice fieldData (HeaderSize + AnyHashSize) (len fieldData) ;;
      Ok (Some (data, typeHash)).

(** Equality of type hashes, any.go:222. *)
Fixpoint bytes_eqb (a b : bytes) : bool :=
  match a, b with
  | [], [] => true
  | x :: a, y :: b => (x =? y) && bytes_eqb a b
  | _, _ => false
  end.

(** GetAny, any.go:203-239: the target after the call. *)
Definition GetAny (s : strct) (fieldNum : Z) (targetHash : bytes) (target : strct) : res strct :=
  o <- GetAnyRaw s fieldNum ;;
  match o with
  | None => Err
  | Some (data, storedHash) =>
      if negb (bytes_eqb targetHash storedHash) then Err
      else Unmarshal target data
  end.

(** SetAnyRaw, any.go:243-281. *)
Definition SetAnyRaw (s : strct) (fieldNum : Z) (rawData typeHash : bytes) : res strct :=
  if len rawData =? 0 then clear_scalar s fieldNum
  else if negb (len typeHash =? AnyHashSize) then Err
  else
    data <- any_field fieldNum typeHash rawData ;;
    store_any s fieldNum data.

(** The item loop of SetListAnyRaw (any.go:489-499) and SetListAny (321-337). Every
    item is copied into its own region of a buffer of exactly the right size
    (Go copies the hash cut at 16 bytes, which is its length). *)
Fixpoint put_anys (data : bytes) (offset : Z) (items : list (bytes * bytes)) : res bytes :=
  match items with
  | [] => Ok data
  | (hash, d) :: r =>
      data <- copy_at data offset hash ;;
      let offset := offset + AnyHashSize in
      data <- copy_at data offset d ;;
      put_anys data (offset + len d) r
  end.
Fixpoint anys_size (items : list (bytes * bytes)) : Z :=
  match items with [] => 0 | (_, d) :: r => AnyHashSize + len d + anys_size r end.
Definition anys_field (fieldNum : Z) (items : list (bytes * bytes)) : res bytes :=
  let totalSize := HeaderSize + anys_size items in
  data <- EncodeHeader (zeros totalSize) fieldNum FTListAny (len items) ;;
  put_anys data HeaderSize items.

(** SetListAnyRaw, any.go:464-508; items are (hash, data). *)
Definition SetListAnyRaw (s : strct) (fieldNum : Z) (items : list (bytes * bytes)) : res strct :=
  if len items =? 0 then clear_scalar s fieldNum
  else if forallb (fun it => len (fst it) =? AnyHashSize) items then
    data <- anys_field fieldNum items ;; store_any s fieldNum data
  else Err.

(** SetListAny, any.go:284-348, for non-nil values. *)
Definition SetListAny (s : strct) (fieldNum : Z) (values : list (bytes * strct)) : res strct :=
  if len values =? 0 then clear_scalar s fieldNum
  else
    data <- anys_field fieldNum (map (fun v => (fst v, (snd v).(st_data))) values) ;;
    store_any s fieldNum data.

(** The field bytes and count, any.go:352-364, 369-382; None when absent or of another type. *)
Definition list_any_field (s : strct) (fieldNum : Z) : res (option (bytes * Z)) :=
  '(offset, size) <- FieldOffset s fieldNum ;;
  if (size =? 0) || (size <? HeaderSize) then Ok None
  else
    fieldData <- slice s.(st_data) offset (offset + size) ;;
    h <- slice fieldData 0 HeaderSize ;;
    '(_, fieldType, count) <- DecodeHeader h ;;
    if negb (fieldType =? FTListAny) then Ok None else Ok (Some (fieldData, count)).

(** GetListAnyLen, any.go:351-364. *)
Definition GetListAnyLen (s : strct) (fieldNum : Z) : res Z :=
  o <- list_any_field s fieldNum ;;
  Ok (match o with Some (_, count) => count | None => 0 end).

(** The scan of GetListAnyRaw, any.go:386-412, for item [idx] items further on
    (the loop counter i runs from 0 to index, so [idx] = index - i). *)
Fixpoint find_any (idx : nat) (fieldData : bytes) (pos : Z) : res (option (bytes * bytes)) :=
  let size := len fieldData in
  if pos + AnyHashSize >? size then Ok None
  else
    itemHash <- slice fieldData pos (pos + AnyHashSize) ;;
    let pos := pos + AnyHashSize in
    if pos + HeaderSize >? size then Ok None
    else
      h <- slice fieldData pos (pos + HeaderSize) ;;
      '(_, _, structSize) <- DecodeHeader h ;;
      match idx with
      | O =>
          if pos + structSize >? size then Ok None
          else d <- slice fieldData pos (pos + structSize) ;; Ok (Some (d, itemHash))
      | S idx => find_any idx fieldData (pos + structSize)
      end.

(** GetListAnyRaw, any.go:368-414. *)
Definition GetListAnyRaw (s : strct) (fieldNum index : Z) : res (option (bytes * bytes)) :=
  o <- list_any_field s fieldNum ;;
  match o with
  | None => Ok None
  | Some (fieldData, count) =>
      if (index <? 0) || (index >=? count) then Ok None
      else find_any (Z.to_nat index) fieldData HeaderSize
  end.

(** GetListAny, any.go:418-455: the target after the call. *)
Definition GetListAny (s : strct) (fieldNum index : Z) (targetHash : bytes) (target : strct)
  : res strct :=
  o <- GetListAnyRaw s fieldNum index ;;
  match o with
  | None => Err
  | Some (data, storedHash) =>
      if negb (bytes_eqb targetHash storedHash) then Err
      else Unmarshal target data
  end.
