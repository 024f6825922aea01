(** clawc/languages/go/segment/maps.go: the map object, its entry codecs and the getters. *)
From Verif.Model Require Import Base Field Header Segment Struct Scalar Lists Maps.

(** ** Keys and values *)

(** A key (MapKey, maps.go:17-22) or value (maps.go:26-31, 1030-1035): a number (floats
    are bit patterns, booleans 0/1), a string or byte slice, the segment bytes of a struct,
    a *MapAnyValue (hash, data; None is nil), a []MapAnyValue, a nested map.  Simplification:
    the value of a map of structs is the struct's buffer after syncDirtyLists (333-335,
    496-498); the named-type branches of compareKeys (223-246) and of the decoders (703-738,
    912-962) do what the branch of the underlying type does. The float32 - float64 - float32
    conversions (429, 734) are taken to preserve the pattern (they quiet signalling NaNs). *)
Inductive mkey := KNum (z : Z) | KStr (b : bytes).
Inductive mval :=
| MNum (z : Z)
| MStr (b : bytes)
| MStruct (data : bytes)
| MAny (a : option (bytes * bytes))
| MAnys (l : list (bytes * bytes))
| MMap.
Inductive keyty := KTNum (k : kind) | KTStr.
Inductive valty := VTNum (k : kind) | VTStr | VTBytes | VTStruct | VTAny | VTAnys | VTMap.

(** field/field.go:11-47, for the keyType and valType of NewMaps. *)
Definition num_ft (k : kind) : Z :=
  match k with
  | KBool => FTBool | KI8 => FTInt8 | KI16 => FTInt16 | KI32 => FTInt32 | KI64 => FTInt64
  | KU8 => FTUint8 | KU16 => FTUint16 | KU32 => FTUint32 | KU64 => FTUint64
  | KF32 => FTFloat32 | KF64 => FTFloat64
  end.
Definition key_ft (kt : keyty) : Z := match kt with KTNum k => num_ft k | KTStr => FTString end.
Definition val_ft (vt : valty) : Z :=
  match vt with
  | VTNum k => num_ft k | VTStr => FTString | VTBytes => FTBytes | VTStruct => FTStruct
  | VTAny => FTAny | VTAnys => FTListAny | VTMap => FTMap
  end.

(** ** Comparison *)

(** cmp.Compare on integers (Go standard library). *)
Definition cmpZ (a b : Z) : Z := if a <? b then -1 else if b <? a then 1 else 0.

(** cmp.Compare on strings: bytewise, a proper prefix is smaller. *)
Fixpoint cmpS (a b : bytes) : Z :=
  match a, b with
  | [], [] => 0
  | [], _ :: _ => -1
  | _ :: _, [] => 1
  | x :: a, y :: b => if x <? y then -1 else if y <? x then 1 else cmpS a b
  end.

(** IEEE floats from bit patterns: mantissa bits and exponent bits. *)
Definition fmant (k : kind) : Z := match k with KF32 => 23 | _ => 52 end.
Definition fexpo (k : kind) : Z := match k with KF32 => 8 | _ => 11 end.
Definition f_man (k : kind) (b : Z) : Z := b mod 2 ^ fmant k.
Definition f_exp (k : kind) (b : Z) : Z := (b / 2 ^ fmant k) mod 2 ^ fexpo k.
Definition f_neg (k : kind) (b : Z) : bool := 2 ^ (fmant k + fexpo k) <=? b.
Definition is_nan (k : kind) (b : Z) : bool :=
  (f_exp k b =? 2 ^ fexpo k - 1) && negb (f_man k b =? 0).
(** The value of a pattern that is not NaN, in units of the smallest subnormal; an
    infinity counts as the next power of two. *)
Definition f_val (k : kind) (b : Z) : Z :=
  let mag := if f_exp k b =? 0 then f_man k b
             else (2 ^ fmant k + f_man k b) * 2 ^ (f_exp k b - 1) in
  if f_neg k b then - mag else mag.
(** cmp.Compare on floats: NaN equals NaN and is less than anything else. *)
Definition cmpF (k : kind) (a b : Z) : Z :=
  if is_nan k a then (if is_nan k b then 0 else -1)
  else if is_nan k b then 1
  else cmpZ (f_val k a) (f_val k b).

(** compareKeys, maps.go:189-248.  The Go types make both keys of one kind. *)
Definition compareKeys (kt : keyty) (a b : mkey) : Z :=
  match kt, a, b with
  | KTStr, KStr a, KStr b => cmpS a b
  | KTNum KF32, KNum a, KNum b => cmpF KF32 a b
  | KTNum KF64, KNum a, KNum b => cmpF KF64 a b
  | KTNum _, KNum a, KNum b => cmpZ a b
  | _, _, _ => 0
  end.

(** ** The map object *)

(** Maps, maps.go:35-44, without parent, field number and types. *)
Record mapobj := mkMap { mp_keys : list mkey; mp_vals : list mval; mp_dirty : bool }.
(** NewMaps, maps.go:52-65 (its registration with the parent is in Model/ListHeap.v). *)
Definition NewMaps : mapobj := mkMap [] [] false.

(** The loop of slices.BinarySearchFunc (Go standard library); i and j never leave
    0..len(x), and the fuel is the number of keys. *)
Fixpoint bsearch (fuel : nat) (kt : keyty) (x : list mkey) (target : mkey) (i j : Z) : res Z :=
  if i <? j then
    match fuel with
    | O => Hang
    | S fuel =>
        let h := Z.shiftr (i + j) 1 in
        k <- index x h ;;
        if compareKeys kt k target <? 0 then bsearch fuel kt x target (h + 1) j
        else bsearch fuel kt x target i h
    end
  else Ok i.
Definition BinarySearchFunc (kt : keyty) (x : list mkey) (target : mkey) : res (Z * bool) :=
  let n := len x in
  i <- bsearch (length x) kt x target 0 n ;;
  if i <? n then k <- index x i ;; Ok (i, compareKeys kt k target =? 0) else Ok (i, false).

(** slices.Insert and slices.Delete of one item (Go standard library). *)
Definition slices_insert {A} (l : list A) (i : Z) (v : A) : res (list A) :=
  if (0 <=? i) && (i <=? len l) then Ok (take i l ++ v :: drop i l) else Panic.
Definition slices_delete {A} (l : list A) (i : Z) : res (list A) :=
  if (0 <=? i) && (i <? len l) then Ok (take i l ++ drop (i + 1) l) else Panic.

(** findKey, maps.go:174-180. *)
Definition findKey (kt : keyty) (m : mapobj) (key : mkey) : res Z :=
  '(idx, found) <- BinarySearchFunc kt m.(mp_keys) key ;;
  Ok (if found : bool then idx else -1).
(** findInsertPos, maps.go:183-186. *)
Definition findInsertPos (kt : keyty) (m : mapobj) (key : mkey) : res Z :=
  '(idx, _) <- BinarySearchFunc kt m.(mp_keys) key ;; Ok idx.

(** Len, maps.go:68-70. *)
Definition mp_Len (m : mapobj) : Z := len m.(mp_keys).
(** Get, maps.go:73-80; None is (zero, false). *)
Definition mp_Get (kt : keyty) (m : mapobj) (key : mkey) : res (option mval) :=
  idx <- findKey kt m key ;;
  if idx >=? 0 then v <- index m.(mp_vals) idx ;; Ok (Some v) else Ok None.
(** Set, maps.go:83-104 (the recorded operation is in Model/Patch.v). *)
Definition mp_Set (kt : keyty) (m : mapobj) (key : mkey) (value : mval) : res mapobj :=
  idx <- findKey kt m key ;;
  if idx >=? 0 then
    if idx <? len m.(mp_vals) then Ok (mkMap m.(mp_keys) (upd m.(mp_vals) idx value) true) else Panic
  else
    insertPos <- findInsertPos kt m key ;;
    keys <- slices_insert m.(mp_keys) insertPos key ;;
    values <- slices_insert m.(mp_vals) insertPos value ;;
    Ok (mkMap keys values true).
(** Delete, maps.go:107-123. *)
Definition mp_Delete (kt : keyty) (m : mapobj) (key : mkey) : res mapobj :=
  idx <- findKey kt m key ;;
  if idx >=? 0 then
    keys <- slices_delete m.(mp_keys) idx ;;
    values <- slices_delete m.(mp_vals) idx ;;
    Ok (mkMap keys values true)
  else Ok m.
(** Has, maps.go:126-128. *)
Definition mp_Has (kt : keyty) (m : mapobj) (key : mkey) : res bool :=
  idx <- findKey kt m key ;; Ok (idx >=? 0).
(** Keys, Values, maps.go:131-142. *)
Definition mp_Keys (m : mapobj) : list mkey := m.(mp_keys).
Definition mp_Values (m : mapobj) : list mval := m.(mp_vals).
(** All, maps.go:145-153: the pairs handed to yield, in order. *)
Fixpoint all_from (fuel : nat) (m : mapobj) (yield : mkey -> mval -> bool) (i : Z) : res (list (mkey * mval)) :=
  match fuel with
  | O => Ok []
  | S fuel =>
      if i <? len m.(mp_keys) then
        k <- index m.(mp_keys) i ;;
        v <- index m.(mp_vals) i ;;
        if yield k v then r <- all_from fuel m yield (i + 1) ;; Ok ((k, v) :: r) else Ok [(k, v)]
      else Ok []
  end.
Definition mp_All (m : mapobj) (yield : mkey -> mval -> bool) : res (list (mkey * mval)) :=
  all_from (S (length m.(mp_keys))) m yield 0.
(** Clear, maps.go:156-170. *)
Definition mp_Clear (m : mapobj) : mapobj :=
  if len m.(mp_keys) >? 0 then mkMap [] [] true else m.

(** ** Encoding *)

(** keySize, maps.go:296-312. *)
Definition keySize (kt : keyty) (key : mkey) : Z :=
  match kt, key with
  | KTStr, KStr s => 4 + len s
  | KTNum k, _ => Z.of_nat (item_size k)
  | KTStr, KNum _ => 4
  end.
Fixpoint anys_bytes (l : list (bytes * bytes)) : bytes :=
  match l with [] => [] | (h, d) :: r => h ++ d ++ anys_bytes r end.
(** valueSize, maps.go:315-392; the fallbacks (345-353, 364-380) are not modelled. *)
Definition valueSize (vt : valty) (v : mval) : Z :=
  match vt, v with
  | (VTStr | VTBytes), MStr b => 4 + len b
  | VTNum k, _ => Z.of_nat (item_size k)
  | VTStruct, MStruct d => len d
  | VTAny, MAny (Some (_, d)) => 16 + len d
  | VTAnys, MAnys l => fold_left (fun size it => size + (16 + len (snd it))) l 4
  | _, _ => 0
  end.

(** The bytes encodeKeyAt writes, maps.go:395-442. Simplification: the bytes instead of
    stores into a sized buffer. *)
Definition encKey (kt : keyty) (key : mkey) : bytes :=
  match kt, key with
  | KTStr, KStr s => le_enc 4 (u32 (len s)) ++ s
  | KTNum k, KNum z => put_item k z
  | _, _ => []
  end.
(** The bytes encodeValueAt writes, maps.go:445-567 (the fallbacks 511-525, 540-564 are
    not modelled); a nested map writes nothing. *)
Definition encValue (vt : valty) (v : mval) : bytes :=
  match vt, v with
  | (VTStr | VTBytes), MStr b => le_enc 4 (u32 (len b)) ++ b
  | VTNum k, MNum z => put_item k z
  | VTStruct, MStruct d => d
  | VTAny, MAny (Some (h, d)) => h ++ d
  | VTAnys, MAnys l => le_enc 4 (u32 (len l)) ++ anys_bytes l
  | _, _ => []
  end.
(** The entry loop of SyncToSegment, maps.go:273-278. *)
Fixpoint encEntries (kt : keyty) (vt : valty) (keys : list mkey) (vals : list mval) : bytes :=
  match keys, vals with
  | k :: keys, v :: vals => encKey kt k ++ encValue vt v ++ encEntries kt vt keys vals
  | _, _ => []
  end.
(** calculateDataSize, maps.go:286-293. *)
Fixpoint calculateDataSize (kt : keyty) (vt : valty) (keys : list mkey) (vals : list mval) : Z :=
  match keys, vals with
  | k :: keys, v :: vals => keySize kt k + valueSize vt v + calculateDataSize kt vt keys vals
  | _, _ => 0
  end.

(** SyncToSegment, maps.go:251-283: the parent and the map afterwards. *)
Definition mp_Sync (kt : keyty) (vt : valty) (parent : strct) (fieldNum : Z) (m : mapobj) : res (strct * mapobj) :=
  if negb m.(mp_dirty) then Ok (parent, m)
  else
    let m' := mkMap m.(mp_keys) m.(mp_vals) false in
    if len m.(mp_keys) =? 0 then parent <- removeField parent fieldNum ;; Ok (parent, m')
    else
      let dataSize := calculateDataSize kt vt m.(mp_keys) m.(mp_vals) in
      let totalSize := HeaderSize + dataSize + paddingNeeded dataSize in
      fieldData <- EncodeMapHeader (zeros totalSize) fieldNum (key_ft kt) (val_ft vt) (u32 totalSize) ;;
      fieldData <- copy_at fieldData HeaderSize (encEntries kt vt m.(mp_keys) m.(mp_vals)) ;;
      parent <- insertField parent fieldNum fieldData ;;
      Ok (parent, m').

(** encodeKey, encodeKeyValue, maps.go:570-585 (patch recording). *)
Definition encodeKey (kt : keyty) (key : mkey) : bytes := encKey kt key.
Definition encodeKeyValue (kt : keyty) (vt : valty) (key : mkey) (value : mval) : bytes :=
  encKey kt key ++ encValue vt value.

(** ** Decoding *)

(** A number of kind k in the first bytes, maps.go:641-697, 776-832. *)
Definition dec_num (k : kind) (data : bytes) : res Z :=
  b <- slice data 0 (Z.of_nat (item_size k)) ;;
  Ok (match k with KBool => if le_dec b =? 0 then 0 else 1 | _ => get_item k b end).

(** The length-prefixed bytes of maps.go:631-640, 754-775; None is (zero, 0). *)
Definition dec_blob (data : bytes) : res (option bytes) :=
  if len data <? 4 then Ok None
  else
    strLen <- le_get 4 data ;;
    if len data <? 4 + strLen then Ok None
    else s <- slice data 4 (4 + strLen) ;; Ok (Some s).

(** decodeKey, maps.go:621-741: the key and the bytes consumed; None is (zero, 0).
    Simplification: the length checks of the cases (650-697) are one check against the
    size of the kind, which the one-byte cases pass by 623. *)
Definition decodeKey (kt : keyty) (data : bytes) : res (option (mkey * Z)) :=
  if len data =? 0 then Ok None
  else
    match kt with
    | KTStr =>
        o <- dec_blob data ;;
        Ok (match o with Some s => Some (KStr s, 4 + len s) | None => None end)
    | KTNum k =>
        if len data <? Z.of_nat (item_size k) then Ok None
        else z <- dec_num k data ;; Ok (Some (KNum z, Z.of_nat (item_size k)))
    end.

(** The item loop of the FTListAny case, maps.go:881-900: items and end position.
    [count] counts the remaining iterations. *)
Fixpoint dec_anys (count : nat) (data : bytes) (pos : Z) : res (list (bytes * bytes) * Z) :=
  match count with
  | O => Ok ([], pos)
  | S count =>
      if len data <? pos + 16 + HeaderSize then Ok ([], pos)
      else
        typeHash <- slice data pos (pos + 16) ;;
        let pos := pos + 16 in
        h <- slice data pos (pos + HeaderSize) ;;
        '(_, _, structSize) <- DecodeHeader h ;;
        if len data <? pos + structSize then Ok ([], pos)
        else
          d <- slice data pos (pos + structSize) ;;
          '(items, pos) <- dec_anys count data (pos + structSize) ;;
          Ok ((typeHash, d) :: items, pos)
  end.

(** decodeValue, maps.go:744-965.  Simplification: the struct case (833-850) also runs
    parseFieldIndex on the new struct, which does not change its bytes. *)
Definition decodeValue (vt : valty) (data : bytes) : res (option (mval * Z)) :=
  if len data =? 0 then Ok None
  else
    match vt with
    | VTStr | VTBytes =>
        o <- dec_blob data ;;
        Ok (match o with Some s => Some (MStr s, 4 + len s) | None => None end)
    | VTNum k =>
        if len data <? Z.of_nat (item_size k) then Ok None
        else z <- dec_num k data ;; Ok (Some (MNum z, Z.of_nat (item_size k)))
    | VTStruct =>
        if len data <? HeaderSize then Ok None
        else
          h <- slice data 0 HeaderSize ;;
          '(_, _, structSize) <- DecodeHeader h ;;
          if (structSize <? HeaderSize) || (len data <? structSize) then Ok None
          else d <- slice data 0 structSize ;; Ok (Some (MStruct d, structSize))
    | VTAny =>
        if len data <? 16 + HeaderSize then Ok None
        else
          typeHash <- slice data 0 16 ;;
          h <- slice data 16 (16 + HeaderSize) ;;
          '(_, _, structSize) <- DecodeHeader h ;;
          if len data <? 16 + structSize then Ok None
          else d <- slice data 16 (16 + structSize) ;;
               Ok (Some (MAny (Some (typeHash, d)), 16 + structSize))
    | VTAnys =>
        if len data <? 4 then Ok None
        else
          count <- le_get 4 data ;;
          '(items, pos) <- dec_anys (Z.to_nat count) data 4 ;;
          Ok (Some (MAnys items, pos))
    | VTMap => Ok None
    end.

(** The loop of ParseMapFromSegment, maps.go:598-615.  Every round consumes a byte, the
    fuel is the number of bytes. *)
Fixpoint parse_entries (fuel : nat) (kt : keyty) (vt : valty) (data : bytes) (pos : Z)
    : res (list mkey * list mval) :=
  if pos <? len data then
    match fuel with
    | O => Hang
    | S fuel =>
        d <- slice data pos (len data) ;;
        ok <- decodeKey kt d ;;
        match ok with
        | None => Ok ([], [])
        | Some (key, keyLen) =>
            let pos := pos + keyLen in
            d <- slice data pos (len data) ;;
            ov <- decodeValue vt d ;;
            match ov with
            | None => Ok ([], [])
            | Some (value, valLen) =>
                '(keys, values) <- parse_entries fuel kt vt data (pos + valLen) ;;
                Ok (key :: keys, value :: values)
            end
        end
    end
  else Ok ([], []).
(** ParseMapFromSegment, maps.go:589-618. *)
Definition ParseMapFromSegment (kt : keyty) (vt : valty) (data : bytes) : res (list mkey * list mval) :=
  if len data <? HeaderSize then Ok ([], [])
  else parse_entries (length data) kt vt data HeaderSize.

(** GetMapScalar, GetMapStruct, GetMapAny, GetMapListAny on a field whose map is not
    cached, maps.go:976-995, 1007-1027, 1046-1065, 1077-1096; None is nil. *)
Definition GetMap (kt : keyty) (vt : valty) (s : strct) (fieldNum : Z) : res (option mapobj) :=
  '(offset, size) <- FieldOffset s fieldNum ;;
  if size =? 0 then Ok None
  else
    data <- slice s.(st_data) offset (offset + size) ;;
    '(keys, values) <- ParseMapFromSegment kt vt data ;;
    Ok (Some (mkMap keys values false)).
