(** languages/go/clawjson/clawjson.go: the JSON writer.  The io.Writer is one that does not fail, such
    as the bytes.Buffer of Marshal; optional arguments are the resolved marshalOptions. *)
From Coq Require Import ZArith List Bool.
Import ListNotations.
From Verif.Model Require Import Base Field MapApi Token Walk Escape.
Open Scope Z_scope.

(** strconv.AppendUint(nil, v, 10), the digits of a number, last first. *)
Fixpoint revDigits (fuel : nat) (v : Z) : bytes :=
  match fuel with
  | O => []
  | S f => (48 + v mod 10) :: (if v <? 10 then [] else revDigits f (v / 10))
  end.
Definition appendUint (v : Z) : bytes := rev (revDigits (S (Z.to_nat (Z.log2 v))) v).
(** strconv.AppendInt(nil, v, 10). *)
Definition appendInt (v : Z) : bytes := if v <? 0 then 45 :: appendUint (- v) else appendUint v.

(** base64.StdEncoding.AppendEncode(nil, d). *)
Definition b64char (v : Z) : Z :=
  if v <? 26 then 65 + v else if v <? 52 then 97 + (v - 26) else if v <? 62 then 48 + (v - 52) else if v =? 62 then 43 else 47.
Fixpoint base64 (d : bytes) : bytes :=
  match d with
  | a :: b :: c :: q =>
    let n := (a * 256 + b) * 256 + c in
    b64char (n / 262144) :: b64char (n / 4096 mod 64) :: b64char (n / 64 mod 64) :: b64char (n mod 64) :: base64 q
  | [a; b] => let n := (a * 256 + b) * 4 in [b64char (n / 4096); b64char (n / 64 mod 64); b64char (n mod 64); 61]
  | [a] => let n := a * 16 in [b64char (n / 64); b64char (n mod 64); 61; 61]
  | [] => []
  end.

(** math.IsInf or math.IsNaN, on the bit pattern. *)
Definition special32 (v : Z) : bool := (v / 2 ^ 23) mod 256 =? 255.
Definition special64 (v : Z) : bool := (v / 2 ^ 52) mod 2048 =? 2047.

(** The types whose value comes in later tokens, 285-291. *)
Definition announced (ty : Z) : bool :=
  existsb (Z.eqb ty)
    [FTStruct; FTListStructs; FTListBools; FTListInt8; FTListInt16; FTListInt32; FTListInt64;
     FTListUint8; FTListUint16; FTListUint32; FTListUint64; FTListFloat32; FTListFloat64; FTListBytes;
     FTListStrings; FTListAny; FTMap].

(** The literals of 23-33 and 300-376; the last three are an open brace and the quoted name @type
    with a colon and a quote, and the like after a quote and a comma for @value and @fieldType. *)
Definition j_null : bytes := [110; 117; 108; 108].
Definition j_true : bytes := [116; 114; 117; 101].
Definition j_false : bytes := [102; 97; 108; 115; 101].
Definition j_type : bytes := [123; 34; 64; 116; 121; 112; 101; 34; 58; 34].
Definition j_value : bytes := [34; 44; 34; 64; 118; 97; 108; 117; 101; 34; 58; 34].
Definition j_fieldType : bytes := [34; 44; 34; 64; 102; 105; 101; 108; 100; 84; 121; 112; 101; 34; 58; 34].

Section Json.
(** strconv.AppendFloat(nil, f, 'g', -1, 32 or 64) of the float with these bits. *)
Variable appendFloat : kind -> Z -> bytes.
(** runtime.LookupTypeHash: the name of the entry, and Unmarshal on a new instance (None: an error)
    giving the values its accessors return. *)
Variable lookup : bytes -> option (bytes * (bytes -> option tmsg)).
(** opts.UseEnumNumbers. *)
Variable useEnumNumbers : bool.

(** 294-295: var hash [16]byte; copy(hash[:], tok.TypeHash). *)
Definition hash16 (h : bytes) : bytes := firstn 16 (h ++ repeat 0 16).

(** 300-317 and 326-343. *)
Definition rawAny (h d : bytes) : bytes := j_type ++ appendHex h ++ j_value ++ base64 d ++ [34; 125].

(** 386-389. *)
Fixpoint skipSpace (b : bytes) : bytes :=
  match b with
  | c :: q => if (c =? 32) || (c =? 9) || (c =? 10) || (c =? 13) then skipSpace q else b
  | [] => []
  end.

Section Value.
(** writeJSON for the value inside an Any, 348. *)
Variable nested : tmsg -> res bytes.

(** writeValue 277-502: the bytes written. *)
Definition writeValue (t : token) : res bytes :=
  let ty := t.(t_type) in
  if t.(t_isNil) then Ok j_null
  else if announced ty then Ok []
  else if ty =? FTAny then
    match lookup (hash16 t.(t_hash)) with
    | None => Ok (rawAny t.(t_hash) t.(t_bytes))
    | Some (name, unmarshal) =>
      match unmarshal t.(t_bytes) with
      | None => Ok (rawAny t.(t_hash) t.(t_bytes))
      | Some m =>
        json <- nested m ;;
        match json with
        | 123 :: ((_ :: _) as rest) =>
          let tail := if 1 <? len rest then 44 :: skipSpace rest else rest in
          Ok (j_type ++ appendHex t.(t_hash) ++ j_fieldType ++ name ++ [34] ++ tail)
        | _ => Ok json
        end
      end
    end
  else if t.(t_isEnum) then
    if useEnumNumbers && (ty =? FTUint8) then Ok (appendUint (getValue KU8 t))
    else if useEnumNumbers && (ty =? FTUint16) then Ok (appendUint (getValue KU16 t))
    else Ok (jsonEscape t.(t_enumName))
  else if ty =? FTBool then Ok (if getValue KBool t =? 0 then j_false else j_true)
  else if ty =? FTInt8 then Ok (appendInt (getValue KI8 t))
  else if ty =? FTInt16 then Ok (appendInt (getValue KI16 t))
  else if ty =? FTInt32 then Ok (appendInt (getValue KI32 t))
  else if ty =? FTInt64 then Ok (appendInt (getValue KI64 t))
  else if ty =? FTUint8 then Ok (appendUint (getValue KU8 t))
  else if ty =? FTUint16 then Ok (appendUint (getValue KU16 t))
  else if ty =? FTUint32 then Ok (appendUint (getValue KU32 t))
  else if ty =? FTUint64 then Ok (appendUint (getValue KU64 t))
  else if ty =? FTFloat32 then
    let f := getValue KF32 t in if special32 f then Ok j_null else Ok (appendFloat KF32 f)
  else if ty =? FTFloat64 then
    let f := getValue KF64 t in if special64 f then Ok j_null else Ok (appendFloat KF64 f)
  else if ty =? FTString then Ok (jsonEscape t.(t_bytes))
  else if ty =? FTBytes then Ok (34 :: base64 t.(t_bytes) ++ [34])
  else Err.

(** What the callback of writeJSON keeps: the bytes written, state.firstStack (innermost first) and
    writeErr. *)
Record jst := mkJ { j_out : bytes; j_first : list bool; j_err : res unit }.
Definition put (b : bytes) (s : jst) : jst := mkJ (s.(j_out) ++ b) s.(j_first) s.(j_err).
Definition push (s : jst) : jst := mkJ s.(j_out) (true :: s.(j_first)) s.(j_err).
Definition pop (s : jst) : jst := mkJ s.(j_out) (tl s.(j_first)) s.(j_err).
(** 208-217 and 240-249. *)
Definition comma (s : jst) : jst :=
  match s.(j_first) with
  | [] => s
  | first :: q => mkJ (s.(j_out) ++ (if first then [] else [44])) (false :: q) s.(j_err)
  end.
Definition putRes (r : res bytes) (s : jst) : jst * bool :=
  match r with
  | Ok b => (put b s, true)
  | Err => (mkJ s.(j_out) s.(j_first) Err, false)
  | Panic => (mkJ s.(j_out) s.(j_first) Panic, false)
  | Hang => (mkJ s.(j_out) s.(j_first) Hang, false)
  end.
(** 231: tok.Type = tok.ValueType. *)
Definition set_type (ty : Z) (t : token) : token :=
  mkTok t.(t_kind) t.(t_name) ty t.(t_data) t.(t_bytes) t.(t_isEnum) t.(t_enumName) t.(t_isNil) t.(t_len) t.(t_hash) t.(t_keyType) t.(t_valType) t.(t_key) t.(t_keyBytes).
(** The callback, 156-271. *)
Definition jyield (t : token) (s : jst) : jst * bool :=
  match t.(t_kind) with
  | TStructStart | TMapStart => (push (put [123] s), true)
  | TStructEnd | TMapEnd => (pop (put [125] s), true)
  | TListStart => (push (put [91] s), true)
  | TListEnd => (pop (put [93] s), true)
  | TMapEntry => putRes (writeValue (set_type t.(t_valType) t)) (put (jsonEscape t.(t_keyBytes) ++ [58]) (comma s))
  | TField =>
    let s := comma s in
    putRes (writeValue t) (match t.(t_name) with [] => s | n => put (jsonEscape n ++ [58]) s end)
  end.
Definition writeWith (m : tmsg) : res bytes :=
  let s := walk jst jyield m (mkJ [] [] (Ok tt)) in
  _ <- s.(j_err) ;; Ok s.(j_out).
End Value.

(** writeJSON 150-273; MarshalWriter 137-147.  The fuel is the depth of Anys inside Anys. *)
Fixpoint writeJSON (fuel : nat) (m : tmsg) : res bytes :=
  match fuel with O => Hang | S f => writeWith (writeJSON f) m end.

(** Array 582-634: Write of each value in turn, then Close.  What a Write that fails has already
    written stays. *)
Record array := mkA { a_out : bytes; a_written : bool }.
Definition arrayWrite (fuel : nat) (m : tmsg) (a : array) : res array :=
  let out := a.(a_out) ++ (if a.(a_written) then [44] else [91]) in
  b <- writeJSON fuel m ;; Ok (mkA (out ++ b) true).
Definition arrayClose (a : array) : bytes := a.(a_out) ++ (if a.(a_written) then [93] else [91; 93]).
Definition arrayReset (a : array) : array := mkA [] false.
Fixpoint arrayWrites (fuel : nat) (ms : list tmsg) (a : array) : res array :=
  match ms with [] => Ok a | m :: q => a <- arrayWrite fuel m a ;; arrayWrites fuel q a end.
End Json.
