(** clawc/internal/idl/struct.tmpl: the plain Go structs XxxRaw, NewXxxFromRaw and ToRaw.  The template
    is modelled as functions over the declaration of a struct.  The structs are those of Model/Struct.v. *)
From Coq Require Import ZArith List Bool.
Import ListNotations.
From Verif.Model Require Import Base Field Header Segment Struct Scalar Lists Maps MapApi.
Open Scope Z_scope.

(** The declared type of a field; the struct types are numbered.  Simplification: an enum is the number
    it is, and the values of a map are numbers, strings or structs (maps of bytes, of maps and of Any
    are left out). *)
Inductive rty :=
| RTNum (k : kind)
| RTStr
| RTBytes
| RTMsg (id : nat)
| RTBools
| RTNums (k : kind)
| RTStrs (isString : bool)
| RTMsgs (id : nat)
| RTMap (kt : keyty) (vt : valty) (id : nat)
| RTAny
| RTAnys.
(** A field of a Raw struct, idl.go:934-1032; None is nil.  A Raw struct is the list of its fields.  A Go
    map is the list of its entries, in the order in which a range over it gives them.  Of the Go values
    of type any and []any only whether they are nil is kept. *)
Inductive rawval :=
| RawNum (z : Z)
| RawStr (b : bytes)
| RawBytes (o : option bytes)
| RawMsg (o : option (list rawval))
| RawBools (o : option (list bool))
| RawNums (o : option (list Z))
| RawStrs (o : option (list bytes))
| RawMsgs (o : option (list (option (list rawval))))
| RawMap (o : option (list (mkey * rawval)))
| RawAny (o : option unit).

(** The setters of the numbers, by kind: scalar.go. *)
Definition set_num (s : strct) (f : Z) (k : kind) (v : Z) : res strct :=
  match k with
  | KBool => SetBool s f (v =? 1)
  | KI8 => SetInt8 s f v | KI16 => SetInt16 s f v | KI32 => SetInt32 s f v | KI64 => SetInt64 s f v
  | KU8 => SetUint8 s f v | KU16 => SetUint16 s f v | KU32 => SetUint32 s f v | KU64 => SetUint64 s f v
  | KF32 => SetFloat32 s f v | KF64 => SetFloat64 s f v
  end.
Definition get_num (s : strct) (f : Z) (k : kind) : res Z :=
  match k with
  | KBool => b <- GetBool s f ;; Ok (if b then 1 else 0)
  | KI8 => GetInt8 s f | KI16 => GetInt16 s f | KI32 => GetInt32 s f | KI64 => GetInt64 s f
  | KU8 => GetUint8 s f | KU16 => GetUint16 s f | KU32 => GetUint32 s f | KU64 => GetUint64 s f
  | KF32 => GetFloat32 s f | KF64 => GetFloat64 s f
  end.
(** The test of a bool, and != 0 of a number: -0.0 is 0. *)
Definition non_zero (k : kind) (z : Z) : bool :=
  match k with
  | KF32 => negb ((z =? 0) || (z =? 2 ^ 31))
  | KF64 => negb ((z =? 0) || (z =? 2 ^ 63))
  | _ => negb (z =? 0)
  end.

Section Raw.
(** The fields of every struct type. *)
Variable E : nat -> list rty.

(** One field of NewXxxFromRaw, struct.tmpl:939-1024.  Simplification: a list or a map is written to
    the segment at once, the code does so when the struct is marshalled or put into another one
    (C18_new_list_written); without IsSet tracking.  There is no case for Any and []Any. *)
Fixpoint put_raw (s : strct) (i : Z) (ty : rty) (v : rawval) {struct v} : res strct :=
  let put_all := (fix put_all (s : strct) (i : Z) (tys : list rty) (fs : list rawval) {struct fs} : res strct :=
                    match tys, fs with
                    | ty :: tys, v :: fs => s <- put_raw s i ty v ;; put_all s (i + 1) tys fs
                    | _, _ => Ok s
                    end) in
  let from id fs := s <- New (length (E id)) ;; put_all s 0 (E id) fs in
  match ty, v with
  | RTNum k, RawNum z => if non_zero k z then set_num s i k z else Ok s
  | RTStr, RawStr b => if negb (len b =? 0) then SetString s i b else Ok s
  | RTBytes, RawBytes (Some b) => SetBytes s i b
  | RTMsg id, RawMsg (Some fs) => c <- from id fs ;; SetNestedStruct s i (Some c)
  | RTBools, RawBools (Some l) => sync_bools s i l
  | RTNums k, RawNums (Some l) => sync_numbers s i k (nu_setall k l)
  | RTStrs st, RawStrs (Some l) => sync_blobs s i (if st then FTListStrings else FTListBytes) l
  | RTMsgs id, RawMsgs (Some l) =>
    items <- (fix items (l : list (option (list rawval))) : res (list strct) :=
                match l with
                | [] => Ok []
                | None :: l => items l
                | Some fs :: l => c <- from id fs ;; q <- items l ;; Ok (c :: q)
                end) l ;;
    '(s, _) <- sync_structs s i items ;; Ok s
  | RTMap kt vt id, RawMap (Some es) =>
    m <- (fix entries (m : mapobj) (es : list (mkey * rawval)) : res mapobj :=
            match es with
            | [] => Ok m
            | (k, RawMsg (Some fs)) :: es => c <- from id fs ;; m <- mp_Set kt m k (MStruct c.(st_data)) ;; entries m es
            | (k, RawNum z) :: es => m <- mp_Set kt m k (MNum z) ;; entries m es
            | (k, RawStr b) :: es => m <- mp_Set kt m k (MStr b) ;; entries m es
            | _ :: es => entries m es
            end) NewMaps es ;;
    '(s, _) <- mp_Sync kt vt s i m ;; Ok s
  | _, _ => Ok s
  end.
Fixpoint put_all (s : strct) (i : Z) (tys : list rty) (fs : list rawval) {struct fs} : res strct :=
  match tys, fs with
  | ty :: tys, v :: fs => s <- put_raw s i ty v ;; put_all s (i + 1) tys fs
  | _, _ => Ok s
  end.
(** NewXxxFromRaw, struct.tmpl:936-1027. *)
Definition FromRaw (id : nat) (raw : list rawval) : res strct := s <- New (length (E id)) ;; put_all s 0 (E id) raw.

(** The Go map after m[k] = v: keys are compared with ==, so NaN is never found. *)
Definition go_key_eq (kt : keyty) (a b : mkey) : bool :=
  match kt, a, b with
  | KTNum (KF32 as k), KNum a, KNum b | KTNum (KF64 as k), KNum a, KNum b =>
    negb (is_nan k a) && negb (is_nan k b) && (f_val k a =? f_val k b)
  | _, KNum a, KNum b => a =? b
  | _, KStr a, KStr b => cmpS a b =? 0
  | _, _, _ => false
  end.
Fixpoint go_set (kt : keyty) (es : list (mkey * rawval)) (k : mkey) (v : rawval) : list (mkey * rawval) :=
  match es with
  | [] => [(k, v)]
  | (k0, v0) :: q => if go_key_eq kt k0 k then (k0, v) :: q else (k0, v0) :: go_set kt q k v
  end.
(** The struct over the value of a map entry, maps.go:842-848. *)
Definition entry_struct (d : bytes) (n : nat) : res strct :=
  idx <- parseFieldIndex d (repeat fe_zero n) ;; Ok (mkStruct d idx false false None false []).

Section Fields.
(** ToRaw of a nested struct. *)
Variable rec : nat -> strct -> res (list rawval).
Fixpoint all_raw (id : nat) (items : list strct) : res (list (option (list rawval))) :=
  match items with
  | [] => Ok []
  | c :: q => fs <- rec id c ;; l <- all_raw id q ;; Ok (Some fs :: l)
  end.
(** The loop over the entries of a map, 1098-1112. *)
Fixpoint map_raw (kt : keyty) (id : nat) (raw : list (mkey * rawval)) (es : list (mkey * mval)) : res (list (mkey * rawval)) :=
  match es with
  | [] => Ok raw
  | (k, v) :: q =>
    r <- (match v with
          | MNum z => Ok (RawNum z)
          | MStr b => Ok (RawStr b)
          | MStruct d => c <- entry_struct d (length (E id)) ;; fs <- rec id c ;; Ok (RawMsg (Some fs))
          | _ => Panic (* other types of values are left out *)
          end) ;;
    map_raw kt id (go_set kt raw k r) q
  end.
(** One field of ToRaw, struct.tmpl:1032-1114, of a struct none of whose lists and maps has been used
    (GetList finds nothing in 1043, 1049, ...).  A list or struct that HasField reports is there; the
    other branches are what the code would do. *)
Definition get_raw (s : strct) (i : Z) (ty : rty) : res rawval :=
  match ty with
  | RTNum k => v <- get_num s i k ;; Ok (RawNum v)
  | RTStr => b <- GetBytes s i ;; Ok (RawStr b)
  | RTBytes => h <- HasField s i ;; if h : bool then b <- GetBytes s i ;; Ok (RawBytes (Some b)) else Ok (RawBytes None)
  | RTMsg id =>
    h <- HasField s i ;;
    if h : bool then
      o <- GetNestedStruct s i (length (E id)) ;;
      match o with
      | None => Panic
      | Some c => fs <- rec id c ;; Ok (RawMsg (Some fs))
      end
    else Ok (RawMsg None)
  | RTBools =>
    h <- HasField s i ;;
    if h : bool then l <- get_bools s i ;; Ok (RawBools (Some (match l with Some l => l | None => [] end)))
    else Ok (RawBools None)
  | RTNums k =>
    h <- HasField s i ;;
    if h : bool then
      o <- get_numbers s i k ;;
      match o with
      | None => Ok (RawNums (Some []))
      | Some nu => l <- nu_slice k nu ;; Ok (RawNums (Some l))
      end
    else Ok (RawNums None)
  | RTStrs _ =>
    h <- HasField s i ;;
    if h : bool then l <- get_blobs s i ;; Ok (RawStrs (Some (match l with Some l => l | None => [] end)))
    else Ok (RawStrs None)
  | RTMsgs id =>
    h <- HasField s i ;;
    if h : bool then items <- get_structs s i (length (E id)) ;; l <- all_raw id items ;; Ok (RawMsgs (Some l))
    else Ok (RawMsgs None)
  | RTMap kt vt id =>
    o <- GetMap kt vt s i ;;
    match o with
    | None => Ok (RawMap None)
    | Some m =>
      if 0 <? mp_Len m then
        es <- mp_All m (fun _ _ => true) ;; l <- map_raw kt id [] es ;; Ok (RawMap (Some l))
      else Ok (RawMap None)
    end
  | RTAny | RTAnys => Ok (RawAny None)
  end.
Fixpoint get_all (s : strct) (i : Z) (tys : list rty) : res (list rawval) :=
  match tys with
  | [] => Ok []
  | ty :: tys => v <- get_raw s i ty ;; l <- get_all s (i + 1) tys ;; Ok (v :: l)
  end.
End Fields.
(** ToRaw, struct.tmpl:1030-1116.  The fuel bounds the depth of nesting. *)
Fixpoint ToRaw (n : nat) (id : nat) (s : strct) : res (list rawval) :=
  match n with
  | O => Hang
  | S n => get_all (ToRaw n) s 0 (E id)
  end.
End Raw.
