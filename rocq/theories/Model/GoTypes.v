(** The names of Go types that the templates write for the fields of a Struct, clawc/internal/idl/idl.go:738-1038 and
    clawc/languages/go/field/field.go:200-257. *)
From Coq Require Import ZArith List Bool String.
Import ListNotations.
From Verif.Model Require Import Base Field Any ClawText Idl.
Local Open Scope Z_scope.

Fixpoint assoc (l : list (Z * string)) (t : Z) : option bytes :=
  match l with [] => None | (u, g) :: q => if u =? t then Some (lit g) else assoc q t end.

(** fieldTypeToGoType, idl.go:872-903 *)
Definition fieldTypeToGoType (t : Z) : bytes :=
  match assoc [(FTBool, "bool"); (FTInt8, "int8"); (FTInt16, "int16"); (FTInt32, "int32"); (FTInt64, "int64");
               (FTUint8, "uint8"); (FTUint16, "uint16"); (FTUint32, "uint32"); (FTUint64, "uint64");
               (FTFloat32, "float32"); (FTFloat64, "float64"); (FTString, "string"); (FTBytes, "[]byte")]%string t with
  | Some g => g
  | None => lit "any"
  end.

(** nestedMapRawGoType, idl.go:808-835.  ValueIsExternal and ValuePackage are set nowhere in the repository, so that
    the branches 775-777, 797-799 and 815-817 are never taken and are left out. *)
Fixpoint nestedMapRawGoType (m : minfo) : bytes :=
  match m with
  | MInfo k v w n =>
    lit "map[" ++ fieldTypeToGoType k ++ lit "]" ++
    match n with
    | Some n => nestedMapRawGoType n
    | None =>
      if negb (bytes_eqb w []) then lit "*" ++ w ++ lit "Raw"
      else if v =? FTAny then lit "*segment.MapAnyValue"
      else if v =? FTListAny then lit "[]segment.MapAnyValue"
      else fieldTypeToGoType v
    end
  end.
(** MapRawValueGoType, idl.go:764-788; a field that is no map panics. *)
Definition mapRawValueGoType (fd : sfield) : res bytes :=
  match fd.(fd_map) with
  | None => Panic
  | Some (MInfo _ v w n) =>
    match n with
    | Some n => Ok (nestedMapRawGoType n)
    | None =>
      if negb (bytes_eqb w []) then Ok (lit "*" ++ w ++ lit "Raw")
      else if v =? FTAny then Ok (lit "*segment.MapAnyValue")
      else if v =? FTListAny then Ok (lit "[]segment.MapAnyValue")
      else Ok (fieldTypeToGoType v)
    end
  end.
(** MapKeyGoType, idl.go:738-743 *)
Definition mapKeyGoType (fd : sfield) : res bytes :=
  match fd.(fd_map) with None => Panic | Some (MInfo k _ _ _) => Ok (fieldTypeToGoType k) end.

(** nestedMapGoType, idl.go:791-806, and MapValueGoType, 746-761. *)
Fixpoint nestedMapGoType (m : minfo) : bytes :=
  match m with
  | MInfo k v w n =>
    lit "map[" ++ fieldTypeToGoType k ++ lit "]" ++
    match n with
    | Some n => nestedMapGoType n
    | None => if negb (bytes_eqb w []) then lit "*" ++ w else fieldTypeToGoType v
    end
  end.
Definition mapValueGoType (fd : sfield) : res bytes :=
  match fd.(fd_map) with
  | None => Panic
  | Some (MInfo _ v w n) =>
    match n with
    | Some n => Ok (nestedMapGoType n)
    | None => if negb (bytes_eqb w []) then Ok (lit "*" ++ w) else Ok (fieldTypeToGoType v)
    end
  end.

(** IdentInFile, idl.go:927-936 *)
Definition identInFile (w : bytes) : res bytes :=
  match splitAt 46 w with [a] => Ok a | [_; b] => Ok b | _ => Panic end.
(** Render sets IsExternal and Package for the fields whose type is not known and whose name has a dot, idl.go:1089,
    1092, 1130-1141; [fd] is the field before. *)
Definition isExternal (fd : sfield) : bool := (fd.(fd_type) =? FTUnknown) && existsb (fun c => c =? 46) fd.(fd_ident).
Definition package (fd : sfield) : bytes := hd [] (splitAt 46 fd.(fd_ident)).
(** The name of the type with what is before and behind it. *)
Definition named (ext : bool) (pre post : bytes) (fd : sfield) : res bytes :=
  if ext then n <- identInFile fd.(fd_ident) ;; Ok (pre ++ package fd ++ lit "." ++ n ++ post)
  else Ok (pre ++ fd.(fd_ident) ++ post).
(** RawGoType, idl.go:949-1038; [ext] is IsExternal. *)
Definition rawGoType (ext : bool) (fd : sfield) : res bytes :=
  let t := fd.(fd_type) in
  if (t =? FTUint8) && fd.(fd_isEnum) then named ext [] [] fd
  else if (t =? FTUint16) && fd.(fd_isEnum) then named ext [] [] fd
  else if t =? FTStruct then named ext (lit "*") (lit "Raw") fd
  else if (t =? FTListInt8) && fd.(fd_isEnum) then named ext (lit "[]") [] fd
  else if (t =? FTListUint8) && fd.(fd_isEnum) then named ext (lit "[]") [] fd
  else if (t =? FTListUint16) && fd.(fd_isEnum) then named ext (lit "[]") [] fd
  else if t =? FTListStructs then named ext (lit "[]*") (lit "Raw") fd
  else if t =? FTMap then
    k <- mapKeyGoType fd ;; v <- mapRawValueGoType fd ;; Ok (lit "map[" ++ k ++ lit "]" ++ v)
  else match assoc [
      (FTBool, "bool"); (FTInt8, "int8"); (FTInt16, "int16"); (FTInt32, "int32"); (FTInt64, "int64");
      (FTUint8, "uint8"); (FTUint16, "uint16"); (FTUint32, "uint32"); (FTUint64, "uint64");
      (FTFloat32, "float32"); (FTFloat64, "float64"); (FTString, "string"); (FTBytes, "[]byte");
      (FTListBools, "[]bool"); (FTListInt8, "[]int8"); (FTListInt16, "[]int16"); (FTListInt32, "[]int32"); (FTListInt64, "[]int64");
      (FTListUint8, "[]uint8"); (FTListUint16, "[]uint16"); (FTListUint32, "[]uint32"); (FTListUint64, "[]uint64");
      (FTListFloat32, "[]float32"); (FTListFloat64, "[]float64"); (FTListBytes, "[][]byte"); (FTListStrings, "[]string");
      (FTAny, "any"); (FTListAny, "[]any")]%string t with
    | Some g => Ok g
    | None => Panic
    end.

(** field.GoType, field.go:200-257 *)
Definition goType (t : Z) : res bytes :=
  match assoc [
      (FTBool, "bool"); (FTInt8, "int8"); (FTInt16, "int16"); (FTInt32, "int32"); (FTInt64, "int64");
      (FTUint8, "uint8"); (FTUint16, "uint16"); (FTUint32, "uint32"); (FTUint64, "uint64");
      (FTFloat32, "float32"); (FTFloat64, "float64"); (FTString, "string"); (FTBytes, "[]bytes");
      (FTListBools, "[]bool"); (FTListInt8, "[]int8"); (FTListInt16, "[]int16"); (FTListInt32, "[]int32"); (FTListInt64, "[]int64");
      (FTListUint8, "[]uint8"); (FTListUint16, "[]uint16"); (FTListUint32, "[]uint32"); (FTListUint64, "[]uint64");
      (FTListFloat32, "[]float32"); (FTListFloat64, "[]float64"); (FTListBytes, "[][]byte"); (FTListStrings, "[]string")]%string t with
  | Some g => Ok g
  | None => Panic
  end.
(** GoListType, idl.go:907-922 *)
Definition goListType (fd : sfield) : res bytes :=
  if negb fd.(fd_isList) then Panic
  else if negb (bytes_eqb fd.(fd_ident) []) then Ok fd.(fd_ident)
  else g <- goType fd.(fd_type) ;; Ok (if hasPrefix (lit "[]") g then skipn 2 g else g).
(** The lists that struct.tmpl:396-432 gives the type Numbers of this element type. *)
Definition number_list (t : Z) : bool :=
  existsb (Z.eqb t) [FTListUint8; FTListUint16; FTListUint32; FTListUint64; FTListInt8; FTListInt16; FTListInt32; FTListInt64; FTListFloat32; FTListFloat64].

(** The variables with the table of the Struct of a field, mappings.tmpl:38-55 and struct.tmpl:567: of its type, and of
    the values of a map. *)
Definition mappingName (ext : bool) (fd : sfield) : res bytes :=
  if ext then n <- identInFile fd.(fd_ident) ;; Ok (package fd ++ lit ".XXXMapping" ++ n)
  else Ok (lit "XXXMapping" ++ fd.(fd_ident)).
Definition valueMappingName (fd : sfield) : option bytes :=
  match fd.(fd_map) with
  | Some (MInfo _ _ w _) => if bytes_eqb w [] then None else Some (lit "XXXMapping" ++ w)
  | None => None
  end.
