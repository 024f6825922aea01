(** What a schema that the compiler accepts is. *)
From Coq Require Import ZArith List Bool String Permutation Sorted.
Import ListNotations.
From Verif.Model Require Import Base Utf8 Field Idl.
Local Open Scope Z_scope.

(** The built-in types (docs/schema_language): their names and the types of fields of them and of lists of them. *)
Definition builtin_types : list (string * Z * Z) := [
  ("bool"%string, FTBool, FTListBools);
  ("int8"%string, FTInt8, FTListInt8); ("int16"%string, FTInt16, FTListInt16);
  ("int32"%string, FTInt32, FTListInt32); ("int64"%string, FTInt64, FTListInt64);
  ("uint8"%string, FTUint8, FTListUint8); ("uint16"%string, FTUint16, FTListUint16);
  ("uint32"%string, FTUint32, FTListUint32); ("uint64"%string, FTUint64, FTListUint64);
  ("float32"%string, FTFloat32, FTListFloat32); ("float64"%string, FTFloat64, FTListFloat64);
  ("string"%string, FTString, FTListStrings); ("bytes"%string, FTBytes, FTListBytes);
  ("Any"%string, FTAny, FTListAny) ].
(** Keys of maps are booleans, numbers and strings. *)
Definition key_types : list Z :=
  [FTBool; FTInt8; FTInt16; FTInt32; FTInt64; FTUint8; FTUint16; FTUint32; FTUint64; FTFloat32; FTFloat64; FTString].
Definition value_types : list Z := key_types ++ [FTBytes; FTAny; FTListAny].

(** An imported package, by its name in the file. *)
Definition imports_pkg (f : file) (p : bytes) : Prop := exists l path, f.(f_imports) = Some l /\ In (p, path) l.
(** package.Type *)
Definition dotted (w p n : bytes) : Prop := w = p ++ 46 :: n /\ ~ In 46 p /\ ~ In 46 n.
(** A name from another package is from an imported one, and is listed as external. *)
Definition name_known (f : file) (w : bytes) : Prop := forall p n, dotted w p n -> p <> [] -> n <> [] -> imports_pkg f p /\ In w f.(f_external).

Inductive map_type (f : file) : minfo -> Prop :=
| mt_plain k v : In k key_types -> In v value_types -> map_type f (MInfo k v [] None)
| mt_named k w : In k key_types -> name_known f w -> map_type f (MInfo k FTStruct w None)
| mt_nested k m : In k key_types -> map_type f m -> map_type f (MInfo k FTMap [] (Some m)).

(** The type and the IsEnum of a field of a declared type. *)
Definition declared_type (d : decl) (isList : bool) : Z * bool :=
  match d with
  | DEnum e => (if e.(e_size) =? 8 then (if isList then FTListUint8 else FTUint8) else (if isList then FTListUint16 else FTUint16), true)
  | DStruct _ => (if isList then FTListStructs else FTStruct, false)
  end.
(** A field as it is read, behind the declarations [before], in the struct [self]. *)
Inductive field_type (f : file) (before : list decl) (self : bytes) : sfield -> Prop :=
| ft_builtin c n i name t lt isList : In (name, t, lt) builtin_types ->
    field_type f before self (mkFd c n i (if isList : bool then lt else t) false isList [] false (name =? "Any")%string None)
| ft_map c n i m : map_type f m -> field_type f before self (mkFd c n i FTMap false false [] false false (Some m))
| ft_self c n i isList :
    field_type f before self (mkFd c n i (if isList : bool then FTListStructs else FTStruct) false isList self true false None)
| ft_declared c n i d isList : In d before ->
    field_type f before self (mkFd c n i (fst (declared_type d isList)) (snd (declared_type d isList)) isList (decl_name d) false false None)
| ft_later c n i w isList : ~ In w (map decl_name before) -> w <> self -> name_known f w ->
    field_type f before self (mkFd c n i FTUnknown false isList w false false None).

(** A field with its type resolved: [ext] gives the files of the external types. *)
Inductive stands_for (f : file) (ext : bytes -> option file) (w : bytes) : decl -> Prop :=
| sf_here d : In d f.(f_idents) -> decl_name d = w -> stands_for f ext w d
| sf_there p n g d : dotted w p n -> imports_pkg f p -> ext w = Some g -> In d g.(f_idents) -> decl_name d = n -> stands_for f ext w d.
Inductive final_type (f : file) (ext : bytes -> option file) : sfield -> Prop :=
| fin_builtin c n i name t lt isList : In (name, t, lt) builtin_types ->
    final_type f ext (mkFd c n i (if isList : bool then lt else t) false isList [] false (name =? "Any")%string None)
| fin_map c n i m : map_type f m -> final_type f ext (mkFd c n i FTMap false false [] false false (Some m))
| fin_declared c n i w d isList self : stands_for f ext w d ->
    final_type f ext (mkFd c n i (fst (declared_type d isList)) (snd (declared_type d isList)) isList w self false None).

Section Names.
(** unicode.IsUpper, IsLower, IsLetter, IsNumber. *)
Variables isUpper isLower isLetter isNumber : Z -> bool.
(** The names of packages and of types, fields and enum values. *)
Definition package_name (w : bytes) : Prop :=
  exists r q, runes w = r :: q /\ isLetter r = true /\ isUpper r = false /\
    Forall (fun r => isLetter r = true \/ isNumber r = true \/ r = 95) q.
Definition type_name (w : bytes) : Prop :=
  exists r q, runes w = r :: q /\ isLetter r = true /\ isLower r = false /\
    Forall (fun r => isLetter r = true \/ isNumber r = true) q.

Definition enum_ok (e : enum) : Prop :=
  type_name e.(e_name) /\ (e.(e_size) = 8 \/ e.(e_size) = 16) /\ e.(e_vals) <> [] /\
  Forall (fun v => type_name v.(ev_name) /\ 0 <= v.(ev_value) < 65536) e.(e_vals) /\
  NoDup (map ev_name e.(e_vals)) /\ NoDup (map ev_value e.(e_vals)).
Definition struct_ok (f : file) (before : list decl) (s : struct) : Prop :=
  type_name s.(s_name) /\ s.(s_fields) <> [] /\
  map fd_index s.(s_fields) = map Z.of_nat (seq 0 (length s.(s_fields))) /\
  Forall (fun fd => type_name fd.(fd_name) /\ field_type f before s.(s_name) fd) s.(s_fields).

Record schema_ok (f : file) : Prop := {
  ok_package : package_name f.(f_package);
  ok_version : f.(f_version) = 0;
  ok_options : f.(f_options) = [] \/ f.(f_options) = [mkOpt (lit "IsSet") []];
  ok_imports : forall l, f.(f_imports) = Some l ->
    l <> [] /\ NoDup (map fst l) /\ Forall (fun e => In 47 (snd e) /\ last (snd e) 0 <> 47) l;
  ok_external : Forall (fun w => exists p, imports_pkg f p /\ ~ In 46 p /\ exists q, w = p ++ 46 :: q) f.(f_external);
  ok_names : NoDup (map decl_name f.(f_idents));
  ok_enums : forall e, In (DEnum e) f.(f_idents) -> enum_ok e;
  ok_structs : forall before s after, f.(f_idents) = before ++ DStruct s :: after -> struct_ok f before s }.
End Names.

(** The lines of a lexer: words and the end of the line or of the file; a word is neither empty nor a newline. *)
Definition a_line (l : iline) : Prop :=
  exists ws e, l.(l_items) = ws ++ [e] /\ Forall (fun w => w <> [] /\ w <> [10]) ws /\
  (l.(l_eof) = true /\ e = [] \/ l.(l_eof) = false /\ e = [10]).
(** A result or an error: no panic, no endless loop. *)
Definition ends {A} (r : res A) : Prop := (exists a, r = Ok a) \/ r = Err.
