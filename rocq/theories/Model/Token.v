(** clawc/languages/go/clawiter/token.go: tokens and their accessors. *)
From Coq Require Import ZArith List Bool.
Import ListNotations.
From Verif.Model Require Import Base Field.
Open Scope Z_scope.

(** TokenKind, token.go:14-25. *)
Inductive tkind := TStructStart | TStructEnd | TField | TListStart | TListEnd | TMapStart | TMapEnd | TMapEntry.
Definition tkind_eqb (a b : tkind) : bool :=
  match a, b with
  | TStructStart, TStructStart | TStructEnd, TStructEnd | TField, TField | TListStart, TListStart
  | TListEnd, TListEnd | TMapStart, TMapStart | TMapEnd, TMapEnd | TMapEntry, TMapEntry => true
  | _, _ => false
  end.

(** Token, token.go:28-69.  EnumGroup and StructName, which no consumer in the repository reads, are
    left out; a nil slice is the empty list. *)
Record token := mkTok {
  t_kind : tkind; t_name : bytes; t_type : Z; t_data : Z; t_bytes : bytes;
  t_isEnum : bool; t_enumName : bytes; t_isNil : bool; t_len : Z; t_hash : bytes;
  t_keyType : Z; t_valType : Z; t_key : Z; t_keyBytes : bytes
}.

(** The getters read [t_data] or [t_key], token.go:71-102 and 154-185; a float is its bit pattern. *)
Definition getData (k : kind) (d : Z) : Z :=
  match k with
  | KBool => if d =? 0 then 0 else 1
  | KI8 => s8 d | KI16 => s16 d | KI32 => s32 d | KI64 => s64 d
  | KU8 => u8 d | KU16 => u16 d | KU32 => u32 d | KU64 => d
  | KF32 => u32 d | KF64 => d
  end.
(** The setters, token.go:113-150 and 195-232: uint64(v) of an integer of any width is v modulo
    2^64. *)
Definition putData (k : kind) (v : Z) : Z :=
  match k with
  | KBool => if v =? 0 then 0 else 1
  | KF32 | KF64 | KU64 => v
  | _ => u64 v
  end.
Definition setValue (k : kind) (v : Z) (t : token) : token :=
  mkTok t.(t_kind) t.(t_name) t.(t_type) (putData k v) t.(t_bytes) t.(t_isEnum) t.(t_enumName) t.(t_isNil) t.(t_len) t.(t_hash) t.(t_keyType) t.(t_valType) t.(t_key) t.(t_keyBytes).
Definition setKey (k : kind) (v : Z) (t : token) : token :=
  mkTok t.(t_kind) t.(t_name) t.(t_type) t.(t_data) t.(t_bytes) t.(t_isEnum) t.(t_enumName) t.(t_isNil) t.(t_len) t.(t_hash) t.(t_keyType) t.(t_valType) (putData k v) t.(t_keyBytes).
Definition getValue (k : kind) (t : token) : Z := getData k t.(t_data).
Definition getKey (k : kind) (t : token) : Z := getData k t.(t_key).

(** The composite literals Token{Kind: ..., Name: ..., Type: ...}. *)
Definition tok0 (kd : tkind) (name : bytes) (ty : Z) : token := mkTok kd name ty 0 [] false [] false 0 [] 0 0 0 [].
