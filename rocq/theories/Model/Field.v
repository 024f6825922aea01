(** clawc/languages/go/field/field.go:12-65 *)
From Verif.Model Require Import Base.

Definition FTBool : Z := 1.
Definition FTInt8 : Z := 2.
Definition FTInt16 : Z := 3.
Definition FTInt32 : Z := 4.
Definition FTInt64 : Z := 5.
Definition FTUint8 : Z := 6.
Definition FTUint16 : Z := 7.
Definition FTUint32 : Z := 8.
Definition FTUint64 : Z := 9.
Definition FTFloat32 : Z := 10.
Definition FTFloat64 : Z := 11.
Definition FTString : Z := 12.
Definition FTBytes : Z := 13.
Definition FTStruct : Z := 14.
Definition FTAny : Z := 15.
Definition FTListBools : Z := 41.
Definition FTListInt8 : Z := 42.
Definition FTListInt16 : Z := 43.
Definition FTListInt32 : Z := 44.
Definition FTListInt64 : Z := 45.
Definition FTListUint8 : Z := 46.
Definition FTListUint16 : Z := 47.
Definition FTListUint32 : Z := 48.
Definition FTListUint64 : Z := 49.
Definition FTListFloat32 : Z := 50.
Definition FTListFloat64 : Z := 51.
Definition FTListBytes : Z := 52.
Definition FTListStrings : Z := 53.
Definition FTListStructs : Z := 54.
Definition FTMap : Z := 55.
Definition FTListAny : Z := 56.

(** IsListType, field.go:48-50 *)
Definition IsListType (ft : Z) : bool :=
  ((FTListBools <=? ft) && (ft <=? FTListStructs)) || (ft =? FTListAny).

(** The ten number kinds of the Number constraint, scalar.go:11-13, plus bool. *)
Inductive kind := KBool | KI8 | KI16 | KI32 | KI64 | KU8 | KU16 | KU32 | KU64 | KF32 | KF64.

