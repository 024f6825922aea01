(** clawc/languages/go/segment/maps.go. *)
From Verif.Model Require Import Base Field Header Segment Struct Scalar.

(** The field bytes of Maps.SyncToSegment, maps.go:262-280, for the concatenated
    encoded entries.  Simplification: the entries are written one after the other
    into a buffer sized by the sum of their sizes, which is written here as one copy
    of their concatenation. *)
Definition map_field (fieldNum keyType valType : Z) (entries : bytes) : res bytes :=
  let dataSize := len entries in
  let totalSize := HeaderSize + dataSize + paddingNeeded dataSize in
  fieldData <- EncodeMapHeader (zeros totalSize) fieldNum keyType valType (u32 totalSize) ;;
  copy_at fieldData HeaderSize entries.

(** Maps.SyncToSegment, maps.go:251-283, for a dirty map; every encoded entry has at
    least one byte, so no entries is no bytes. *)
Definition sync_map (parent : strct) (fieldNum keyType valType : Z) (entries : bytes) : res strct :=
  if len entries =? 0 then removeField parent fieldNum
  else fieldData <- map_field fieldNum keyType valType entries ;;
       insertField parent fieldNum fieldData.
