(** clawc/languages/go/segment/segment.go: the Segment buffer.
    Simplification: only the visible bytes data[:len] are kept; growing the slice
    into spare capacity (or a fresh array) exposes bytes that every caller below
    overwrites before returning, so they are modelled as zeros.  Capacity and
    sharing of the backing array are modelled in Model/Alias.v. *)
From Verif.Model Require Import Base.

(** NewSegment, segment.go:149-157 (the visible 8 zero bytes). *)
Definition NewSegment : bytes := zeros 8.

(** Append, segment.go:193-196. *)
Definition Append (d data : bytes) : bytes := d ++ data.

(** InsertAt, segment.go:200-218. *)
Definition InsertAt (d : bytes) (offset : Z) (data : bytes) : res bytes :=
  if (offset <? 0) || (offset >? len d) then Panic
  else if len data =? 0 then Ok d
  else
    let oldLen := len d in
    let ext := d ++ zeros (len data) in
    ext <- (if offset <? oldLen
            then (tail <- slice d offset oldLen ;; copy_at ext (offset + len data) tail)
            else Ok ext) ;;
    copy_at ext offset data.

(** RemoveAt, segment.go:221-231. *)
Definition RemoveAt (d : bytes) (offset n : Z) : res bytes :=
  if (offset <? 0) || (offset + n >? len d) then Panic
  else if n =? 0 then Ok d
  else
    tail <- slice d (offset + n) (len d) ;;
    d' <- copy_at d offset tail ;;
    slice d' 0 (len d - n).

(** ReplaceAt, segment.go:235-257. *)
Definition ReplaceAt (d : bytes) (offset n : Z) (newData : bytes) : res bytes :=
  if (offset <? 0) || (offset + n >? len d) then Panic
  else
    let delta := len newData - n in
    if delta =? 0 then copy_at d offset newData
    else
      tail <- slice d (offset + n) (len d) ;;
      d' <- (if delta >? 0
             then copy_at (d ++ zeros delta) (offset + len newData) tail
             else (d1 <- copy_at d (offset + len newData) tail ;;
                   slice d1 0 (len d + delta))) ;;
      copy_at d' offset newData.
