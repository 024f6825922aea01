(** Framing on an io.Writer/io.Reader: struct.go 361-382 (MarshalWriter) and
    450-490 (UnmarshalReader).

    A reader is the list of bytes it will still deliver; io.ReadFull asks it until the
    buffer is full or the reader ends, so how the bytes are chunked does not matter.
    A writer takes all the bytes of one Write.  Readers and writers that fail for
    other reasons than the end of the data are not modelled. *)
From Verif Require Import Model.Base Model.Header Model.Field Model.Struct.

(** MarshalWriter: the bytes handed to Write, and the struct afterwards.  The code is
    that of Marshal except that the buffer is written instead of copied. *)
Definition MarshalWriter (s : strct) : res (strct * bytes) := Marshal s.

(** io.ReadFull(r, buf) with len(buf) = n: the bytes read, the reader afterwards, and
    whether err is nil. *)
Definition ReadFull (r : bytes) (n : Z) : bytes * bytes * bool :=
  (take n r, drop n r, n <=? len r).

(** UnmarshalReader.  [back] is the backing array of the buffer of [s] (its capacity),
    which is reused when it is long enough.  Result: the struct (also changed when the
    call fails half way), the byte count, whether err is nil, and the reader. *)
Definition UnmarshalReader (back : bytes) (s : strct) (r : bytes) : res (strct * Z * bool * bytes) :=
  let '(header, r, ok) := ReadFull r HeaderSize in
  let n := len header in
  if negb ok then Ok (s, n, false, r)
  else
    '(_, fieldType, totalSize) <- DecodeHeader header ;;
    if negb (fieldType =? FTStruct) then Ok (s, n, false, r)
    else
      let d := if len back >=? totalSize then take totalSize back else zeros totalSize in
      d <- copy_at d 0 header ;;
      if totalSize >? HeaderSize then
        let '(body, r, ok) := ReadFull r (len d - HeaderSize) in
        d <- copy_at d HeaderSize body ;;
        if negb ok then Ok (with_data s d, n + len body, false, r)
        else Ok (with_parsed (with_data s d) false, n + len body, true, r)
      else Ok (with_parsed (with_data s d) false, n, true, r).
