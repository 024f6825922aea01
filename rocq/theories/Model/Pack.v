(** Word packing: languages/go/pack/pack.go.

    Buffers are byte lists with bounds-checked writes, so that writing past the
    buffer that [Pack] sized is a [Panic].  The contents a pooled buffer happens to
    have when it is taken from the pool is a parameter ([pooled]), so the theorems
    hold whatever an earlier user left in it.  Not modelled: the pool itself and
    Release (pack.go 37-73). *)
From Verif Require Import Model.Base.

Definition HeaderSize : Z := 16.

(** Go [dst[i] = x]. *)
Definition put (dst : bytes) (i : Z) (x : byte) : res bytes :=
  if (0 <=? i) && (i <? len dst) then Ok (upd dst i x) else Panic.

(** The index sequence of [for i := 0; i < 8; i++]. *)
Definition idx8 : list Z := [0; 1; 2; 3; 4; 5; 6; 7].

(** pack.go 75-85 maxPackedSize. *)
Definition maxPackedSize (unpackedLen : Z) : Z :=
  if unpackedLen =? 0 then 0 else
  let words := unpackedLen / 8 in
  unpackedLen + words + (words + 255) / 256.

(** pack.go 297-306 computeTag. *)
Definition computeTag (word : Z) : byte :=
  fold_left (fun tag i =>
    if negb (Z.land (Z.shiftr word (i * 8)) 255 =? 0)
    then Z.lor tag (u8 (Z.shiftl 1 i)) else tag) idx8 0.

(** pack.go 310-319 packWord, on the slice dst[w:]; returns the buffer and n. *)
Definition packWord (dst : bytes) (w word : Z) (tag : byte) : res (bytes * Z) :=
  if negb ((0 <=? w) && (w <=? len dst)) then Panic else
  fold_left (fun acc i =>
    ' (d, n) <- acc ;;
    if negb (Z.land tag (u8 (Z.shiftl 1 i)) =? 0)
    then d' <- put d (w + n) (u8 (Z.shiftr word (i * 8))) ;; Ok (d', n + 1)
    else Ok (d, n)) idx8 (Ok (dst, 0)).

(** pack.go 340-348 countZerosInWord. *)
Definition countZerosInWord (word : Z) : Z :=
  fold_left (fun count i =>
    if Z.land (Z.shiftr word (i * 8)) 255 =? 0 then count + 1 else count) idx8 0.

(** binary.LittleEndian.Uint64(src[r:]). *)
Definition word_at (src : bytes) (r : Z) : res Z :=
  t <- slice src r (len src) ;; le_get 8 t.

(** pack.go 146-154: the loop counting further zero words; [fuel] bounds the 255
    iterations the byte counter allows. *)
Fixpoint zero_run (fuel : nat) (src : bytes) (r count : Z) : res (Z * Z) :=
  match fuel with
  | O => Hang
  | S f =>
    if (r <? len src) && (count <? 255) then
      word <- word_at src r ;;
      if negb (word =? 0) then Ok (r, count)
      else zero_run f src (r + 8) (u8 (count + 1))
    else Ok (r, count)
  end.

(** pack.go 163-174: the loop copying further literal words. *)
Fixpoint literal_run (fuel : nat) (dst src : bytes) (w r count : Z) : res (bytes * Z * Z * Z) :=
  match fuel with
  | O => Hang
  | S f =>
    if (r <? len src) && (count <? 255) then
      word <- word_at src r ;;
      if 2 <=? countZerosInWord word then Ok (dst, w, r, count)
      else
        dst <- le_put 8 dst w word ;;
        literal_run f dst src (w + 8) (r + 8) (u8 (count + 1))
    else Ok (dst, w, r, count)
  end.

(** pack.go 126-181 packInto: the outer loop. *)
Fixpoint packLoop (fuel : nat) (dst src : bytes) (w r : Z) : res (bytes * Z) :=
  match fuel with
  | O => Hang
  | S f =>
    if r <? len src then
      word <- word_at src r ;;
      let tag := computeTag word in
      dst <- put dst w tag ;;
      let w := w + 1 in
      ' (dst, n) <- packWord dst w word tag ;;
      let w := w + n in
      let r := r + 8 in
      if tag =? 0 then
        ' (r, count) <- zero_run 256 src r 0 ;;
        dst <- put dst w count ;;
        packLoop f dst src (w + 1) r
      else if tag =? 255 then
        let countPos := w in
        ' (dst, w, r, count) <- literal_run 256 dst src (w + 1) r 0 ;;
        dst <- put dst countPos count ;;
        packLoop f dst src w r
      else packLoop f dst src w r
    else Ok (dst, w)
  end.

Definition packInto (dst src : bytes) : res (bytes * Z) :=
  packLoop (S (length src)) dst src 0 0.

(** Taking a buffer of [n] bytes from the pool: pack.go 105-111 and 203-208.
    [make] panics for a negative or absurd length (2^48 is the runtime's address
    space limit on 64-bit machines). *)
Definition poolGet (pooled : bytes) (n : Z) : res bytes :=
  if len pooled <? n then (if n <=? 2 ^ 48 then Ok (zeros n) else Panic)
  else slice pooled 0 n.

(** pack.go 91-124 Pack.  [Ok None] is the nil buffer returned for empty input. *)
Definition Pack (pooled src : bytes) : res (option bytes) :=
  let srcLen := len src in
  if negb (Z.rem srcLen 8 =? 0) then Err else
  if srcLen =? 0 then Ok None else
  let needed := HeaderSize + maxPackedSize srcLen in
  buf <- poolGet pooled needed ;;
  body <- slice buf HeaderSize (len buf) ;;
  ' (body, packedLen) <- packInto body src ;;
  let buf := take HeaderSize buf ++ body in
  buf <- le_put 8 buf 0 (u64 srcLen) ;;
  buf <- le_put 8 buf 8 (u64 packedLen) ;;
  buf <- slice buf 0 (HeaderSize + packedLen) ;;
  Ok (Some buf).

(** pack.go 324-336 unpackWord on dst[w:w+8] and src[r:]; returns dst and srcIdx. *)
Definition unpackWord (dst src : bytes) (w r : Z) (tag : byte) : res (bytes * Z) :=
  if negb ((w + 8 <=? len dst) && (r <=? len src)) then Panic else
  fold_left (fun acc i =>
    ' (d, srcIdx) <- acc ;;
    if negb (Z.land tag (u8 (Z.shiftl 1 i)) =? 0)
    then x <- index src (r + srcIdx) ;; d <- put d (w + i) x ;; Ok (d, srcIdx + 1)
    else d <- put d (w + i) 0 ;; Ok (d, srcIdx)) idx8 (Ok (dst, 0)).

(** pack.go 226-294 unpackInto. *)
Fixpoint unpackLoop (fuel : nat) (dst src : bytes) (w r : Z) : res (bytes * Z) :=
  match fuel with
  | O => Hang
  | S f =>
    if r <? len src then
      if len dst <? w + 8 then Err else
      tag <- index src r ;;
      let r := r + 1 in
      ' (dst, bytesRead) <- unpackWord dst src w r tag ;;
      let r := r + bytesRead in
      let w := w + 8 in
      if tag =? 0 then
        if len src <=? r then Err else
        count <- index src r ;;
        let r := r + 1 in
        let zeroBytes := count * 8 in
        if len dst <? w + zeroBytes then Err else
        dst <- copy_at dst w (zeros zeroBytes) ;;
        unpackLoop f dst src (w + zeroBytes) r
      else if tag =? 255 then
        if len src <=? r then Err else
        count <- index src r ;;
        let r := r + 1 in
        let literalBytes := count * 8 in
        if len src <? r + literalBytes then Err else
        if len dst <? w + literalBytes then Err else
        lits <- slice src r (r + literalBytes) ;;
        dst <- copy_at dst w lits ;;
        unpackLoop f dst src (w + literalBytes) (r + literalBytes)
      else unpackLoop f dst src w r
    else Ok (dst, w)
  end.

Definition unpackInto (dst src : bytes) : res (bytes * Z) :=
  unpackLoop (S (length src)) dst src 0 0.

(** pack.go 187-224 Unpack.  The sum HeaderSize+packedSize is 64-bit arithmetic. *)
Definition Unpack (pooled packed : bytes) : res bytes :=
  if len packed <? HeaderSize then Err else
  a <- slice packed 0 8 ;;
  b <- slice packed 8 16 ;;
  let unpackedSize := s64 (le_dec a) in
  let packedSize := s64 (le_dec b) in
  if len packed <? s64 (HeaderSize + packedSize) then Err else
  if negb (Z.rem unpackedSize 8 =? 0) then Err else
  buf <- poolGet pooled unpackedSize ;;
  src <- slice packed HeaderSize (s64 (HeaderSize + packedSize)) ;;
  ' (buf, n) <- unpackInto buf src ;;
  if negb (n =? unpackedSize) then Err else Ok buf.

(** pack.go 352-357 UnpackedSize, 361-366 PackedSize. *)
Definition UnpackedSize (packed : bytes) : Z :=
  if len packed <? HeaderSize then 0 else s64 (le_dec (take 8 packed)).
Definition PackedSize (packed : bytes) : Z :=
  if len packed <? HeaderSize then 0 else s64 (le_dec (take 8 (drop 8 packed))).
