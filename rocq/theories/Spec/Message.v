(** What a Claw message is, independently of how the code stores it: a finite map
    from field numbers to values, and the documented wire format of such a map. *)
From Verif.Model Require Export Base Field.
From Verif.Spec Require Export FMap.

(** ** Values *)

(** The Go values of each scalar kind; floats are IEEE bit patterns. *)
Definition in_range (k : kind) (v : Z) : Prop :=
  match k with
  | KBool => 0 <= v < 2
  | KI8 => - 2 ^ 7 <= v < 2 ^ 7
  | KI16 => - 2 ^ 15 <= v < 2 ^ 15
  | KI32 => - 2 ^ 31 <= v < 2 ^ 31
  | KI64 => - 2 ^ 63 <= v < 2 ^ 63
  | KU8 => 0 <= v < 2 ^ 8
  | KU16 => 0 <= v < 2 ^ 16
  | KU32 | KF32 => 0 <= v < 2 ^ 32
  | KU64 | KF64 => 0 <= v < 2 ^ 64
  end.

(** The zero value of a kind: for floats both +0 and -0 are zero. *)
Definition is_zero (k : kind) (v : Z) : bool :=
  match k with
  | KF32 => (v =? 0) || (v =? 2 ^ 31)
  | KF64 => (v =? 0) || (v =? 2 ^ 63)
  | _ => v =? 0
  end.

Inductive value :=
| VScalar (k : kind) (v : Z)
| VBytes (is_string : bool) (b : bytes)
| VBools (l : list bool)
| VNums (k : kind) (l : list Z)
| VBlobs (strings : bool) (l : list bytes)
| VStruct (m : list (Z * value))
| VStructs (l : list (list (Z * value)))
| VAny (hash data : bytes)
| VAnys (l : list (bytes * bytes))
| VMap (keyType valType : Z) (entries : bytes).
Definition msg := list (Z * value).

(** ** Wire format *)

Definition header (f t x : Z) : bytes := le_enc 2 f ++ le_enc 1 t ++ le_enc 5 x.
(** Zero bytes up to the next multiple of eight. *)
Definition pad_len (n : Z) : Z := (- n) mod 8.
Definition padded (b : bytes) : bytes := b ++ zeros (pad_len (len b)).

Definition kind_size (k : kind) : nat :=
  match k with
  | KBool | KI8 | KU8 => 1
  | KI16 | KU16 => 2
  | KI32 | KU32 | KF32 => 4
  | KI64 | KU64 | KF64 => 8
  end.
Definition is_wide (k : kind) : bool := Nat.eqb (kind_size k) 8.
Definition scalar_type (k : kind) : Z :=
  match k with
  | KBool => FTBool | KI8 => FTInt8 | KI16 => FTInt16 | KI32 => FTInt32 | KI64 => FTInt64
  | KU8 => FTUint8 | KU16 => FTUint16 | KU32 => FTUint32 | KU64 => FTUint64
  | KF32 => FTFloat32 | KF64 => FTFloat64
  end.
Definition list_type (k : kind) : Z :=
  match k with
  | KBool => FTListBools
  | KI8 => FTListInt8 | KI16 => FTListInt16 | KI32 => FTListInt32 | KI64 => FTListInt64
  | KU8 => FTListUint8 | KU16 => FTListUint16 | KU32 => FTListUint32 | KU64 => FTListUint64
  | KF32 => FTListFloat32 | KF64 => FTListFloat64
  end.

(** Eight booleans to a byte, least significant bit first. *)
Fixpoint bits_byte (l : list bool) : Z :=
  match l with [] => 0 | b :: r => (if b then 1 else 0) + 2 * bits_byte r end.
Definition bit_bytes (l : list bool) : bytes :=
  map (fun i => bits_byte (firstn 8 (skipn (8 * i) l))) (seq 0 ((length l + 7) / 8)).

Definition blob (b : bytes) : bytes := le_enc 4 (len b) ++ b.

Fixpoint wire_value (f : Z) (v : value) {struct v} : bytes :=
  let wire_msg (m : msg) := concat (map (fun p => wire_value (fst p) (snd p)) m) in
  let wire_struct f m := header f FTStruct (8 + len (wire_msg m)) ++ wire_msg m in
  let wire_items := (fix go (i : Z) (l : list msg) : bytes :=
                       match l with
                       | [] => []
                       | m :: r => wire_struct i m ++ go (i + 1) r
                       end) in
  match v with
  | VScalar k z =>
      if is_wide k then header f (scalar_type k) 0 ++ le_enc 8 z
      else header f (scalar_type k) (z mod 256 ^ Z.of_nat (kind_size k))
  | VBytes str b => header f (if str then FTString else FTBytes) (len b) ++ padded b
  | VBools l => header f FTListBools (len l) ++ padded (bit_bytes l)
  | VNums k l =>
      let d := concat (map (le_enc (kind_size k)) l) in
      header f (list_type k) (8 + len d) ++ d
  | VBlobs str l =>
      let d := padded (concat (map blob l)) in
      header f (if str then FTListStrings else FTListBytes) (8 + len d) ++ d
  | VStruct m => wire_struct f m
  | VStructs l => let d := wire_items 0 l in header f FTListStructs (8 + len d) ++ d
  | VAny hash data => header f FTAny (FTStruct + 256 * (16 + len data)) ++ hash ++ data
  | VAnys l => header f FTListAny (len l) ++ concat (map (fun p => fst p ++ snd p) l)
  | VMap kt vt e =>
      let d := padded e in
      header f FTMap (kt + 256 * vt + 65536 * (8 + len d)) ++ d
  end.

(** The fields of a message in order, the struct with a field number, the message. *)
Definition wire_msg (m : msg) : bytes := concat (map (fun p => wire_value (fst p) (snd p)) m).
Definition wire_struct (f : Z) (m : msg) : bytes :=
  header f FTStruct (8 + len (wire_msg m)) ++ wire_msg m.
Fixpoint wire_items (i : Z) (l : list msg) : bytes :=
  match l with
  | [] => []
  | m :: r => wire_struct i m ++ wire_items (i + 1) r
  end.
Definition wire (m : msg) : bytes := wire_struct 0 m.

(** ** Validity: what the Go types allow, and the size limits of the format *)

Definition byte_list (l : bytes) : Prop := Forall (fun b => 0 <= b < 256) l.

Fixpoint valid_value (v : value) : Prop :=
  let valid_msg (m : msg) :=
    fsorted m /\ Forall (fun p => 0 <= fst p < 2 ^ 16) m /\
    (fix go (m : msg) := match m with
                         | [] => True
                         | p :: r => valid_value (snd p) /\ go r
                         end) m in
  match v with
  | VScalar k z => in_range k z
  | VBytes _ b => byte_list b
  | VBools _ => True
  | VNums k l => k <> KBool /\ Forall (in_range k) l
  | VBlobs _ l => Forall byte_list l
  | VStruct m => valid_msg m
  | VStructs l => (fix go (l : list msg) := match l with
                                            | [] => True
                                            | m :: r => valid_msg m /\ go r
                                            end) l
  | VAny hash data => len hash = 16 /\ byte_list hash /\ byte_list data
  | VAnys l =>
      Forall (fun p => len (fst p) = 16 /\ byte_list (fst p) /\ byte_list (snd p) /\
                       exists f t r, snd p = header f t (len (snd p)) ++ r) l
  | VMap kt vt e => 0 <= kt < 256 /\ 0 <= vt < 256 /\ byte_list e /\ 8 + len (padded e) < 2 ^ 24
  end.
Definition valid_msg (m : msg) : Prop :=
  fsorted m /\ Forall (fun p => 0 <= fst p < 2 ^ 16 /\ valid_value (snd p)) m.
