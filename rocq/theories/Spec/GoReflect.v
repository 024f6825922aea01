(** What Go reflection should show of a message and do to it. *)
From Verif.Spec Require Export ListReach.
From Verif.Model Require Export GoReflect.

(** A value of a field of type [ty].  Strings and bytes are stored alike. *)
Definition fits_type (ty : Z) (v : value) : Prop :=
  match v with
  | VScalar k _ => ty = scalar_type k
  | VBytes _ _ => ty = FTBytes \/ ty = FTString
  | VBools _ => ty = FTListBools
  | VNums k _ => ty = list_type k
  | VBlobs str _ => ty = if str then FTListStrings else FTListBytes
  | VStruct _ => ty = FTStruct
  | VStructs _ => ty = FTListStructs
  | VAny _ _ => ty = FTAny
  | VAnys _ => ty = FTListAny
  | VMap _ _ _ => ty = FTMap
  end.

(** An enum is written with its own name, or pkg.Name where it is imported; [plain] is its own name. *)
Definition imported (name plain : bytes) : Prop := exists pkg, ~ In 46 pkg /\ name = pkg ++ 46 :: plain.
Definition names (name plain : bytes) : Prop := ~ In 46 plain /\ (name = plain \/ imported name plain).
(** The group g is the enum [name] of the registered package [path]. *)
Definition enum_is (reg : registry) (e : bytes * bytes) (g : group) : Prop :=
  exists plain l, names (snd e) plain /\ reg (fst e) = Some l /\ NoDup (map fst l) /\ In (plain, g) l.

(** [shows reg d v r]: the reflected value r of a field d is the value v the message has there. *)
Definition shows (reg : registry) (d : fdesc) (v : value) (r : rvalue) : Prop :=
  match v with
  | VScalar KBool z => r = RBool (z =? 1)
  | VScalar k z =>
    match fd_enum d with
    | None => r = RNum k z
    | Some e => exists g, enum_is reg e g /\ r = REnum k z (Some g)
    end
  | VBytes _ b => r = if fd_ty d =? FTString then RStr b else RBytes (Some b)
  | VBools l => r = RList (RBools l)
  | VNums k l => r = RList (RNums k l)
  | VBlobs str l => r = RList (RBlobs str l)
  | VStruct c => exists fs s, fd_child d = Some fs /\ reached (length fs) s c /\ r = RStruct (hstart s) fs
  | VStructs l => exists fs ss, fd_child d = Some fs /\ reached_all (length fs) ss l /\ r = RList (RStructs (map hstart ss) fs)
  | _ => False
  end.

(** A descriptor as the compiler writes it: only a number of 8 or 16 bits is an enum, of a registered package; a struct comes
    with the fields of its type. *)
Definition well_described (reg : registry) (d : fdesc) : Prop :=
  (forall e, fd_enum d = Some e ->
     (In (fd_ty d) [FTUint8; FTUint16; FTListUint8; FTListUint16]) /\ exists g, enum_is reg e g) /\
  (fd_ty d = FTStruct \/ fd_ty d = FTListStructs -> fd_child d <> None).

(** Where reflection keeps its word: not for the lists of bools, bytes and strings, Any values and maps, nor for an imported
    enum of 16 bits. *)
Definition kept (d : fdesc) (v : value) : Prop :=
  match v with
  | VBools _ | VBlobs _ _ | VAny _ _ | VAnys _ | VMap _ _ _ => False
  | VScalar KU16 _ => forall e, fd_enum d = Some e -> ~ In 46 (snd e)
  | _ => True
  end.

(** What a value stands for when it is stored: an enum value must be one of its group. *)
Definition stands_for (v : rvalue) (w : value) : Prop :=
  match v with
  | RBool b => w = VScalar KBool (if b then 1 else 0)
  | RNum k z => k <> KBool /\ w = VScalar k z
  | REnum k z g => (k = KU8 \/ k = KU16) /\ w = VScalar k z /\ exists l e, g = Some l /\ In e l /\ e_num e = z
  | RBytes b => w = VBytes false (match b with Some b => b | None => [] end)
  | RStr b => w = VBytes true b
  | RStruct h _ => exists n c, reached n (h_s h) c /\ h_dirty h = [] /\ w = VStruct c
  | RList (RBools l) => w = VBools l
  | RList (RNums k l) => w = VNums k l
  | RList (RBlobs str l) => w = VBlobs str l
  | RList (RStructs hs _) => exists n cs, reached_all n (map h_s hs) cs /\ Forall (fun h => h_dirty h = []) hs /\ w = VStructs cs
  end.
(** The field types a value can be stored in. *)
Definition has_type (v : rvalue) (ty : Z) : Prop :=
  match v with
  | RBool _ => ty = FTBool
  | RNum k _ | REnum k _ _ => ty = scalar_type k
  | RBytes _ => ty = FTBytes
  | RStr _ => ty = FTString
  | RStruct _ _ => ty = FTStruct
  | RList (RBools _) => ty = FTListBools
  | RList (RNums k _) => ty = list_type k
  | RList (RBlobs str _) => ty = if str then FTListStrings else FTListBytes
  | RList (RStructs _ _) => ty = FTListStructs
  end.
(** The values Set takes: not the empty string, nil bytes, or a list. *)
Definition taken (v : rvalue) : Prop :=
  match v with RStr [] | RBytes None | RList _ => False | _ => True end.
(** A value that is not stored: the field is then not set. *)
Definition zero_value (w : value) : bool :=
  match w with
  | VScalar k z => is_zero k z
  | VBytes _ b => nil_b b
  | VStruct c => nil_b c
  | VBools l => nil_b l | VNums _ l => nil_b l | VBlobs _ l => nil_b l | VStructs l => nil_b l
  | _ => false
  end.

(** What Fields tells about the field f. *)
Definition told (reg : registry) (m : msg) (f : Z) (d : fdesc) (g : given) : Prop :=
  fst g = fd_name d /\
  match flook f m, snd g with None, None => True | Some v, Some r => shows reg d v r | _, _ => False end.
