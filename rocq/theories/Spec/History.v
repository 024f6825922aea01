(** Histories of API calls: what each call does to the abstract message, and the
    model function that runs it. *)
From Verif.Model Require Export Header Segment Struct Scalar Lists Any Maps.
From Verif.Spec Require Export Message.

(** The API calls on a struct.  A child struct, a struct list item or an Any value is
    described by the number of fields of its type and the calls that built it. *)
Inductive op :=
| OScalar (f : Z) (k : kind) (v : Z)            (* SetBool, SetInt8, ..., SetFloat64 *)
| OBytes (f : Z) (str : bool) (b : bytes)       (* SetBytes/SetString, SetStringAsBytes *)
| OClear (f : Z)                                (* ClearField *)
| ORead                                         (* any getter: parses the field index *)
| OMarshal                                      (* Marshal, result dropped *)
| ORecord (b : bool)                            (* SetRecording *)
| ODrain                                        (* DrainRecordedOps *)
| ONested (f : Z) (n : nat) (child : list op)   (* SetNestedStruct *)
| ONil (f : Z)                                  (* SetNestedStruct with nil *)
| OBools (f : Z) (l : list bool)                (* a bool list with these items, synced *)
| ONums (f : Z) (k : kind) (l : list Z)         (* a number list, synced *)
| OBlobs (f : Z) (str : bool) (l : list bytes)  (* a string/bytes list, synced *)
| OStructs (f : Z) (n : nat) (items : list (list op))   (* a struct list, synced *)
| OAny (f : Z) (hash : bytes) (n : nat) (inner : list op)  (* SetAny *)
| OAnyRaw (f : Z) (hash raw : bytes)            (* SetAnyRaw *)
| OAnys (f : Z) (items : list (bytes * bytes))  (* SetListAnyRaw *)
| OMap (f : Z) (kt vt : Z) (entries : bytes).   (* a map with these encoded entries, synced *)

(** ** Abstract effect *)

Definition mset (empty : bool) (f : Z) (v : value) (m : msg) : msg :=
  if empty then fdel f m else fput f v m.
Definition nil_b {A} (l : list A) : bool := match l with [] => true | _ => false end.

Fixpoint apply_op (m : msg) (o : op) {struct o} : msg :=
  let sem := (fix sem (m : msg) (l : list op) : msg :=
                match l with [] => m | o :: r => sem (apply_op m o) r end) in
  match o with
  | OScalar f k v => mset (is_zero k v) f (VScalar k v) m
  | OBytes f str b => mset (nil_b b) f (VBytes str b) m
  | OClear f | ONil f => fdel f m
  | ORead | OMarshal | ORecord _ | ODrain => m
  | ONested f _ l => let c := sem [] l in mset (nil_b c) f (VStruct c) m
  | OBools f l => mset (nil_b l) f (VBools l) m
  | ONums f k l => mset (nil_b l) f (VNums k l) m
  | OBlobs f str l => mset (nil_b l) f (VBlobs str l) m
  | OStructs f _ l => mset (nil_b l) f (VStructs (map (sem []) l)) m
  | OAny f h _ l => fput f (VAny h (wire (sem [] l))) m
  | OAnyRaw f h raw => mset (nil_b raw) f (VAny h raw) m
  | OAnys f l => mset (nil_b l) f (VAnys l) m
  | OMap f kt vt e => mset (nil_b e) f (VMap kt vt e) m
  end.
Fixpoint sem (m : msg) (l : list op) : msg :=
  match l with [] => m | o :: r => sem (apply_op m o) r end.

(** ** Legal calls on a struct type with n fields: the field exists, the arguments are
    values of the Go types, the encoded size stays below 4 GiB (with [t] bytes of
    trailing data in the buffer). *)

Definition fits (t : Z) (m : msg) : Prop := 8 + len (wire_msg m) + t < 2 ^ 32.

Fixpoint ok_op (n : nat) (t : Z) (m : msg) (o : op) {struct o} : Prop :=
  let ok_run := (fix ok_run (n : nat) (m : msg) (l : list op) : Prop :=
                   match l with
                   | [] => True
                   | o :: r => ok_op n 0 m o /\ ok_run n (apply_op m o) r
                   end) in
  let on f v := 0 <= f < Z.of_nat n /\ f < 2 ^ 16 /\ valid_value v /\ fits t (apply_op m o) in
  match o with
  | OScalar f k v => on f (VScalar k v)
  | OBytes f str b => on f (VBytes str b)
  | OClear f | ONil f => 0 <= f < Z.of_nat n
  | ORead | OMarshal | ORecord _ | ODrain => True
  | ONested f n' l => on f (VStruct []) /\ ok_run n' [] l
  | OBools f l => on f (VBools l)
  | ONums f k l => on f (VNums k l)
  | OBlobs f str l => on f (VBlobs str l)
  | OStructs f n' l =>
      on f (VStruct []) /\
      (fix all (l : list (list op)) : Prop :=
         match l with [] => True | c :: r => ok_run n' [] c /\ all r end) l
  | OAny f h n' l => on f (VAny h []) /\ ok_run n' [] l
  | OAnyRaw f h raw => on f (VAny h raw)
  | OAnys f l => on f (VAnys l)
  | OMap f kt vt e => on f (VMap kt vt e)
  end.
Fixpoint ok_run (n : nat) (t : Z) (m : msg) (l : list op) : Prop :=
  match l with
  | [] => True
  | o :: r => ok_op n t m o /\ ok_run n t (apply_op m o) r
  end.

(** ** Running the calls on the model *)

Definition set_scalar (s : strct) (f : Z) (k : kind) (v : Z) : res strct :=
  match k with
  | KBool => SetBool s f (v =? 1)
  | KI8 => SetInt8 s f v | KI16 => SetInt16 s f v | KI32 => SetInt32 s f v | KI64 => SetInt64 s f v
  | KU8 => SetUint8 s f v | KU16 => SetUint16 s f v | KU32 => SetUint32 s f v | KU64 => SetUint64 s f v
  | KF32 => SetFloat32 s f v | KF64 => SetFloat64 s f v
  end.
Definition get_scalar (s : strct) (f : Z) (k : kind) : res Z :=
  match k with
  | KBool => b <- GetBool s f ;; Ok (if b then 1 else 0)
  | KI8 => GetInt8 s f | KI16 => GetInt16 s f | KI32 => GetInt32 s f | KI64 => GetInt64 s f
  | KU8 => GetUint8 s f | KU16 => GetUint16 s f | KU32 => GetUint32 s f | KU64 => GetUint64 s f
  | KF32 => GetFloat32 s f | KF64 => GetFloat64 s f
  end.

Fixpoint do_op (s : strct) (o : op) {struct o} : res strct :=
  let run := (fix run (s : strct) (l : list op) : res strct :=
                match l with [] => Ok s | o :: r => s <- do_op s o ;; run s r end) in
  let build n l := s <- New n ;; run s l in
  match o with
  | OScalar f k v => set_scalar s f k v
  | OBytes f str b => if str then SetStringAsBytes s f b else SetBytes s f b
  | OClear f => ClearField s f
  | ORead => ensureFieldIndexParsed s
  | OMarshal => '(s, _) <- Marshal s ;; Ok s
  | ORecord b => Ok (SetRecording s b)
  | ODrain => Ok (fst (DrainRecordedOps s))
  | ONested f n l => c <- build n l ;; SetNestedStruct s f (Some c)
  | ONil f => SetNestedStruct s f None
  | OBools f l => sync_bools s f l
  | ONums f k l => sync_numbers s f k (nu_setall k l)
  | OBlobs f str l => sync_blobs s f (if str then FTListStrings else FTListBytes) l
  | OStructs f n l =>
      items <- (fix all (l : list (list op)) : res (list strct) :=
                  match l with
                  | [] => Ok []
                  | c :: r => x <- build n c ;; xs <- all r ;; Ok (x :: xs)
                  end) l ;;
      '(s, _) <- sync_structs s f items ;; Ok s
  | OAny f h n l => c <- build n l ;; SetAny s f (Some (h, c))
  | OAnyRaw f h raw => SetAnyRaw s f raw h
  | OAnys f l => SetListAnyRaw s f l
  | OMap f kt vt e => sync_map s f kt vt e
  end.
Fixpoint run (s : strct) (l : list op) : res strct :=
  match l with [] => Ok s | o :: r => s <- do_op s o ;; run s r end.
Definition build (n : nat) (l : list op) : res strct := s <- New n ;; run s l.
