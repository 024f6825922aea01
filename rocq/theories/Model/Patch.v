(** languages/go/patch (diff.go, apply.go, encoding.go) and the patch messages of
    languages/go/patch/msgs/msgs.claw, for struct types whose fields are scalars, strings,
    bytes and nested structs.  List fields are in Model/PatchLists.v.
    An operation (msgs.Op) is written as the RecordedOp of segment/struct.go:66-71, which
    has the same four fields and the same type codes. *)
From Verif.Model Require Export Alias Lists.
From Verif.Spec Require Export History.

(** mapping.FieldDescr as far as the patch package looks at it: the type, and the mapping of
    a nested struct (m.Fields, by field number; nil entries are skipped).  DOther is a map,
    an Any or a list of Any. *)
Inductive fdesc :=
| DScalar (k : kind)
| DBytes (str : bool)
| DStruct (fields : list (option fdesc))
| DOther.
Definition mapping := list (option fdesc).

(** ** Numbers as bytes: encoding.go:11-60, diffBool, diff.go:150-154 *)
Definition kind_width (k : kind) : Z :=
  match k with
  | KBool | KI8 | KU8 => 1 | KI16 | KU16 => 2
  | KI32 | KU32 | KF32 => 4 | KI64 | KU64 | KF64 => 8
  end.
Definition num_data (k : kind) (v : Z) : bytes :=
  match k with
  | KBool => [if v =? 0 then 0 else 1]
  | KI8 => le_enc 1 (u8 v) | KI16 => le_enc 2 (u16 v) | KI32 => le_enc 4 (u32 v) | KI64 => le_enc 8 (u64 v)
  | KU8 => le_enc 1 v | KU16 => le_enc 2 v | KU32 | KF32 => le_enc 4 v | KU64 | KF64 => le_enc 8 v
  end.
(** decodeInt16 ... decodeFloat64, encoding.go:63-97, and the conversions of applySet,
    apply.go:92-146, on data that is long enough. *)
Definition num_of (k : kind) (data : bytes) : Z :=
  let x := Base.le_dec (take (kind_width k) data) in
  match k with
  | KBool => if x =? 0 then 0 else 1
  | KI8 => s8 x | KI16 => s16 x | KI32 => s32 x | KI64 => s64 x
  | _ => x
  end.

(** math.IsNaN on a bit pattern. *)
Definition is_nan (k : kind) (v : Z) : bool :=
  match k with
  | KF32 => (Z.land (Z.shiftr v 23) 255 =? 255) && negb (Z.land v (2 ^ 23 - 1) =? 0)
  | KF64 => (Z.land (Z.shiftr v 52) 2047 =? 2047) && negb (Z.land v (2 ^ 52 - 1) =? 0)
  | _ => false
  end.
(** Go's == on two numbers that are not NaN. *)
Definition go_eq (k : kind) (a b : Z) : bool :=
  (a =? b) || match k with
              | KF32 => f32_is_zero a && f32_is_zero b
              | KF64 => f64_is_zero a && f64_is_zero b
              | _ => false
              end.
(** The test [equal] of diffBool 141 and diffNumber 160-243. *)
Definition num_equal (k : kind) (a b : Z) : bool :=
  (is_nan k a && is_nan k b) || (negb (is_nan k a) && negb (is_nan k b) && go_eq k a b).

(** ** Patches as messages: NewOp + setters, NewPatch + SetVersion + OpsAppend + Marshal.
    SetData is not called for a Clear; here it is called with no bytes, which stores nothing.
    SetType is SetUint8 and SetIndex is SetInt32 (msgs.go:171-211). *)
Definition PatchVersion : Z := 1.
Definition op_struct (o : rop) : res strct :=
  s <- New 4 ;;
  s <- SetUint16 s 0 (r_fn o) ;; s <- SetUint8 s 1 (r_type o) ;;
  s <- SetInt32 s 2 (r_index o) ;; SetBytes s 3 (r_data o).
Fixpoint op_structs (ops : list rop) : res (list strct) :=
  match ops with [] => Ok [] | o :: r => x <- op_struct o ;; xs <- op_structs r ;; Ok (x :: xs) end.
Definition patch_bytes (ops : list rop) : res bytes :=
  s <- New 2 ;; s <- SetUint8 s 0 PatchVersion ;;
  items <- op_structs ops ;;
  '(s, _) <- sync_structs s 1 items ;;
  '(_, b) <- Marshal s ;; Ok b.

(** FieldNum, Type, Index and Data of an op; the ops of an unmarshalled patch
    (OpsLen, OpsGet), apply.go:181-190. *)
Definition read_op (s : strct) : res rop :=
  f <- GetUint16 s 0 ;; t <- GetUint8 s 1 ;; i <- GetInt32 s 2 ;; d <- GetBytes s 3 ;;
  Ok (mkRop f t i d).
Fixpoint read_ops (l : list strct) : res (list rop) :=
  match l with [] => Ok [] | s :: r => o <- read_op s ;; os <- read_ops r ;; Ok (o :: os) end.
Definition read_patch (b : bytes) : res (Z * list rop) :=
  s <- New 2 ;; s <- Unmarshal s b ;;
  v <- GetUint8 s 0 ;; items <- get_structs s 1 4 ;; ops <- read_ops items ;; Ok (v, ops).

(** ** Diff *)

(** diffBool 137-155, diffNumber 157-253. *)
Definition diff_scalar (from to : strct) (f : Z) (k : kind) : res (list rop) :=
  a <- get_scalar from f k ;; b <- get_scalar to f k ;;
  Ok (if num_equal k a b then [] else [mkRop f OpSet NoListIndex (num_data k b)]).
(** bytes.Equal. *)
Definition bytes_equal (a b : bytes) : bool := if list_eq_dec Z.eq_dec a b then true else false.
(** diffBytes 255-279. *)
Definition diff_bytes (from to : strct) (f : Z) : res (list rop) :=
  a <- GetBytes from f ;; b <- GetBytes to f ;;
  Ok (if bytes_equal a b then []
      else if (len b =? 0) && (0 <? len a) then [mkRop f OpClear NoListIndex []]
      else [mkRop f OpSet NoListIndex b]).

(** diffField 91-135 with diffNestedStruct 281-338; the inner loop is diffStructToPatch
    64-87 on the nested structs. *)
Fixpoint diff_field (from to : strct) (f : Z) (d : fdesc) {struct d} : res (list rop) :=
  match d with
  | DScalar k => diff_scalar from to f k
  | DBytes _ => diff_bytes from to f
  | DStruct l =>
      a <- GetNestedStruct from f (length l) ;;
      b <- GetNestedStruct to f (length l) ;;
      match a, b with
      | None, None => Ok []
      | Some _, None => Ok [mkRop f OpClear NoListIndex []]
      | None, Some b => '(_, buf) <- Marshal b ;; Ok [mkRop f OpSet NoListIndex buf]
      | Some a, Some b =>
          ops <- (fix go (i : Z) (l : list (option fdesc)) : res (list rop) :=
                    match l with
                    | [] => Ok []
                    | None :: r => go (i + 1) r
                    | Some d :: r => x <- diff_field a b i d ;; y <- go (i + 1) r ;; Ok (x ++ y)
                    end) 0 l ;;
          match ops with
          | [] => Ok []
          | _ => buf <- patch_bytes ops ;; Ok [mkRop f OpStructPatch NoListIndex buf]
          end
      end
  | DOther => Err
  end.
(** diffStructToPatch, diff.go:64-87. *)
Fixpoint diff_fields (from to : strct) (i : Z) (l : mapping) : res (list rop) :=
  match l with
  | [] => Ok []
  | None :: r => diff_fields from to (i + 1) r
  | Some d :: r => x <- diff_field from to i d ;; y <- diff_fields from to (i + 1) r ;; Ok (x ++ y)
  end.
(** Diff, diff.go:37-61, of two structs of the same type without the NoPatch option. *)
Definition Diff (l : mapping) (from to : strct) : res (list rop) := diff_fields from to 0 l.

(** ** Apply *)
Definition MaxPatchOps : Z := 10000.
Definition MaxPatchNestingDepth : nat := 100.

(** The field descriptor, apply.go:56-59. *)
Definition descr (l : mapping) (f : Z) : option fdesc :=
  if (0 <=? f) && (f <? len l) then match nth_error l (Z.to_nat f) with Some d => d | None => None end
  else None.

(** applySet 82-160. *)
Definition m_applySet (h : heap) (v : vst) (d : option fdesc) (f : Z) (data : bytes) : res (heap * vst) :=
  match d with
  | None => Ok (h, v)
  | Some (DScalar k) =>
      if len data <? kind_width k then Err else m_set_scalar h v f k (num_of k data)
  | Some (DBytes str) => m_SetBytes h v f str data
  | Some (DStruct l) =>
      c <- New (length l) ;; c <- Unmarshal c data ;; m_SetNestedStruct h v f (Some c)
  | Some DOther => Err
  end.
(** applyClear 162-171; ClearField, getters.go:253-258, of a field that is not a list. *)
Definition m_applyClear (h : heap) (v : vst) (d : option fdesc) (f : Z) : res (heap * vst) :=
  match d with None => Ok (h, v) | Some _ => m_removeField h v f end.

(** applyOpWithDepth 50-80, applyStructPatch 173-206, and the list operations on a field
    that is not a list (applyListReplace 208-232, applyListSet 316-378, applyListInsert
    432-474, applyListRemove 591-630, applyListStructPatch 750-757).  The fuel is
    MaxPatchNestingDepth - depth. *)
Fixpoint m_apply_op (fuel : nat) (h : heap) (v : vst) (l : mapping) (o : rop) {struct fuel} : res (heap * vst) :=
  let f := r_fn o in
  let d := descr l f in
  let t := r_type o in
  if t =? OpSet then m_applySet h v d f (r_data o)
  else if t =? OpClear then m_applyClear h v d f
  else if t =? OpStructPatch then
    match fuel, d with
    | S fuel, Some (DStruct l') =>
        '(v, c) <- m_GetNestedStruct h v f (length l') ;;
        '(h, v, w) <- match c with
                      | Some w => Ok (h, v, w)
                      | None =>
                          '(h, w) <- m_New h (length l') ;;
                          '(h, v) <- m_SetNestedStruct h v f (Some (load h w)) ;;
                          Ok (h, v, w)
                      end ;;
        '(_, ops) <- read_patch (r_data o) ;;
        '(h, _) <- (fix go (h : heap) (w : vst) (ops : list rop) : res (heap * vst) :=
                      match ops with
                      | [] => Ok (h, w)
                      | o :: r => '(h, w) <- m_apply_op fuel h w l' o ;; go h w r
                      end) h w ops ;;
        Ok (h, v)
    | _, _ => Err
    end
  else if t =? OpListReplace then
    match d with
    | None => Ok (h, v)
    | Some _ => if len (r_data o) =? 0 then m_applyClear h v d f else Err
    end
  else if (t =? OpListSet) || (t =? OpListInsert) || (t =? OpListRemove) then
    match d with None => Ok (h, v) | Some _ => Err end
  else if t =? OpListStructPatch then Err
  else Ok (h, v).
Fixpoint m_apply_ops (fuel : nat) (h : heap) (v : vst) (l : mapping) (ops : list rop) : res (heap * vst) :=
  match ops with
  | [] => Ok (h, v)
  | o :: r => '(h, v) <- m_apply_op fuel h v l o ;; m_apply_ops fuel h v l r
  end.
(** Apply, apply.go:27-48, of a patch with this version and these operations. *)
Definition m_Apply (h : heap) (base : vst) (l : mapping) (version : Z) (ops : list rop) : res (heap * vst) :=
  if negb (version =? PatchVersion) then Err
  else if MaxPatchOps <? len ops then Err
  else m_apply_ops MaxPatchNestingDepth h base l ops.
