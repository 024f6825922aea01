(** What recording is meant to record. *)
From Verif.Spec Require Export Patches.

(** The little endian bytes of a number, in two's complement when it is negative. *)
Definition little_endian (width : nat) (v : Z) : bytes :=
  map (fun i => v / 256 ^ Z.of_nat i mod 256) (seq 0 width).
Definition width (k : kind) : nat :=
  match k with
  | KBool | KI8 | KU8 => 1 | KI16 | KU16 => 2 | KI32 | KU32 | KF32 => 4 | KI64 | KU64 | KF64 => 8
  end.
Definition cleared (f : Z) : rop := mkRop f OpClear NoListIndex [].
Definition was_set (f : Z) (data : bytes) : rop := mkRop f OpSet NoListIndex data.

(** The operations that stand for one call.  A value that setters do not store is a Clear;
    an Any is recorded as its bytes behind the field header.  The list and map calls here
    only write the list to the segment: edits of lists are recorded when they are made, see
    Spec/ListRecording.v.  ClearField records nothing. *)
Definition records (o : op) : list rop :=
  match o with
  | OScalar f k v => [if is_zero k v then cleared f else was_set f (little_endian (width k) v)]
  | OBytes f _ b => [if nil_b b then cleared f else was_set f b]
  | ONil f => [cleared f]
  | ONested f _ l => let c := sem [] l in [if nil_b c then cleared f else was_set f (wire c)]
  | OAny f h _ l => [was_set f (h ++ wire (sem [] l))]
  | OAnyRaw f h raw => [if nil_b raw then cleared f else was_set f (h ++ raw)]
  | OAnys f l => [if nil_b l then cleared f else was_set f (concat (map (fun p => fst p ++ snd p) l))]
  | _ => []
  end.

(** The operations of the calls made while recording is on, in order. *)
Fixpoint performed (on : bool) (l : list op) : list rop :=
  match l with
  | [] => []
  | ORecord b :: r => performed b r
  | o :: r => (if on then records o else []) ++ performed on r
  end.

(** Runs the calls and collects what all the DrainRecordedOps in it return. *)
Fixpoint run_drains (s : strct) (l : list op) : res (strct * list rop) :=
  match l with
  | [] => Ok (s, [])
  | ODrain :: r =>
      let '(s, ops) := DrainRecordedOps s in
      '(s, more) <- run_drains s r ;; Ok (s, ops ++ more)
  | o :: r => s <- do_op s o ;; run_drains s r
  end.
Definition pending (s : strct) : list rop := snd (DrainRecordedOps s).

(** The call is a setter of the type, on the field it is for. *)
Definition fits_type (l : mapping) (o : op) : Prop :=
  match o with
  | OScalar f k _ => descr l f = Some (DScalar k)
  | OBytes f str _ => descr l f = Some (DBytes str)
  | ONested f n _ => exists l', descr l f = Some (DStruct l') /\ length l' = n
  | ONil f => exists l', descr l f = Some (DStruct l')
  | ORead | OMarshal | ODrain => True
  | _ => False
  end.
