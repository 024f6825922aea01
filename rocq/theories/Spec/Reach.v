(** The structs a program can hold, each with the abstract message it stands for. *)
From Verif.Spec Require Export Query.

(** The field exists and the message keeps below 4 GiB. *)
Definition can_put (n : nat) (m : msg) (f : Z) (empty : bool) (v : value) : Prop :=
  0 <= f < Z.of_nat n /\ f < 2 ^ 16 /\ fits 0 (mset empty f v m).

(** [reached n s m]: a struct s of a type with n fields, obtained through the API without
    IsSet tracking, whose content should be m.  Children are obtained by value here (their
    sharing with the parent is in Model/Alias.v). *)
Inductive reached : nat -> strct -> msg -> Prop :=
| R_new n s :                                   (* a fresh struct *)
    New n = Ok s -> reached n s []
| R_op n s m o s' :                             (* any legal call on it *)
    reached n s m -> ok_op n 0 m o -> do_op s o = Ok s' -> reached n s' (apply_op m o)
| R_record n s m o :                            (* a list edit is recorded *)
    reached n s m -> reached n (RecordOp s o) m
| R_unmarshal n n0 w m w' b rest s0 s :         (* Unmarshal of bytes somebody marshalled,
                                                   possibly with another field count *)
    reached n0 w m -> Marshal w = Ok (w', b) -> New n = Ok s0 -> Unmarshal s0 (b ++ rest) = Ok s ->
    reached n s m
| R_nested n s m f c n' s' :                    (* a nested struct *)
    reached n s m -> seen n m f = Some (VStruct c) -> GetNestedStruct s f n' = Ok (Some s') ->
    reached n' s' c
| R_item n s m f l i c n' items s' :            (* an item of a struct list *)
    reached n s m -> seen n m f = Some (VStructs l) -> nth_error l i = Some c ->
    get_structs s f n' = Ok items -> nth_error items i = Some s' ->
    reached n' s' c
| R_any n s m f h d c n' s0 s' :                (* the value in an Any field *)
    reached n s m -> seen n m f = Some (VAny h d) -> carries d c ->
    New n' = Ok s0 -> GetAny s f h s0 = Ok s' -> reached n' s' c
| R_set_nested n s m f n' s' c s1 :             (* storing any struct as a field, *)
    reached n s m -> reached n' s' c -> can_put n m f (nil_b c) (VStruct c) ->
    SetNestedStruct s f (Some s') = Ok s1 -> reached n s1 (mset (nil_b c) f (VStruct c) m)
| R_set_structs n s m f n' items cs s1 items' : (* as a struct list *)
    reached n s m -> reached_all n' items cs -> can_put n m f (nil_b cs) (VStructs cs) ->
    sync_structs s f items = Ok (s1, items') -> reached n s1 (mset (nil_b cs) f (VStructs cs) m)
| R_set_any n s m f h n' s' c s1 :              (* or in an Any field *)
    reached n s m -> reached n' s' c -> len h = 16 -> byte_list h ->
    can_put n m f false (VAny h (st_data s')) ->
    SetAny s f (Some (h, s')) = Ok s1 -> reached n s1 (fput f (VAny h (st_data s')) m)
with reached_all : nat -> list strct -> list msg -> Prop :=
| RA_nil n : reached_all n [] []
| RA_cons n s m l ms : reached n s m -> reached_all n l ms -> reached_all n (s :: l) (m :: ms).
Scheme reached_mut := Induction for reached Sort Prop
  with reached_all_mut := Induction for reached_all Sort Prop.

(** The field a call works on, and the field a question is about. *)
Definition op_field (o : op) : option Z :=
  match o with
  | OScalar f _ _ | OBytes f _ _ | OClear f | ONested f _ _ | ONil f | OBools f _ | ONums f _ _
  | OBlobs f _ _ | OStructs f _ _ | OAny f _ _ _ | OAnyRaw f _ _ | OAnys f _ | OMap f _ _ _ => Some f
  | ORead | OMarshal | ORecord _ | ODrain => None
  end.
Definition query_field (q : query) : Z :=
  match q with
  | QHas f | QScalar f _ | QBytes f | QBools f | QNums f _ | QBlobs f | QLen f _ | QAnyRaw f | QAnyLen f
  | QAnyItem f _ | QIn f _ _ | QAt f _ _ _ | QAny f _ _ _ | QAnyAt f _ _ _ _ => f
  end.

(** Calls that give a field its zero value. *)
Definition zero_op (o : op) : Prop :=
  match o with
  | OScalar _ k v => is_zero k v = true
  | OBytes _ _ b => b = []
  | OClear _ | ONil _ => True
  | OBools _ l => l = [] | ONums _ _ l => l = [] | OBlobs _ _ l => l = []
  | OStructs _ _ l => l = [] | OAnyRaw _ _ r => r = [] | OAnys _ l => l = []
  | ONested _ _ l => l = []
  | _ => False
  end.
(** A history without the calls on field f. *)
Definition without (f : Z) (l : list op) : list op :=
  filter (fun o => match op_field o with Some g => negb (g =? f) | None => true end) l.
