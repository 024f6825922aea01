(** What it means that a patch leads from one message to another. *)
From Verif.Model Require Export Patch.
From Verif.Spec Require Export Views.

(** A statement about every field of a struct type. *)
Definition each (P : fdesc -> Z -> Prop) := fix go (i : Z) (l : mapping) : Prop :=
  match l with
  | [] => True
  | None :: r => go (i + 1) r
  | Some d :: r => P d i /\ go (i + 1) r
  end.
Definition each_field (P : fdesc -> Z -> Prop) (l : mapping) : Prop := each P 0 l.

(** What the getters give for an absent field. *)
Definition num_in (o : option value) : Z := match o with Some (VScalar _ v) => v | _ => 0 end.
Definition bytes_in (o : option value) : bytes := match o with Some (VBytes _ b) => b | _ => [] end.

(** The field is absent or holds a value of its type; neither a zero number, nor an empty
    string, nor an empty struct (setters store none of them). *)
Fixpoint typed_field (d : fdesc) (o : option value) {struct d} : Prop :=
  match d, o with
  | DOther, _ => False
  | _, None => True
  | DScalar k, Some (VScalar k' v) => k' = k /\ is_zero k v = false
  | DBytes str, Some (VBytes str' b) => str' = str /\ b <> []
  | DStruct l, Some (VStruct c) => c <> [] /\ each (fun d i => typed_field d (flook i c)) 0 l
  | _, _ => False
  end.
Definition typed (l : mapping) (m : msg) : Prop := each_field (fun d i => typed_field d (flook i m)) l.

(** The two values are the same to a reader: numbers that are equal or both not a number,
    the same bytes, structs with the same fields. *)
Fixpoint same_field (d : fdesc) (o o' : option value) {struct d} : Prop :=
  match d with
  | DScalar k => num_equal k (num_in o) (num_in o') = true
  | DBytes _ => bytes_in o = bytes_in o'
  | DStruct l =>
      match o, o' with
      | None, None => True
      | Some (VStruct c), Some (VStruct c') => each (fun d i => same_field d (flook i c) (flook i c')) 0 l
      | _, _ => False
      end
  | DOther => False
  end.
Definition same_message (l : mapping) (m m' : msg) : Prop :=
  each_field (fun d i => same_field d (flook i m) (flook i m')) l.

(** Going from one value of a field to the other does not change the encoded size. *)
Fixpoint same_size (d : fdesc) (o o' : option value) {struct d} : Prop :=
  match d, o, o' with
  | _, None, None => True
  | DScalar _, Some _, Some _ => True
  | DBytes _, Some (VBytes _ b), Some (VBytes _ b') => len (padded b) = len (padded b')
  | DStruct l, Some (VStruct c), Some (VStruct c') => each (fun d i => same_size d (flook i c) (flook i c')) 0 l
  | _, _, _ => False
  end.
(** A nested struct that both messages have changes in place only. *)
Definition nested_same_size (d : fdesc) (o o' : option value) : Prop :=
  match d, o, o' with
  | DStruct l, Some (VStruct c), Some (VStruct c') => same_size d o o'
  | _, _, _ => True
  end.

(** How deep the structs of a type nest. *)
Fixpoint depth (d : fdesc) : nat :=
  match d with
  | DStruct l => S (fold_right (fun x n => match x with Some d => Nat.max (depth d) n | None => n end) O l)
  | _ => O
  end.
Definition depths (l : mapping) : nat :=
  fold_right (fun x n => match x with Some d => Nat.max (depth d) n | None => n end) O l.

(** A bound for the bytes a patch needs besides the values in it. *)
Fixpoint overhead (d : fdesc) : Z :=
  match d with
  | DStruct l => 96 + fold_right (fun x n => match x with Some d => overhead d + n | None => n end) 0 l
  | _ => 64
  end.
Definition overheads (l : mapping) : Z :=
  fold_right (fun x n => match x with Some d => overhead d + n | None => n end) 0 l.

(** Field numbers are uint16 in every struct type. *)
Fixpoint numbered_ok (d : fdesc) : Prop :=
  match d with
  | DStruct l => len l <= 2 ^ 16 /\ each (fun d _ => numbered_ok d) 0 l
  | _ => True
  end.

(** Two numbers a reader takes for the same: equal, both not a number, or the two zeros. *)
Definition not_a_number (k : kind) (v : Z) : Prop :=
  match k with
  | KF32 => 255 * 2 ^ 23 < v mod 2 ^ 31
  | KF64 => 2047 * 2 ^ 52 < v mod 2 ^ 63
  | _ => False
  end.
Definition equal_numbers (k : kind) (a b : Z) : Prop :=
  a = b \/ (not_a_number k a /\ not_a_number k b) \/ (is_zero k a = true /\ is_zero k b = true).

(** The getters of two structs of a type agree on every field of the type. *)
Fixpoint agree_field (d : fdesc) (f : Z) (s t : strct) {struct d} : Prop :=
  match d with
  | DScalar k => exists a b, get_scalar s f k = Ok a /\ get_scalar t f k = Ok b /\ equal_numbers k a b
  | DBytes _ => exists b, GetBytes s f = Ok b /\ GetBytes t f = Ok b
  | DStruct l =>
      (GetNestedStruct s f (length l) = Ok None /\ GetNestedStruct t f (length l) = Ok None) \/
      exists a b, GetNestedStruct s f (length l) = Ok (Some a) /\ GetNestedStruct t f (length l) = Ok (Some b) /\
        each (fun d i => agree_field d i a b) 0 l
  | DOther => False
  end.
Definition agree (l : mapping) (s t : strct) : Prop := each_field (fun d i => agree_field d i s t) l.

(** A struct type that a patch can describe: at most as many fields as a patch may have
    operations, and not nested deeper than Apply goes. *)
Definition patchable (l : mapping) : Prop :=
  len l <= MaxPatchOps /\ (depths l <= MaxPatchNestingDepth)%nat /\ each_field (fun d _ => numbered_ok d) l.
(** The patch, and the message while it is being patched, stay below 4 GiB. *)
Definition small_enough (l : mapping) (m m' : msg) : Prop :=
  overheads l + size m + size m' < 2 ^ 32 - 64.

(** An operation the setters of msgs.Op accept: a uint16, a uint8, an int32, bytes. *)
Definition valid_rop (o : rop) : Prop :=
  0 <= r_fn o < 2 ^ 16 /\ 0 <= r_type o < 2 ^ 8 /\ in_range KI32 (r_index o) /\ byte_list (r_data o).
(** A bound for the bytes of the operations in a patch. *)
Definition op_size (o : rop) : Z := 48 + len (padded (r_data o)).
Definition ops_size (ops : list rop) : Z := fold_right (fun o n => op_size o + n) 0 ops.
