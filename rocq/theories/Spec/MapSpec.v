(** What a map is: keys with an order and an equality, and the contents a history of
    calls leaves behind. *)
From Verif.Spec Require Export Message.
From Verif.Model Require Export MapApi.

(** ** Keys *)

Definition is_float (k : kind) : bool := match k with KF32 | KF64 => true | _ => false end.

Definition key_ok (kt : keyty) (k : mkey) : Prop :=
  match kt, k with
  | KTNum k, KNum z => in_range k z
  | KTStr, KStr b => byte_list b
  | _, _ => False
  end.

(** Bytewise order of strings: at the first difference, or a proper prefix. *)
Definition str_lt (a b : bytes) : Prop :=
  exists p, (exists c r, a = p /\ b = p ++ c :: r) \/
            (exists x y r r', a = p ++ x :: r /\ b = p ++ y :: r' /\ x < y).
(** Floats by value, NaN (all NaNs are one key) before everything else. *)
Definition flt_lt (k : kind) (a b : Z) : Prop :=
  is_nan k b = false /\ (is_nan k a = true \/ f_val k a < f_val k b).
Definition flt_eq (k : kind) (a b : Z) : Prop :=
  (is_nan k a = true /\ is_nan k b = true) \/
  (is_nan k a = false /\ is_nan k b = false /\ f_val k a = f_val k b).

Definition key_lt (kt : keyty) (a b : mkey) : Prop :=
  match kt, a, b with
  | KTNum k, KNum a, KNum b => if is_float k then flt_lt k a b else a < b
  | KTStr, KStr a, KStr b => str_lt a b
  | _, _, _ => False
  end.
(** Go's == on keys, with NaN equal to itself: for floats +0 and -0 are one key. *)
Definition same_key (kt : keyty) (a b : mkey) : Prop :=
  match kt, a, b with
  | KTNum k, KNum x, KNum y => if is_float k then flt_eq k x y else x = y
  | _, _, _ => a = b
  end.

(** ** Contents *)

Inductive mop := MSet (k : mkey) (v : mval) | MDelete (k : mkey) | MClear.

Definition mop_ok (kt : keyty) (o : mop) : Prop :=
  match o with MSet k _ | MDelete k => key_ok kt k | MClear => True end.

(** [holds kt h k o]: after the calls h (latest first) the key k has the value o. *)
Inductive holds (kt : keyty) : list mop -> mkey -> option mval -> Prop :=
| H_new k : holds kt [] k None
| H_set h k k' v : same_key kt k k' -> holds kt (MSet k' v :: h) k (Some v)
| H_set_other h k k' v o : ~ same_key kt k k' -> holds kt h k o -> holds kt (MSet k' v :: h) k o
| H_delete h k k' : same_key kt k k' -> holds kt (MDelete k' :: h) k None
| H_delete_other h k k' o : ~ same_key kt k k' -> holds kt h k o -> holds kt (MDelete k' :: h) k o
| H_clear h k : holds kt (MClear :: h) k None.

(** The calls on the model, oldest first. *)
Definition do_mop (kt : keyty) (m : mapobj) (o : mop) : res mapobj :=
  match o with
  | MSet k v => mp_Set kt m k v
  | MDelete k => mp_Delete kt m k
  | MClear => Ok (mp_Clear m)
  end.
Fixpoint run_map (kt : keyty) (m : mapobj) (h : list mop) : res mapobj :=
  match h with [] => Ok m | o :: r => m <- do_mop kt m o ;; run_map kt m r end.

(** One bit pattern for each key: no -0, one NaN. *)
Definition canon_key (kt : keyty) (k : mkey) : Prop :=
  match kt, k with
  | KTNum KF32, KNum b => b <> 2 ^ 31 /\ (is_nan KF32 b = true -> b = 2143289344)
  | KTNum KF64, KNum b => b <> 2 ^ 63 /\ (is_nan KF64 b = true -> b = 9221120237041090561)
  | _, _ => True
  end.
Definition mop_canon (kt : keyty) (o : mop) : Prop :=
  match o with MSet k _ => canon_key kt k | _ => True end.

(** ** Values that can be stored *)

(** A struct's buffer starts with a header that carries its length. *)
Definition sized (d : bytes) : Prop := exists f t r, d = header f t (len d) ++ r.

Definition val_ok (vt : valty) (v : mval) : Prop :=
  match vt, v with
  | VTNum k, MNum z => in_range k z
  | (VTStr | VTBytes), MStr b => byte_list b
  | VTStruct, MStruct d => byte_list d /\ sized d
  | VTAny, MAny (Some (h, d)) => len h = 16 /\ byte_list h /\ byte_list d /\ sized d
  | VTAnys, MAnys l => Forall (fun p => len (fst p) = 16 /\ byte_list (fst p) /\ byte_list (snd p) /\ sized (snd p)) l
  | _, _ => False
  end.

(** How many entries made of zero bytes fit into the given number of padding bytes: the
    smallest key and the smallest value of each type ([None]: no value is all zeros). *)
Definition zero_key_size (kt : keyty) : Z := match kt with KTNum k => Z.of_nat (kind_size k) | KTStr => 4 end.
Definition zero_val_size (vt : valty) : option Z :=
  match vt with
  | VTNum k => Some (Z.of_nat (kind_size k))
  | VTStr | VTBytes | VTAnys => Some 4
  | _ => None
  end.
Definition ghosts (kt : keyty) (vt : valty) (pad : Z) : nat :=
  match zero_val_size vt with
  | Some v => Z.to_nat (pad / (zero_key_size kt + v))
  | None => O
  end.
Definition zero_key (kt : keyty) : mkey := match kt with KTNum _ => KNum 0 | KTStr => KStr [] end.
Definition zero_val (vt : valty) : mval :=
  match vt with VTNum _ => MNum 0 | VTAnys => MAnys [] | _ => MStr [] end.
