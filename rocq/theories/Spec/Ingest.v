(** What Ingest of a struct's tokens should do, in terms of what the accessors of the two structs
    return. *)
From Coq Require Import ZArith List Bool.
Import ListNotations.
From Coq Require Import Sorting.Sorted.
From Verif.Model Require Import Base Field MapApi Token Walk Ingest.
From Verif.Spec Require Import Message MapSpec Values.
Open Scope Z_scope.

(** Setting a key in a map whose keys are ascending: a key the map has keeps its place. *)
Fixpoint upsert (kt : keyty) (es : list (mkey * mentry)) (k : mkey) (e : mentry) : list (mkey * mentry) :=
  match es with
  | [] => [(k, e)]
  | (k0, e0) :: q =>
    let c := compareKeys kt k0 k in
    if c =? 0 then (k0, e) :: q
    else if c <? 0 then (k0, e0) :: upsert kt q k e
    else (k, e) :: (k0, e0) :: q
  end.

Section Merge.
Variable E : env.
(** The struct [x] of type [id] after it has taken over the fields of [m], one after the other: fields
    that its type does not have are left out. *)
Fixpoint merge (id : nat) (x : list (bytes * fval)) (m : tmsg) {struct m} : list (bytes * fval) :=
  match m with
  | TMsg _ fs =>
    (fix go (fs : list (bytes * fval)) (x : list (bytes * fval)) : list (bytes * fval) :=
       match fs with
       | [] => x
       | (n, v) :: q =>
         go q (match assoc n (snd (E id)), assoc n x with
               | Some ty, Some old => set_field n (absorb ty old v) x
               | _, _ => x
               end)
       end) fs x
  end
(** A field of type [ty] with the value [old] after it has taken over [v]: numbers, strings and Any
    values are replaced, lists are extended, entries are set in maps; a struct is replaced by a new
    one, and a struct in which nothing is set is no struct.  The name of an enum value is that of the
    type of the field. *)
with absorb (ty : fty) (old : fval) (v : fval) {struct v} : fval :=
  match ty, v with
  | TyNum k e, FNum _ z _ => FNum k (kept k z) (enum_label e (kept k z))
  | TyStr st, FStr _ b => FStr st b
  | TyMsg id, FMsg (Some m) =>
    let fs := merge id (blank E id) m in FMsg (if nothing_set fs then None else Some (TMsg (fst (E id)) fs))
  | TyNums k e, FNums _ l =>
    match old with FNums _ o => FNums k (o ++ map (fun z => (fst z, enum_label e (fst z))) l) | _ => old end
  | TyStrs st, FStrs _ l => match old with FStrs _ o => FStrs st (o ++ l) | _ => old end
  | TyMsgs id, FMsgs l =>
    match old with FMsgs o => FMsgs (o ++ map (fun m => TMsg (fst (E id)) (merge id (blank E id) m)) l) | _ => old end
  | TyMap kt vt id, FMap _ _ es =>
    match old with
    | FMap _ _ o =>
      FMap kt vt ((fix go (es o : list (mkey * mentry)) : list (mkey * mentry) :=
                     match es with
                     | [] => o
                     | (k, e) :: q => go q (upsert kt o k (entry id e))
                     end) es o)
    | _ => old
    end
  | TyAny, FAny (Some (h, d)) => FAny (if len d =? 0 then None else Some (h, d))
  | TyAnys, FAnys ((_ :: _) as l) => FAnys l
  | _, _ => old
  end
with entry (id : nat) (e : mentry) {struct e} : mentry :=
  match e with
  | EMsg (Some m) => EMsg (Some (TMsg (fst (E id)) (merge id (blank E id) m)))
  | _ => e
  end.

(** [known]: a struct of type [id] can take over the fields of the message.  Every field of the message
    is declared with the type of its value, or unknown fields are ignored and SkipValue knows the
    value ([other]). *)
Variable ignoreUnknown : bool.
Variable other : fval -> Prop.
Definition hash16 (x : bytes * bytes) : Prop := len (fst x) = 16.
Inductive known : nat -> tmsg -> Prop :=
| known_msg id name fs : Forall (fun nv => known_field id (fst nv) (snd nv)) fs -> known id (TMsg name fs)
with known_field : nat -> bytes -> fval -> Prop :=
| known_declared id n ty v : assoc n (snd (E id)) = Some ty -> fits ty v -> known_field id n v
| known_other id n v : assoc n (snd (E id)) = None -> ignoreUnknown = true -> other v -> known_field id n v
with fits : fty -> fval -> Prop :=
| fits_num k e z nm : in_range k z -> fits (TyNum k e) (FNum k z nm)
| fits_str st b : fits (TyStr st) (FStr st b)
| fits_nil id : fits (TyMsg id) (FMsg None)
| fits_msg id m : known id m -> fits (TyMsg id) (FMsg (Some m))
| fits_nums k e l : Forall (fun z => in_range k (fst z)) l -> fits (TyNums k e) (FNums k l)
| fits_strs st l : fits (TyStrs st) (FStrs st l)
| fits_msgs id l : Forall (known id) l -> fits (TyMsgs id) (FMsgs l)
| fits_map kt vt id es : Forall (fun ke => key_ok kt (fst ke) /\ efits vt id (snd ke)) es -> fits (TyMap kt vt id) (FMap kt vt es)
| fits_noany : fits TyAny (FAny None)
| fits_any x : hash16 x -> fits TyAny (FAny (Some x))
| fits_anys l : Forall hash16 l -> fits TyAnys (FAnys l)
with efits : valty -> nat -> mentry -> Prop :=
| efits_num k id z : in_range k z -> efits (VTNum k) id (ENum z)
| efits_str id b : efits VTStr id (EStr b)
| efits_msg id m : known id m -> efits VTStruct id (EMsg (Some m))
| efits_any id x : hash16 x -> efits VTAny id (EAny (Some x))
| efits_anys id l : Forall hash16 l -> efits VTAnys id (EAnys l).
End Merge.

(** A value as it can be in a field of the type; the keys of a map are ascending. *)
Definition shaped (ty : fty) (v : fval) : Prop :=
  match ty, v with
  | TyNum k _, FNum k' _ _ | TyNums k _, FNums k' _ => k' = k
  | TyStr st, FStr st' _ | TyStrs st, FStrs st' _ => st' = st
  | TyMsg _, FMsg _ | TyMsgs _, FMsgs _ | TyAny, FAny _ | TyAnys, FAnys _ => True
  | TyMap kt vt _, FMap kt' vt' es => kt' = kt /\ vt' = vt /\ StronglySorted (key_lt kt) (map fst es) /\ Forall (key_ok kt) (map fst es)
  | _, _ => False
  end.
(** A struct with its declared fields. *)
Definition struct_of (decl : list (bytes * fty)) (x : list (bytes * fval)) : Prop :=
  Forall2 (fun nt nv => fst nt = fst nv /\ shaped (snd nt) (snd nv)) decl x.

(** [whole E id m]: the message is what Walk shows of a struct of type [id]: the declared fields in
    order, numbers in range and with the name their enum gives them, maps with ascending keys, Any
    values with 16 bytes of type hash, and no nested struct in which nothing is set (the setter
    removes such a field). *)
Section Whole.
Variable E : env.
Definition plain (k : kind) (z : Z) : Prop := in_range k z /\ kept k z = z.
Inductive whole : nat -> tmsg -> Prop :=
| whole_msg id fs : Forall2 (fun nt nv => fst nt = fst nv /\ exact_val (snd nt) (snd nv)) (snd (E id)) fs -> whole id (TMsg (fst (E id)) fs)
with exact_val : fty -> fval -> Prop :=
| exact_num k e z : plain k z -> exact_val (TyNum k e) (FNum k z (enum_label e z))
| exact_str st b : exact_val (TyStr st) (FStr st b)
| exact_nil id : exact_val (TyMsg id) (FMsg None)
| exact_msg id nm fs : whole id (TMsg nm fs) -> nothing_set fs = false -> exact_val (TyMsg id) (FMsg (Some (TMsg nm fs)))
| exact_nums k e l : Forall (fun z => in_range k (fst z) /\ snd z = enum_label e (fst z)) l -> exact_val (TyNums k e) (FNums k l)
| exact_strs st l : exact_val (TyStrs st) (FStrs st l)
| exact_msgs id l : Forall (whole id) l -> exact_val (TyMsgs id) (FMsgs l)
| exact_map kt vt id es : StronglySorted (key_lt kt) (map fst es) -> Forall (fun ke => key_ok kt (fst ke) /\ exact_entry vt id (snd ke)) es ->
    exact_val (TyMap kt vt id) (FMap kt vt es)
| exact_noany : exact_val TyAny (FAny None)
| exact_any x : hash16 x -> snd x <> [] -> exact_val TyAny (FAny (Some x))
| exact_anys l : Forall hash16 l -> exact_val TyAnys (FAnys l)
with exact_entry : valty -> nat -> mentry -> Prop :=
| exact_enum k id z : in_range k z -> exact_entry (VTNum k) id (ENum z)
| exact_estr id b : exact_entry VTStr id (EStr b)
| exact_emsg id m : whole id m -> exact_entry VTStruct id (EMsg (Some m))
| exact_eany id x : hash16 x -> exact_entry VTAny id (EAny (Some x))
| exact_eanys id l : Forall hash16 l -> exact_entry VTAnys id (EAnys l).
(** The fields of every struct have different names. *)
Definition names_differ : Prop := forall id, NoDup (map fst (snd (E id))).
End Whole.
