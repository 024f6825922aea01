(** The values a field of a struct can show, apart from how the code computes them. *)
From Coq Require Import ZArith List Bool.
Import ListNotations.
From Verif.Model Require Import Base Field Token Walk Ingest.
Open Scope Z_scope.

(** The name an enum gives to a number: that of its first value with the number; none is the empty
    name.  A field that is no enum has no names. *)
Definition enum_label (e : option (list (bytes * Z))) (v : Z) : option bytes :=
  match e with
  | None => None
  | Some tbl => Some (match find (fun nw => v =? snd nw) tbl with Some (n, _) => n | None => [] end)
  end.
(** What is left of a number in a field: only the negative zeros of the floats, given by their bits,
    are replaced, by zero. *)
Definition kept (k : kind) (v : Z) : Z :=
  match k with
  | KF32 => if v =? 0x80000000 then 0 else v
  | KF64 => if v =? 0x8000000000000000 then 0 else v
  | _ => v
  end.
(** The value of a field that is not set, and a struct in which nothing is set. *)
Definition zero_value (t : fty) : fval :=
  match t with
  | TyNum k e => FNum k 0 (enum_label e 0)
  | TyStr st => FStr st []
  | TyMsg _ => FMsg None
  | TyNums k _ => FNums k []
  | TyStrs st => FStrs st []
  | TyMsgs _ => FMsgs []
  | TyMap kt vt _ => FMap kt vt []
  | TyAny => FAny None
  | TyAnys => FAnys []
  end.
Definition blank (E : env) (id : nat) : list (bytes * fval) := map (fun '(n, t) => (n, zero_value t)) (snd (E id)).
(** Whether a struct has nothing set: numbers are zero, everything else is empty or absent. *)
Definition unset (v : fval) : bool :=
  match v with
  | FNum _ z _ => z =? 0
  | FStr _ b => match b with [] => true | _ => false end
  | FMsg o => match o with None => true | _ => false end
  | FNums _ l => match l with [] => true | _ => false end
  | FStrs _ l => match l with [] => true | _ => false end
  | FMsgs l => match l with [] => true | _ => false end
  | FMap _ _ l => match l with [] => true | _ => false end
  | FAny o => match o with None => true | _ => false end
  | FAnys l => match l with [] => true | _ => false end
  end.
Definition nothing_set (fs : list (bytes * fval)) : bool := forallb (fun nv => unset (snd nv)) fs.
