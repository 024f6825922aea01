(** clawc/internal/render/golang/templates/clawingest.tmpl: the generated Ingest methods.  The template
    is modelled as one function over the declaration of a struct.  A struct is what its accessors
    return, field by field in the order of the declaration, as in Model/Walk.v. *)
From Coq Require Import ZArith List Bool.
Import ListNotations.
From Verif.Model Require Import Base Field MapApi Token Walk TokenStream.
Open Scope Z_scope.

(** The declared type of a field.  A number may be of an enum type, given by its names and values
    (enums.tmpl: XxxByName and XxxByValue); a struct type is a number, see [env]. *)
Inductive fty :=
| TyNum (k : kind) (e : option (list (bytes * Z)))
| TyStr (isString : bool)
| TyMsg (id : nat)
| TyNums (k : kind) (e : option (list (bytes * Z)))
| TyStrs (isString : bool)
| TyMsgs (id : nat)
| TyMap (kt : keyty) (vt : valty) (id : nat)
| TyAny
| TyAnys.
(** All struct types: the name and the fields of each. *)
Definition env := nat -> bytes * list (bytes * fty).

Fixpoint bytes_eqb (a b : bytes) : bool :=
  match a, b with
  | [], [] => true
  | x :: a, y :: b => (x =? y) && bytes_eqb a b
  | _, _ => false
  end.
Fixpoint assoc {A} (n : bytes) (l : list (bytes * A)) : option A :=
  match l with
  | [] => None
  | (m, a) :: q => if bytes_eqb n m then Some a else assoc n q
  end.
(** The Go maps XxxByName and XxxByValue of an enum: a missing key gives the zero value. *)
Definition by_name (tbl : list (bytes * Z)) (n : bytes) : Z := match assoc n tbl with Some v => v | None => 0 end.
Fixpoint by_value (tbl : list (bytes * Z)) (v : Z) : bytes :=
  match tbl with
  | [] => []
  | (n, w) :: q => if v =? w then n else by_value q v
  end.
(** A number as the accessor and Walk show it. *)
Definition named (e : option (list (bytes * Z))) (v : Z) : option bytes :=
  match e with None => None | Some tbl => Some (by_value tbl v) end.
(** The number of a token, e.g. 77 and 86-95. *)
Definition tok_num (k : kind) (e : option (list (bytes * Z))) (t : token) : Z :=
  match e with
  | None => getValue k t
  | Some tbl => if 0 <? len t.(t_bytes) then by_name tbl t.(t_bytes) else getValue k t
  end.

(** The number a field holds after its setter: the setter removes the field if the value is zero, -0.0
    included (segment/scalar.go). *)
Definition stored (k : kind) (v : Z) : Z :=
  match k with
  | KF32 => if v =? 2 ^ 31 then 0 else v
  | KF64 => if v =? 2 ^ 63 then 0 else v
  | _ => v
  end.

(** A new struct: every accessor returns the zero value. *)
Definition zero_field (t : fty) : fval :=
  match t with
  | TyNum k e => FNum k 0 (named e 0)
  | TyStr st => FStr st []
  | TyMsg _ => FMsg None
  | TyNums k _ => FNums k []
  | TyStrs st => FStrs st []
  | TyMsgs _ => FMsgs []
  | TyMap kt vt _ => FMap kt vt []
  | TyAny => FAny None
  | TyAnys => FAnys []
  end.
Definition fresh (E : env) (id : nat) : list (bytes * fval) := map (fun '(n, t) => (n, zero_field t)) (snd (E id)).

(** Whether nothing of a struct is on the wire: no field is set, no list or map has an item. *)
Definition is_zero (v : fval) : bool :=
  match v with
  | FNum _ z _ => z =? 0
  | FStr _ b => len b =? 0
  | FMsg o => match o with None => true | Some _ => false end
  | FNums _ l => len l =? 0
  | FStrs _ l => len l =? 0
  | FMsgs l => len l =? 0
  | FMap _ _ es => len es =? 0
  | FAny o => match o with None => true | Some _ => false end
  | FAnys l => len l =? 0
  end.
Definition all_zero (fs : list (bytes * fval)) : bool := forallb (fun nv => is_zero (snd nv)) fs.

Fixpoint set_field (n : bytes) (v : fval) (fs : list (bytes * fval)) : list (bytes * fval) :=
  match fs with
  | [] => []
  | (m, w) :: q => if bytes_eqb n m then (m, v) :: q else (m, w) :: set_field n v q
  end.

(** Maps.Set on a map whose values are shown as in Model/Walk.v, maps.go:83-104; see mp_Set. *)
Definition put_entry (kt : keyty) (es : list (mkey * mentry)) (k : mkey) (e : mentry) : res (list (mkey * mentry)) :=
  '(idx, found) <- BinarySearchFunc kt (map fst es) k ;;
  if found : bool then '(k0, _) <- index es idx ;; Ok (upd es idx (k0, e))
  else slices_insert es idx (k, e).
(** The key of a map entry, 454-478. *)
Definition tok_key (kt : keyty) (t : token) : mkey :=
  match kt with KTStr => KStr t.(t_keyBytes) | KTNum k => KNum (getKey k t) end.
(** The type hash of an Any in a map: copied if it has 16 bytes, else left zero, 514-516 and 535-537. *)
Definition map_hash (t : token) : bytes := if len t.(t_hash) =? 16 then t.(t_hash) else zeros 16.

(** The items of a list: the tokens up to the end of the list, e.g. 131-145.  Simplification: the code
    appends each item as it reads it, so after an error the items read so far are in the list; here
    a struct is not shown after an error. *)
Fixpoint list_items (n : nat) (ts : tstream) : res (list token * tstream) :=
  match n with
  | O => Hang
  | S n =>
    let '(o, ts) := Next ts in
    match o with
    | None => Err
    | Some t => if tkind_eqb t.(t_kind) TListEnd then Ok ([], ts)
                else '(l, ts) <- list_items n ts ;; Ok (t :: l, ts)
    end
  end.
(** Next and its check for the token [kd], e.g. 131-134. *)
Definition expect (kd : tkind) (ts : tstream) : res tstream :=
  let '(o, ts) := Next ts in
  match o with
  | None => Err
  | Some t => if tkind_eqb t.(t_kind) kd then Ok ts else Err
  end.
Definition list_body (ts : tstream) : res (list token * tstream) :=
  ts <- expect TListStart ts ;; list_items (S (left ts)) ts.

Section Ingest.
Variable E : env.
Variable ignoreUnknown : bool.

Section Field.
(** XXXIngestFrom of a nested struct. *)
Variable rec : nat -> list (bytes * fval) -> tstream -> res (list (bytes * fval) * tstream).

(** The items of a list of structs, 418-432. *)
Fixpoint struct_items (n : nat) (id : nat) (ts : tstream) : res (list tmsg * tstream) :=
  match n with
  | O => Hang
  | S n =>
    let '(o, ts) := Peek ts in
    match o with
    | None => Err
    | Some t =>
      if tkind_eqb t.(t_kind) TListEnd then Ok ([], snd (Next ts))
      else '(fs, ts) <- rec id (fresh E id) ts ;;
           '(l, ts) <- struct_items n id ts ;; Ok (TMsg (fst (E id)) fs :: l, ts)
    end
  end.
(** The value of a map entry, 479-542.  A map with values of type bytes or map: see Model/Walk.v. *)
Definition entry_value (vt : valty) (id : nat) (t : token) (ts : tstream) : res (mentry * tstream) :=
  match vt with
  | VTStruct => '(fs, ts) <- rec id (fresh E id) ts ;; Ok (EMsg (Some (TMsg (fst (E id)) fs)), ts)
  | VTStr => Ok (EStr t.(t_bytes), ts)
  | VTNum k => Ok (ENum (getValue k t), ts)
  | VTAny => Ok (EAny (Some (map_hash t, t.(t_bytes))), ts)
  | VTAnys => '(l, ts) <- list_body ts ;; Ok (EAnys (map (fun t => (map_hash t, t.(t_bytes))) l), ts)
  | VTBytes | VTMap => Ok (EOther, ts)
  end.
(** The entries of a map, 442-543. *)
Fixpoint map_items (n : nat) (kt : keyty) (vt : valty) (id : nat) (es : list (mkey * mentry)) (ts : tstream) : res (list (mkey * mentry) * tstream) :=
  match n with
  | O => Hang
  | S n =>
    let '(o, ts) := Next ts in
    match o with
    | None => Err
    | Some t =>
      if tkind_eqb t.(t_kind) TMapEnd then Ok (es, ts)
      else if negb (tkind_eqb t.(t_kind) TMapEntry) then Err
      else
        '(e, ts) <- entry_value vt id t ts ;;
        es <- put_entry kt es (tok_key kt t) e ;;
        map_items n kt vt id es ts
    end
  end.
(** One case of the switch, 75-577: the new value of the field [old], for the token [t]. *)
Definition ingest_field (ty : fty) (old : fval) (t : token) (ts : tstream) : res (fval * tstream) :=
  match ty, old with
  | TyNum k e, _ => let v := stored k (tok_num k e t) in Ok (FNum k v (named e v), ts)
  | TyStr st, _ => Ok (FStr st t.(t_bytes), ts)
  | TyMsg id, _ =>
    if t.(t_isNil) then Ok (old, ts)
    else '(fs, ts) <- rec id (fresh E id) ts ;;
         Ok (FMsg (if all_zero fs then None else Some (TMsg (fst (E id)) fs)), ts)
  | TyNums k e, FNums _ l =>
    if t.(t_isNil) then Ok (old, ts)
    else '(items, ts) <- list_body ts ;;
         Ok (FNums k (l ++ map (fun t => let v := tok_num k e t in (v, named e v)) items), ts)
  | TyStrs st, FStrs _ l =>
    if t.(t_isNil) then Ok (old, ts)
    else '(items, ts) <- list_body ts ;; Ok (FStrs st (l ++ map t_bytes items), ts)
  | TyMsgs id, FMsgs l =>
    if t.(t_isNil) then Ok (old, ts)
    else ts <- expect TListStart ts ;;
         '(items, ts) <- struct_items (S (left ts)) id ts ;; Ok (FMsgs (l ++ items), ts)
  | TyMap kt vt id, FMap _ _ es =>
    if t.(t_isNil) then Ok (old, ts)
    else ts <- expect TMapStart ts ;;
         '(es, ts) <- map_items (S (left ts)) kt vt id es ts ;; Ok (FMap kt vt es, ts)
  | TyAny, _ =>
    (* SetAnyRaw, segment/any.go:243-278 *)
    if t.(t_isNil) then Ok (old, ts)
    else if len t.(t_bytes) =? 0 then Ok (FAny None, ts)
    else if negb (len t.(t_hash) =? 16) then Err
    else Ok (FAny (Some (t.(t_hash), t.(t_bytes))), ts)
  | TyAnys, _ =>
    (* SetListAnyRaw, segment/any.go:464-509; that reading the items back gives them is C23 *)
    if t.(t_isNil) then Ok (old, ts)
    else '(items, ts) <- list_body ts ;;
         if forallb (fun t => len t.(t_hash) =? 16) items then Ok (FAnys (map (fun t => (t.(t_hash), t.(t_bytes))) items), ts)
         else Err
  | _, _ => Panic (* the Go types exclude it *)
  end.
(** The loop over the fields, 59-587. *)
Fixpoint fields_loop (n : nat) (decl : list (bytes * fty)) (x : list (bytes * fval)) (ts : tstream) : res (list (bytes * fval) * tstream) :=
  match n with
  | O => Hang
  | S n =>
    let '(o, ts) := Next ts in
    match o with
    | None => Err
    | Some t =>
      if tkind_eqb t.(t_kind) TStructEnd then Ok (x, ts)
      else if negb (tkind_eqb t.(t_kind) TField) then Err
      else
        match assoc t.(t_name) decl with
        | Some ty =>
          match assoc t.(t_name) x with
          | None => Panic (* the struct has its declared fields *)
          | Some old => '(v, ts) <- ingest_field ty old t ts ;; fields_loop n decl (set_field t.(t_name) v x) ts
          end
        | None => if ignoreUnknown then ts <- SkipValue ts t ;; fields_loop n decl x ts else Err
        end
    end
  end.
End Field.

(** XXXIngestFrom, 50-588.  The fuel bounds the depth of nesting: every level takes a token. *)
Fixpoint ingest_from (n : nat) (id : nat) (x : list (bytes * fval)) (ts : tstream) : res (list (bytes * fval) * tstream) :=
  match n with
  | O => Hang
  | S n => ts <- expect TStructStart ts ;; fields_loop (ingest_from n) (S (left ts)) (snd (E id)) x ts
  end.
(** Ingest, 29-47, from a sequence of tokens. *)
Definition Ingest (id : nat) (x : list (bytes * fval)) (seq : list token) : res (list (bytes * fval)) :=
  let ts := NewTokenStream seq in
  '(x, _) <- ingest_from (S (left ts)) id x ts ;; Ok x.
End Ingest.
