(** Go reflection over a struct: languages/go/reflect/internal/value (impl.go, value.go, valueof.go), enums/enums.go and
    runtime/runtime.go.  A struct comes with its list objects (Model/ListHeap.v).  Not shown: the Structs list object that
    getListStructs puts into the cache (impl.go:1036), the list implementations (Model/GoReflectList.v; Get, Set and Append of a List work on the
    slice they were made with and never on the struct), maps (GetValue never makes one).  Floats are bit patterns; the
    detour of a float32 through float64 is taken to be the identity, as in Model/Lists.v. *)
From Verif.Model Require Export ListHeap.
From Verif.Model Require Idl.
From Verif.Spec Require Import History.

(** mapping.FieldDescr of clawc/languages/go/mapping as generated by templates/mappings.tmpl:20-55: name, type, for an enum
    the path of its package (FullPath) and its name as written in the schema (EnumGroup), for a struct or a list of structs
    the mapping of its type.  A field's number is its place.  A type that contains itself is not expressible. *)
Inductive fdesc := Fd (name : bytes) (ty : Z) (enum : option (bytes * bytes)) (child : option (list fdesc)).
Definition fd_name (d : fdesc) := let 'Fd x _ _ _ := d in x.
Definition fd_ty (d : fdesc) := let 'Fd _ x _ _ := d in x.
Definition fd_enum (d : fdesc) := let 'Fd _ _ x _ := d in x.
Definition fd_child (d : fdesc) := let 'Fd _ _ _ x := d in x.

(** EnumImpl, enums.go:92-98, and EnumGroupImpl 12-23: the values of a group. *)
Record enumv := mkE { e_name : bytes; e_num : Z }.
Definition group := list enumv.
(** ByValue, enums.go:55-62; nil where there is none. *)
Definition ByValue (g : group) (z : Z) : option enumv := find (fun e => e.(e_num) =? u16 z) g.
(** runtime.go:13-29: the groups of the package with this path; None where the path is not registered or the package has no
    enums, where the call of Enums().ByName panics. *)
Definition registry := bytes -> option (list (bytes * group)).
(** EnumGroupsImpl.ByName, enums.go:85-87. *)
Definition ByName (l : list (bytes * group)) (s : bytes) : option group :=
  option_map snd (find (fun p => bytes_eqb (fst p) s) l).

(** Value, value.go:17-42, by the functions that make one (valueof.go): bool; number; enum with its group (nil where the
    lookup failed); bytes (nil is None); string; struct with the fields of its mapping; list. *)
Inductive rlist := RBools (l : list bool) | RNums (k : kind) (l : list Z) | RBlobs (str : bool) (l : list bytes)
                 | RStructs (l : list hstruct) (fs : list fdesc).
Inductive rvalue := RBool (b : bool) | RNum (k : kind) (z : Z) | REnum (k : kind) (z : Z) (g : option group)
                  | RBytes (b : option bytes) | RStr (b : bytes) | RStruct (h : hstruct) (fs : list fdesc) | RList (l : rlist).

Definition kinds : list kind := [KI8; KI16; KI32; KI64; KU8; KU16; KU32; KU64; KF32; KF64].
(** The number types and the list types of numbers among the field types. *)
Definition num_kind (ty : Z) : option kind := find (fun k => scalar_type k =? ty) kinds.
Definition nums_kind (ty : Z) : option kind := find (fun k => list_type k =? ty) kinds.

(** The group of an enum field, impl.go:871-880 for one of 8 bits, 886-888 for one of 16 bits. *)
Definition egName (k : kind) (name : bytes) : res bytes :=
  match k with
  | KU8 => match Idl.splitAt 46 name with [x] => Ok x | _ :: x :: _ => Ok x | [] => Panic end
  | _ => Ok name
  end.
Definition findGroup (reg : registry) (k : kind) (e : bytes * bytes) : res (option group) :=
  x <- egName k (snd e) ;;
  match reg (fst e) with None => Panic | Some l => Ok (ByName l x) end.

(** The loop of getListBools, impl.go:991-1000: every bit of these bytes. *)
Definition byte_bits (b : Z) : list bool :=
  map (fun i => negb (Z.land b (Z.shiftl 1 i) =? 0)) [0; 1; 2; 3; 4; 5; 6; 7].
(** getListBools, impl.go:981-1001. *)
Definition getListBools (s : strct) (f : Z) : res (list bool) :=
  '(offset, size) <- FieldOffset s f ;;
  if size <=? HeaderSize then Ok []
  else data <- slice s.(st_data) offset (offset + size) ;; Ok (flat_map byte_bits (drop HeaderSize data)).

(** RegisterDirtyList, struct.go:272-276, with a new object. *)
Definition h_register (h : hstruct) (f : Z) (c : content) : hstruct :=
  let i := length h.(h_objs) in
  mkH h.(h_s) (h.(h_objs) ++ [mkL f c]) (SetList f i h.(h_lists)) (h.(h_dirty) ++ [(f, i)]).
(** getListNumbers, impl.go:1004-1012, with NewNumbers, lists.go:199-230. *)
Definition getListNumbers (h : hstruct) (f : Z) (k : kind) : res (hstruct * list Z) :=
  o <- get_numbers h.(h_s) f k ;;
  let nu := match o with Some nu => nu | None => nu_empty end in
  l <- nu_slice k nu ;;
  Ok (h_register h f (CNums k nu), l).
(** getListBytes and getListStrings, impl.go:1015-1032, with NewBytes and NewStrings, lists.go:802-810 and 615-623: these two
    make an empty list and do not look at the segment. *)
Definition getListBlobs (h : hstruct) (f : Z) (str : bool) : res (hstruct * list bytes) :=
  Ok (h_register h f (CBlobs str [] false), []).

(** GetValue, impl.go:845-978, for a struct with the fields fs.  None is nil. *)
Definition GetValue (reg : registry) (h : hstruct) (fs : list fdesc) (f : Z) : res (hstruct * option rvalue) :=
  b <- HasField h.(h_s) f ;;
  s <- ensureFieldIndexParsed h.(h_s) ;;
  let h := with_s h s in
  if negb b then Ok (h, None)
  else
    d <- index fs f ;;
    let ty := fd_ty d in
    if ty =? FTBool then b <- GetBool s f ;; Ok (h, Some (RBool b))
    else match num_kind ty with
    | Some k =>
      z <- get_scalar s f k ;;
      match fd_enum d, k with
      | Some e, KU8 | Some e, KU16 => g <- findGroup reg k e ;; Ok (h, Some (REnum k z g))
      | _, _ => Ok (h, Some (RNum k z))
      end
    | None =>
    if ty =? FTBytes then b <- GetBytes s f ;; Ok (h, Some (RBytes (Some b)))
    else if ty =? FTString then b <- GetString s f ;; Ok (h, Some (RStr b))
    else if ty =? FTStruct then
      match fd_child d with
      | None => Panic
      | Some fs' =>
        o <- GetNestedStruct s f (length fs') ;;
        Ok (h, option_map (fun c => RStruct (hstart c) fs') o)
      end
    else if ty =? FTListBools then l <- getListBools s f ;; Ok (h, Some (RList (RBools l)))
    else match nums_kind ty with
    | Some k => '(h, l) <- getListNumbers h f k ;; Ok (h, Some (RList (RNums k l)))
    | None =>
    if ty =? FTListBytes then '(h, l) <- getListBlobs h f false ;; Ok (h, Some (RList (RBlobs false l)))
    else if ty =? FTListStrings then '(h, l) <- getListBlobs h f true ;; Ok (h, Some (RList (RBlobs true l)))
    else if ty =? FTListStructs then
      match fd_child d with
      | None => Panic
      | Some fs' => l <- get_structs s f (length fs') ;; Ok (h, Some (RList (RStructs (map hstart l) fs')))
      end
    else Panic
    end end.
(** Has, impl.go:661-663. *)
Definition Has (h : hstruct) (f : Z) : res bool := HasField h.(h_s) f.

(** What Any() returns, value.go:100-171, None is nil; a list value has no field type, so that it ends in the panic of 170. *)
Inductive gany := GBool (b : bool) | GNum (k : kind) (z : Z) | GEnum (e : enumv) | GBytes (b : bytes) | GStr (b : bytes)
                | GStruct (h : hstruct).
Definition Any (v : rvalue) : res (option gany) :=
  match v with
  | RBool b => Ok (Some (GBool b))
  | RNum k z => Ok (Some (GNum k z))
  | REnum k z (Some g) => Ok (option_map GEnum (ByValue g z))
  | REnum k z None => Panic
  | RBytes None => Ok None
  | RBytes (Some b) => Ok (Some (GBytes b))
  | RStr [] => Ok None
  | RStr b => Ok (Some (GStr b))
  | RStruct h _ => Ok (Some (GStruct h))
  | RList _ => Panic
  end.

Definition kind_eqb (a b : kind) : bool := scalar_type a =? scalar_type b.
(** SetField, impl.go:795-841: the type assertions panic where v is of another type.  SetNestedStruct first writes the dirty
    lists of the child, bytes.go:148. *)
Definition SetField (h : hstruct) (f ty : Z) (v : option gany) : res hstruct :=
  if ty =? FTBool then
    match v with Some (GBool b) => s <- SetBool h.(h_s) f b ;; Ok (with_s h s) | _ => Panic end
  else match num_kind ty with
  | Some k =>
    match v, k with
    | Some (GEnum e), KU8 => s <- SetUint8 h.(h_s) f (u8 e.(e_num)) ;; Ok (with_s h s)
    | Some (GEnum e), KU16 => s <- SetUint16 h.(h_s) f e.(e_num) ;; Ok (with_s h s)
    | Some (GNum k' z), _ => if kind_eqb k' k then s <- set_scalar h.(h_s) f k z ;; Ok (with_s h s) else Panic
    | _, _ => Panic
    end
  | None =>
  if ty =? FTBytes then
    match v with Some (GBytes b) => s <- SetBytes h.(h_s) f b ;; Ok (with_s h s) | _ => Panic end
  else if ty =? FTString then
    match v with Some (GStr b) => s <- SetStringAsBytes h.(h_s) f b ;; Ok (with_s h s) | _ => Panic end
  else if ty =? FTStruct then
    match v with
    | Some (GStruct c) => c <- syncDirtyLists c ;; s <- SetNestedStruct h.(h_s) f (Some c.(h_s)) ;; Ok (with_s h s)
    | _ => Ok h
    end
  else Panic
  end.
(** Set, impl.go:669-671. *)
Definition Set_ (h : hstruct) (fs : list fdesc) (f : Z) (v : rvalue) : res hstruct :=
  d <- index fs f ;; a <- Any v ;; SetField h f (fd_ty d) a.

(** Clear, impl.go:665-667, and ClearField, 760-792: nothing happens to a list, a map or an Any. *)
Definition Clear (h : hstruct) (fs : list fdesc) (f : Z) : res hstruct :=
  d <- index fs f ;;
  let ty := fd_ty d in
  if ty =? FTBool then s <- SetBool h.(h_s) f false ;; Ok (with_s h s)
  else match num_kind ty with
  | Some k => s <- set_scalar h.(h_s) f k 0 ;; Ok (with_s h s)
  | None =>
  if (ty =? FTBytes) || (ty =? FTString) then s <- SetBytes h.(h_s) f [] ;; Ok (with_s h s)
  else if ty =? FTStruct then s <- SetNestedStruct h.(h_s) f None ;; Ok (with_s h s)
  else Ok h
  end.

(** Fields, impl.go:637-645, and Range, 649-655: [yield] is told what it has been given so far, the latest at the end, and
    says whether to go on.  The result is what it was given. *)
Definition given : Type := bytes * option rvalue.
Fixpoint fields_from (reg : registry) (h : hstruct) (all : list fdesc) (f : Z) (rest : list fdesc)
         (yield : list given -> bool) (seen : list given) : res (hstruct * list given) :=
  match rest with
  | [] => Ok (h, seen)
  | d :: q =>
    '(h, v) <- GetValue reg h all f ;;
    let seen := seen ++ [(fd_name d, v)] in
    if yield seen then fields_from reg h all (f + 1) q yield seen else Ok (h, seen)
  end.
Definition Fields (reg : registry) (h : hstruct) (fs : list fdesc) (yield : list given -> bool) : res (hstruct * list given) :=
  fields_from reg h fs 0 fs yield [].

(** String, value.go:179-230, with fmt.Sprint as [sprint]; [fuel] bounds the depth of the value.  A nil Value, as Get gives it
    for a field that is not set, has no method String. *)
Section String_.
Context (sprint : option gany -> bytes).
Definition comma : bytes := [44; 32].
Fixpoint String_ (fuel : nat) (reg : registry) (v : rvalue) : res bytes :=
  match fuel with
  | O => Hang
  | S fuel =>
    match v with
    | REnum _ z g =>
      match g with
      | None => Panic
      | Some g => match ByValue g z with Some e => Ok e.(e_name) | None => Panic end
      end
    | RStr b => Ok b
    | RStruct h fs =>
      let fix go (h : hstruct) (f : Z) (rest : list fdesc) (first : bool) : res bytes :=
        match rest with
        | [] => Ok []
        | d :: q =>
          '(h, o) <- GetValue reg h fs f ;;
          match o with
          | None => Panic
          | Some v =>
            x <- String_ fuel reg v ;;
            r <- go h (f + 1) q false ;;
            Ok ((if first then [] else comma) ++ fd_name d ++ [58; 32] ++ x ++ r)
          end
        end in
      x <- go h 0 fs true ;; Ok ([123] ++ x ++ [125])
    | v => a <- Any v ;; Ok (sprint a)
    end
  end.
End String_.
