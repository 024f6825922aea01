(** The List values of Go reflection, languages/go/reflect/internal/value/impl.go:218-427, and NewField, impl.go:673-746.

    A List is a Go value that holds a slice; its methods have value receivers, so that a method works on a copy of the slice
    (pointer, length, capacity) and on the array it points to.  Arrays are numbered; an array is as long as its capacity.
    An element is shown as the Value that Get makes of it; a struct stands for the pointer to it. *)
From Verif.Model Require Export GoReflect.

Inductive lkind := LKBools | LKNums (k : kind) | LKBytes | LKStrings | LKStructs (fs : list fdesc).
(** The structs of impl.go:218-221, 251-255, 312-315, 345-348, 378-382. *)
Record lval := mkLV { lv_kind : lkind; lv_arr : nat; lv_len : nat }.
Definition arrays := list (list rvalue).
Definition arr (st : arrays) (a : nat) : list rvalue := nth a st [].
Fixpoint putAt {A} (l : list A) (i : nat) (x : A) : list A :=
  match l, i with [], _ => [] | _ :: q, O => x :: q | y :: q, S i => y :: putAt q i x end.

Section Lists.
(** Value.String with the registry and fmt.Sprint of Model/GoReflect.v; how much room append leaves. *)
Variable str : rvalue -> res bytes.
Variable room : nat -> nat.

(** What Set and Append make of a value: impl.go:240 and 244, 301 and 305, 334 and 338, 367 and 371, 414 and 419. *)
Definition elem_of (k : lkind) (v : rvalue) : res rvalue :=
  match k with
  | LKBools => match v with RBool b => Ok (RBool b) | _ => Panic end
  | LKNums k => a <- Any v ;;
      match a with Some (GNum k' z) => if kind_eqb k' k then Ok (RNum k z) else Panic | _ => Panic end
  | LKBytes => match v with RBytes b => Ok (RBytes b) | _ => Panic end
  | LKStrings => s <- str v ;; Ok (RStr s)
  | LKStructs fs => match v with RStruct h _ => Ok (RStruct h fs) | _ => Panic end
  end.
(** Type: 227-229, 257-290, 321-323, 354-356, 397-399. *)
Definition Type_ (l : lval) : Z :=
  match l.(lv_kind) with
  | LKBools => FTListBools | LKNums k => scalar_type k | LKBytes => FTListBytes | LKStrings => FTListStrings | LKStructs _ => FTListStructs
  end.
(** Len: 231-233, 292-294, 325-327, 358-360, 401-403. *)
Definition LenOf (l : lval) : Z := Z.of_nat l.(lv_len).
(** Get: 235-237, 296-298, 329-331, 362-364, 405-411. *)
Definition GetAt (st : arrays) (l : lval) (i : Z) : res rvalue :=
  if (i <? 0) || (LenOf l <=? i) then Panic
  else match nth_error (arr st l.(lv_arr)) (Z.to_nat i) with Some v => Ok v | None => Panic end.
(** Set: 239-241, 300-302, 333-335, 366-368, 413-416. *)
Definition SetAt (st : arrays) (l : lval) (i : Z) (v : rvalue) : res arrays :=
  e <- elem_of l.(lv_kind) v ;;
  if (i <? 0) || (LenOf l <=? i) then Panic
  else Ok (putAt st l.(lv_arr) (putAt (arr st l.(lv_arr)) (Z.to_nat i) e)).
(** Append: 243-245, 304-306, 337-339, 370-372, 418-421.  Go's append writes into the array where there is room and makes a
    new one otherwise (what is in the room behind the new element does not matter); the new slice is stored in the receiver,
    which is a copy. *)
Definition AppendTo (st : arrays) (l : lval) (v : rvalue) : res arrays :=
  e <- elem_of l.(lv_kind) v ;;
  let a := arr st l.(lv_arr) in
  if (l.(lv_len) <? length a)%nat then Ok (putAt st l.(lv_arr) (putAt a l.(lv_len) e))
  else Ok (st ++ [firstn l.(lv_len) a ++ e :: repeat e (room (length a))]).

(** A program: it gets lists (GetValue and NewField make a slice of their own, 981-1042), copies them, and calls Set and
    Append; a call that panics changes nothing. *)
Inductive rlop := MkList (k : lkind) (items : list rvalue) (spare : list rvalue) | CopyList (j : nat) | SetItem (j : nat) (i : Z) (v : rvalue) | AppendItem (j : nat) (v : rvalue).
Record rlstate := mkLS { ls_st : arrays; ls_live : list lval }.
Definition rlstep (s : rlstate) (o : rlop) : rlstate :=
  match o with
  | MkList k items spare => mkLS (s.(ls_st) ++ [items ++ spare]) (s.(ls_live) ++ [mkLV k (length s.(ls_st)) (length items)])
  | CopyList j => match nth_error s.(ls_live) j with Some l => mkLS s.(ls_st) (s.(ls_live) ++ [l]) | None => s end
  | SetItem j i v => match nth_error s.(ls_live) j with
                  | Some l => match SetAt s.(ls_st) l i v with Ok st => mkLS st s.(ls_live) | _ => s end
                  | None => s
                  end
  | AppendItem j v => match nth_error s.(ls_live) j with
                   | Some l => match AppendTo s.(ls_st) l v with Ok st => mkLS st s.(ls_live) | _ => s end
                   | None => s
                   end
  end.
Definition rlrun (ops : list rlop) : rlstate := fold_left rlstep ops (mkLS [] []).
End Lists.

(** NewField, 673-746, of a struct with the fields [fs].  [byValue]: its descriptor is a StructDescrImpl and not a pointer to
    one: so for structs that Get has given (919-928), not for those of generated code (reflect.tmpl:54).  [eg] is the enum
    group of the field's descriptor (impl.go:175-180), None where it panics. *)
Definition NewField (byValue : bool) (fs : list fdesc) (d : fdesc) (eg : option group) : res rvalue :=
  let ty := fd_ty d in
  if ty =? FTBool then Ok (RBool false)
  else match num_kind ty with
  | Some k =>
    match fd_enum d, k with
    | Some _, KU8 | Some _, KU16 => match eg with Some g => Ok (REnum k 0 (Some g)) | None => Panic end
    | _, _ => Ok (RNum k 0)
    end
  | None =>
  if ty =? FTBytes then Ok (RBytes None)
  else if ty =? FTString then Ok (RStr [])
  else if ty =? FTStruct then s <- New (length fs) ;; Ok (RStruct (hstart s) fs)
  else if ty =? FTListBools then Ok (RList (RBools []))
  else match nums_kind ty with
  | Some k => Ok (RList (RNums k []))
  | None =>
  if ty =? FTListBytes then Ok (RList (RBlobs false []))
  else if ty =? FTListStrings then Ok (RList (RBlobs true []))
  else if ty =? FTListStructs then if byValue then Ok (RList (RStructs [] fs)) else Panic
  else Panic
  end end.
