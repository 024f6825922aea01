(** clawc/languages/go/clawiter/ingest.go: the pull stream of tokens and SkipValue. *)
From Coq Require Import ZArith List Bool.
Import ListNotations.
From Verif.Model Require Import Base Field Token.
Open Scope Z_scope.

(** TokenStream, ingest.go:31-35.  iter.Pull hands out the tokens of the sequence one after the
    other, and none after stop; [src] are those still to come. *)
Record tstream := mkTS { ts_src : list token; ts_peeked : option token }.
(** NewTokenStream, 38-41. *)
Definition NewTokenStream (seq : list token) : tstream := mkTS seq None.
(** The next function of iter.Pull. *)
Definition pull (ts : tstream) : option token * tstream :=
  match ts.(ts_src) with
  | [] => (None, ts)
  | t :: q => (Some t, mkTS q ts.(ts_peeked))
  end.
(** Next, 44-51. *)
Definition Next (ts : tstream) : option token * tstream :=
  match ts.(ts_peeked) with
  | Some t => (Some t, mkTS ts.(ts_src) None)
  | None => pull ts
  end.
(** Peek, 54-63. *)
Definition Peek (ts : tstream) : option token * tstream :=
  match ts.(ts_peeked) with
  | Some t => (Some t, ts)
  | None =>
    let '(o, ts) := pull ts in
    match o with Some t => (Some t, mkTS ts.(ts_src) (Some t)) | None => (None, ts) end
  end.
(** Close, 66-68: after stop the pull function returns false; a peeked token stays. *)
Definition Close (ts : tstream) : tstream := mkTS [] ts.(ts_peeked).

(** The fuel of a loop: every round takes a token. *)
Definition left (ts : tstream) : nat := length ts.(ts_src) + match ts.(ts_peeked) with Some _ => 1 | None => 0 end.

(** skipStruct, 100-124: the loop at [depth] >= 1. *)
Fixpoint skip_depth (n : nat) (depth : nat) (ts : tstream) : res tstream :=
  match n with
  | O => Hang
  | S n =>
    let '(o, ts) := Next ts in
    match o with
    | None => Err
    | Some t =>
      match t.(t_kind) with
      | TStructStart => skip_depth n (S depth) ts
      | TStructEnd => match depth with S (S d) => skip_depth n (S d) ts | _ => Ok ts end
      | _ => skip_depth n depth ts
      end
    end
  end.
Definition skipStruct (ts : tstream) : res tstream :=
  let '(o, ts) := Next ts in
  match o with
  | None => Err
  | Some t => if tkind_eqb t.(t_kind) TStructStart then skip_depth (S (left ts)) 1 ts else Err
  end.
(** skipList, 127-147. *)
Fixpoint skip_items (n : nat) (ts : tstream) : res tstream :=
  match n with
  | O => Hang
  | S n =>
    let '(o, ts) := Next ts in
    match o with
    | None => Err
    | Some t => if tkind_eqb t.(t_kind) TListEnd then Ok ts else skip_items n ts
    end
  end.
Definition skipList (ts : tstream) : res tstream :=
  let '(o, ts) := Next ts in
  match o with
  | None => Err
  | Some t => if tkind_eqb t.(t_kind) TListStart then skip_items (S (left ts)) ts else Err
  end.
(** skipListStructs, 150-174. *)
Fixpoint skip_structs (n : nat) (ts : tstream) : res tstream :=
  match n with
  | O => Hang
  | S n =>
    let '(o, ts) := Peek ts in
    match o with
    | None => Err
    | Some t => if tkind_eqb t.(t_kind) TListEnd then Ok (snd (Next ts)) else ts <- skipStruct ts ;; skip_structs n ts
    end
  end.
Definition skipListStructs (ts : tstream) : res tstream :=
  let '(o, ts) := Next ts in
  match o with
  | None => Err
  | Some t => if tkind_eqb t.(t_kind) TListStart then skip_structs (S (left ts)) ts else Err
  end.
(** skipMap, 177-212; the recursive call is for a map of maps. *)
Fixpoint skip_map (n : nat) (valueType : Z) (ts : tstream) : res tstream :=
  match n with
  | O => Hang
  | S n =>
    let '(o, ts) := Next ts in
    match o with
    | None => Err
    | Some t =>
      if tkind_eqb t.(t_kind) TMapStart then
        (fix entries (m : nat) (ts : tstream) : res tstream :=
           match m with
           | O => Hang
           | S m =>
             let '(o, ts) := Next ts in
             match o with
             | None => Err
             | Some t =>
               if tkind_eqb t.(t_kind) TMapEnd then Ok ts
               else if negb (tkind_eqb t.(t_kind) TMapEntry) then Err
               else
                 ts <- (if valueType =? FTStruct then skipStruct ts else Ok ts) ;;
                 ts <- (if valueType =? FTMap then skip_map n t.(t_valType) ts else Ok ts) ;;
                 entries m ts
             end
           end) (S (left ts)) ts
      else Err
    end
  end.
(** SkipValue, 71-97. *)
Definition SkipValue (ts : tstream) (f : token) : res tstream :=
  if f.(t_type) =? FTStruct then if f.(t_isNil) then Ok ts else skipStruct ts
  else if f.(t_type) =? FTListStructs then if f.(t_isNil) then Ok ts else skipListStructs ts
  else if (FTListBools <=? f.(t_type)) && (f.(t_type) <=? FTListStrings) then if f.(t_isNil) then Ok ts else skipList ts
  else if f.(t_type) =? FTMap then if f.(t_isNil) then Ok ts else skip_map (S (left ts)) f.(t_valType) ts
  else Ok ts.
