(** The tables of a Struct's fields, clawc/languages/go/mapping/mapping.go, and the package variables that
    clawc/internal/render/golang/templates/mappings.tmpl renders for them. *)
From Coq Require Import ZArith List Bool.
Import ListNotations.
From Verif.Model Require Import Base Field Any Idl.
Local Open Scope Z_scope.

(** FieldDescr, mapping.go:56-93.  A *Map is the number of a Map object, None is nil.  The names and flags that no
    function here reads (StructName, IsEnum, IsAny, EnumGroup, Package, FullPath, SelfReferential) are left out. *)
Record descr := mkD {
  d_name : bytes; d_type : Z; d_mapping : option nat;
  d_isMap : bool; d_key : Z; d_value : Z; d_vmapping : option nat }.
(** Map, 124-141: its Fields; [heap] is all Map objects of the program. *)
Definition heap := list (list descr).

(** What Init changes: the flags initialized (140) and the calls of the registration functions (151-163), last first.
    Only RegisterSegmentPool is ever set (segment.go:134); the four calls are one event. *)
Record mstate := mkM { m_init : nat -> bool; m_log : list nat }.
Definition fresh : mstate := mkM (fun _ => false) [].
(** 151-165 *)
Definition register (m : nat) (s : mstate) : mstate := mkM s.(m_init) (m :: s.(m_log)).
Definition mark (m : nat) (s : mstate) : mstate := mkM (fun x => (x =? m)%nat || s.(m_init) x) s.(m_log).

(** One of the two calls of the loop: 169-171, 173-175. *)
Definition initOne (ini : nat -> mstate -> res mstate) (m : nat) (p : option nat) (s : mstate) : res mstate :=
  match p with
  | None => Ok s
  | Some c => if (c =? m)%nat then Ok s else ini c s
  end.
(** 168-176 *)
Fixpoint initFields (ini : nat -> mstate -> res mstate) (m : nat) (fs : list descr) (s : mstate) : res mstate :=
  match fs with
  | [] => Ok s
  | f :: fs => s <- initOne ini m f.(d_mapping) s ;; s <- initOne ini m f.(d_vmapping) s ;; initFields ini m fs s
  end.
(** Init, 146-177.  [fuel] bounds the depth of the recursion; out of it is Hang (in Go the stack overflows). *)
Fixpoint Init (fuel : nat) (h : heap) (m : nat) (s : mstate) : res mstate :=
  match fuel with
  | O => Hang
  | S fuel =>
      if s.(m_init) m then Ok s
      else match nth_error h m with
           | None => Panic
           | Some fs => initFields (Init fuel h) m fs (mark m (register m s))
           end
  end.
(** The init function of a generated package, mappings.tmpl:63-67: Init of each Struct of the file. *)
Fixpoint initPackage (fuel : nat) (h : heap) (ms : list nat) (s : mstate) : res mstate :=
  match ms with
  | [] => Ok s
  | m :: ms => s <- Init fuel h m s ;; initPackage fuel h ms s
  end.

(** FieldDescr.Validate, 95-121; [val] is Map.validate. *)
Definition validateField (val : nat -> res unit) (f : descr) : res unit :=
  if (f.(d_type) =? FTListStructs) || (f.(d_type) =? FTStruct) then
    match f.(d_mapping) with None => Err | Some m => val m end
  else if f.(d_type) =? FTMap then
    if negb f.(d_isMap) then Err
    else if negb (IsValidMapKeyType f.(d_key)) then Err
    else match f.(d_vmapping) with
         | None => if f.(d_value) =? FTStruct then Err else Ok tt
         | Some m => val m
         end
  else Ok tt.
Fixpoint validateFields (val : nat -> res unit) (fs : list descr) : res unit :=
  match fs with
  | [] => Ok tt
  | f :: fs => _ <- validateField val f ;; validateFields val fs
  end.
(** validate, 179-186, with a bound on the depth as in Init. *)
Fixpoint validateMap (fuel : nat) (h : heap) (m : nat) : res unit :=
  match fuel with
  | O => Hang
  | S fuel => match nth_error h m with None => Panic | Some fs => validateFields (validateMap fuel h) fs end
  end.
(** MustValidate, 198-202. *)
Definition mustValidate (fuel : nat) (h : heap) (m : nat) : res unit :=
  match validateMap fuel h m with Err => Panic | r => r end.

(** ByName, 189-196. *)
Fixpoint byName (fs : list descr) (n : bytes) : res descr :=
  match fs with
  | [] => Panic
  | f :: fs => if bytes_eqb f.(d_name) n then Ok f else byName fs n
  end.

(** mappings.tmpl:13-60: the variables XXXMapping... of this package that the initializer of the variable of a struct
    names.  Fields of the types Struct and ListStructs name the variable of their type (36-43); maps name the variable
    of their value type, if it has a name (44-56).  A nested map has no name there.  [fd] is resolved, so that its
    type is known. *)
Definition fieldRefs (fd : sfield) : list bytes :=
  (if (fd.(fd_type) =? FTStruct) || (fd.(fd_type) =? FTListStructs) then [fd.(fd_ident)] else []) ++
  match fd.(fd_map) with Some (MInfo _ _ w _) => if bytes_eqb w [] then [] else [w] | None => [] end.
