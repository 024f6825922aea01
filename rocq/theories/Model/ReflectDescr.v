(** The descriptors of a generated package and their lookups: clawc/internal/render/golang/templates/reflect.tmpl,
    languages/go/reflect/internal/value/impl.go:20-145 and languages/go/reflect/enums/enums.go.  A struct descriptor is the
    struct of the schema, and its FieldList the fields of that (reflect.tmpl:54-86). *)
From Coq Require Import ZArith List Bool String.
Import ListNotations.
From Verif.Model Require Import Base Utf8 Field Any ClawText Idl GoNames.
Local Open Scope Z_scope.

(** idl.go:File.Structs 109-126 and Enums 128-145: sorted by name, bytewise as cmp.Compare does.  The names of a schema
    are different, so the order in which the range over the map gives them does not matter. *)
Fixpoint nameLe (a b : bytes) : bool :=
  match a, b with
  | [], _ => true
  | _, [] => false
  | x :: a, y :: b => (x <? y) || ((x =? y) && nameLe a b)
  end.
Section Sort.
Context {A : Type}.
Variable name : A -> bytes.
Fixpoint insertN (x : A) (l : list A) : list A :=
  match l with [] => [x] | y :: q => if nameLe (name x) (name y) then x :: l else y :: insertN x q end.
Definition sortN (l : list A) : list A := fold_right insertN [] l.
End Sort.

(** EnumGroupImpl, enums.go:12-23; the values are Descrs. *)
Record groupD := mkG { g_name : bytes; g_len : Z; g_size : Z; g_vals : list enumval }.
(** PackageDescrImpl, impl.go:20-29: EnumGroupsDescrs and StructsDescrs are nil, here None, where there are none. *)
Record pkgD := mkP { p_name : bytes; p_enums : option (list groupD); p_structs : option (list struct) }.

(** reflect.tmpl:21-38 *)
Fixpoint groupsOf (es : list enum) : res (list groupD) :=
  match es with
  | [] => Ok []
  | e :: es =>
    vs <- OrderByValues e ;;
    gs <- groupsOf es ;;
    Ok (mkG e.(e_name) (len e.(e_vals)) e.(e_size) vs :: gs)
  end.
Definition orNil {A} (l : list A) : option (list A) := match l with [] => None | _ => Some l end.
(** reflect.tmpl:40-50, 88-118: the descriptor of the package; Panic is that of the compiler. *)
Definition describe (f : file) : res pkgD :=
  gs <- groupsOf (sortN e_name (enums f)) ;;
  Ok (mkP f.(f_package) (orNil gs) (orNil (sortN s_name (structs f)))).

Definition on {A B} (o : option A) (f : A -> res B) : res B := match o with Some a => f a | None => Panic end.
Definition at_ {A} (l : list A) (i : Z) : res A := if i <? 0 then Panic else match nth_error l (Z.to_nat i) with Some a => Ok a | None => Panic end.
(** enums.go:75-87 of what Enums() gives; the method of a nil interface panics.  The keys of Lookup are different. *)
Definition EnumsGet (p : pkgD) (i : Z) : res groupD := on p.(p_enums) (fun l => at_ l i).
Definition EnumsByName (p : pkgD) (n : bytes) : res (option groupD) := on p.(p_enums) (fun l => Ok (find (fun g => bytes_eqb g.(g_name) n) l)).
(** enums.go:35-62 *)
Definition GroupGet (g : groupD) (i : Z) : res enumval := at_ g.(g_vals) i.
Definition GroupByName (g : groupD) (n : bytes) : option enumval := find (fun v => bytes_eqb v.(ev_name) n) g.(g_vals).
Definition GroupByValue (g : groupD) (i : Z) : option enumval := find (fun v => v.(ev_value) =? i) g.(g_vals).
(** impl.go:64-84 of what Structs() gives. *)
Definition StructsGet (p : pkgD) (i : Z) : res struct := on p.(p_structs) (fun l => at_ l i).
Definition StructsByName (p : pkgD) (n : bytes) : res (option struct) := on p.(p_structs) (fun l => Ok (find (fun s => bytes_eqb s.(s_name) n) l)).
Section Lower.
(** unicode.IsLower *)
Variable isLower : Z -> bool.
(** impl.go:FieldDescrByName 128-138: the first byte is taken for a rune.  FieldDescrByIndex 142-144 *)
Definition FieldDescrByName (s : struct) (n : bytes) : res (option sfield) :=
  match n with
  | [] => Panic
  | b :: _ => if isLower b then Panic else Ok (find (fun fd => bytes_eqb fd.(fd_name) n) s.(s_fields))
  end.
End Lower.
Definition FieldDescrByIndex (s : struct) (i : Z) : res sfield := at_ s.(s_fields) i.
