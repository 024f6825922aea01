(** What the tables of the fields of Structs are for, and when Go can initialize them. *)
From Coq Require Import ZArith List Bool Relations.
Import ListNotations.
From Verif.Model Require Import Base Field Idl Mapping.
Local Open Scope Z_scope.

(** ** Tables in memory *)
(** A field of the table m leads to the table c: its type is the Struct of c, or its map has such values. *)
Definition leads (h : heap) (m c : nat) : Prop :=
  exists fs f, nth_error h m = Some fs /\ In f fs /\ (f.(d_mapping) = Some c \/ f.(d_vmapping) = Some c).
Definition reached (h : heap) : nat -> nat -> Prop := clos_refl_trans_1n nat (leads h).
(** No pointer is wild. *)
Definition in_memory (h : heap) : Prop := forall m c, leads h m c -> (c < length h)%nat.
(** Every table that was prepared has its tables below prepared. *)
Definition closed (h : heap) (s : mstate) : Prop := forall m c, s.(m_init) m = true -> leads h m c -> s.(m_init) c = true.

(** ** Descriptions that make sense *)
(** A field whose type is a Struct or a list of Structs says of which; a map is marked as one, has a key type and, for
    Structs, says of which. *)
Definition described (f : descr) : Prop :=
  (f.(d_type) = FTStruct \/ f.(d_type) = FTListStructs -> f.(d_mapping) <> None) /\
  (f.(d_type) = FTMap -> f.(d_isMap) = true /\
     In f.(d_key) [FTBool; FTInt8; FTInt16; FTInt32; FTInt64; FTUint8; FTUint16; FTUint32; FTUint64; FTFloat32; FTFloat64; FTString] /\
     (f.(d_value) = FTStruct -> f.(d_vmapping) <> None)).
(** The Struct that a field of this type holds. *)
Definition holds (h : heap) (m c : nat) : Prop :=
  exists fs f, nth_error h m = Some fs /\ In f fs /\
  ((f.(d_type) = FTStruct \/ f.(d_type) = FTListStructs) /\ f.(d_mapping) = Some c \/ f.(d_type) = FTMap /\ f.(d_vmapping) = Some c).
Definition held (h : heap) : nat -> nat -> Prop := clos_refl_trans_1n nat (holds h).
Definition all_described (h : heap) (m : nat) : Prop :=
  forall c fs f, held h m c -> nth_error h c = Some fs -> In f fs -> described f.
(** No Struct below m holds itself, whatever lies between. *)
Definition no_recursion (h : heap) (m : nat) : Prop := forall c, held h m c -> ~ clos_trans_1n nat (holds h) c c.

(** ** Schemas *)
(** A struct of the schema has a field of the type t, of a list of t or of a map to t. *)
Definition mentions (f : file) (s t : struct) : Prop :=
  In (DStruct s) f.(f_idents) /\ In (DStruct t) f.(f_idents) /\
  exists fd, In fd s.(s_fields) /\
  (fd.(fd_ident) = t.(s_name) \/ exists k v n, fd.(fd_map) = Some (MInfo k v t.(s_name) n)).
(** t is declared above s. *)
Definition above (f : file) (t s : struct) : Prop := exists a b c, f.(f_idents) = a ++ DStruct t :: b ++ DStruct s :: c.
(** The variable of s refers to the variable of t, in the code generated for f. *)
Definition refers (f : file) (ext : bytes -> option file) (s t : struct) : Prop :=
  In (DStruct s) f.(f_idents) /\ In (DStruct t) f.(f_idents) /\
  exists fd fd', In fd s.(s_fields) /\ resolveField f ext fd = Ok fd' /\ In t.(s_name) (fieldRefs fd').
(** Go: a package variable whose initial value depends on itself is an error. *)
Definition go_accepts (f : file) (ext : bytes -> option file) : Prop := forall s, ~ clos_trans_1n struct (refers f ext) s s.
