(** When the generated Go code declares every name once. *)
From Coq Require Import String ZArith List Bool.
Import ListNotations.
From Verif.Model Require Import Base Field Any Idl GoNames.
Local Open Scope Z_scope.

Definition starts (p : string) (n : bytes) : Prop := exists r, n = lit p ++ r.
Definition ends_in (s : string) (n : bytes) : Prop := exists r, n = r ++ lit s.
Definition is_word (w : string) (n : bytes) : Prop := n = lit w.

(** Names of structs, enums and values of enums that do not look like names that are made from others. *)
Definition free_type (n : bytes) : Prop :=
  (forall p, In p ["New"; "XXX"]%string -> ~ starts p n) /\
  (forall s, In s ["ByName"; "ByValue"; "Raw"]%string -> ~ ends_in s n) /\
  (forall w, In w ["SyntaxVersion"; "PackageDescr"]%string -> ~ is_word w n).
(** Names of fields that do not look like other methods. *)
Definition method_words : list string := [
  "Release"; "Marshal"; "MarshalSafe"; "MarshalWriter"; "Unmarshal"; "UnmarshalReader";
  "ClawStruct"; "XXXGetStruct"; "XXXTypeHash"; "Recording"; "DrainRecordedOps"; "RecordedOps"; "To";
  "XXXDescr"; "Ingest"; "XXXIngestFrom"; "Walk"]%string.
Definition free_field (n : bytes) : Prop :=
  n <> [] /\
  (forall p, In p ["Set"; "IsSet"; "SafeGet"]%string -> ~ starts p n) /\
  (forall s, In s ["List"; "Len"; "Get"; "Append"; "Map"; "Set"; "Delete"; "Has"; "Raw"]%string -> ~ ends_in s n) /\
  (forall w, In w method_words -> ~ is_word w n).

(** The names of a schema: of its structs and enums and of the values of all its enums. *)
Definition schema_names (f : file) : list bytes := map decl_name f.(f_idents) ++ flat_map (fun e => map ev_name e.(e_vals)) (enums f).
