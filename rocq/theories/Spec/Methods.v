(** Names of fields that do not get into the way of the names of generated methods. *)
From Coq Require Import ZArith List Bool String.
Import ListNotations.
From Verif.Model Require Import Base Idl.
Local Open Scope Z_scope.

(** Beginnings and ends of the names of generated methods. *)
Definition taken_starts : list string := ["Set"; "IsSet"; "SafeGet"]%string.
Definition taken_ends : list string := ["List"; "Len"; "Get"; "Append"; "AppendRaw"; "Map"; "GetRaw"; "ListLen"; "Set"; "Delete"; "Has"; "Raw"]%string.
(** Names of methods of every Struct, and what is one with an end of the list above. *)
Definition taken : list string := [
  "Release"; "Marshal"; "MarshalSafe"; "MarshalWriter"; "Unmarshal"; "UnmarshalReader"; "ClawStruct"; "XXXGetStruct"; "XXXTypeHash";
  "SetRecording"; "Recording"; "DrainRecordedOps"; "RecordedOpsLen"; "ToRaw"; "Walk"; "Ingest"; "XXXIngestFrom"; "XXXDescr";
  "RecordedOps"; "To" ]%string.
Definition free (n : bytes) : Prop :=
  n <> [] /\ (forall p q, In p taken_starts -> n <> lit p ++ q) /\ (forall p q, In p taken_ends -> n <> q ++ lit p) /\ forall w, In w taken -> n <> lit w.
