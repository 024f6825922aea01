(** The methods that the templates generate for a Struct, clawc/internal/idl/struct.tmpl, and clawiter.tmpl:26,
    clawingest.tmpl:29,50, structs.tmpl:8 of clawc/internal/render/golang/templates. *)
From Coq Require Import ZArith List Bool String.
Import ListNotations.
From Verif.Model Require Import Base Field Any ClawText Idl.
Local Open Scope Z_scope.

(** The methods that every Struct has: struct.tmpl:26-66, 883-923, 1030, and those of the other templates. *)
Definition fixedMethods : list string := [
  "Release"; "Marshal"; "MarshalSafe"; "MarshalWriter"; "Unmarshal"; "UnmarshalReader"; "ClawStruct"; "XXXGetStruct"; "XXXTypeHash";
  "SetRecording"; "Recording"; "DrainRecordedOps"; "RecordedOpsLen"; "ToRaw"; "Walk"; "Ingest"; "XXXIngestFrom"; "XXXDescr" ]%string.

(** The methods of a field of the type [t], but IsSet: what is before and behind the name of the field.  70-879, by the
    branch of the template. *)
Definition mapShapes (m : option minfo) : list (string * string) :=
  match m with
  | Some (MInfo _ v w n) =>
    [("", "Map"); ("", "Get")]%string ++
    (match w, n with
     | [], None =>
       if v =? FTAny then [("", "GetRaw")]%string
       else if v =? FTListAny then [("", "GetRaw"); ("", "ListLen")]%string else []
     | _, _ => []
     end) ++
    [("", "Set"); ("", "Delete"); ("", "Has"); ("", "Len")]%string
  | None => []
  end.
Definition shapes (t : Z) (m : option minfo) : list (string * string) :=
  if t =? FTBytes then [("", ""); ("SafeGet", ""); ("Set", "")]%string
  else if t =? FTListStructs then [("", "List"); ("", "Len"); ("", "Get"); ("", "Append"); ("", "AppendRaw")]%string
  else if t =? FTMap then mapShapes m
  else if t =? FTAny then [("", ""); ("", "Raw"); ("Set", ""); ("Set", "Raw")]%string
  else if t =? FTListAny then [("", "Len"); ("", "Get"); ("", "GetRaw"); ("Set", ""); ("Set", "Raw")]%string
  else [("", ""); ("Set", "")]%string.
(** The receiver and the name of each method of a field of the Struct [self]; [isSet] is the option IsSet.  In the branch
    of Int8, 104, the receiver is .Name, and there the dot is the field and not the Struct. *)
Definition fieldMethods (isSet : bool) (self : bytes) (fd : sfield) : list (bytes * bytes) :=
  map (fun ps => (self, lit (fst ps) ++ fd.(fd_name) ++ lit (snd ps))) (shapes fd.(fd_type) fd.(fd_map)) ++
  (if isSet then [((if fd.(fd_type) =? FTInt8 then fd.(fd_name) else self), lit "IsSet" ++ fd.(fd_name))] else []).
(** All methods with the fields resolved. *)
Definition methods (isSet : bool) (self : bytes) (fds : list sfield) : list (bytes * bytes) :=
  map (fun w => (self, lit w)) fixedMethods ++ flat_map (fieldMethods isSet self) fds.
(** struct.tmpl:1-4 *)
Definition isSetOf (f : file) : bool := existsb (fun o => bytes_eqb o.(o_name) (lit "IsSet")) f.(f_options).
