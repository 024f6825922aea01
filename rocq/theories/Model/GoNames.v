(** The names that the generated Go code declares: clawc/internal/idl/struct.tmpl and
    clawc/internal/render/golang/templates. *)
From Coq Require Import String ZArith List Bool.
Import ListNotations.
From Verif.Model Require Import Base Field Any Idl.
Local Open Scope Z_scope.

(** A name made of a name of the schema: a text in front of it and a text behind it. *)
Definition form := (bytes * bytes)%type.
Definition dress (fm : form) (n : bytes) : bytes := fst fm ++ n ++ snd fm.
Definition fm (p s : string) : form := (lit p, lit s).

(** File.Options.IsSet, struct.tmpl:1-4. *)
Definition isSetEnabled (f : file) : bool := existsb (fun o => bytes_eqb o.(o_name) (lit "IsSet")) f.(f_options).

(** The structs and the enums of a file, idl.go:109-145. *)
Definition structs (f : file) : list struct := flat_map (fun d => match d with DStruct s => [s] | DEnum _ => [] end) f.(f_idents).
Definition enums (f : file) : list enum := flat_map (fun d => match d with DEnum e => [e] | DStruct _ => [] end) f.(f_idents).

(** The top level of the package.  claw.tmpl:37-40; reflect.tmpl:39 (only with an enum), 88, 95, 121.  The variables _ and
    the functions init declare nothing. *)
Definition fixedNames (f : file) : list bytes :=
  map lit ["SyntaxVersion"; "_package"; "_packagePath"; "XXXStructDescrs"; "XXXPackageDescr"; "PackageDescr"]%string ++
  match enums f with [] => [] | _ => [lit "XXXEnumGroups"] end.
(** enums.tmpl:5, 38, 45; reflect.tmpl:22. *)
Definition enumForms : list form := [fm "" ""; fm "" "ByName"; fm "" "ByValue"; fm "XXXEnumGroup" ""].
(** enums.tmpl:28-34: the constants of an enum, under their own names. *)
Definition enumNames (e : enum) : list bytes := map (fun k => dress k e.(e_name)) enumForms ++ map ev_name e.(e_vals).
(** struct.tmpl:8, 14, 36, 929, 937; mappings.tmpl:9, 14; reflect.tmpl:54. *)
Definition structForms : list form := [fm "" ""; fm "New" ""; fm "XXXNew" "From"; fm "" "Raw"; fm "New" "FromRaw";
  fm "XXXTypeHash" ""; fm "XXXMapping" ""; fm "XXXStructDescr" ""].
Definition structNames (s : struct) : list bytes := map (fun k => dress k s.(s_name)) structForms.
Definition packageNames (f : file) : list bytes := fixedNames f ++ flat_map enumNames (enums f) ++ flat_map structNames (structs f).

(** The methods of a struct.  struct.tmpl:26-66, 883-923, 1030; structs.tmpl:8; clawingest.tmpl:29, 50; clawiter.tmpl:26. *)
Definition fixedMethods : list bytes := map lit [
  "Release"; "Marshal"; "MarshalSafe"; "MarshalWriter"; "Unmarshal"; "UnmarshalReader";
  "ClawStruct"; "XXXGetStruct"; "XXXTypeHash"; "SetRecording"; "Recording"; "DrainRecordedOps"; "RecordedOpsLen"; "ToRaw";
  "XXXDescr"; "Ingest"; "XXXIngestFrom"; "Walk"]%string.
(** The branches of struct.tmpl:71-880 for a field of a type that is known. *)
Definition fieldForms (fd : sfield) : list form :=
  let t := fd.(fd_type) in
  if t =? FTBytes then [fm "" ""; fm "SafeGet" ""; fm "Set" ""]                                            (* 325-343 *)
  else if t =? FTListStructs then [fm "" "List"; fm "" "Len"; fm "" "Get"; fm "" "Append"; fm "" "AppendRaw"]      (* 490-557 *)
  else if t =? FTMap then                                                                               (* 559-802 *)
    match fd.(fd_map) with
    | Some (MInfo _ v w n) =>
        if negb (bytes_eqb w []) then [fm "" "Map"; fm "" "Get"; fm "" "Set"]                                (* 563-588 *)
        else match n with
             | Some _ => [fm "" "Map"; fm "" "Get"; fm "" "Set"]                                             (* 589-610 *)
             | None => if v =? FTAny then [fm "" "Map"; fm "" "Get"; fm "" "GetRaw"; fm "" "Set"]                (* 611-676 *)
                       else if v =? FTListAny then [fm "" "Map"; fm "" "Get"; fm "" "GetRaw"; fm "" "ListLen"; fm "" "Set"]  (* 677-757 *)
                       else [fm "" "Map"; fm "" "Get"; fm "" "Set"]                                          (* 758-779 *)
             end
    | None => [fm "" "Map"; fm "" "Get"; fm "" "Set"]
    end ++ [fm "" "Delete"; fm "" "Has"; fm "" "Len"]                                                     (* 781-795 *)
  else if t =? FTAny then [fm "" ""; fm "" "Raw"; fm "Set" ""; fm "Set" "Raw"]                               (* 804-839 *)
  else if t =? FTListAny then [fm "" "Len"; fm "" "Get"; fm "" "GetRaw"; fm "Set" ""; fm "Set" "Raw"]          (* 841-878 *)
  else [fm "" ""; fm "Set" ""].                                                                          (* the others *)
Definition fieldMethods (isSet : bool) (fd : sfield) : list bytes :=
  map (fun k => dress k fd.(fd_name)) (fieldForms fd ++ (if isSet then [fm "IsSet" ""] else [])).
Definition methods (isSet : bool) (fds : list sfield) : list bytes := fixedMethods ++ flat_map (fieldMethods isSet) fds.
