(** C91, C92, C93: schemas that the compiler accepts. *)
From Coq Require Import ZArith List Bool String Lia Permutation Sorted.
Import ListNotations.
From Verif.Model Require Import Base Utf8 Field Any ClawText Idl.
From Verif.Spec Require Import Idl.
From Verif.Proofs Require Import BaseLemmas IngestProofs IdlBase IdlSound IdlTotal IdlFinal.
Local Open Scope Z_scope.

Section Any.
(** unicode.IsUpper, IsLower, IsLetter, IsNumber, IsSpace; strings.ToLower; Item.ToInt of the lexer: anything. *)
Variables isUpper isLower isLetter isNumber isSpace : Z -> bool.
Variable toLower : bytes -> bytes.
Variable toInt : bytes -> option Z.
Notation parse := (parseFile isUpper isLower isLetter isNumber isSpace toLower toInt).

(** C91: what is accepted is a schema. *)
Theorem C91_accepted ls f : parse ls = Ok f -> schema_ok isUpper isLower isLetter isNumber f.
Proof. apply parse_sound. Qed.
(** Every field of it that the compiler generates code for has the type of what its name stands for, wherever
    in the file that is declared. *)
Theorem C91_resolved ls f s fd ext fd' : parse ls = Ok f -> In (DStruct s) f.(f_idents) -> In fd s.(s_fields) ->
  resolveField f ext fd = Ok fd' ->
  final_type f ext fd' /\ fd'.(fd_name) = fd.(fd_name) /\ fd'.(fd_index) = fd.(fd_index) /\ fd'.(fd_comment) = fd.(fd_comment).
Proof.
  intros P S F R. apply parse_sound in P. apply in_split in S. destruct S as (before & after & D).
  destruct (ok_structs _ _ _ _ _ P _ _ _ D) as (_ & _ & _ & T). rewrite Forall_forall in T. destruct (T _ F) as (_ & FT).
  eapply resolve_sound; eauto.
Qed.

(** C92: every text ends with a schema or an error. *)
Theorem C92_total ls : toLower [] = [] -> Forall a_line ls -> ends (parse ls).
Proof. intros L F. apply parse_ends; assumption. Qed.

(** C93: code can be generated for an enum of an accepted schema if and only if its numbers are 0, 1, 2, ...
    without a gap, in any order; then the values come in the order of their numbers. *)
Theorem C93_order ls f e : parse ls = Ok f -> In (DEnum e) f.(f_idents) ->
  ((exists l, OrderByValues e = Ok l) <-> Permutation (map ev_value e.(e_vals)) (map Z.of_nat (seq 0 (length e.(e_vals))))) /\
  (forall l, OrderByValues e = Ok l -> Permutation l e.(e_vals) /\ map ev_value l = map Z.of_nat (seq 0 (length e.(e_vals)))).
Proof.
  intros P I. apply parse_sound in P. destruct (ok_enums _ _ _ _ _ P _ I) as (_ & _ & _ & V & _ & N).
  assert (V0 : Forall (fun v => 0 <= ev_value v) (e_vals e)) by (eapply Forall_impl; [|exact V]; intros v (_ & ? & _); assumption).
  pose proof (order_iff e V0 N) as IFF. split; [exact IFF|]. intros l O. destruct (order_ok _ _ V0 N O) as (Q & S). split; [exact Q|].
  apply sorted_unique; [exact S|apply seq_sorted|]. rewrite Q. apply IFF. eauto.
Qed.
End Any.

(** ** Cases *)
Definition up (c : Z) : bool := (65 <=? c) && (c <=? 90).
Definition low (c : Z) : bool := (97 <=? c) && (c <=? 122).
Definition num (c : Z) : bool := (48 <=? c) && (c <=? 57).
Definition spc (c : Z) : bool := (c =? 32) || (c =? 9).
Definition lower (w : bytes) : bytes := map (fun c => if up c then c + 32 else c) w.
Definition ascii_parse := parseFile up low (fun c => up c || low c) num spc lower parseInt.
(** The lines of a text. *)
Definition words_of (s : string) : list bytes := filter (fun w => match w with [] => false | _ => true end) (splitAt 32 (lit s)).
Definition ln (s : string) : iline := mkL (words_of s ++ [[10]]) false (lit s ++ [10]).
Definition text (ss : list string) : list iline := map ln ss ++ [eofLine].
Definition car : list string := [
  "// The package of vehicles."; "package vehicles // in all the garages";
  "version 0";
  "options [ IsSet( ) ] // all of them";
  "import ("; "  ""github.com/a/parts"""; "  p2 ""github.com/b/parts"" // renamed"; ")";
  "// A car."; "// It has wheels.";
  "Struct Car {"; "  // Who made it"; "  Make Maker @1"; "  Name string @0 // the name"; "  Wheels []parts.Wheel @2"; "  Spare Car @3"; "  Prices map[string]map[uint8]Any @4"; "  // nothing"; "}";
  "Enum Maker uint8 {"; "  Tesla @1"; "  Unknown @0"; "}" ]%string.
Definition car_file : file := Eval vm_compute in match ascii_parse (text car) with Ok f => f | _ => newFile end.
Example car_parsed : ascii_parse (text car) = Ok car_file /\ Forall a_line (text car).
Proof.
  split; [vm_compute; reflexivity|]. unfold text. apply Forall_app. split; [|constructor; [apply eof_line|constructor]].
  unfold car. cbn [map]. repeat (apply Forall_cons; [eexists _, _; split; [reflexivity|]; split; [vm_compute; repeat (constructor; [split; discriminate|]); constructor|right; split; reflexivity]|]). apply Forall_nil.
Qed.
Example car_is : car_file.(f_package) = lit "vehicles" /\
  car_file.(f_imports) = Some [(lit "parts", lit "github.com/a/parts"); (lit "p2", lit "github.com/b/parts")] /\
  car_file.(f_options) = [mkOpt (lit "IsSet") []] /\ car_file.(f_external) = [lit "parts.Wheel"] /\
  map decl_name car_file.(f_idents) = [lit "Car"; lit "Maker"].
Proof. vm_compute. repeat split; reflexivity. Qed.
Example car_struct : exists s, In (DStruct s) car_file.(f_idents) /\
  map fd_name s.(s_fields) = [lit "Name"; lit "Make"; lit "Wheels"; lit "Spare"; lit "Prices"] /\
  map fd_type s.(s_fields) = [FTString; FTUnknown; FTUnknown; FTStruct; FTMap] /\
  exists fd fd', In fd s.(s_fields) /\ resolveField car_file (fun _ => None) fd = Ok fd' /\ fd'.(fd_name) = lit "Make" /\ fd'.(fd_type) = FTUint8 /\ fd'.(fd_isEnum) = true.
Proof.
  eexists. split; [left; reflexivity|]. split; [reflexivity|]. split; [reflexivity|].
  eexists _, _. split; [right; left; reflexivity|]. split; [vm_compute; reflexivity|]. repeat split; reflexivity.
Qed.
Example car_enum : exists e l, In (DEnum e) car_file.(f_idents) /\ OrderByValues e = Ok l /\ map ev_name l = [lit "Unknown"; lit "Tesla"].
Proof. eexists _, _. split; [right; left; reflexivity|]. split; vm_compute; reflexivity. Qed.

(** ** What an accepted schema does not have *)
(** The numbers of an enum need not fit the size it is declared with, and numbers from 65536 on are taken for others. *)
Definition tall : list string := ["package p"; "enum E uint8 {"; "  A @300"; "  B @65537"; "}"]%string.
Theorem C91_enum_fits_refuted : exists f e, ascii_parse (text tall) = Ok f /\ In (DEnum e) f.(f_idents) /\ e.(e_size) = 8 /\
  map ev_value e.(e_vals) = [300; 1].
Proof. eexists _, _. split; [vm_compute; reflexivity|]. split; [left; reflexivity|]. split; reflexivity. Qed.
(** Two fields of a struct may have the same name. *)
Definition twice : list string := ["package p"; "struct S {"; "  A bool @0"; "  A string @1"; "}"]%string.
Theorem C91_field_names_refuted : exists f s, ascii_parse (text twice) = Ok f /\ In (DStruct s) f.(f_idents) /\
  map fd_name s.(s_fields) = [lit "A"; lit "A"].
Proof. eexists _, _. split; [vm_compute; reflexivity|]. split; [left; reflexivity|]. reflexivity. Qed.
(** The number of a field is not what is written: it is reduced modulo 65536, and what follows a second @ is dropped. *)
Definition odd : list string := ["package p"; "struct S {"; "  A bool @-65536"; "  B bool @1@2"; "}"]%string.
Theorem C91_field_number_refuted : exists f s, ascii_parse (text odd) = Ok f /\ In (DStruct s) f.(f_idents) /\
  map fd_index s.(s_fields) = [0; 1].
Proof. eexists _, _. split; [vm_compute; reflexivity|]. split; [left; reflexivity|]. reflexivity. Qed.
(** The value type of a map need not be declared; an enum is taken for a struct. *)
Definition maps : list string := ["package p"; "enum E uint8 {"; "  X @0"; "}"; "struct S {"; "  A map[string]Nowhere @0"; "  B map[string]E @1"; "}"]%string.
Theorem C91_map_values_refuted : exists f s, ascii_parse (text maps) = Ok f /\ In (DStruct s) f.(f_idents) /\
  map fd_map s.(s_fields) = [Some (MInfo FTString FTStruct (lit "Nowhere") None); Some (MInfo FTString FTStruct (lit "E") None)] /\
  Forall (fun fd => resolveField f (fun _ => None) fd = Ok fd) s.(s_fields).
Proof. eexists _, _. split; [vm_compute; reflexivity|]. split; [right; left; reflexivity|]. split; [reflexivity|]. repeat (constructor; [vm_compute; reflexivity|]). constructor. Qed.
(** Text among the options is dropped. *)
Definition loose : list string := ["package p"; "options [IsSet(never) ever]"; "struct S {"; "  A bool @0"; "}"]%string.
Theorem C91_options_refuted : exists f, ascii_parse (text loose) = Ok f /\ f.(f_options) = [mkOpt (lit "IsSet") []].
Proof. eexists. split; [vm_compute; reflexivity|]. reflexivity. Qed.
(** A schema with a type that is nowhere declared is accepted; only generating its code fails. *)
Definition later : list string := ["package p"; "struct S {"; "  A Nowhere @0"; "}"]%string.
Theorem C91_declared_refuted : exists f s fd, ascii_parse (text later) = Ok f /\ In (DStruct s) f.(f_idents) /\ In fd s.(s_fields) /\
  fd.(fd_ident) = lit "Nowhere" /\ forall ext, resolveField f ext fd = Err.
Proof. eexists _, _, _. split; [vm_compute; reflexivity|]. split; [left; reflexivity|]. split; [left; reflexivity|]. split; reflexivity. Qed.
(** The first word of a comment is lost if no space follows the slashes. *)
Definition tight : list string := ["package p"; "//Deprecated: do not use"; "struct S {"; "  A bool @0"; "}"]%string.
Theorem C91_comment_refuted : exists f s, ascii_parse (text tight) = Ok f /\ In (DStruct s) f.(f_idents) /\ s.(s_comment) = lit "do not use".
Proof. eexists _, _. split; [vm_compute; reflexivity|]. split; [left; reflexivity|]. reflexivity. Qed.
(** C93: an accepted enum with a gap in its numbers, as the one of docs/schema_language, panics the compiler. *)
Definition gap : list string := ["package p"; "enum Maker uint8 {"; "  Unknown @0"; "  Toyota @1"; "  Tesla @10"; "}"]%string.
Theorem C93_refuted : exists f e, ascii_parse (text gap) = Ok f /\ In (DEnum e) f.(f_idents) /\ OrderByValues e = Panic.
Proof. eexists _, _. split; [vm_compute; reflexivity|]. split; [left; reflexivity|]. vm_compute. reflexivity. Qed.

Print Assumptions C91_accepted.
Print Assumptions C91_resolved.
Print Assumptions C91_enum_fits_refuted.
Print Assumptions C91_field_names_refuted.
Print Assumptions C91_field_number_refuted.
Print Assumptions C91_map_values_refuted.
Print Assumptions C91_options_refuted.
Print Assumptions C91_declared_refuted.
Print Assumptions C91_comment_refuted.
Print Assumptions C92_total.
Print Assumptions C93_order.
Print Assumptions C93_refuted.
