(** C144: the generated Go code declares no name twice. *)
From Coq Require Import ZArith List Bool String Lia.
Import ListNotations.
From Verif.Model Require Import Base Field Any Idl GoNames.
From Verif.Spec Require Import Idl GoNames.
From Verif.Proofs Require Import IdlSound GoNames.
From Verif.Properties Require Idl.
Local Open Scope Z_scope.

Section Any.
(** unicode.IsUpper, IsLower, IsLetter, IsNumber, IsSpace; strings.ToLower; Item.ToInt of the lexer: anything, but s is a
    lower case letter and _ is no letter. *)
Variables isUpper isLower isLetter isNumber isSpace : Z -> bool.
Variable toLower : bytes -> bytes.
Variable toInt : bytes -> option Z.
Hypothesis low_s : isLower 115 = true.
Hypothesis no_under : isLetter 95 = false.
Notation parse := (parseFile isUpper isLower isLetter isNumber isSpace toLower toInt).

(** C144: what the compiler declares at the top level of the package of an accepted schema.  If the structs, the enums and
    the values of all enums have different names, and none looks like a name that is made from another (New..., XXX...,
    ...ByName, ...ByValue, ...Raw, SyntaxVersion, PackageDescr), no name is declared twice. *)
Theorem C144_package_partial ls f : parse ls = Ok f -> NoDup (schema_names f) -> Forall free_type (schema_names f) -> NoDup (packageNames f).
Proof.
  intros P N F. apply parse_sound in P. apply package_nodup; [exact N|]. intros n I. rewrite Forall_forall in F.
  apply (free_type_b isLower isLetter isNumber low_s no_under); [exact (schema_names_ok isUpper isLower isLetter isNumber f n P I)|exact (F n I)].
Qed.
(** The names of the schema are declared as they are: two that are equal are always declared twice. *)
Theorem C144_needed f : NoDup (packageNames f) -> NoDup (schema_names f).
Proof. exact (package_needed f). Qed.
End Any.

(** C144: the methods of a struct.  If its fields have different names and none looks like another method, no method is
    declared twice, with and without the option IsSet. *)
Theorem C144_methods_partial isSet fds : NoDup (map fd_name fds) -> Forall (fun fd => free_field fd.(fd_name)) fds -> NoDup (methods isSet fds).
Proof. exact (methods_nodup isSet fds). Qed.

(** ** Cases *)
Fixpoint distinctb (l : list bytes) : bool := match l with [] => true | a :: l => negb (existsb (bytes_eqb a) l) && distinctb l end.
Lemma distinctb_iff l : distinctb l = true <-> NoDup l.
Proof.
  induction l as [|a l IH]; cbn; [split; [constructor|reflexivity]|]. rewrite andb_true_iff, negb_true_iff, IH. split.
  - intros (A & N). constructor; [|exact N]. intros I. assert (existsb (bytes_eqb a) l = true) by (apply existsb_exists; exists a; split; [exact I|apply eqb_eq; reflexivity]). congruence.
  - intros N. inversion N as [|? ? A N']; subst. split; [|exact N']. destruct (existsb _ _) eqn:E; [|reflexivity]. apply existsb_exists in E. destruct E as (b & I & E). apply eqb_eq in E. subst b. contradiction.
Qed.
(** The schema of Properties/Idl.v meets the hypotheses. *)
Lemma free_type_c n : freeb PP PS PW n = true -> free_type n.
Proof.
  intros F. apply freeb_spec in F. destruct F as (HP & HS & HW). split; [|split].
  - intros p I (r & E). apply (HP (lit p) r); [apply in_map; exact I|exact E].
  - intros s I (r & E). apply (HS (lit s) r); [apply in_map; exact I|exact E].
  - intros w I E. apply HW. rewrite E. right. apply in_map. cbn in *. tauto.
Qed.
Lemma free_field_c n : freeb MP MS MW n = true -> free_field n.
Proof.
  intros F. apply freeb_spec in F. destruct F as (HP & HS & HW). split; [|split; [|split]].
  - intros ->. apply HW. left. reflexivity.
  - intros p I (r & E). apply (HP (lit p) r); [apply in_map; exact I|exact E].
  - intros s I (r & E). apply (HS (lit s) r); [apply in_map; exact I|exact E].
  - intros w I E. apply HW. rewrite E. right. apply in_map. exact I.
Qed.
Example car_package : NoDup (schema_names Idl.car_file) /\ Forall free_type (schema_names Idl.car_file) /\
  schema_names Idl.car_file = map lit ["Car"; "Maker"; "Tesla"; "Unknown"]%string /\ (length (packageNames Idl.car_file) = 21)%nat /\
  In (lit "NewCarFromRaw") (packageNames Idl.car_file).
Proof.
  split; [apply distinctb_iff; vm_compute; reflexivity|]. split; [|split; [vm_compute; reflexivity|split; [vm_compute; reflexivity|]]].
  - apply Forall_forall. intros n I. apply free_type_c. assert (A : forallb (freeb PP PS PW) (schema_names Idl.car_file) = true) by (vm_compute; reflexivity). rewrite forallb_forall in A. exact (A n I).
  - assert (A : existsb (bytes_eqb (lit "NewCarFromRaw")) (packageNames Idl.car_file) = true) by (vm_compute; reflexivity). apply existsb_exists in A. destruct A as (x & I & E). apply eqb_eq in E. subst x. exact I.
Qed.
Definition fields_of (f : file) : list sfield := flat_map s_fields (structs f).
Example car_methods : NoDup (map fd_name (fields_of Idl.car_file)) /\ Forall (fun fd => free_field fd.(fd_name)) (fields_of Idl.car_file) /\
  (length (fields_of Idl.car_file) = 5)%nat /\ isSetEnabled Idl.car_file = true.
Proof.
  split; [apply distinctb_iff; vm_compute; reflexivity|]. split; [|split; vm_compute; reflexivity].
  apply Forall_forall. intros fd I. apply free_field_c. assert (A : forallb (fun fd => freeb MP MS MW fd.(fd_name)) (fields_of Idl.car_file) = true) by (vm_compute; reflexivity).
  rewrite forallb_forall in A. exact (A fd I).
Qed.

(** ** What is not true of all accepted schemas *)
Definition accepted (ss : list string) (Q : file -> bool) : bool := match Idl.ascii_parse (Idl.text ss) with Ok f => Q f | _ => false end.
Lemma accepted_ex ss Q : accepted ss Q = true -> exists f, Idl.ascii_parse (Idl.text ss) = Ok f /\ Q f = true.
Proof. unfold accepted. destruct (Idl.ascii_parse (Idl.text ss)) as [f| | |]; intros H; try discriminate. exists f. auto. Qed.
(** Two enums of one file cannot both have a value Unknown: the constants are declared twice. *)
Definition two_enums : list string := ["package p"; "Enum Color uint8 {"; "  Unknown @0"; "  Red @1"; "}"; "Enum Shape uint8 {"; "  Unknown @0"; "  Round @1"; "}"]%string.
Theorem C144_enum_values_refuted : exists f, Idl.ascii_parse (Idl.text two_enums) = Ok f /\ Forall free_type (schema_names f) /\ ~ NoDup (packageNames f).
Proof.
  destruct (accepted_ex two_enums (fun f => forallb (freeb PP PS PW) (schema_names f) && negb (distinctb (packageNames f)))) as (f & P & Q); [vm_compute; reflexivity|].
  exists f. split; [exact P|]. apply andb_true_iff in Q. destruct Q as (F & D). split.
  - apply Forall_forall. intros n I. apply free_type_c. rewrite forallb_forall in F. exact (F n I).
  - intros N. apply distinctb_iff in N. rewrite N in D. discriminate.
Qed.
(** A value may have the name of a struct. *)
Definition value_struct : list string := ["package p"; "Enum Kind uint8 {"; "  None @0"; "  Car @1"; "}"; "Struct Car {"; "  Name string @0"; "}"]%string.
(** The constructor of one struct may be another struct, and a struct the Raw form of another. *)
Definition new_struct : list string := ["package p"; "Struct Car {"; "  Name string @0"; "}"; "Struct NewCar {"; "  Name string @0"; "}"]%string.
Definition raw_struct : list string := ["package p"; "Struct Car {"; "  Name string @0"; "}"; "Struct CarRaw {"; "  Name string @0"; "}"]%string.
Theorem C144_package_refuted : forall ss, In ss [value_struct; new_struct; raw_struct] ->
  exists f, Idl.ascii_parse (Idl.text ss) = Ok f /\ ~ NoDup (packageNames f).
Proof.
  assert (A : forallb (fun ss => accepted ss (fun f => negb (distinctb (packageNames f)))) [value_struct; new_struct; raw_struct] = true) by (vm_compute; reflexivity).
  intros ss I. rewrite forallb_forall in A. specialize (A ss I). apply accepted_ex in A. destruct A as (f & P & D). exists f. split; [exact P|]. intros N. apply distinctb_iff in N. rewrite N in D. discriminate.
Qed.
(** A field may be named like the setter of another one or like a method every struct has. *)
Definition setter_field : list string := ["package p"; "Struct Car {"; "  Name string @0"; "  SetName bool @1"; "}"]%string.
Definition method_field : list string := ["package p"; "Struct Car {"; "  Marshal string @0"; "}"]%string.
Definition len_field : list string := ["package p"; "Struct Car {"; "  Parts map[string]string @0"; "  PartsLen uint32 @1"; "}"]%string.
Theorem C144_methods_refuted : forall ss, In ss [setter_field; method_field; len_field] ->
  exists f s, Idl.ascii_parse (Idl.text ss) = Ok f /\ In s (structs f) /\ NoDup (map fd_name s.(s_fields)) /\ ~ NoDup (methods (isSetEnabled f) s.(s_fields)).
Proof.
  assert (A : forallb (fun ss => accepted ss (fun f => existsb (fun s => distinctb (map fd_name s.(s_fields)) && negb (distinctb (methods (isSetEnabled f) s.(s_fields)))) (structs f)))
    [setter_field; method_field; len_field] = true) by (vm_compute; reflexivity).
  intros ss I. rewrite forallb_forall in A. specialize (A ss I). apply accepted_ex in A. destruct A as (f & P & D). apply existsb_exists in D. destruct D as (s & J & D).
  apply andb_true_iff in D. destruct D as (D1 & D2). exists f, s. split; [exact P|]. split; [exact J|]. split; [apply distinctb_iff; exact D1|].
  intros N. apply distinctb_iff in N. rewrite N in D2. discriminate.
Qed.

Print Assumptions C144_package_partial.
Print Assumptions C144_needed.
Print Assumptions C144_methods_partial.
Print Assumptions C144_enum_values_refuted.
Print Assumptions C144_package_refuted.
Print Assumptions C144_methods_refuted.
