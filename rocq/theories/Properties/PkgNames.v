(** C158: the names that a generated package declares. *)
From Coq Require Import ZArith List Bool String Lia.
Import ListNotations.
From Verif.Model Require Import Base Utf8 Field Any ClawText Idl PkgNames.
From Verif.Spec Require Import Idl PkgNames.
From Verif.Proofs Require Import BaseLemmas IngestProofs IdlBase IdlSound IdlFinal Methods PkgNames.
From Verif.Properties Require Import Idl Methods.
Local Open Scope Z_scope.

Section Any.
Variables isUpper isLower isLetter isNumber isSpace : Z -> bool.
Variable toLower : bytes -> bytes.
Variable toInt : bytes -> option Z.
Notation parse := (parseFile isUpper isLower isLetter isNumber isSpace toLower toInt).
Variables (ls : list iline) (f : file).
Hypothesis accepted : parse ls = Ok f.

(** If no two Enums, values of Enums or Structs have the same name, and none of the names is or begins or ends like a generated one, the
    package declares no name twice. *)
Theorem C158_distinct : NoDup (schema_words f) -> (forall n, In n (schema_words f) -> pkg_free n) -> NoDup (pkgNames f).
Proof. apply pkg_all. Qed.
(** For schemas without Enums the compiler has looked at the first. *)
Theorem C158_structs : (forall e, ~ In (DEnum e) f.(f_idents)) -> (forall n, In n (schema_words f) -> pkg_free n) -> NoDup (pkgNames f).
Proof.
  intros E F. apply pkg_all; [|exact F]. pose proof (ok_names _ _ _ _ _ (C91_accepted _ _ _ _ _ _ _ ls f accepted)) as K. clear F.
  unfold schema_words. revert E K. generalize (f_idents f). induction l as [|d l IH]; intros E K; [constructor|]. cbn [map] in K. inversion K as [|? ? X K']; subst.
  destruct d as [e|s]; [destruct (E e); left; reflexivity|]. cbn [flat_map decl_words app]. constructor; [|apply IH; [intros e I; apply (E e); right; exact I|exact K']].
  intros I. apply X. apply in_flat_map in I. destruct I as (d & D & I). destruct d as [e|t]; [destruct (E e); right; exact D|].
  destruct I as [I|[]]. apply in_map_iff. exists (DStruct t). split; [exact I|exact D].
Qed.
(** The package declares every Enum and its values, with the two maps between values and names, and every Struct with its Raw form and the
    two functions that make it. *)
Theorem C158_declared :
  (forall e, In (DEnum e) f.(f_idents) -> let has w := In w (pkgNames f) in
     has e.(e_name) /\ has (e.(e_name) ++ lit "ByName") /\ has (e.(e_name) ++ lit "ByValue") /\ forall v, In v e.(e_vals) -> has v.(ev_name)) /\
  (forall s, In (DStruct s) f.(f_idents) -> let has w := In w (pkgNames f) in
     has s.(s_name) /\ has (s.(s_name) ++ lit "Raw") /\ has (lit "New" ++ s.(s_name)) /\ has (lit "New" ++ s.(s_name) ++ lit "FromRaw")).
Proof.
  assert (G : forall d w, In d f.(f_idents) -> In w (declNames d) -> In w (pkgNames f)).
  { intros d w D W. unfold pkgNames. apply in_or_app. right. apply in_flat_map. eauto. }
  split.
  - intros e I has. assert (V : forall n, In n (decl_words (DEnum e)) -> has n) by (intros n W; apply words_names; apply in_flat_map; eauto).
    split; [apply V; left; reflexivity|]. split; [|split; [|intros v J; apply V; right; apply in_map; exact J]]; apply (G _ _ I); cbn [declNames]; apply in_or_app; left.
    + right. left. reflexivity.
    + right. right. left. reflexivity.
  - intros s I has. split; [apply words_names; apply in_flat_map; exists (DStruct s); split; [exact I|left; reflexivity]|].
    split; [|split]; apply (G _ _ I); cbn [declNames].
    + right. right. right. left. reflexivity.
    + right. left. unfold wrap. cbn [fst snd]. change (lit "") with (@nil Z). rewrite app_nil_r. reflexivity.
    + right. right. right. right. left. reflexivity.
Qed.
End Any.

(** ** Cases *)
Definition plain_pkg : list string := ["package p"; "enum Color uint8 {"; "  Red @0"; "  Green @1"; "}"; "struct Car {"; "  Paint Color @0"; "}"]%string.
Example plain_names : exists f, ascii_parse (text plain_pkg) = Ok f /\ NoDup (schema_words f) /\ (forall n, In n (schema_words f) -> pkg_free n) /\
  skipn 7 (pkgNames f) = map lit ["Color"; "ColorByName"; "ColorByValue"; "XXXEnumGroupColor"; "Red"; "Green";
    "Car"; "NewCar"; "XXXNewCarFrom"; "CarRaw"; "NewCarFromRaw"; "XXXTypeHashCar"; "XXXMappingCar"; "XXXStructDescrCar"]%string.
Proof.
  eexists. split; [vm_compute; reflexivity|]. split; [vm_compute; repeat (constructor; [cbn; intuition discriminate|]); constructor|]. split; [|vm_compute; reflexivity].
  intros n I. assert (E : forall (a q b : bytes), a = q ++ b -> skipn (length a - length b) a = b).
  { intros a q b ->. rewrite app_length, PeanoNat.Nat.add_sub, skipn_app, skipn_all, PeanoNat.Nat.sub_diag. reflexivity. }
  cbn in I. repeat (destruct I as [<-|I]; [split; [discriminate|split; [|split]];
    [intros p q P Q; cbn in P; repeat (destruct P as [<-|P]; [discriminate Q|]); destruct P
    |intros p q P Q; apply E in Q; cbn in P; repeat (destruct P as [<-|P]; [discriminate Q|]); destruct P
    |intros w P Q; cbn in P; repeat (destruct P as [<-|P]; [discriminate Q|]); destruct P]|]). destruct I.
Qed.

(** Two Enums with a value of the same name are accepted, though a constant is declared twice. *)
Definition two_enums : list string := ["package p"; "enum Color uint8 {"; "  Unknown @0"; "  Red @1"; "}"; "enum Shape uint8 {"; "  Unknown @0"; "  Round @1"; "}"]%string.
Theorem C158_values_refuted : exists f a b, ascii_parse (text two_enums) = Ok f /\ f.(f_idents) = [DEnum a; DEnum b] /\
  (forall n, In n (schema_words f) -> pkg_free n) /\ ~ NoDup (pkgNames f).
Proof.
  eexists _, _, _. split; [vm_compute; reflexivity|]. split; [reflexivity|]. split.
  - intros n I. assert (E : forall (a q b : bytes), a = q ++ b -> skipn (length a - length b) a = b).
    { intros a q b ->. rewrite app_length, PeanoNat.Nat.add_sub, skipn_app, skipn_all, PeanoNat.Nat.sub_diag. reflexivity. }
    cbn in I. repeat (destruct I as [<-|I]; [split; [discriminate|split; [|split]];
      [intros p q P Q; cbn in P; repeat (destruct P as [<-|P]; [discriminate Q|]); destruct P
      |intros p q P Q; apply E in Q; cbn in P; repeat (destruct P as [<-|P]; [discriminate Q|]); destruct P
      |intros w P Q; cbn in P; repeat (destruct P as [<-|P]; [discriminate Q|]); destruct P]|]). destruct I.
  - apply (twice_in _ 11 17 (lit "Unknown")); try (vm_compute; reflexivity); discriminate.
Qed.
(** And so are Structs Car and CarRaw, or Car and NewCar. *)
Definition raw_names : list string := ["package p"; "struct Car {"; "  A bool @0"; "}"; "struct CarRaw {"; "  A bool @0"; "}"]%string.
Theorem C158_names_refuted : exists f, ascii_parse (text raw_names) = Ok f /\ NoDup (schema_words f) /\ ~ NoDup (pkgNames f).
Proof.
  eexists. split; [vm_compute; reflexivity|]. split; [vm_compute; repeat (constructor; [cbn; intuition discriminate|]); constructor|].
  apply (twice_in _ 10 15 (lit "CarRaw")); try (vm_compute; reflexivity); discriminate.
Qed.

Print Assumptions C158_distinct.
Print Assumptions C158_structs.
Print Assumptions C158_declared.
