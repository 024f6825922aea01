(** C157: the methods generated for a Struct. *)
From Coq Require Import ZArith List Bool String Lia.
Import ListNotations.
From Verif.Model Require Import Base Utf8 Field Any ClawText Idl Methods.
From Verif.Spec Require Import Idl Methods.
From Verif.Proofs Require Import BaseLemmas IngestProofs IdlBase IdlSound IdlFinal Methods.
From Verif.Properties Require Import Idl.
Local Open Scope Z_scope.

Section Any.
Variables isUpper isLower isLetter isNumber isSpace : Z -> bool.
Variable toLower : bytes -> bytes.
Variable toInt : bytes -> option Z.
Notation parse := (parseFile isUpper isLower isLetter isNumber isSpace toLower toInt).
Variables (ls : list iline) (f : file) (s : struct) (ext : bytes -> option file) (fds : list sfield).
Hypothesis accepted : parse ls = Ok f.
Hypothesis declared : In (DStruct s) f.(f_idents).
Hypothesis resolved : Forall2 (fun fd fd' => resolveField f ext fd = Ok fd') s.(s_fields) fds.

(** The fields as they are rendered are those of the Struct. *)
Theorem C157_fields : map fd_name fds = map fd_name s.(s_fields).
Proof.
  assert (G : forall l, (forall fd, In fd l -> In fd (s_fields s)) -> forall l', Forall2 (fun fd fd' => resolveField f ext fd = Ok fd') l l' -> map fd_name l' = map fd_name l).
  { clear - accepted declared. intros l K l' R. induction R as [|fd fd' l l' R _ IH]; [reflexivity|]. cbn [map].
    destruct (C91_resolved _ _ _ _ _ _ _ ls f s fd ext fd' accepted declared (K fd (or_introl eq_refl)) R) as (_ & E & _).
    rewrite E, IH; [reflexivity|]. intros x I. apply K. right. exact I. }
  apply G; [auto|exact resolved].
Qed.
(** If the names of the fields are different and none of them is or begins or ends like the name of a generated method, no
    two methods of the Struct have the same name. *)
Theorem C157_distinct : NoDup (map fd_name s.(s_fields)) -> (forall fd, In fd s.(s_fields) -> free fd.(fd_name)) ->
  NoDup (map snd (methods (isSetOf f) s.(s_name) fds)).
Proof.
  intros N F. apply all_names; [rewrite C157_fields; exact N|]. apply Forall_forall. intros fd' I. apply (in_map fd_name) in I. rewrite C157_fields in I.
  apply in_map_iff in I. destruct I as (fd & <- & I). exact (F fd I).
Qed.
Definition optioned : Prop := exists o, In o f.(f_options) /\ o.(o_name) = lit "IsSet".
Lemma optioned_isSet : isSetOf f = true <-> optioned.
Proof.
  unfold isSetOf. rewrite existsb_exists. split; intros (o & I & E); exists o; (split; [exact I|]); [apply bytes_eqb_eq; exact E|rewrite E; apply bytes_eqb_refl].
Qed.
(** They are methods of the Struct, if the schema is without the option IsSet or the Struct without fields of the type int8. *)
Theorem C157_receiver m : ~ optioned \/ (forall fd, In fd fds -> fd.(fd_type) <> FTInt8) ->
  In m (methods (isSetOf f) s.(s_name) fds) -> fst m = s.(s_name).
Proof.
  intros C I. rewrite <- optioned_isSet in C. unfold methods in I. apply in_app_or in I. destruct I as [I|I].
  { apply in_map_iff in I. destruct I as (w & <- & _). reflexivity. }
  apply in_flat_map in I. destruct I as (fd & D & I). unfold fieldMethods in I. apply in_app_or in I. destruct I as [I|I].
  { apply in_map_iff in I. destruct I as (w & <- & _). reflexivity. }
  destruct (isSetOf f); [|destruct I]. destruct C as [C|C]; [destruct (C eq_refl)|]. destruct I as [<-|[]]. cbn [fst].
  destruct (Z.eqb_spec (fd_type fd) FTInt8) as [E|_]; [destruct (C fd D E)|reflexivity].
Qed.
(** Every field can be read and written: with its name and Set before it; a list of Structs with Get and Append behind it, a
    map with Get and Set behind it, a list of Any with Get behind it and Set before it. *)
Theorem C157_read_write fd : In fd fds ->
  let has w := In (s.(s_name), w) (methods (isSetOf f) s.(s_name) fds) in
  let n := fd.(fd_name) in
  (fd.(fd_type) <> FTListStructs -> fd.(fd_type) <> FTMap -> fd.(fd_type) <> FTListAny -> has n /\ has (lit "Set" ++ n)) /\
  (fd.(fd_type) = FTListStructs -> has (n ++ lit "Len") /\ has (n ++ lit "Get") /\ has (n ++ lit "Append")) /\
  (fd.(fd_type) = FTMap -> has (n ++ lit "Len") /\ has (n ++ lit "Get") /\ has (n ++ lit "Set") /\ has (n ++ lit "Has") /\ has (n ++ lit "Delete")) /\
  (fd.(fd_type) = FTListAny -> has (n ++ lit "Len") /\ has (n ++ lit "Get") /\ has (lit "Set" ++ n)) /\
  (optioned -> fd.(fd_type) <> FTInt8 -> has (lit "IsSet" ++ n)).
Proof.
  intros D has n.
  assert (H : forall p q, In (p, q) (shapes fd.(fd_type) fd.(fd_map)) -> has (lit p ++ n ++ lit q)).
  { intros p q I. unfold has, methods. apply in_or_app. right. apply in_flat_map. exists fd. split; [exact D|]. unfold fieldMethods. apply in_or_app. left.
    apply in_map_iff. exists (p, q). split; [reflexivity|exact I]. }
  assert (HP : forall p, In (p, ""%string) (shapes fd.(fd_type) fd.(fd_map)) -> has (lit p ++ n)).
  { intros p I. specialize (H p ""%string I). change (lit "") with (@nil Z) in H. rewrite app_nil_r in H. exact H. }
  assert (MAP : fd.(fd_type) = FTMap -> exists m, fd.(fd_map) = Some m).
  { intros T. assert (X : exists fd0, In fd0 s.(s_fields) /\ resolveField f ext fd0 = Ok fd).
    { clear - resolved D. induction resolved as [|a b l l' R RR IH]; [destruct D|]. destruct D as [->|D]; [exists a; split; [left; reflexivity|exact R]|].
      destruct (IH RR D) as (x & I & E). exists x. split; [right; exact I|exact E]. }
    destruct X as (fd0 & I & R). destruct (C91_resolved _ _ _ _ _ _ _ ls f s fd0 ext fd accepted declared I R) as (FT & _).
    clear - FT T. destruct FT as [c i0 i name t lt isList B|c i0 i m M|c i0 i w d isList self SF]; cbn [fd_type fd_map] in *; [|eauto|].
    - exfalso. cbn [In builtin_types] in B. repeat (destruct B as [B|B]; [injection B as <- <- <-; destruct isList; discriminate T|]). exact B.
    - exfalso. destruct d as [e|s0]; cbn in T; [destruct (e_size e =? 8)|]; destruct isList; discriminate. }
  split; [|split; [|split; [|split]]].
  - intros A B C. apply Z.eqb_neq in A, B, C. unfold shapes in HP. rewrite A, B, C in HP.
    destruct (fd_type fd =? FTBytes); [|destruct (fd_type fd =? FTAny)]; (split; [apply (HP ""%string)|apply (HP "Set"%string)]; cbn; tauto).
  - intros T. rewrite T in H. repeat split; apply (H ""%string); cbn; tauto.
  - intros T. destruct (MAP T) as ([k v w m] & M). rewrite T, M in H. change (shapes FTMap (Some (MInfo k v w m))) with (mapShapes (Some (MInfo k v w m))) in H. unfold mapShapes in H.
    repeat split; apply (H ""%string); rewrite !in_app_iff; cbn; tauto.
  - intros T. rewrite T in H, HP. repeat split; first [apply (H ""%string); cbn; tauto|apply (HP "Set"%string); cbn; tauto].
  - intros S N. apply optioned_isSet in S. unfold has, methods. apply in_or_app. right. apply in_flat_map. exists fd. split; [exact D|]. unfold fieldMethods. apply in_or_app. right.
    rewrite S. apply Z.eqb_neq in N. rewrite N. left. reflexivity.
Qed.
End Any.

(** ** Cases *)
Definition plain_fields : list string := ["package p"; "options [ IsSet() ]"; "struct S {"; "  Name string @0"; "  Data bytes @1"; "  Prices map[string][]Any @2"; "  Subs []S @3"; "}"]%string.
Example plain_methods : exists f s, ascii_parse (text plain_fields) = Ok f /\ In (DStruct s) f.(f_idents) /\ isSetOf f = true /\
  Forall2 (fun fd fd' => resolveField f (fun _ => None) fd = Ok fd') s.(s_fields) s.(s_fields) /\ NoDup (map fd_name s.(s_fields)) /\
  (forall fd, In fd s.(s_fields) -> free fd.(fd_name)) /\
  map snd (skipn 18 (methods true s.(s_name) s.(s_fields))) = map lit ["Name"; "SetName"; "IsSetName"; "Data"; "SafeGetData"; "SetData"; "IsSetData";
    "PricesMap"; "PricesGet"; "PricesGetRaw"; "PricesListLen"; "PricesSet"; "PricesDelete"; "PricesHas"; "PricesLen"; "IsSetPrices";
    "SubsList"; "SubsLen"; "SubsGet"; "SubsAppend"; "SubsAppendRaw"; "IsSetSubs"]%string.
Proof.
  eexists _, _. split; [vm_compute; reflexivity|]. split; [left; reflexivity|]. split; [reflexivity|]. split; [repeat (constructor; [vm_compute; reflexivity|]); constructor|].
  split; [cbn [map fd_name s_fields]; repeat (constructor; [cbn; intuition discriminate|]); constructor|]. split; [|vm_compute; reflexivity].
  intros fd I. cbn [s_fields In] in I.
  assert (E : forall (a q b : bytes), a = q ++ b -> skipn (length a - length b) a = b).
  { intros a q b ->. rewrite app_length, PeanoNat.Nat.add_sub, skipn_app, skipn_all, PeanoNat.Nat.sub_diag. reflexivity. }
  repeat (destruct I as [<-|I]; [split; [discriminate|split; [|split]];
    [intros p q P Q; cbn in P; repeat (destruct P as [<-|P]; [discriminate Q|]); destruct P
    |intros p q P Q; apply E in Q; cbn in P; repeat (destruct P as [<-|P]; [discriminate Q|]); destruct P
    |intros w P Q; cbn in P; repeat (destruct P as [<-|P]; [discriminate Q|]); destruct P]|]). destruct I.
Qed.

Lemma twice_in {A} (l : list A) i j x : nth_error l i = Some x -> nth_error l j = Some x -> i <> j -> ~ NoDup l.
Proof.
  intros I J D N. rewrite NoDup_nth_error in N. apply D. apply N; [apply nth_error_Some; congruence|congruence].
Qed.
(** Fields named Name and SetName, or Marshal: accepted, but two methods have one name, which Go refuses. *)
Definition clash : list string := ["package p"; "struct S {"; "  Name string @0"; "  SetName string @1"; "}"; "struct T {"; "  Marshal bool @0"; "}"]%string.
Theorem C157_distinct_refuted : exists f s t, ascii_parse (text clash) = Ok f /\ f.(f_idents) = [DStruct s; DStruct t] /\
  NoDup (map fd_name s.(s_fields)) /\ ~ NoDup (methods (isSetOf f) s.(s_name) s.(s_fields)) /\ ~ NoDup (methods (isSetOf f) t.(s_name) t.(s_fields)).
Proof.
  eexists _, _, _. split; [vm_compute; reflexivity|]. split; [reflexivity|]. split; [cbn [map fd_name s_fields]; repeat (constructor; [cbn; intuition discriminate|]); constructor|].
  split; [apply (twice_in _ 19 20 (lit "S", lit "SetName"))|apply (twice_in _ 1 18 (lit "T", lit "Marshal"))]; try (vm_compute; reflexivity); discriminate.
Qed.
(** An int8 field with the option IsSet: the method is one of a type with the name of the field, which is not declared. *)
Definition level : list string := ["package p"; "options [ IsSet() ]"; "struct S {"; "  Level int8 @0"; "}"]%string.
Theorem C157_receiver_refuted : exists f s, ascii_parse (text level) = Ok f /\ f.(f_idents) = [DStruct s] /\
  In (lit "Level", lit "IsSetLevel") (methods (isSetOf f) s.(s_name) s.(s_fields)) /\ s.(s_name) <> lit "Level" /\
  ~ In (s.(s_name), lit "IsSetLevel") (methods (isSetOf f) s.(s_name) s.(s_fields)).
Proof.
  eexists _, _. split; [vm_compute; reflexivity|]. split; [reflexivity|]. split; [vm_compute; tauto|]. split; [discriminate|].
  vm_compute. intuition discriminate.
Qed.

Print Assumptions C157_distinct.
Print Assumptions C157_receiver.
Print Assumptions C157_read_write.
