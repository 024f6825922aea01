(** C156: the Go types of the generated code are those of the schema. *)
From Coq Require Import ZArith List Bool String Lia Permutation.
Import ListNotations.
From Verif.Model Require Import Base Utf8 Field Any ClawText Idl GoTypes.
From Verif.Spec Require Import Text JsonGrammar ClawText Idl IdlText GoTypes.
From Verif.Proofs Require Import BaseLemmas IngestProofs IdlBase IdlSound IdlFinal IdlText IdlTextTypes IdlTextFile Mapping GoTypes.
From Verif.Properties Require Import Idl IdlText.
Local Open Scope Z_scope.

(** A field written with the type [w], resolved as the compiler does before it runs the template: its type in the Raw
    struct is the Go type for [w]. *)
Theorem C156_raw F ext self c n i w fd fd' f : field_shown F ext self c n i w fd' ->
  (exists s, In (DStruct s) (f_idents F) /\ s_name s = self) -> resolveField f ext fd = Ok fd' ->
  exists g, rawGoType (isExternal fd) fd' = Ok g /\ raw_type F ext w g.
Proof.
  intros H S R. destruct (external_split ext f fd fd' R) as (E & X). apply (shown_raw F ext self c n i w fd' _ H S). rewrite E. exact X.
Qed.
(** A list of numbers or of values of an enum is generated for that number type or enum. *)
Theorem C156_numbers F ext self c n i w fd' : field_shown F ext self c n i w fd' -> number_list (fd_type fd') = true ->
  exists u g, w = lit "[]" ++ u /\ goListType fd' = Ok g /\ number_type F ext u g.
Proof. apply shown_numbers. Qed.
(** The methods of a map have the type of its key, and that of its values if that is plain. *)
Theorem C156_map_methods F ext self c n i w fd' : field_shown F ext self c n i w fd' -> fd_type fd' = FTMap ->
  exists k u, w = lit "map[" ++ lit k ++ lit "]" ++ u /\ In (k, k) go_names /\ mapKeyGoType fd' = Ok (lit k) /\
    (forall v g, In (v, g) go_names -> u = lit v -> mapValueGoType fd' = Ok (lit g)).
Proof. apply shown_map_methods. Qed.
(** The values of a map of maps, which the generated code assigns between the Raw struct and the map, have one and the
    same Go type there if and only if what is inside all the maps is a plain type. *)
Theorem C156_nested fd k v m : fd.(fd_map) = Some (MInfo k v [] (Some m)) ->
  (mapValueGoType fd = mapRawValueGoType fd <-> snd (innermost m) = [] /\ fst (innermost m) <> FTAny /\ fst (innermost m) <> FTListAny).
Proof.
  intros E. unfold mapValueGoType, mapRawValueGoType. rewrite E, <- nested_agree. split; [intros H; congruence|intros ->; reflexivity].
Qed.

Section Any.
Variables isUpper isLower isLetter isNumber isSpace : Z -> bool.
Variable toLower : bytes -> bytes.
Variable toInt : bytes -> option Z.
Notation parse := (parseFile isUpper isLower isLetter isNumber isSpace toLower toInt).

(** For every field of an accepted schema for which code is generated there is a type in the Raw struct. *)
Theorem C156_total ls f s fd ext fd' : parse ls = Ok f -> In (DStruct s) f.(f_idents) -> In fd s.(s_fields) ->
  resolveField f ext fd = Ok fd' -> exists g, rawGoType (isExternal fd) fd' = Ok g.
Proof.
  intros P S I R. destruct (C91_resolved _ _ _ _ _ _ _ ls f s fd ext fd' P S I R) as (T & _).
  destruct (external_split ext f fd fd' R) as (E & X). rewrite <- E in X. clear R I. destruct T as [c n i name t lt isList B|c n i m M|c n i w d isList self SF].
  - destruct (builtin_raw f ext (isExternal fd) c n i isList name t lt B) as (g & G & _). eauto.
  - destruct m as [k v w [m|]]; [eexists; reflexivity|]. destruct (map_total (isExternal fd) c n i k v w) as (g & G). eauto.
  - destruct d as [e|s0].
    + destruct (enum_raw f ext (isExternal fd) _ w e X eq_refl SF eq_refl) as (A1 & A2). cbn [fd_type declared_type fst] in A1, A2.
      destruct isList; [destruct A2 as (g & G & _)|destruct A1 as (g & G & _)]; try (exists g; exact G); destruct (e_size e =? 8); tauto.
    + destruct (struct_raw f ext (isExternal fd) _ w s0 X eq_refl SF) as (A1 & A2).
      destruct isList; [destruct A2 as (g & G & _)|destruct A1 as (g & G & _)]; try reflexivity; exists g; exact G.
Qed.

(** Lines that show a schema: the file that is read from them gives every field, in the Raw struct of its Struct, the Go
    type for what its line says. *)
Theorem C156_schema F ext ls : ascii_tables isUpper isLower isLetter isNumber isSpace toLower toInt ->
  schema_text isSpace F ext ls -> (forall w g, ext w = Some g -> schema_ok isUpper isLower isLetter isNumber g) ->
  exists f, parse (ls ++ [eofLine]) = Ok f /\
    forall s fd, In (DStruct s) f.(f_idents) -> In fd s.(s_fields) ->
      exists fd' l w a g, resolveField f ext fd = Ok fd' /\ In l ls /\ line_says l [fd.(fd_name); w; a] /\ at_number a fd.(fd_index) /\
        rawGoType (isExternal fd) fd' = Ok g /\ raw_type F ext w g.
Proof.
  intros T S X. destruct (C90_lines _ _ _ _ _ _ _ T F ext ls S X) as (f & P & RA). exists f. split; [exact P|]. intros s fd I J.
  destruct RA as (_ & _ & _ & _ & D).
  assert (Y : exists s', In (DStruct s') (f_idents F) /\ s_name s = s_name s' /\ exists fd', In fd' (s_fields s') /\ resolveField f ext fd = Ok fd').
  { clear S P. induction D as [|d d' ds ds' SD _ IH]; [destruct I|]. destruct I as [->|I].
    - destruct d' as [e|s']; cbn [same_decl] in SD; [destruct SD|]. destruct SD as (N & _ & FS). exists s'. split; [left; reflexivity|]. split; [exact N|].
      clear - FS J. induction FS as [|x y l l' R _ IH]; [destruct J|]. destruct J as [->|J]; [exists y; split; [left; reflexivity|exact R]|].
      destruct (IH J) as (fd' & A & B). exists fd'. split; [right; exact A|exact B].
    - destruct (IH I) as (s' & A & B). exists s'. split; [right; exact A|exact B]. }
  destruct Y as (s' & IS & N & fd' & J' & R).
  assert (K : fd_name fd' = fd_name fd /\ fd_index fd' = fd_index fd).
  { destruct (C91_resolved _ _ _ _ _ _ _ _ f s fd ext fd' P I J R) as (_ & A & B & _). auto. }
  destruct K as (KN & KI). destruct S as [cs ts l hls v o dls cs' ts' _ _ _ _ _ _ DT _ _].
  destruct (decls_shown F ext dls _ DT s' fd' IS J') as (l' & w & a & IL & LS & AN & FS). rewrite KN in LS. rewrite KI in AN.
  destruct (C156_raw F ext _ _ _ _ w fd fd' f FS) as (g & G & RT); [exists s'; auto|exact R|].
  exists fd', l', w, a, g. repeat (split; [assumption || (apply in_or_app; right; right; apply in_or_app; right; apply in_or_app; left; exact IL)|]). exact RT.
Qed.

(** The code of a field of a Struct type names the table of that Struct, in its package. *)
Theorem C156_table ls f s fd ext fd' : isLetter 46 = false -> isNumber 46 = false -> parse ls = Ok f ->
  In (DStruct s) f.(f_idents) -> In fd s.(s_fields) -> resolveField f ext fd = Ok fd' -> fd'.(fd_type) = FTStruct \/ fd'.(fd_type) = FTListStructs ->
  exists g, mappingName (isExternal fd) fd' = Ok g /\ table_of f fd'.(fd_ident) g.
Proof.
  intros DL DN P S I R K. destruct (C91_resolved _ _ _ _ _ _ _ ls f s fd ext fd' P S I R) as (T & _).
  assert (OK := C91_accepted _ _ _ _ _ _ _ ls f P). destruct (external_split ext f fd fd' R) as (E & X). rewrite <- E in X.
  destruct T as [c n i name t lt isList B|c n i m M|c n i w d isList self SF].
  { exfalso. cbn [fd_type In builtin_types] in *. repeat (destruct B as [B|B]; [injection B as <- <- <-; destruct isList, K; discriminate|]). exact B. }
  { exfalso. destruct K; discriminate. }
  destruct d as [e|s0]; [exfalso; cbn in K; destruct (e_size e =? 8), isList, K; discriminate|]. cbn [fd_ident] in *.
  unfold mappingName. cbn [fd_ident]. destruct (isExternal fd) eqn:EX.
  - destruct (X eq_refl) as (p & n' & Q). unfold identInFile, package. cbn [fd_ident]. rewrite Q. cbn [bind hd]. eexists. split; [reflexivity|].
    apply dotted_split in Q. apply to_there; [exact Q|]. inversion SF as [d0 D0 N0|p0 n0 g0 d0 D0 J0 X0 G0 N0]; subst d0.
    + exfalso. destruct (struct_plain isUpper isLower isLetter isNumber DL DN f ext OK s0 D0) as (_ & NP).
      apply NP. destruct Q as (Q & _). cbn [decl_name] in N0. rewrite N0, Q. apply in_or_app. right. left. reflexivity.
    + apply dotted_split in D0. apply dotted_split in Q. rewrite D0 in Q. injection Q as <- <-. exact J0.
  - eexists. split; [reflexivity|]. inversion SF as [d0 D0 N0|p0 n0 g0 d0 D0 J0 X0 G0 N0]; subst d0; [eapply to_here; eauto|]. exfalso.
    revert EX. unfold isExternal. rewrite <- E. 
    assert (ID : In 46 w) by (destruct D0 as (-> & _); apply in_or_app; right; left; reflexivity).
    assert (DT : existsb (fun c => c =? 46) w = true) by (apply existsb_exists; exists 46; split; [exact ID|reflexivity]).
    rewrite DT, andb_true_r. intros U. clear X. unfold resolveField in R. rewrite U in R. injection R as R. subst fd.
    apply in_split in S. destruct S as (before & after & DD). destruct (ok_structs _ _ _ _ _ OK _ _ _ DD) as (SN & _ & _ & FT).
    rewrite Forall_forall in FT. destruct (FT _ I) as (_ & FTY). inversion FTY; subst.
    + destruct ID.
    + exact (proj2 (name_plain isLower isLetter isNumber DL DN ext _ SN) ID).
    + match goal with H : In ?d before |- _ => destruct d as [e'|s'] end.
      * destruct isList; cbn in *; repeat match goal with H : context [e_size e' =? 8] |- _ => destruct (e_size e' =? 8) end; discriminate.
      * match goal with H : In (DStruct s') before |- _ => destruct (struct_plain isUpper isLower isLetter isNumber DL DN f ext OK s') as (_ & NP); [rewrite DD; apply in_or_app; left; exact H|] end.
        exact (NP ID).
    + destruct isList; discriminate.
Qed.
End Any.

(** The code of a map names the table of the Struct of its values if that is a Struct of the same package. *)
Theorem C156_map_table F ext self c n i w fd' k v u m g : field_shown F ext self c n i w fd' -> fd'.(fd_map) = Some (MInfo k v u m) ->
  valueMappingName fd' = Some g -> ~ In 46 u -> table_of F u g.
Proof.
  intros H E V N. destruct H as [isList name t lt I|w m0 M|isList TN NA|isList w d R NS SF]; try discriminate. cbn [fd_map] in E. injection E as ->.
  unfold valueMappingName in V. cbn [fd_map] in V.
  inversion M as [k0 kt kl v0 vt vl K KT B|k0 kt kl K KT|k0 kt kl w0 s K KT R S|k0 kt kl w0 m1 K KT M1]; subst; try discriminate.
  rewrite (ref_some u R) in V. injection V as <-. inversion S as [d0 D0 N0|p0 n0 g0 d0 D0 J0 X0 G0 N0]; subst d0; [exact (to_here F u s D0 N0)|].
  exfalso. apply N. destruct D0 as (-> & _). apply in_or_app. right. left. reflexivity.
Qed.

(** ** Cases *)
Definition raw_types (f : file) (ext : bytes -> option file) (s : struct) : list (res bytes) :=
  map (fun fd => fd' <- resolveField f ext fd ;; rawGoType (isExternal fd) fd') s.(s_fields).
Example car_raw : exists s, In (DStruct s) car_file.(f_idents) /\
  raw_types car_file parts_ext s = map (fun g => Ok (lit g))
    ["string"; "Maker"; "[]*parts.WheelRaw"; "*CarRaw"; "map[string]map[uint8]*segment.MapAnyValue"]%string.
Proof. eexists. split; [left; reflexivity|]. vm_compute. reflexivity. Qed.
Example car_tables : exists s, In (DStruct s) car_file.(f_idents) /\
  map (fun fd => fd' <- resolveField car_file parts_ext fd ;; mappingName (isExternal fd) fd') (firstn 2 (skipn 2 s.(s_fields))) =
    [Ok (lit "parts.XXXMappingWheel"); Ok (lit "XXXMappingCar")].
Proof. eexists. split; [left; reflexivity|]. vm_compute. reflexivity. Qed.
Example car_schema : exists f, ascii_parse (lines_of spc car_rss ++ [eofLine]) = Ok f /\
    forall s fd, In (DStruct s) f.(f_idents) -> In fd s.(s_fields) ->
      exists fd' l w a g, resolveField f parts_ext fd = Ok fd' /\ In l (lines_of spc car_rss) /\ line_says l [fd.(fd_name); w; a] /\ at_number a fd.(fd_index) /\
        rawGoType (isExternal fd) fd' = Ok g /\ raw_type car_shown parts_ext w g.
Proof.
  apply C156_schema; [exact ascii_up_low|exact (proj1 car_shows)|]. intros w g. unfold parts_ext. destruct (bytes_eqb w _); [|discriminate].
  intros H. injection H as <-. apply (C91_accepted up low (fun c => up c || low c) num spc lower parseInt (text wheels)). vm_compute. reflexivity.
Qed.

(** The values of a map of maps of Any, of lists of Any or of Structs have one type in the Raw struct and another in the
    map, and the generated NewFromRaw and ToRaw assign the one to the other: Go refuses the generated file. *)
Definition nest : list string := ["package p"; "struct V {"; "  A bool @0"; "}"; "struct S {"; "  A map[string]map[string]V @0"; "  B map[string]map[string]Any @1"; "}"]%string.
Theorem C156_nested_refuted : exists f s, ascii_parse (text nest) = Ok f /\ In (DStruct s) f.(f_idents) /\
  map mapValueGoType s.(s_fields) = map (fun g => Ok (lit g)) ["map[string]*V"; "map[string]any"]%string /\
  map mapRawValueGoType s.(s_fields) = map (fun g => Ok (lit g)) ["map[string]*VRaw"; "map[string]*segment.MapAnyValue"]%string.
Proof. eexists _, _. split; [vm_compute; reflexivity|]. split; [right; left; reflexivity|]. split; vm_compute; reflexivity. Qed.
(** A map with values of a Struct of another package: the generated code names a package that does not exist. *)
Definition outside : list string := ["package p"; "import ("; "  ""github.com/a/parts"""; ")"; "struct S {"; "  A map[string]parts.Wheel @0"; "}"]%string.
Theorem C156_map_table_refuted : exists f s fd, ascii_parse (text outside) = Ok f /\ In (DStruct s) f.(f_idents) /\ In fd s.(s_fields) /\
  resolveField f parts_ext fd = Ok fd /\ (exists d, stands_for f parts_ext (lit "parts.Wheel") (DStruct d)) /\
  valueMappingName fd = Some (lit "XXXMappingparts.Wheel") /\ ~ table_of f (lit "parts.Wheel") (lit "XXXMappingparts.Wheel").
Proof.
  eexists _, _, _. split; [vm_compute; reflexivity|]. split; [left; reflexivity|]. split; [left; reflexivity|]. split; [vm_compute; reflexivity|].
  assert (D : dotted (lit "parts.Wheel") (lit "parts") (lit "Wheel")) by (split; [reflexivity|split; cbn; intuition discriminate]).
  split; [|split; [reflexivity|]].
  - eexists. eapply (sf_there _ _ _ (lit "parts") (lit "Wheel") wheels_file); [exact D|eexists _, _; split; [reflexivity|left; reflexivity]|reflexivity|left; reflexivity|reflexivity].
  - intros T. inversion T as [w s I N E1 E2|w p n D' J E1 E2].
    + destruct I as [I|[]]. injection I as <-. discriminate N.
    + apply dotted_split in D'. apply dotted_split in D. rewrite D in D'. injection D' as <- <-. discriminate E2.
Qed.

Print Assumptions C156_raw.
Print Assumptions C156_schema.
Print Assumptions C156_table.
Print Assumptions C156_nested.
