(** Lemmas for C156. *)
From Coq Require Import ZArith List Bool String Lia Permutation.
Import ListNotations.
From Verif.Model Require Import Base Utf8 Field Any ClawText Idl GoTypes.
From Verif.Spec Require Import Text JsonGrammar ClawText Idl IdlText GoTypes.
From Verif.Proofs Require Import BaseLemmas IngestProofs IdlBase IdlSound IdlFinal IdlText IdlTextTypes.
Local Open Scope Z_scope.

Ltac each H := cbn [In builtin_types key_types go_names] in H; repeat (destruct H as [H|H]; [|]); try contradiction.

Lemma key_name k kt kl : In (k, kt, kl) builtin_types -> In kt key_types -> fieldTypeToGoType kt = lit k /\ In (k, k) go_names.
Proof.
  intros I K. cbn [In builtin_types] in I. repeat (destruct I as [I|I]; [injection I as <- <- <-; first [split; [reflexivity|cbn; tauto]|exfalso; cbn in K; repeat (destruct K as [K|K]; [discriminate K|]); exact K]|]). contradiction.
Qed.
Lemma plain_name c t lt : In (c, t, lt) builtin_types ->
  (c = "Any"%string /\ t = FTAny /\ lt = FTListAny) \/
  exists g, In (c, g) go_names /\ fieldTypeToGoType t = lit g /\ t <> FTAny /\ t <> FTListAny /\ c <> "Any"%string.
Proof.
  intros I. cbn [In builtin_types] in I.
  repeat (destruct I as [I|I]; [injection I as <- <- <-; first [left; repeat split; reflexivity|right; eexists; split; [cbn; tauto|split; [reflexivity|repeat split; discriminate]]]|]). contradiction.
Qed.
Lemma ref_some w : type_ref w -> bytes_eqb w [] = false.
Proof.
  intros [[(c & q & -> & _) _]|(p & n & -> & (c & q & -> & _) & _)]; reflexivity.
Qed.

Section File.
Variable F : file.
Variable ext : bytes -> option file.

Definition raw_value (v : Z) (w : bytes) : bytes :=
  if negb (bytes_eqb w []) then lit "*" ++ w ++ lit "Raw"
  else if v =? FTAny then lit "*segment.MapAnyValue"
  else if v =? FTListAny then lit "[]segment.MapAnyValue"
  else fieldTypeToGoType v.
Lemma plain_value v vt vl : In (v, vt, vl) builtin_types -> value_type F ext (lit v) (raw_value vt []).
Proof.
  intros I. unfold raw_value. cbn [bytes_eqb negb]. destruct (plain_name v vt vl I) as [(-> & -> & ->)|(g & G & E & A & L & _)].
  - apply vt_any.
  - change (negb (bytes_eqb [] [])) with false. cbv iota. apply Z.eqb_neq in A, L. rewrite A, L, E. apply vt_plain. exact G.
Qed.
Lemma struct_value w s : type_ref w -> stands_for F ext w (DStruct s) -> value_type F ext w (raw_value FTStruct w).
Proof. intros R S. unfold raw_value. rewrite (ref_some w R). cbn [negb]. exact (vt_struct F ext w s S). Qed.
Lemma nested_value w m : map_shown F ext w m -> value_type F ext w (nestedMapRawGoType m).
Proof.
  intros M. induction M as [k kt kl v vt vl K KT V|k kt kl K KT|k kt kl w s K KT R S|k kt kl w m K KT M IH];
    destruct (key_name k kt kl K KT) as (E & G); cbn [nestedMapRawGoType]; rewrite E.
  - apply (vt_map F ext k (lit v) _ G). exact (plain_value v vt vl V).
  - apply (vt_map F ext k (lit "[]Any") _ G). apply vt_anys.
  - apply (vt_map F ext k w _ G). exact (struct_value w s R S).
  - apply (vt_map F ext k w _ G). exact IH.
Qed.
Lemma map_raw c n i w m : map_shown F ext w m ->
  exists g, rawGoType false (mkFd c n i FTMap false false [] false false (Some m)) = Ok g /\ raw_type F ext w g.
Proof.
  intros M. destruct M as [k kt kl v vt vl K KT V|k kt kl K KT|k kt kl w s K KT R S|k kt kl w m K KT M];
    destruct (key_name k kt kl K KT) as (E & G); unfold rawGoType, mapKeyGoType, mapRawValueGoType; cbn [fd_type fd_isEnum fd_map];
    change (FTMap =? FTUint8) with false; change (FTMap =? FTUint16) with false; change (FTMap =? FTStruct) with false;
    change (FTMap =? FTListInt8) with false; change (FTMap =? FTListUint8) with false; change (FTMap =? FTListUint16) with false;
    change (FTMap =? FTListStructs) with false; change (FTMap =? FTMap) with true; cbn [andb bind]; rewrite E.
  - pose proof (plain_value v vt vl V) as P. unfold raw_value in P. change (negb (bytes_eqb [] [])) with false in P |- *. cbv iota in P |- *.
    destruct (vt =? FTAny); [|destruct (vt =? FTListAny)]; cbn [bind]; eexists; (split; [reflexivity|]); exact (rt_map F ext k (lit v) _ G P).
  - eexists. split; [reflexivity|]. exact (rt_map F ext k (lit "[]Any") _ G (vt_anys F ext)).
  - rewrite (ref_some w R). cbn [negb bind]. eexists. split; [reflexivity|]. exact (rt_map F ext k w _ G (vt_struct F ext w s S)).
  - cbn [bind]. eexists. split; [reflexivity|]. exact (rt_map F ext k w _ G (nested_value w m M)).
Qed.
Lemma map_flag b c n i m : rawGoType b (mkFd c n i FTMap false false [] false false m) = rawGoType false (mkFd c n i FTMap false false [] false false m).
Proof. reflexivity. Qed.

(** The name is written as in the schema. *)
Lemma named_as b pre post fd : (b = true -> exists p n, splitAt 46 (fd_ident fd) = [p; n]) -> named b pre post fd = Ok (pre ++ fd_ident fd ++ post).
Proof.
  intros B. unfold named. destruct b; [|reflexivity]. destruct (B eq_refl) as (p & n & E). unfold identInFile, package. rewrite E. cbn [bind hd].
  apply splitAt_two in E. destruct E as (-> & _). change (lit ".") with [46]. rewrite <- !app_assoc. reflexivity.
Qed.
Lemma external_split f fd fd' : resolveField f ext fd = Ok fd' ->
  fd_ident fd' = fd_ident fd /\ (isExternal fd = true -> exists p n, splitAt 46 (fd_ident fd) = [p; n]).
Proof.
  assert (T : forall d, resolveTo fd d = Ok fd' -> fd_ident fd' = fd_ident fd).
  { intros [[e|s]|]; cbn [resolveTo]; [destruct (e_size e =? 8); [|destruct (e_size e =? 16)]| |]; intros H; inversion H; reflexivity. }
  unfold resolveField, isExternal. destruct (fd_type fd =? FTUnknown); cbn [andb].
  2: { intros H. inversion H; subst. split; [reflexivity|discriminate]. }
  destruct (existsb _ (fd_ident fd)); cbn [negb].
  - destruct (splitAt 46 (fd_ident fd)) as [|p [|n [|? ?]]]; try discriminate. destruct (imported f p); [|discriminate].
    destruct (ext (fd_ident fd)); [|discriminate]. intros H. split; [eauto|]. eauto.
  - intros H. split; [eauto|discriminate].
Qed.

Lemma builtin_raw b c n i (isList : bool) name t lt : In (name, t, lt) builtin_types ->
  exists g, rawGoType b (mkFd c n i (if isList then lt else t) false isList [] false (name =? "Any")%string None) = Ok g /\
    raw_type F ext (maybe_list isList (lit name)) g.
Proof.
  intros I.
  assert (H : exists g, elem_type F ext (lit name) (lit g) /\
    rawGoType b (mkFd c n i t false isList [] false (name =? "Any")%string None) = Ok (lit g) /\
    rawGoType b (mkFd c n i lt false isList [] false (name =? "Any")%string None) = Ok (lit "[]" ++ lit g)).
  { cbn [In builtin_types] in I.
    repeat (destruct I as [I|I]; [injection I as <- <- <-;
      first [eexists; split; [apply et_plain; cbn; tauto|split; reflexivity]
            |exists "[]byte"%string; split; [apply et_plain; cbn; tauto|split; reflexivity]
            |exists "any"%string; split; [apply et_any|split; reflexivity]]|]). contradiction. }
  destruct H as (g & E & A & L). destruct isList.
  - exists (lit "[]" ++ lit g). split; [exact L|]. exact (rt_list F ext _ _ E).
  - exists (lit g). split; [exact A|]. exact (rt_one F ext _ _ E).
Qed.
Lemma struct_raw b fd w s : (b = true -> exists p n, splitAt 46 (fd_ident fd) = [p; n]) -> fd_ident fd = w -> stands_for F ext w (DStruct s) ->
  (fd_type fd = FTStruct -> exists g, rawGoType b fd = Ok g /\ raw_type F ext w g) /\
  (fd_type fd = FTListStructs -> exists g, rawGoType b fd = Ok g /\ raw_type F ext (lit "[]" ++ w) g).
Proof.
  intros B W S. split; intros T; unfold rawGoType; rewrite T.
  - change (FTStruct =? FTUint8) with false. change (FTStruct =? FTUint16) with false. change (FTStruct =? FTStruct) with true. cbn [andb].
    rewrite (named_as b _ _ fd B), W. eexists. split; [reflexivity|]. apply rt_one. exact (et_struct F ext w s S).
  - change (FTListStructs =? FTUint8) with false. change (FTListStructs =? FTUint16) with false. change (FTListStructs =? FTStruct) with false.
    change (FTListStructs =? FTListInt8) with false. change (FTListStructs =? FTListUint8) with false. change (FTListStructs =? FTListUint16) with false.
    change (FTListStructs =? FTListStructs) with true. cbn [andb].
    rewrite (named_as b _ _ fd B), W. eexists. split; [reflexivity|]. apply (rt_list F ext w _ (et_struct F ext w s S)).
Qed.
Lemma enum_raw b fd w e : (b = true -> exists p n, splitAt 46 (fd_ident fd) = [p; n]) -> fd_ident fd = w -> stands_for F ext w (DEnum e) -> fd_isEnum fd = true ->
  (fd_type fd = FTUint8 \/ fd_type fd = FTUint16 -> exists g, rawGoType b fd = Ok g /\ raw_type F ext w g) /\
  (fd_type fd = FTListUint8 \/ fd_type fd = FTListUint16 -> exists g, rawGoType b fd = Ok g /\ raw_type F ext (lit "[]" ++ w) g).
Proof.
  intros B W S N. assert (A := et_enum F ext w e S). split; intros [T|T]; unfold rawGoType; rewrite T, N;
    cbv beta iota zeta delta [FTUint8 FTUint16 FTStruct FTListInt8 FTListUint8 FTListUint16 Z.eqb Pos.eqb andb];
    rewrite (named_as b _ _ fd B), W, app_nil_r; (eexists; split; [reflexivity|]); first [exact (rt_one F ext w _ A)|exact (rt_list F ext w _ A)].
Qed.

Lemma shown_raw self c n i w fd' b : field_shown F ext self c n i w fd' -> (exists s, In (DStruct s) (f_idents F) /\ s_name s = self) ->
  (b = true -> exists p q, splitAt 46 (fd_ident fd') = [p; q]) -> exists g, rawGoType b fd' = Ok g /\ raw_type F ext w g.
Proof.
  intros H S B. destruct H as [isList name t lt I|w m M|isList TN NA|isList w d R NS SF].
  - apply builtin_raw. exact I.
  - rewrite map_flag. apply map_raw. exact M.
  - destruct S as (s & IN & SN). assert (SF : stands_for F ext self (DStruct s)) by (apply sf_here; [exact IN|exact SN]).
    destruct (struct_raw b _ self s B eq_refl SF) as (A1 & A2). destruct isList; [apply A2|apply A1]; reflexivity.
  - destruct d as [e|s].
    + destruct (enum_raw b _ w e B eq_refl SF eq_refl) as (A1 & A2). cbn [fd_type declared_type fst] in A1, A2.
      destruct isList; [apply A2|apply A1]; cbn [fst snd declared_type]; destruct (e_size e =? 8); tauto.
    + destruct (struct_raw b _ w s B eq_refl SF) as (A1 & A2). destruct isList; [apply A2|apply A1]; reflexivity.
Qed.

(** Lists of numbers. *)
Lemma shown_numbers self c n i w fd' : field_shown F ext self c n i w fd' -> number_list (fd_type fd') = true ->
  exists u g, w = lit "[]" ++ u /\ goListType fd' = Ok g /\ number_type F ext u g.
Proof.
  intros H L. destruct H as [isList name t lt I|w m M|isList TN NA|isList w d R NS SF]; cbn [fd_type] in L.
  - cbn [In builtin_types] in I.
    repeat (destruct I as [I|I]; [injection I as <- <- <-; destruct isList; try discriminate L;
      (eexists _, _; split; [reflexivity|split; [reflexivity|apply nt_plain; [cbn; tauto|discriminate|discriminate]]])|]). contradiction.
  - discriminate.
  - destruct isList; discriminate.
  - destruct d as [e|s]; [|destruct isList; discriminate]. cbn [declared_type fst snd] in L |- *.
    destruct isList; [|destruct (e_size e =? 8); discriminate]. exists w, w. split; [reflexivity|].
    unfold goListType. cbn [fd_isList fd_ident negb]. rewrite (ref_some w R). split; [reflexivity|exact (nt_enum F ext w e SF)].
Qed.
End File.

(** Nested maps. *)
Lemma star_raw (w : bytes) : lit "*" ++ w <> lit "*" ++ w ++ lit "Raw".
Proof. intros E. apply app_inv_head in E. rewrite <- (app_nil_r w) in E at 1. apply app_inv_head in E. discriminate. Qed.
Lemma nested_agree m : nestedMapGoType m = nestedMapRawGoType m <-> snd (innermost m) = [] /\ fst (innermost m) <> FTAny /\ fst (innermost m) <> FTListAny.
Proof.
  revert m. fix IH 1. intros [k v w [n|]]; cbn [nestedMapGoType nestedMapRawGoType innermost].
  - rewrite <- IH. split; [|intros ->; reflexivity]. intros E. apply app_inv_head, app_inv_head, app_inv_head in E. exact E.
  - cbn [fst snd]. split.
    + intros E. apply app_inv_head, app_inv_head, app_inv_head in E. destruct w as [|x q].
      * change (negb (bytes_eqb [] [])) with false in E. cbv iota in E. split; [reflexivity|].
        destruct (Z.eqb_spec v FTAny) as [Q|A]; [exfalso; rewrite Q in E; discriminate E|]. destruct (Z.eqb_spec v FTListAny) as [Q|L]; [exfalso; rewrite Q in E; discriminate E|]. auto.
      * exfalso. change (negb (bytes_eqb (x :: q) [])) with true in E. cbv iota in E. exact (star_raw _ E).
    + intros (-> & A & L). apply Z.eqb_neq in A, L. rewrite A, L. reflexivity.
Qed.

(** The methods of a map whose values are plain. *)
Lemma shown_map_methods F ext self c n i w fd' : field_shown F ext self c n i w fd' -> fd_type fd' = FTMap ->
  exists k u, w = lit "map[" ++ lit k ++ lit "]" ++ u /\ In (k, k) go_names /\ mapKeyGoType fd' = Ok (lit k) /\
    (forall v g, In (v, g) go_names -> u = lit v -> mapValueGoType fd' = Ok (lit g)).
Proof.
  intros H T. destruct H as [isList name t lt I|w m M|isList TN NA|isList w d R NS SF]; cbn [fd_type] in T.
  - exfalso. cbn [In builtin_types] in I. repeat (destruct I as [I|I]; [injection I as <- <- <-; destruct isList; discriminate T|]). exact I.
  - assert (X : forall v g, In (v, g) go_names -> ~ In 91 (lit v) /\ exists t lt, In (v, t, lt) builtin_types /\ fieldTypeToGoType t = lit g).
    { intros v g I. cbn [In go_names] in I. repeat (destruct I as [I|I]; [injection I as <- <-; split; [cbn; intuition discriminate|eexists _, _; split; [cbn; tauto|reflexivity]]|]). destruct I. }
    assert (Y : forall v v' t t' lt lt', In (v, t, lt) builtin_types -> In (v', t', lt') builtin_types -> lit v = lit v' -> t = t').
    { intros v v' t t' lt lt' I I' E. apply builtin_scalar in I, I'. destruct I as (I & _), I' as (I' & _). rewrite E in I. congruence. }
    destruct M as [k kt kl v vt vl K KT V|k kt kl K KT|k kt kl w s K KT R S|k kt kl w m K KT M];
      destruct (key_name k kt kl K KT) as (E & G); eexists k, _; (split; [reflexivity|]); (split; [exact G|]);
      unfold mapKeyGoType, mapValueGoType; cbn [fd_map]; rewrite E; (split; [reflexivity|]); intros v0 g I U; destruct (X v0 g I) as (N & t & lt & B & GT).
    + rewrite (Y _ _ _ _ _ _ V B U), GT. reflexivity.
    + exfalso. apply N. rewrite <- U. left. reflexivity.
    + exfalso. apply builtin_scalar in B. destruct B as (B & _). rewrite <- U, (ref_scalar w R) in B. discriminate.
    + exfalso. apply N. rewrite <- U. destruct M; cbn; auto 6.
  - destruct isList; discriminate.
  - exfalso. destruct d as [e|s]; cbn in T; [destruct (e_size e =? 8)|]; destruct isList; discriminate.
Qed.

(** Where a field of a schema is in its text. *)
Lemma fields_shown F ext self ls fds : fields_text F ext self ls fds -> forall fd, In fd fds ->
  exists l w a, In l ls /\ line_says l [fd_name fd; w; a] /\ at_number a (fd_index fd) /\ field_shown F ext self (fd_comment fd) (fd_name fd) (fd_index fd) w fd.
Proof.
  intros H. induction H as [|cs c l n w a i fd ls fds C TN A S L _ IH]; intros x [<-|I] || intros x [].
  - assert (E : fd_name fd = n /\ fd_index fd = i /\ fd_comment fd = c) by (destruct S; auto). destruct E as (-> & -> & ->).
    exists l, w, a. split; [apply in_or_app; right; left; reflexivity|auto].
  - destruct (IH x I) as (l' & w' & a' & IL & Q). exists l', w', a'. split; [apply in_or_app; right; right; exact IL|exact Q].
Qed.
Lemma decls_shown F ext ls ds : decls_text F ext ls ds -> forall s fd, In (DStruct s) ds -> In fd (s_fields s) ->
  exists l w a, In l ls /\ line_says l [fd_name fd; w; a] /\ at_number a (fd_index fd) /\ field_shown F ext (s_name s) (fd_comment fd) (fd_name fd) (fd_index fd) w fd.
Proof.
  intros H. induction H as [|ls d ls' ds D _ IH]; intros s fd I J; [destruct I|]. destruct I as [->|I].
  - inversion D; subst. cbn [s_fields s_name] in *.
    match goal with X : fields_text _ _ _ _ _, P : Permutation _ _ |- _ => destruct (fields_shown _ _ _ _ _ X fd) as (l' & w & a & IL & Q); [apply (Permutation_in _ (Permutation_sym P)); exact J|] end.
    exists l', w, a. split; [|exact Q]. apply in_or_app. left. apply in_or_app. right. right. apply in_or_app. left. exact IL.
  - destruct (IH s fd I J) as (l' & w & a & IL & Q). exists l', w, a. split; [apply in_or_app; right; exact IL|exact Q].
Qed.

Lemma map_total b c n i k v w : exists g, rawGoType b (mkFd c n i FTMap false false [] false false (Some (MInfo k v w None))) = Ok g.
Proof.
  exists (lit "map[" ++ fieldTypeToGoType k ++ lit "]" ++ raw_value v w).
  transitivity (u <- mapRawValueGoType (mkFd c n i FTMap false false [] false false (Some (MInfo k v w None))) ;; Ok (lit "map[" ++ fieldTypeToGoType k ++ lit "]" ++ u)); [reflexivity|].
  unfold mapRawValueGoType, raw_value. cbn [fd_map]. destruct (negb (bytes_eqb w [])); [reflexivity|]. destruct (v =? FTAny); [reflexivity|]. destruct (v =? FTListAny); reflexivity.
Qed.
