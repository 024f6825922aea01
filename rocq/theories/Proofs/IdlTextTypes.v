(** What a schema text shows is what the parser reads: the types of fields. *)
From Coq Require Import ZArith List Bool Lia String Permutation Sorted.
Import ListNotations.
From Verif.Model Require Import Base Utf8 Field Any ClawText Idl.
From Verif.Spec Require Import Text JsonGrammar ClawText Idl IdlText.
From Verif.Proofs Require Import BaseLemmas IngestProofs IdlBase IdlSound IdlFinal IdlText.
Local Open Scope Z_scope.

(** ** Built-in types *)
Ltac each I := cbn [In builtin_types] in I; repeat (destruct I as [I|I]; [injection I as <- <- <-|]); [..|contradiction].
Lemma builtin_scalar k kt kl : In (k, kt, kl) builtin_types ->
  parseScalarType (lit k) = Some kt /\ ~ In 91 (lit k) /\ ~ In 93 (lit k) /\ hasPrefix (lit "map[") (lit k) = false /\ (lit k =b "[]Any") = false.
Proof. intros I. each I; repeat split; try reflexivity; apply not_in; vm_compute; repeat constructor; discriminate. Qed.
Lemma builtin_found k kt kl (b : bool) : In (k, kt, kl) builtin_types ->
  lookup builtins (maybe_list b (lit k)) = Some (if b then kl else kt, b, (k =? "Any")%string).
Proof. intros I. each I; destruct b; reflexivity. Qed.
Lemma builtin_known k kt kl : In (k, kt, kl) builtin_types -> kt <> FTUnknown /\ kl <> FTUnknown /\ IsValidMapValueType kt = true.
Proof. intros I. each I; repeat split; discriminate. Qed.
Lemma key_valid kt : In kt key_types -> IsValidMapKeyType kt = true.
Proof. intros I. cbn [In key_types] in I. repeat (destruct I as [<-|I]; [reflexivity|]). contradiction. Qed.

Lemma ref_kind w : type_ref w -> (upper_letter (hd 0 w) /\ w <> lit "Any") \/ In 46 w.
Proof.
  intros [[(c & q & -> & U & _) N]|(p & n & -> & _ & _)]; [left; split; [exact U|exact N]|right].
  apply in_or_app. right. left. reflexivity.
Qed.
Ltac notref := match goal with R : (upper_letter (hd 0 ?w) /\ _) \/ In 46 ?w |- _ =>
  exfalso; destruct R as [[R N]|R];
  [unfold upper_letter in R; vm_compute in R; try (apply N; reflexivity); (destruct R as [R1 R2]; first [apply R1; reflexivity|apply R2; reflexivity|apply R1; exact eq_refl|contradiction])
  |vm_compute in R; repeat (destruct R as [R|R]; [discriminate|]); contradiction] end.
Lemma ref_scalar w : type_ref w -> parseScalarType w = None.
Proof.
  intros R. apply ref_kind in R. unfold parseScalarType. destruct (lookup scalars w) eqn:E; [|reflexivity].
  apply lookup_In in E. unfold scalars in E. cbn [In] in E.
  repeat (destruct E as [E|E]; [injection E as <- <-; notref|]). contradiction.
Qed.
Lemma ref_builtin w (b : bool) : type_ref w -> lookup builtins (maybe_list b w) = None.
Proof.
  intros R. apply ref_kind in R. destruct (lookup builtins (maybe_list b w)) as [t|] eqn:E; [|reflexivity].
  apply lookup_In in E. unfold builtins in E. cbn [In] in E. destruct b; cbn [maybe_list] in E.
  - repeat (destruct E as [E|E]; [injection E as E _;
      vm_compute in E; first [discriminate E|subst w; notref]|]). contradiction.
  - repeat (destruct E as [E|E]; [injection E as <- _; notref|]). contradiction.
Qed.

(** ** Maps *)
Lemma mapSplit_ok k v : ~ In 91 k -> ~ In 93 k -> mapSplit 1 (k ++ 93 :: v) = Some (k, v).
Proof.
  induction k as [|c k IH]; intros N M; [reflexivity|]. cbn [app mapSplit].
  destruct (Z.eqb_spec c 91) as [->|]; [exfalso; apply N; left; reflexivity|].
  destruct (Z.eqb_spec c 93) as [->|]; [exfalso; apply M; left; reflexivity|]. cbn [andb].
  rewrite IH; [reflexivity| |]; intros I; [apply N|apply M]; right; exact I.
Qed.
Lemma imports_eq f F p : f_imports f = f_imports F -> imports_pkg F p -> imported f p = true.
Proof. intros E I. apply imports_imported. exact (imports_same F f p E I). Qed.
Section File.
Variable F : file.
Variable ext : bytes -> option file.
Hypothesis Unique : NoDup (map decl_name (f_idents F)).
Hypothesis Names : Forall (fun d => tname (decl_name d)) (f_idents F).
Hypothesis Sizes : sizes_ok (f_idents F).
Hypothesis Ext : forall w g, ext w = Some g -> NoDup (map decl_name (f_idents g)) /\ sizes_ok (f_idents g).

Lemma ref_split w d f : type_ref w -> stands_for F ext w d -> f_imports f = f_imports F ->
  (splitAt 46 w = [w] /\ ~ In 46 w /\ In d (f_idents F) /\ decl_name d = w) \/
  (exists p n g, splitAt 46 w = [p; n] /\ dotted w p n /\ p <> [] /\ n <> [] /\ imported f p = true /\ ext w = Some g /\ In d (f_idents g) /\ decl_name d = n).
Proof.
  intros R S I. destruct S as [d D N|p n g d D J X G N].
  - left. assert (M : ~ In 46 w). { subst w. apply tname_no; [exact (proj1 (Forall_forall _ _) Names d D)|nochar]. }
    repeat split; auto. apply splitAt_whole. exact M.
  - right. exists p, n, g. pose proof D as D0. apply dotted_split in D0. destruct D as (E & P & Q).
    assert (W : p <> [] /\ n <> []).
    { destruct R as [[T _]|(p' & n' & E' & P' & N')].
      - exfalso. apply (tname_no w 46 T); [nochar|]. rewrite E. apply in_or_app. right. left. reflexivity.
      - assert (H : splitAt 46 w = [p'; n']).
        { apply dotted_split. split; [exact E'|]. split; [apply pname_no; auto; nochar|apply tname_no; auto; nochar]. }
        rewrite D0 in H. injection H as -> ->. destruct P' as (? & ? & -> & _), N' as (? & ? & -> & _). split; discriminate. }
    repeat split; auto; try tauto. exact (imports_eq f F p I J).
Qed.
Lemma map_reads w m : map_shown F ext w m -> forall fuel f, (length w < fuel)%nat -> f_imports f = f_imports F ->
  exists ex, parseMapType fuel f w = Ok (m, ex).
Proof.
  intros M. induction M as [k kt kl v vt vl K KT V|k kt kl K KT|k kt kl w s K KT R S|k kt kl w m K KT M IH]; intros fuel f L I;
    (destruct fuel as [|fuel]; [lia|]); cbn [parseMapType]; rewrite prefix_app; cbn [ok_if bind];
    destruct (builtin_scalar k kt kl K) as (KS & K1 & K2 & _).
  1: change (skipn 4 (lit "map[" ++ lit k ++ 93 :: lit v)) with (lit k ++ 93 :: lit v).
  2: change (skipn 4 (lit "map[" ++ lit k ++ 93 :: lit "[]Any")) with (lit k ++ 93 :: lit "[]Any").
  3,4: change (skipn 4 (lit "map[" ++ lit k ++ 93 :: w)) with (lit k ++ 93 :: w).
  all: rewrite mapSplit_ok by assumption; rewrite KS, (key_valid kt KT); cbn [ok_if bind].
  - destruct (builtin_scalar v vt vl V) as (VS & _ & _ & VP & VA). rewrite VP, VA, VS.
    rewrite (proj2 (proj2 (builtin_known v vt vl V))). eexists. reflexivity.
  - eexists. reflexivity.
  - assert (N91 : ~ In 91 w) by (apply ref_no; auto; try nochar; lia).
    rewrite (prefix_no (lit "map[") w 91); [|cbn; auto 6|exact N91].
    rewrite (beq_neq w (lit "[]Any")); [|intros E; apply N91; rewrite E; left; reflexivity].
    rewrite (ref_scalar w R).
    destruct (ref_split w _ f R S I) as [(E & _)|(p & n & g & E & _ & _ & _ & J & _)]; rewrite E; [eexists; reflexivity|].
    rewrite J. eexists. reflexivity.
  - assert (P : hasPrefix (lit "map[") w = true) by (destruct M; apply prefix_app). rewrite P.
    destruct (IH fuel f) as [ex E]; [|exact I|rewrite E; eexists; reflexivity].
    rewrite !app_length in L. cbn [length] in L. lia.
Qed.

(** ** Fields *)
(** A declaration that is read stands for the one that is shown. *)
Definition alike (d d' : decl) : Prop :=
  match d, d' with DEnum e, DEnum e' => e = e' | DStruct s, DStruct s' => s_name s = s_name s' | _, _ => False end.
Lemma alike_name d d' : alike d d' -> decl_name d = decl_name d'.
Proof. destruct d, d'; cbn; intros H; try contradiction; [subst; reflexivity|exact H]. Qed.
Lemma alike_find ds ds' n : Forall2 alike ds ds' ->
  match ident_of ds n, ident_of ds' n with Some d, Some d' => alike d d' | None, None => True | _, _ => False end.
Proof.
  intros H. unfold ident_of. induction H as [|d d' ds ds' A H IH]; [exact I|]. cbn [find].
  rewrite (alike_name d d' A). destruct (bytes_eqb (decl_name d') n); [exact A|exact IH].
Qed.
Lemma find_unique ds d n : NoDup (map decl_name ds) -> In d ds -> decl_name d = n -> ident_of ds n = Some d.
Proof.
  intros U I E. unfold ident_of. induction ds as [|x ds IH]; [contradiction|]. cbn [map] in U. inversion_clear U as [|? ? N U']. cbn [find].
  destruct I as [->|I]; [rewrite E, beq_refl; reflexivity|].
  rewrite beq_neq; [apply IH; assumption|]. intros X. apply N. rewrite X, <- E. apply in_map. exact I.
Qed.
Lemma size_of ds e : sizes_ok ds -> In (DEnum e) ds -> e_size e = 8 \/ e_size e = 16.
Proof. intros S I. exact (S e I). Qed.
Definition fdOf (c n : bytes) (i : Z) (t : ftype) : sfield :=
  mkFd c n i (ty_type t) (ty_isEnum t) (ty_isList t) (ty_ident t) (ty_self t) (ty_isAny t) (ty_map t).
Definition resolves (fd fd' : sfield) : Prop :=
  forall g, Forall2 alike (f_idents g) (f_idents F) -> f_imports g = f_imports F -> resolveField g ext fd = Ok fd'.
Lemma resolve_known fd : fd_type fd <> FTUnknown -> resolves fd fd.
Proof. intros N g _ _. unfold resolveField. destruct (Z.eqb_spec (fd_type fd) FTUnknown); [contradiction|reflexivity]. Qed.
Lemma resolveTo_ok ds d0 d c n i (isList : bool) w : alike d0 d -> In d ds -> sizes_ok ds ->
  resolveTo (mkFd c n i FTUnknown false isList w false false None) (Some d0) =
  Ok (mkFd c n i (fst (declared_type d isList)) (snd (declared_type d isList)) isList w false false None).
Proof.
  intros A I S. destruct d0, d; cbn in A; try contradiction; [subst e0|reflexivity].
  unfold resolveTo, declared_type. destruct (size_of ds e S I) as [-> | ->]; destruct isList; reflexivity.
Qed.
Lemma alike_refl d : alike d d.
Proof. destruct d; reflexivity. Qed.
Lemma type_reads f self0 done rest c n i w fd' :
  f_idents F = done ++ DStruct self0 :: rest -> Forall2 alike (f_idents f) done -> f_imports f = f_imports F ->
  field_shown F ext (s_name self0) c n i w fd' ->
  exists t ex, fieldType f (s_name self0) w = Ok (t, ex) /\ resolves (fdOf c n i t) fd'.
Proof.
  intros FI A I H. unfold fieldType. destruct H as [isList name t lt B|w m M|isList TN NA|isList w d R NS S].
  - rewrite (builtin_found name t lt isList B). eexists _, _. split; [reflexivity|]. apply resolve_known.
    destruct (builtin_known name t lt B) as (K1 & K2 & _). cbn. destruct isList; assumption.
  - assert (P : exists r, w = lit "map[" ++ r) by (destruct M; eexists; reflexivity). destruct P as [r ->].
    change (lookup builtins (lit "map[" ++ r)) with (@None (Z * bool * bool)). cbv iota. rewrite prefix_app.
    destruct (map_reads _ m M (S (length (lit "map[" ++ r))) f (Nat.lt_succ_diag_r _) I) as [ex E]. rewrite E.
    eexists _, _. split; [reflexivity|]. apply resolve_known. discriminate.
  - assert (R : type_ref (s_name self0)) by (left; auto).
    assert (N91 : ~ In 91 (s_name self0)) by (apply tname_no; auto; nochar).
    rewrite (ref_builtin _ isList R).
    assert (E : hasPrefix (lit "map[") (maybe_list isList (s_name self0)) = false).
    { destruct isList; [reflexivity|]. apply (prefix_no _ _ 91); [cbn; auto 6|exact N91]. }
    assert (E1 : hasPrefix (lit "[]") (maybe_list isList (s_name self0)) = isList).
    { destruct isList; [apply prefix_app|]. apply (prefix_no _ _ 91); [cbn; auto|exact N91]. }
    assert (E2 : (if isList then upto (lit "[]") (skipn 2 (maybe_list isList (s_name self0))) else maybe_list isList (s_name self0)) = s_name self0).
    { destruct isList; [|reflexivity]. apply (upto_none _ _ 91); [left; reflexivity|exact N91]. }
    rewrite E, E1. cbv zeta. rewrite E2, beq_refl.
    pose proof (alike_find _ _ (s_name self0) A) as X. pose proof (find_decl done (s_name self0)) as Y.
    destruct (ident_of done (s_name self0)) as [d'|] eqn:D.
    + exfalso. destruct Y as [Y Z0]. pose proof Unique as U. rewrite FI, map_app in U. cbn [map decl_name] in U. apply NoDup_remove_2 in U. apply U.
      apply in_or_app. left. rewrite <- Z0. apply in_map. exact Y.
    + destruct (ident_of (f_idents f) (s_name self0)); [contradiction|].
      eexists _, _. split; [reflexivity|]. apply resolve_known. cbn. destruct isList; discriminate.
  - assert (N91 : ~ In 91 w) by (apply ref_no; auto; try nochar; lia).
    rewrite (ref_builtin _ isList R).
    assert (E : hasPrefix (lit "map[") (maybe_list isList w) = false).
    { destruct isList; [reflexivity|]. apply (prefix_no _ _ 91); [cbn; auto 6|exact N91]. }
    assert (E1 : hasPrefix (lit "[]") (maybe_list isList w) = isList).
    { destruct isList; [apply prefix_app|]. apply (prefix_no _ _ 91); [cbn; auto|exact N91]. }
    assert (E2 : (if isList then upto (lit "[]") (skipn 2 (maybe_list isList w)) else maybe_list isList w) = w).
    { destruct isList; [|reflexivity]. apply (upto_none _ _ 91); [left; reflexivity|exact N91]. }
    rewrite E, E1. cbv zeta. rewrite E2, (beq_neq (s_name self0) w) by congruence.
    pose proof (alike_find _ _ w A) as X. pose proof (find_decl done w) as Y.
    destruct (ident_of done w) as [d1|] eqn:D.
    + (* declared before *)
      destruct Y as [Y1 Y2]. assert (D1 : In d1 (f_idents F)) by (rewrite FI; apply in_or_app; left; exact Y1).
      assert (d1 = d).
      { destruct (ref_split w d f R S I) as [(_ & _ & D2 & N2)|(p & q & g & _ & DD & _)].
        - pose proof (find_unique _ d w Unique D2 N2) as G1. pose proof (find_unique _ d1 w Unique D1 Y2) as G2. congruence.
        - exfalso. apply (tname_no w 46); [subst w; exact (proj1 (Forall_forall _ _) Names d1 D1)|nochar|].
          destruct DD as [-> _]. apply in_or_app. right. left. reflexivity. }
      subst d1. destruct (ident_of (f_idents f) w) as [d0|]; [|contradiction].
      destruct d0 as [e|s0], d as [e'|s1]; cbn in X; try contradiction.
      * subst e'. destruct (size_of _ e Sizes D1) as [Z8|Z8]; rewrite Z8; cbn [Z.eqb Pos.eqb]; eexists _, _; (split; [reflexivity|]);
          unfold declared_type; rewrite Z8; cbn [Z.eqb Pos.eqb fst snd]; apply resolve_known; cbn; destruct isList; discriminate.
      * eexists _, _. split; [reflexivity|]. apply resolve_known. cbn. destruct isList; discriminate.
    + destruct (ident_of (f_idents f) w); [contradiction|].
      destruct (ref_split w d f R S I) as [(SP & ND & D2 & N2)|(p & q & g & SP & DD & PN & QN & J & X1 & D2 & N2)].
      * replace (count 46 (trim 46 w) =? 1) with false.
        -- cbn [bind]. eexists _, _. split; [reflexivity|]. intros h Ah Ih. unfold resolveField. cbn [fdOf fd_type ty_type]. rewrite Z.eqb_refl.
           cbn [fdOf fd_ident ty_ident].
           replace (existsb (fun c0 => c0 =? 46) w) with false.
           ++ cbn [negb]. pose proof (alike_find _ _ w Ah) as XX. rewrite (find_unique _ d w Unique D2 N2) in XX.
              destruct (ident_of (f_idents h) w) as [d0|]; [|contradiction]. exact (resolveTo_ok _ d0 d c n i isList w XX D2 Sizes).
           ++ symmetry. apply not_true_iff_false. intros T0. apply existsb_exists in T0. destruct T0 as (x & T1 & T2). apply Z.eqb_eq in T2. subst x. contradiction.
        -- symmetry. apply Z.eqb_neq. rewrite count_none; [discriminate|]. intros T1. apply ND. exact (trim_In 46 w 46 T1).
      * rewrite (dotted_counts w p q DD PN QN). cbn [Z.eqb Pos.eqb]. rewrite SP. cbn [hd]. rewrite J. cbn [ok_if bind].
        eexists _, _. split; [reflexivity|]. intros h Ah Ih. unfold resolveField. cbn [fdOf fd_type ty_type]. rewrite Z.eqb_refl.
        cbn [fdOf fd_ident ty_ident].
        replace (existsb (fun c0 => c0 =? 46) w) with true.
        -- cbn [negb]. rewrite SP.
           assert (J' : imported h p = true). { unfold imported in *. rewrite Ih, <- I. exact J. }
           rewrite J', X1. destruct (Ext w g X1) as [GU GS]. rewrite (find_unique _ d q GU D2 N2).
           exact (resolveTo_ok _ d d c n i isList w (alike_refl d) D2 GS).
        -- symmetry. apply existsb_exists. exists 46. split; [|reflexivity]. destruct DD as [-> _]. apply in_or_app. right. left. reflexivity.
Qed.
End File.
