(** What the schema parser accepts is a schema. *)
From Coq Require Import ZArith List Bool String Lia Permutation Sorted.
Import ListNotations.
From Verif.Model Require Import Base Utf8 Field Any ClawText Idl.
From Verif.Spec Require Import Idl.
From Verif.Proofs Require Import BaseLemmas IngestProofs IdlBase.
Local Open Scope Z_scope.

(** ** Types *)
Lemma builtin_ok w t l a : lookup builtins w = Some (t, l, a) ->
  exists name bt lt, In (name, bt, lt) builtin_types /\ t = (if l then lt else bt) /\ a = (name =? "Any")%string.
Proof.
  intros H. apply lookup_In in H.
  assert (C : forallb (fun e => let '(_, (t, l, a)) := e in
      existsb (fun b => let '(name, bt, lt) := b in (t =? (if l : bool then lt else bt)) && Bool.eqb a (name =? "Any")%string) builtin_types) builtins = true)
    by (vm_compute; reflexivity).
  rewrite forallb_forall in C. specialize (C _ H). cbv beta iota in C. apply existsb_exists in C. destruct C as ([[name bt] lt] & I & C).
  apply andb_true_iff in C. destruct C as (C1 & C2). apply Z.eqb_eq in C1. apply Bool.eqb_prop in C2. eauto 10.
Qed.
Lemma scalar_value w t : parseScalarType w = Some t -> In t value_types.
Proof.
  intros H. apply lookup_In in H. cbn in H.
  repeat (destruct H as [H|H]; [inversion H; subst; cbn; tauto|]). contradiction.
Qed.
Lemma scalar_key w t : parseScalarType w = Some t -> IsValidMapKeyType t = true -> In t key_types.
Proof.
  intros H. apply lookup_In in H. cbn in H.
  repeat (destruct H as [H|H]; [inversion H; subst; try (cbn; tauto); discriminate|]). contradiction.
Qed.

Lemma imported_ok f p : imported f p = true -> imports_pkg f p.
Proof.
  unfold imported. destruct (f_imports f) as [l|] eqn:E; [|discriminate]. intros H. apply existsb_exists in H. destruct H as ([n path] & I & H).
  cbn in H. apply bytes_eqb_eq in H. subst. exists l, path. auto.
Qed.
Definition grows (f g : file) : Prop := f_imports g = f_imports f /\ incl (f_external f) (f_external g).
Definition gathers (f : file) (ext : list bytes) (g : file) : Prop := f_imports g = f_imports f /\ incl ext (f_external g).
Definition from_import (f : file) (w : bytes) : Prop := exists p, imports_pkg f p /\ ~ In 46 p /\ exists q, w = p ++ 46 :: q.
Lemma imports_same f g p : f_imports g = f_imports f -> imports_pkg f p -> imports_pkg g p.
Proof. intros E (l & path & L & I). exists l, path. rewrite E. auto. Qed.

Lemma map_sound fuel f : forall s m ext, parseMapType fuel f s = Ok (m, ext) ->
  Forall (from_import f) ext /\ forall g, gathers f ext g -> map_type g m.
Proof.
  induction fuel as [|fuel IH]; intros s m ext H; cbn [parseMapType] in H; [discriminate|]. step H.
  destruct (mapSplit 1 (skipn 4 s)) as [[k v]|]; [|discriminate]. destruct (parseScalarType k) as [kt|] eqn:K; [|discriminate]. step H.
  pose proof (scalar_key _ _ K E0) as KT.
  destruct (hasPrefix (lit "map[") v).
  - step H. inversion H; subst. destruct (IH _ _ _ E1) as (F & M). split; [exact F|]. intros g G. constructor; auto.
  - destruct (v =b "[]Any"); [inversion H; subst; split; [constructor|]; intros; constructor; [exact KT|cbn; tauto]|].
    destruct (parseScalarType v) as [vt|] eqn:V.
    + step H. inversion H; subst. split; [constructor|]. intros. constructor; [exact KT|]. eapply scalar_value; eauto.
    + step H. inversion H; subst; clear H.
      destruct (splitAt 46 v) as [|p [|n [|]]] eqn:S.
      1,2,4: inversion E1; subst; split; [constructor|]; intros g G; apply mt_named; [exact KT|]; intros p' n' D; apply dotted_split in D; congruence.
      step E1. inversion E1; subst. apply imported_ok in E2. split.
      * constructor; [|constructor]. exists p. split; [exact E2|]. apply splitAt_two in S. split; [tauto|]. exists n. tauto.
      * intros g (G & I). apply mt_named; [exact KT|]. intros p' n' D _ _. apply dotted_split in D. rewrite S in D. inversion D; subst.
        split; [eapply imports_same; eauto|apply I; cbn; auto].
Qed.

Lemma find_decl ds n : match ident_of ds n with Some d => In d ds /\ decl_name d = n | None => ~ In n (map decl_name ds) end.
Proof.
  unfold ident_of. destruct (find _ ds) as [d|] eqn:E.
  - apply find_some in E. destruct E as (I & E). apply bytes_eqb_eq in E. auto.
  - intros I. apply in_map_iff in I. destruct I as (d & <- & I). apply (find_none _ _ E) in I. rewrite bytes_eqb_refl in I. discriminate.
Qed.

Section Names.
Variables isUpper isLower isLetter isNumber : Z -> bool.
Notation type_name := (type_name isLower isLetter isNumber).
Notation package_name := (package_name isUpper isLetter isNumber).
Notation enum_ok := (enum_ok isLower isLetter isNumber).
Notation struct_ok := (struct_ok isLower isLetter isNumber).

Definition sizes_ok (ds : list decl) : Prop := forall e, In (DEnum e) ds -> e_size e = 8 \/ e_size e = 16.
Definition typed (f : file) (before : list decl) (self c n : bytes) (i : Z) (t : ftype) : Prop :=
  field_type f before self (mkFd c n i t.(ty_type) t.(ty_isEnum) t.(ty_isList) t.(ty_ident) t.(ty_self) t.(ty_isAny) t.(ty_map)).
Lemma type_sound f self w t ext c n i : sizes_ok (f_idents f) -> fieldType f self w = Ok (t, ext) ->
  Forall (from_import f) ext /\ forall g, gathers f ext g -> typed g (f_idents f) self c n i t.
Proof.
  intros SZ H. unfold fieldType in H. destruct (lookup builtins w) as [[[bt l] a]|] eqn:B.
  { inversion H; subst. split; [constructor|]. intros g G. apply builtin_ok in B. destruct B as (name & bt' & lt & I & -> & ->). apply ft_builtin. exact I. }
  destruct (hasPrefix (lit "map[") w).
  { step H. inversion H; subst. apply map_sound in E. destruct E as (F & M). split; [exact F|]. intros g G. apply ft_map. auto. }
  cbv zeta in H. set (isList := hasPrefix (lit "[]") w) in *. set (ft := if isList then upto (lit "[]") (skipn 2 w) else w) in *.
  pose proof (find_decl (f_idents f) ft) as FD.
  destruct (bytes_eqb self ft) eqn:SE.
  { apply bytes_eqb_eq in SE. destruct (ident_of (f_idents f) ft); [discriminate|]. inversion H; subst. split; [constructor|]. intros g G. apply ft_self. }
  destruct (ident_of (f_idents f) ft) as [[e|s]|].
  - destruct FD as (I & N). pose proof (SZ _ I) as S. cbn [decl_name] in N.
    destruct (Z.eqb_spec (e_size e) 8) as [E8|E8]; [|destruct (Z.eqb_spec (e_size e) 16) as [E16|]; [|exfalso; lia]].
    + inversion H; subst. split; [constructor|]. intros g G. unfold typed. rewrite <- N.
      pose proof (ft_declared g (f_idents f) self c n i (DEnum e) isList I) as FT. cbn in FT. rewrite E8 in FT. exact FT.
    + inversion H; subst. split; [constructor|]. intros g G. unfold typed. rewrite <- N.
      pose proof (ft_declared g (f_idents f) self c n i (DEnum e) isList I) as FT. cbn in FT. rewrite E16 in FT. exact FT.
  - destruct FD as (I & N). inversion H; subst. split; [constructor|]. intros g G. unfold typed. rewrite <- N.
    exact (ft_declared g (f_idents f) self c n i (DStruct s) isList I).
  - step H. inversion H; subst; clear H. assert (SF : ft <> self) by (intros Q; rewrite Q, bytes_eqb_refl in SE; discriminate).
    destruct (count 46 (trim 46 ft) =? 1) eqn:CT.
    + step E. inversion E; subst. apply imported_ok in E0. apply Z.eqb_eq in CT.
      assert (I : In 46 ft) by (apply (trim_In 46); apply count_pos; lia).
      split; [constructor; [|constructor]; exists (hd [] (splitAt 46 ft)); split; [exact E0|split; [destruct (splitAt 46 ft) as [|x xs] eqn:SP; [intros []|apply splitAt_inv in SP; exact (proj1 SP)]|apply splitAt_head; exact I]]|].
      intros g (G & J). apply ft_later; [exact FD|exact SF|]. intros p n' D _ _. apply dotted_split in D. cbn [ty_ident] in D. rewrite D in E0. cbn [hd] in E0.
      split; [eapply imports_same; eauto|apply J; cbn; auto].
    + inversion E; subst. split; [constructor|]. intros g G. apply ft_later; [exact FD|exact SF|]. intros p n' D P N. cbn [ty_ident] in D.
      rewrite (dotted_counts _ _ _ D P N) in CT. discriminate.
Qed.

(** ** Names *)
Lemma package_sound w u : ValidPackage isUpper isLetter isNumber w = Ok u -> package_name w.
Proof.
  unfold ValidPackage. destruct (runes w) as [|r q] eqn:R; [discriminate|]. intros H. apply ok_if_inv' in H.
  apply andb_true_iff in H. destruct H as (H & F). apply andb_true_iff in H. destruct H as (U & L). exists r, q.
  repeat split; auto; [destruct (isUpper r); auto|]. rewrite forallb_forall in F. apply Forall_forall. intros x I. specialize (F _ I).
  apply orb_true_iff in F. destruct F as [F|F]; [apply orb_true_iff in F; tauto|]. apply Z.eqb_eq in F. auto.
Qed.
Lemma ident_sound w u : validateIdent isLower isLetter isNumber w = Ok u -> type_name w.
Proof.
  unfold validateIdent. destruct (runes w) as [|r q] eqn:R; [discriminate|]. intros H. apply ok_if_inv' in H.
  apply andb_true_iff in H. destruct H as (H & F). apply andb_true_iff in H. destruct H as (U & L). exists r, q.
  repeat split; auto; [destruct (isLower r); auto|]. rewrite forallb_forall in F. apply Forall_forall. intros x I. specialize (F _ I).
  apply orb_true_iff in F. tauto.
Qed.

(** ** Enums *)
Lemma existsb_false {A} (p : A -> bool) l x : existsb p l = false -> In x l -> p x = false.
Proof. intros H I. destruct (p x) eqn:E; auto. exfalso. rewrite <- not_true_iff_false in H. apply H. apply existsb_exists. eauto. Qed.
Lemma NoDup_snoc {A} (l : list A) x : NoDup l -> ~ In x l -> NoDup (l ++ [x]).
Proof. intros N I. apply NoDup_rev in N. rewrite <- (rev_involutive (l ++ [x])). apply NoDup_rev. rewrite rev_app_distr. cbn. constructor; [rewrite <- in_rev; exact I|exact N]. Qed.
Definition vals_ok (vs : list enumval) : Prop :=
  Forall (fun v => type_name (ev_name v) /\ 0 <= ev_value v < 65536) vs /\ NoDup (map ev_name vs) /\ NoDup (map ev_value vs).
Lemma u16_range n : 0 <= u16 n < 65536.
Proof. unfold u16. apply Z.mod_pos_bound. reflexivity. Qed.
Lemma enumLoop_sound ls : forall pend have vs q, vals_ok have -> enumLoop isLower isLetter isNumber ls pend have = Ok (vs, q) -> vals_ok vs.
Proof.
  induction ls as [|l ls IH]; intros pend have vs q V H; cbn [enumLoop] in H; [discriminate|]. step H.
  destruct (a =b "}"); [step H; inversion H; subst; exact V|].
  destruct (l_eof l); [discriminate|]. destruct (isComment a); [eauto|]. step H. step H.
  destruct (existsb _ have) eqn:X; [discriminate|]. step H. step H. step H.
  destruct (existsb (fun v => ev_value v =? u16 a2) have) eqn:Y; [discriminate|]. step H.
  eapply IH; [|exact H]. destruct V as (V1 & V2 & V3). split; [|split].
  - apply Forall_app. split; [exact V1|]. constructor; [|constructor]. cbn. split; [eapply ident_sound; eauto|apply u16_range].
  - rewrite map_app. apply NoDup_snoc; [exact V2|]. cbn. intros I. apply in_map_iff in I. destruct I as (v & N & I).
    apply (existsb_false _ _ _ X) in I. cbn in I. rewrite N, bytes_eqb_refl in I. discriminate.
  - rewrite map_app. apply NoDup_snoc; [exact V3|]. cbn. intros I. apply in_map_iff in I. destruct I as (v & N & I).
    apply (existsb_false _ _ _ Y) in I. cbn in I. rewrite N, Z.eqb_refl in I. discriminate.
Qed.
Lemma enum_sound c ls e q : parseEnum isLower isLetter isNumber c ls = Ok (e, q) -> enum_ok e.
Proof.
  unfold parseEnum. destruct (next ls) as [l r]. intros H. repeat step H. destruct x as [|v vs]; [discriminate|]. inversion H; subst. clear H.
  match goal with X : enumLoop _ _ _ _ _ _ = _ |- _ => apply enumLoop_sound in X; [|repeat split; constructor]; destruct X as (V1 & V2 & V3) end.
  match goal with X : (if ?b then Ok 8 else _) = Ok ?s |- _ => assert (SZ : s = 8 \/ s = 16) by (destruct b; [inversion X; auto|destruct (_ =b _); [inversion X; auto|discriminate]]) end.
  repeat split; cbn [e_name e_size e_vals]; auto; [eapply ident_sound; eauto|congruence].
Qed.

(** ** Structs *)
Lemma field_mono f g before self fd : grows f g -> field_type f before self fd -> field_type g before self fd.
Proof.
  intros (I & E) H.
  assert (K : forall w, name_known f w -> name_known g w).
  { intros w K p n D P N. destruct (K p n D P N). split; [eapply imports_same; eauto|auto]. }
  assert (M : forall m, map_type f m -> map_type g m) by (induction 1; constructor; auto).
  inversion H; subst; try (constructor; auto; fail).
Qed.
Lemma field_sound f self c l fd ext : sizes_ok (f_idents f) -> parseField isLower isLetter isNumber f self c l = Ok (fd, ext) ->
  Forall (from_import f) ext /\ 0 <= fd_index fd /\ type_name (fd_name fd) /\ forall g, gathers f ext g -> field_type g (f_idents f) self fd.
Proof.
  intros SZ H. unfold parseField in H. repeat step H. inversion H; subst; clear H.
  match goal with X : fieldType _ _ _ = _ |- _ => eapply type_sound in X; [|exact SZ]; destruct X as (F & T) end. split; [exact F|]. cbn [fd_index fd_name]. split; [apply u16_range|].
  split; [eapply ident_sound; eauto|]. intros g G. apply T. exact G.
Qed.
Lemma external_incl f ext : incl (f_external f) (f_external (addExternal f ext)) /\ incl ext (f_external (addExternal f ext)).
Proof.
  cbn. split; [apply incl_appl, incl_refl|]. intros x I. apply in_or_app.
  destruct (existsb (bytes_eqb x) (f_external f)) eqn:E.
  - left. apply existsb_exists in E. destruct E as (y & J & E). apply bytes_eqb_eq in E. subst. exact J.
  - right. apply filter_In. rewrite E. auto.
Qed.
Definition same_but_external (f g : file) : Prop :=
  f_package g = f_package f /\ f_version g = f_version f /\ f_options g = f_options f /\ f_idents g = f_idents f /\ f_imports g = f_imports f /\
  incl (f_external f) (f_external g).
Definition ext_ok (f : file) : Prop := Forall (from_import f) (f_external f).
Lemma from_import_same f g w : f_imports g = f_imports f -> from_import f w -> from_import g w.
Proof. intros E (p & P & Q). exists p. split; [eapply imports_same; eauto|exact Q]. Qed.
Definition fields_ok (g : file) (before : list decl) (self : bytes) (fs : list sfield) : Prop :=
  Forall (fun fd => 0 <= fd_index fd /\ type_name (fd_name fd) /\ field_type g before self fd) fs.
Lemma fieldLoop_sound ls : forall f self pend have fs f' q, sizes_ok (f_idents f) -> ext_ok f -> fields_ok f (f_idents f) self have ->
  fieldLoop isLower isLetter isNumber f self ls pend have = Ok (fs, f', q) ->
  same_but_external f f' /\ ext_ok f' /\ fields_ok f' (f_idents f) self fs.
Proof.
  induction ls as [|l ls IH]; intros f self pend have fs f' q SZ X V H; cbn [fieldLoop] in H; [discriminate|]. step H.
  destruct (a =b "}"); [step H; inversion H; subst; repeat split; auto; apply incl_refl|].
  destruct (l_eof l); [discriminate|]. destruct (isComment a); [eauto|]. step H.
  apply field_sound in E0; [|exact SZ]. destruct E0 as (F & I & N & T). destruct (external_incl f y) as (I1 & I2).
  apply IH in H; [|exact SZ| |].
  - destruct H as ((A1 & A2 & A3 & A4 & A5 & A6) & B & C). cbn [addExternal f_package f_version f_options f_idents f_imports] in *.
    repeat split; auto. intros w W. apply A6, I1, W.
  - unfold ext_ok. cbn [addExternal f_external]. apply Forall_app. split.
    + eapply Forall_impl; [|exact X]. intros w. apply from_import_same. reflexivity.
    + apply Forall_forall. intros w W. apply filter_In in W. destruct W as (W & _). rewrite Forall_forall in F.
      eapply from_import_same; [reflexivity|apply F; exact W].
  - cbn [addExternal f_idents]. apply Forall_app. split.
    + eapply Forall_impl; [|exact V]. intros fd (P1 & P2 & P3). repeat split; auto. eapply field_mono; [|exact P3]. split; [reflexivity|exact I1].
    + constructor; [|constructor]. repeat split; auto. apply T. split; [reflexivity|exact I2].
Qed.
Lemma struct_sound f c ls s f' q : sizes_ok (f_idents f) -> ext_ok f -> parseStruct isLower isLetter isNumber f c ls = Ok (s, f', q) ->
  same_but_external f f' /\ ext_ok f' /\ struct_ok f' (f_idents f) s.
Proof.
  intros SZ X H. unfold parseStruct in H. destruct (next ls) as [l r]. repeat step H. destruct x as [|fd fs]; [discriminate|].
  step H. inversion H; subst; clear H. match goal with Y : fieldLoop _ _ _ _ _ _ _ _ = _ |- _ => eapply fieldLoop_sound in Y; [|exact SZ|exact X|constructor]; destruct Y as (S & X' & V) end.
  split; [exact S|]. split; [exact X'|]. unfold Spec.Idl.struct_ok. cbn [s_name s_fields]. change (insertBy fd_index fd (sortBy fd_index fs)) with (sortBy fd_index (fd :: fs)). set (l0 := fd :: fs) in *.
  pose proof (sortBy_perm fd_index l0) as P. split; [eapply ident_sound; eauto|]. split.
  { intros Q. rewrite Q in P. apply Permutation_nil in P. discriminate. }
  split.
  { rewrite (Permutation_length P). apply sorted_ids; [|match goal with Y : checkIds _ _ = Ok ?u |- _ => destruct u; exact Y end]. eapply Forall_impl; [|exact V]. intros g G. apply G. }
  apply Forall_forall. intros g G. apply (Permutation_in _ P) in G. unfold fields_ok in V. rewrite Forall_forall in V. apply V in G. tauto.
Qed.

(** ** Imports and options *)
Definition imports_ok (l : list (bytes * bytes)) : Prop :=
  NoDup (map fst l) /\ Forall (fun e => In 47 (snd e) /\ last (snd e) 0 <> 47) l.
Lemma path_sound w p : validImportPath w = Some p -> In 47 p /\ last p 0 <> 47.
Proof.
  unfold validImportPath. destruct (negb _ || negb _); [discriminate|]. cbv zeta.
  destruct (existsb (fun c => c =? 47) (trim 34 w)) eqn:E; [|discriminate]. cbn [negb]. destruct (hasLast 47 (trim 34 w)) eqn:L; [discriminate|].
  intros H. inversion H; subst. apply existsb_exists in E. destruct E as (c & I & E). apply Z.eqb_eq in E. subst. split; [exact I|].
  intros Q. unfold hasLast in L. destruct (trim 34 w) as [|d t] using rev_ind; [contradiction|]. rewrite rev_app_distr in L. cbn in L.
  rewrite last_last in Q. subst. discriminate.
Qed.
Lemma addImport_sound have n p l : imports_ok have -> In 47 p /\ last p 0 <> 47 -> addImport have n p = Ok l -> imports_ok l.
Proof.
  unfold addImport. intros (A & B) P H. destruct (existsb _ have) eqn:E; [discriminate|]. inversion H; subst. split.
  - rewrite map_app. apply NoDup_snoc; [exact A|]. cbn. intros I. apply in_map_iff in I. destruct I as (v & N & I).
    apply (existsb_false _ _ _ E) in I. rewrite N, bytes_eqb_refl in I. discriminate.
  - apply Forall_app. split; [exact B|]. constructor; [exact P|constructor].
Qed.
Lemma importLoop_sound ls : forall have l q, imports_ok have -> importLoop isUpper isLetter isNumber ls have = Ok (l, q) -> imports_ok l.
Proof.
  induction ls as [|x ls IH]; intros have l q V H; cbn [importLoop] in H; [discriminate|]. destruct (l_eof x); [discriminate|]. step H.
  destruct (a =b ")"); [step H; inversion H; subst; exact V|].
  destruct (withoutCommentEOL (l_items x)) as [|w [|w' [|]]]; try discriminate.
  - destruct (validImportPath w) as [p|] eqn:P; [|discriminate]. step H. eapply IH; [|exact H]. eapply addImport_sound; eauto. eapply path_sound; eauto.
  - step H. destruct (validImportPath w') as [p|] eqn:P; [|discriminate]. step H. eapply IH; [|exact H]. eapply addImport_sound; eauto. eapply path_sound; eauto.
Qed.
Lemma import_sound ls l q : parseImport isUpper isLetter isNumber ls = Ok (l, q) -> l <> [] /\ imports_ok l.
Proof.
  unfold parseImport. destruct (next ls) as [x r]. intros H. repeat step H. destruct (l_eof x); [discriminate|]. step H.
  destruct x0; [discriminate|]. inversion H; subst. split; [congruence|]. eapply importLoop_sound; [|eassumption]. split; constructor.
Qed.
Lemma addOptions_sound o : forall have l, NoDup (map o_name have) -> addOptions have o = Ok l -> NoDup (map o_name l).
Proof.
  induction o as [|x o IH]; intros have l N H; cbn [addOptions] in H; [inversion H; subst; exact N|].
  destruct (existsb _ have) eqn:E; [discriminate|]. eapply IH; [|exact H]. rewrite map_app. apply NoDup_snoc; [exact N|].
  cbn. intros I. apply in_map_iff in I. destruct I as (v & Q & I). apply (existsb_false _ _ _ E) in I. rewrite Q, bytes_eqb_refl in I. discriminate.
Qed.

(** ** The file *)
Record good (f : file) : Prop := {
  g_package : package_name (f_package f);
  g_options : NoDup (map o_name (f_options f));
  g_imports : forall l, f_imports f = Some l -> l <> [] /\ imports_ok l;
  g_external : ext_ok f;
  g_names : NoDup (map decl_name (f_idents f));
  g_enums : forall e, In (DEnum e) (f_idents f) -> enum_ok e;
  g_structs : forall before s after, f_idents f = before ++ DStruct s :: after -> struct_ok f before s }.
Definition none_yet (f : file) : Prop := f_idents f = [] -> f_external f = [].
Lemma good_sizes f : good f -> sizes_ok (f_idents f).
Proof. intros G e I. apply (g_enums _ G) in I. apply I. Qed.
Lemma struct_mono f g before s : grows f g -> struct_ok f before s -> struct_ok g before s.
Proof.
  intros G (A & B & C & D). repeat split; auto. eapply Forall_impl; [|exact D]. intros fd (X & Y). split; [exact X|]. eapply field_mono; eauto.
Qed.
Lemma addDecl_inv f d g : addDecl f d = Ok g -> ~ In (decl_name d) (map decl_name (f_idents f)) /\
  g = mkFile (f_package f) (f_version f) (f_options f) (f_idents f ++ [d]) (f_external f) (f_imports f).
Proof.
  unfold addDecl. pose proof (find_decl (f_idents f) (decl_name d)) as F. destruct (ident_of _ _); [discriminate|]. intros H. inversion H; subst. auto.
Qed.
Lemma snoc_split {A} (l : list A) x before y after : l ++ [x] = before ++ y :: after ->
  (after = [] /\ l = before /\ x = y) \/ (exists a, after = a ++ [x] /\ l = before ++ y :: a).
Proof.
  intros H. destruct after as [|z after] using rev_ind.
  - apply app_inj_tail in H. destruct H as (-> & ->). auto.
  - right. exists after. rewrite app_comm_cons, app_assoc in H. apply app_inj_tail in H. destruct H as (-> & ->). auto.
Qed.
Lemma add_good f d g : good f -> addDecl f d = Ok g ->
  (forall e, d = DEnum e -> enum_ok e) -> (forall s, d = DStruct s -> struct_ok f (f_idents f) s) -> good g.
Proof.
  intros G H HE HS. apply addDecl_inv in H. destruct H as (N & ->).
  constructor; cbn [f_package f_options f_imports f_external f_idents].
  - apply (g_package _ G).
  - apply (g_options _ G).
  - apply (g_imports _ G).
  - unfold ext_ok. cbn. eapply Forall_impl; [|exact (g_external _ G)]. intros w. apply from_import_same. reflexivity.
  - rewrite map_app. apply NoDup_snoc; [apply (g_names _ G)|exact N].
  - intros e I. apply in_app_or in I. destruct I as [I|[I|[]]]; [apply (g_enums _ G); exact I|auto].
  - intros before s after Q. apply snoc_split in Q. destruct Q as [(-> & Q & ->)|(a & -> & Q)].
    + subst before. apply struct_mono with (f := f); [split; [reflexivity|apply incl_refl]|]. auto.
    + apply struct_mono with (f := f); [split; [reflexivity|apply incl_refl]|]. eapply (g_structs _ G); exact Q.
Qed.
Lemma ext_good f g : good f -> same_but_external f g -> ext_ok g -> good g.
Proof.
  intros G (A1 & A2 & A3 & A4 & A5 & A6) X. constructor.
  - rewrite A1. apply (g_package _ G).
  - rewrite A3. apply (g_options _ G).
  - rewrite A5. apply (g_imports _ G).
  - exact X.
  - rewrite A4. apply (g_names _ G).
  - rewrite A4. apply (g_enums _ G).
  - rewrite A4. intros before s after Q. apply struct_mono with (f := f); [split; auto|]. eapply (g_structs _ G); exact Q.
Qed.
(** Another version, options or imports. *)
Lemma head_good f g : good f -> f_package g = f_package f -> f_idents g = f_idents f -> f_external g = f_external f ->
  (f_imports g = f_imports f \/ f_idents f = [] /\ f_external f = [] /\ forall l, f_imports g = Some l -> l <> [] /\ imports_ok l) ->
  NoDup (map o_name (f_options g)) -> good g.
Proof.
  intros G P D X I O. constructor.
  - rewrite P. apply (g_package _ G).
  - exact O.
  - destruct I as [->|(_ & _ & I)]; [apply (g_imports _ G)|exact I].
  - unfold ext_ok. rewrite X. destruct I as [I|(_ & -> & _)]; [|constructor]. eapply Forall_impl; [|exact (g_external _ G)]. intros w. apply from_import_same. exact I.
  - rewrite D. apply (g_names _ G).
  - rewrite D. apply (g_enums _ G).
  - rewrite D. intros before s after Q. destruct I as [I|(N & _ & _)]; [|rewrite N in Q; destruct before; discriminate].
    apply struct_mono with (f := f); [split; [exact I|rewrite X; apply incl_refl]|]. eapply (g_structs _ G); exact Q.
Qed.
Variable isSpace : Z -> bool.
Variable toLower : bytes -> bytes.
Variable toInt : bytes -> option Z.
Lemma added_none f d g : addDecl f d = Ok g -> none_yet g.
Proof. intros H. apply addDecl_inv in H. destruct H as (_ & ->). intros Q. cbn in Q. apply app_eq_nil in Q. destruct Q. congruence. Qed.
Lemma no_idents_inv f : no_idents f = true -> f_idents f = [].
Proof. unfold no_idents. destruct (f_idents f); congruence. Qed.
Lemma find_sound fuel : forall f ls g, good f -> none_yet f -> findNext isUpper isLower isLetter isNumber isSpace toLower toInt fuel f ls = Ok g -> good g.
Proof.
  induction fuel as [|fuel IH]; intros f ls g G N H; cbn [findNext] in H; [discriminate|]. step H.
  destruct (next y) as [l r]. step H. cbv zeta in H.
  destruct (toLower a =b "version").
  { destruct (0 <=? f_version f); [discriminate|]. step H. eapply IH; [| |exact H].
    - unfold parseVersion in E1. destruct (next y) as [l' r']. repeat step E1. destruct (toInt _); [|discriminate]. step E1. inversion E1; subst.
      eapply head_good; [exact G|reflexivity..|left; reflexivity|exact (g_options _ G)].
    - unfold parseVersion in E1. destruct (next y) as [l' r']. repeat step E1. destruct (toInt _); [|discriminate]. step E1. inversion E1; subst. exact N. }
  destruct (toLower a =b "options").
  { destruct (f_options f) as [|o os] eqn:O; [|discriminate]. destruct (no_idents f); [|discriminate]. step H.
    unfold parseOptions in E1. destruct (next y) as [l' r']. repeat step E1. inversion E1; subst. eapply IH; [| |exact H]; [|exact N].
    eapply head_good; [exact G|reflexivity..|left; reflexivity|]. cbn [f_options]. eapply addOptions_sound; [|eassumption]. apply (g_options _ G). }
  destruct (toLower a =b "import").
  { destruct (f_imports f) eqn:I; [discriminate|]. destruct (no_idents f) eqn:NI; [|discriminate]. apply no_idents_inv in NI. step H.
    eapply IH; [| |exact H]; [|exact N]. eapply head_good; [exact G|reflexivity..| |exact (g_options _ G)].
    right. repeat split; [exact NI|exact (N NI)|intros ->|..]; cbn [f_imports] in *.
    - apply import_sound in E1. destruct E1. congruence.
    - apply import_sound in E1. inversion H0; subst. apply E1.
    - apply import_sound in E1. inversion H0; subst. apply E1. }
  destruct (toLower a =b "enum").
  { step H. step H. eapply IH; [| |exact H]; [|eapply added_none; eauto]. eapply add_good; [exact G|eassumption| |].
    - intros e Q. inversion Q; subst. eapply enum_sound; eauto.
    - intros s Q. discriminate. }
  destruct (toLower a =b "struct").
  { step H. step H. apply struct_sound in E1; [|apply good_sizes; exact G|apply (g_external _ G)]. destruct E1 as (S & X & K).
    eapply IH; [| |exact H]; [|eapply added_none; eauto]. eapply add_good; [eapply ext_good; eauto|eassumption| |].
    - intros e Q. discriminate.
    - intros s Q. inversion Q; subst. destruct S as (_ & _ & _ & -> & _). exact K. }
  destruct (l_eof l); [|discriminate]. inversion H; subst. exact G.
Qed.
Lemma parse_sound ls f : parseFile isUpper isLower isLetter isNumber isSpace toLower toInt ls = Ok f ->
  schema_ok isUpper isLower isLetter isNumber f.
Proof.
  unfold parseFile. intros H. step H. unfold parsePackage in E. step E. destruct (next a0) as [l r]. repeat step E.
  apply find_sound in E.
  2:{ constructor; cbn.
      - eapply package_sound; eauto.
      - constructor.
      - intros; discriminate.
      - constructor.
      - constructor.
      - intros; contradiction.
      - intros before s after Q. destruct before; discriminate. }
  2:{ intros _. reflexivity. }
  unfold validate in H. destruct (f_package a) eqn:P; [discriminate|].
  destruct ((f_version a =? -1) || (f_version a =? 0)); [|discriminate]. destruct (forallb _ (f_options a)) eqn:O; [|discriminate].
  inversion H; subst; clear H.
  assert (M : forall before s, struct_ok a before s -> struct_ok (mkFile (z :: l0) 0 (f_options a) (f_idents a) (f_external a) (f_imports a)) before s)
    by (intros before s; apply struct_mono; split; [reflexivity|apply incl_refl]).
  constructor; cbn [f_package f_version f_options f_imports f_external f_idents].
  - rewrite <- P. apply (g_package _ E).
  - reflexivity.
  - pose proof (g_options _ E) as N. rewrite forallb_forall in O.
    assert (K : forall o, In o (f_options a) -> o = mkOpt (lit "IsSet") []).
    { intros o I. specialize (O _ I). cbv beta in O. apply andb_true_iff in O. destruct O as (O1 & O2). apply bytes_eqb_eq in O1.
      destruct o as [n args]. cbn in *. subst. destruct args; [reflexivity|discriminate]. }
    destruct (f_options a) as [|o [|o' os]]; [auto|right; f_equal; apply K; cbn; auto|].
    exfalso. rewrite (K o), (K o') in N by (cbn; auto). inversion N as [|? ? X _]; subst. apply X. cbn. auto.
  - apply (g_imports _ E).
  - eapply Forall_impl; [|exact (g_external _ E)]. intros w. apply from_import_same. reflexivity.
  - apply (g_names _ E).
  - apply (g_enums _ E).
  - intros before s after Q. apply M. eapply (g_structs _ E); exact Q.
Qed.
End Names.
