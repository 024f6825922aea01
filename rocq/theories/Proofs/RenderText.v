(** cleanImports: which lines it drops. *)
From Coq Require Import String.
From Verif.Model Require Import Base Any Registry ErrText Utf8 Escape Idl Render.
From Verif.Spec Require Import Render.
From Verif.Properties Require Import Registry ErrText.
From Coq Require Import Lia List Permutation Bool.
Import ListNotations.
Open Scope list_scope. Open Scope Z_scope.

Notation occurs := Verif.Spec.Render.occurs.
Lemma contains_iff s u : contains s u = true <-> occurs u s.
Proof.
  induction s as [|c s IH]; cbn [contains].
  - rewrite orb_false_r, has_prefix_spec. split.
    + intros (b & E). exists [], b. auto.
    + intros (x & y & E). destruct x; [|discriminate]. exists y. auto.
  - rewrite orb_true_iff, has_prefix_spec, IH. split.
    + intros [(b & E)|(x & y & E)]; [exists [], b; auto|exists (c :: x), y; cbn; now rewrite E].
    + intros (x & y & E). destruct x as [|d x]; [left; exists y; auto|]. right. injection E as _ E. exists x, y. auto.
Qed.

(** *** Lines *)
Lemma splitLines_ne b : splitLines b <> [].
Proof. destruct b as [|c q]; cbn; [discriminate|]. destruct (c =? 10); [discriminate|]. destruct (splitLines q); discriminate. Qed.
Lemma splitLines_last last : ~ In 10 last -> splitLines last = [last].
Proof.
  induction last as [|c q IH]; intros N; [reflexivity|]. cbn [splitLines]. destruct (c =? 10) eqn:E.
  - apply Z.eqb_eq in E. exfalso. apply N. now left.
  - rewrite IH by (intros X; apply N; now right). reflexivity.
Qed.
Lemma splitLines_line t b : ~ In 10 t -> splitLines (t ++ 10 :: b) = (t ++ [10]) :: splitLines b.
Proof.
  induction t as [|c q IH]; intros N; [reflexivity|]. cbn [app splitLines]. destruct (c =? 10) eqn:E.
  - apply Z.eqb_eq in E. exfalso. apply N. now left.
  - rewrite IH by (intros X; apply N; now right). reflexivity.
Qed.
Lemma splitLines_unique b ls : lines_of b ls -> ls = splitLines b.
Proof.
  intros (init & last & -> & -> & N & F). induction F as [|l init (t & -> & Nt) F IH].
  - cbn. now rewrite splitLines_last.
  - cbn [concat app]. rewrite <- !app_assoc. cbn [app]. rewrite splitLines_line by auto. now rewrite <- IH.
Qed.
Lemma splitLines_lines b : lines_of b (splitLines b).
Proof.
  induction b as [|c q (init & last & E & Q & N & F)].
  - exists [], []. repeat split; auto.
  - cbn [splitLines]. destruct (c =? 10) eqn:C.
    + apply Z.eqb_eq in C. subst c. exists ([10] :: init), last. rewrite E. repeat split; auto.
      * cbn. now rewrite Q.
      * constructor; auto. exists []. auto.
    + apply Z.eqb_neq in C. destruct F as [|l init (t & -> & Nt) F].
      * cbn in E. rewrite E. exists [], (c :: last). cbn in Q. subst q. repeat split; auto. intros [X|X]; auto.
      * rewrite E. cbn [app]. exists ((c :: t ++ [10]) :: init), last. repeat split; auto.
        -- cbn. now rewrite Q.
        -- constructor; auto. exists (c :: t). split; auto. intros [X|X]; auto.
Qed.
Lemma splitLines_concat b : concat (splitLines b) = b.
Proof. destruct (splitLines_lines b) as (i & l & -> & -> & _). rewrite concat_app. cbn. now rewrite app_nil_r. Qed.
Lemma occurs_line u b : ~ In 10 u -> u <> [] -> occurs u b -> exists l, In l (splitLines b) /\ occurs u l.
Proof.
  intros N NE (x & y & ->). induction x as [|c x IH].
  - cbn. destruct (splitLines_lines y) as (init & last & E & Q & Nl & F). subst y. destruct F as [|l init (t & -> & Nt) F].
    + cbn. exists (u ++ last). split; [|exists [], last; auto]. rewrite splitLines_last; [now left|].
      intros X. apply in_app_iff in X. tauto.
    + cbn [concat]. rewrite <- !app_assoc. cbn [app]. rewrite app_assoc. rewrite splitLines_line by (intros X; apply in_app_iff in X; tauto).
      exists ((u ++ t) ++ [10]). split; [now left|]. exists [], (t ++ [10]). cbn; now rewrite <- app_assoc.
  - destruct IH as (l & I & O). cbn [app splitLines]. destruct (c =? 10).
    + exists l. split; [now right|auto].
    + destruct (splitLines (x ++ u ++ y)) as [|l0 ls]; [destruct I|]. destruct I as [<-|I].
      * exists (c :: l0). split; [now left|]. destruct O as (a & d & ->). exists (c :: a), d. auto.
      * exists l. split; [now right|auto].
Qed.
Lemma line_occurs u b l : In l (splitLines b) -> occurs u l -> occurs u b.
Proof.
  intros I (x & y & ->). rewrite <- (splitLines_concat b). apply in_split in I. destruct I as (l1 & l2 & ->).
  rewrite concat_app. cbn. exists (concat l1 ++ x), (y ++ concat l2). now rewrite <- !app_assoc.
Qed.

(** *** The path of an import line *)
Lemma isSpace_iff c : isSpace c = true <-> 9 <= c <= 13 \/ c = 32.
Proof. unfold isSpace, Utf8.in_range. rewrite orb_true_iff, andb_true_iff, !Z.leb_le, Z.eqb_eq. tauto. Qed.
Notation tl := Escape.trimLeft.
Lemma tl_split s : exists w, blank w /\ s = w ++ tl s.
Proof.
  induction s as [|c s (w & B & E)]; [exists []; split; [constructor|reflexivity]|]. cbn. destruct (isSpace c) eqn:S.
  - exists (c :: w). split; [constructor; [now apply isSpace_iff|auto]|]. cbn. now rewrite E at 1.
  - exists []. split; [constructor|reflexivity].
Qed.
Lemma tl_blank w s : blank w -> tl (w ++ s) = tl s.
Proof. induction 1 as [|c w Hc B IH]; [reflexivity|]. cbn. apply isSpace_iff in Hc. now rewrite Hc. Qed.
Lemma blank_rev w : blank w -> blank (rev w).
Proof. unfold blank. rewrite !Forall_forall. intros B c I. apply B. now apply in_rev. Qed.
(** No white space and no quotation mark at the ends. *)
Definition plain (c : Z) : bool := negb (isSpace c) && negb (c =? 34).
Definition closed (p : bytes) : bool :=
  match p, rev p with c :: _, d :: _ => plain c && plain d | _, _ => false end.
Lemma import_bare path line : closed path = true -> (bare line = path <-> import_line path line).
Proof.
  intros CL. unfold bare. split.
  - intros E. destruct (tl_split line) as (w1 & B1 & E1). unfold Escape.trimSpace in E. set (t := tl line) in *.
    destruct (tl_split (rev t)) as (w2 & B2 & E2). set (r := tl (rev t)) in *.
    clearbody r. clearbody t.
    assert (T : t = rev r ++ rev w2) by (apply (f_equal (@rev Z)) in E2; rewrite rev_involutive, rev_app_distr in E2; exact E2).
    exists w1. destruct (rev r) as [|c q] eqn:R.
    + cbn in E. subst path. discriminate CL.
    + cbn [trimQuoteL] in E. set (m := if c =? 34 then q else c :: q) in *.
      assert (M : exists q1, quote_or_not q1 /\ c :: q = q1 ++ m).
      { subst m. destruct (c =? 34) eqn:C; [exists [34]; apply Z.eqb_eq in C; subst; split; [now right|reflexivity]|exists []; split; [now left|reflexivity]]. }
      destruct M as (q1 & Q1 & M). exists q1. unfold trimQuoteR in E. destruct (rev m) as [|d k] eqn:RM.
      * cbn in E. subst path. discriminate CL.
      * cbn [trimQuoteL] in E.
        assert (K : exists q2, quote_or_not q2 /\ m = path ++ q2).
        { destruct (d =? 34) eqn:D.
          - exists [34]. apply Z.eqb_eq in D. subst d. split; [now right|]. rewrite <- E. rewrite <- (rev_involutive m), RM. reflexivity.
          - exists []. split; [now left|]. rewrite <- E, <- RM, rev_involutive, app_nil_r. reflexivity. }
        destruct K as (q2 & Q2 & K). exists q2, (rev w2). repeat split; auto using blank_rev.
        rewrite E1, T, M, K. rewrite <- !app_assoc. reflexivity.
  - intros (w1 & q1 & q2 & w2 & B1 & Q1 & Q2 & B2 & ->). unfold Escape.trimSpace. rewrite tl_blank by auto.
    unfold closed in CL. destruct path as [|c p]; [discriminate|]. destruct (rev (c :: p)) as [|d k] eqn:R; [discriminate|].
    apply andb_true_iff in CL. destruct CL as [C D]. unfold plain in C, D. apply andb_true_iff in C, D. destruct C as [C1 C2], D as [D1 D2].
    apply negb_true_iff in C1, C2, D1, D2.
    assert (T1 : tl (q1 ++ (c :: p) ++ q2 ++ w2) = q1 ++ (c :: p) ++ q2 ++ w2).
    { destruct Q1 as [-> | ->]; [cbn [app tl]; now rewrite C1|reflexivity]. }
    rewrite T1. replace (rev (q1 ++ (c :: p) ++ q2 ++ w2)) with (rev w2 ++ rev q2 ++ rev (c :: p) ++ rev q1)
      by (rewrite !rev_app_distr, <- !app_assoc; reflexivity).
    rewrite tl_blank by (now apply blank_rev).
    assert (T2 : tl (rev q2 ++ rev (c :: p) ++ rev q1) = rev q2 ++ rev (c :: p) ++ rev q1).
    { rewrite R. destruct Q2 as [-> | ->]; [cbn [rev app tl]; now rewrite D1|reflexivity]. }
    rewrite T2. rewrite !rev_app_distr, !rev_involutive, <- app_assoc.
    assert (T3 : trimQuoteL (q1 ++ (c :: p) ++ q2) = (c :: p) ++ q2).
    { destruct Q1 as [-> | ->]; [cbn [app trimQuoteL]; now rewrite C2|reflexivity]. }
    rewrite T3. unfold trimQuoteR. rewrite rev_app_distr, R.
    assert (T4 : trimQuoteL (rev q2 ++ d :: k) = d :: k).
    { destruct Q2 as [-> | ->]; [cbn [rev app trimQuoteL]; now rewrite D2|reflexivity]. }
    rewrite T4, <- R. apply rev_involutive.
Qed.

(** *** The table *)
Lemma table_helpers : map (fun ic => (ic_path ic, ic_find ic)) findImports = helpers.
Proof. reflexivity. Qed.
Lemma helper_table path use : helper path use <-> In (mkIC path use) findImports.
Proof.
  unfold helper. rewrite <- table_helpers, in_map_iff. split.
  - intros ([p u] & E & I). cbn [ic_path ic_find] in E. injection E as -> ->. exact I.
  - intros I. exists (mkIC path use). auto.
Qed.
Lemma helper_closed path use : helper path use -> closed path = true.
Proof.
  intros X. assert (A : forallb (fun x => closed (fst x)) helpers = true) by (vm_compute; reflexivity).
  rewrite forallb_forall in A. exact (A _ X).
Qed.
Definition wordy (u : bytes) : bool := forallb (fun c => plain c && negb (c =? 10)) u && match u with [] => false | _ => true end.
Lemma helper_use path use : helper path use -> wordy use = true.
Proof.
  intros X. assert (A : forallb (fun x => wordy (snd x)) helpers = true) by (vm_compute; reflexivity).
  rewrite forallb_forall in A. exact (A _ X).
Qed.
Lemma helper_apart path use path' use' : helper path use -> helper path' use' -> ~ occurs use path'.
Proof.
  intros X Y O. apply contains_iff in O.
  assert (A : forallb (fun x => forallb (fun y => negb (contains (fst y) (snd x))) helpers) helpers = true) by (vm_compute; reflexivity).
  rewrite forallb_forall in A. specialize (A _ X). rewrite forallb_forall in A. specialize (A _ Y). cbn [fst snd] in A. rewrite O in A. discriminate.
Qed.
Lemma helper_fun path use use' : helper path use -> helper path use' -> use = use'.
Proof.
  intros X Y.
  assert (A : forallb (fun x => forallb (fun y => negb (bytes_eqb (fst x) (fst y)) || bytes_eqb (snd x) (snd y)) helpers) helpers = true) by (vm_compute; reflexivity).
  rewrite forallb_forall in A. specialize (A _ X). rewrite forallb_forall in A. specialize (A _ Y). cbn [fst snd] in A.
  apply orb_true_iff in A. destruct A as [A|A]; [|now apply beq_spec]. apply negb_true_iff in A.
  assert (R : bytes_eqb path path = true) by (now apply beq_spec). congruence.
Qed.
Lemma wordy_parts u : wordy u = true -> ~ In 10 u /\ u <> [] /\ forall c, In c u -> isSpace c = false /\ c <> 34.
Proof.
  unfold wordy. rewrite andb_true_iff, forallb_forall. intros [F N]. split; [|split].
  - intros I. specialize (F _ I). rewrite andb_true_iff in F. destruct F as [_ F]. discriminate.
  - intros ->. discriminate.
  - intros c I. specialize (F _ I). rewrite andb_true_iff in F. destruct F as [F _]. unfold plain in F. rewrite andb_true_iff in F.
    destruct F as [F1 F2]. apply negb_true_iff in F1, F2. apply Z.eqb_neq in F2. auto.
Qed.

(** *** What is dropped *)
Lemma removed_iff b line : existsb (bytes_eqb (bare line)) (toRemove (splitLines b)) = true <-> superfluous b line.
Proof.
  rewrite existsb_exists. unfold toRemove. split.
  - intros (p & I & Q). apply beq_spec in Q. apply in_map_iff in I. destruct I as ([path use] & <- & I). cbn [ic_path] in *.
    apply filter_In in I. destruct I as [I N]. apply helper_table in I. cbn [ic_find] in N. exists path, use. split; [auto|]. split.
    + apply (import_bare path line (helper_closed _ _ I)). auto.
    + intros O. apply negb_true_iff in N. destruct (wordy_parts use (helper_use _ _ I)) as (A & B & _).
      destruct (occurs_line use b A B O) as (l & Il & Ol). apply contains_iff in Ol.
      assert (X : existsb (fun line => contains line use) (splitLines b) = true) by (apply existsb_exists; eauto). congruence.
  - intros (path & use & Hh & IL & NO). exists path. split.
    + apply in_map_iff. exists (mkIC path use). split; [reflexivity|]. apply filter_In. split; [now apply helper_table|]. cbn [ic_find].
      destruct (existsb (fun line0 => contains line0 use) (splitLines b)) eqn:X; [|reflexivity]. exfalso. apply existsb_exists in X. destruct X as (l & Il & Ol).
      apply contains_iff in Ol. apply NO. eapply line_occurs; eauto.
    + apply beq_spec. apply import_bare; [now apply (helper_closed path use)|auto].
Qed.
Lemma filter_without (P : bytes -> Prop) f ls : (forall l, f l = true <-> P l) -> without P ls (filter (fun l => negb (f l)) ls).
Proof.
  intros H. induction ls as [|l ls IH]; [constructor|]. cbn. destruct (f l) eqn:F; cbn.
  - apply W_drop; [now apply H|auto].
  - apply W_keep; [|auto]. intros X. apply H in X. congruence.
Qed.
Lemma clean_without b : exists kept, without (superfluous b) (splitLines b) kept /\ cleanImports b = concat kept.
Proof.
  exists (filter (fun line => negb (existsb (bytes_eqb (bare line)) (toRemove (splitLines b)))) (splitLines b)).
  split; [|reflexivity]. apply (filter_without (superfluous b) (fun line => existsb (bytes_eqb (bare line)) (toRemove (splitLines b)))).
  intros l. apply removed_iff.
Qed.
Lemma occurs_skip u w x : u <> [] -> (forall c, In c u -> ~ In c w) -> occurs u (w ++ x) -> occurs u x.
Proof.
  intros NE D. induction w as [|c w IH]; [auto|]. intros (a & y & E). apply IH.
  - intros d Hd Hw. apply (D d Hd). now right.
  - destruct a as [|a0 a].
    + destruct u as [|d u]; [congruence|]. cbn in E. injection E as -> _. exfalso. apply (D d); now left.
    + cbn in E. injection E as _ E. exists a, y. exact E.
Qed.
Lemma occurs_rev u b : occurs u b <-> occurs (rev u) (rev b).
Proof.
  assert (A : forall u b, occurs u b -> occurs (rev u) (rev b)).
  { clear. intros u b (x & y & ->). exists (rev y), (rev x). now rewrite !rev_app_distr, <- app_assoc. }
  split; [apply A|]. intros O. apply A in O. now rewrite !rev_involutive in O.
Qed.
Lemma use_not_in_import path use path' use' l : helper path use -> helper path' use' -> import_line path' l -> ~ occurs use l.
Proof.
  intros X Y (w1 & q1 & q2 & w2 & B1 & Q1 & Q2 & B2 & ->) O. destruct (wordy_parts use (helper_use _ _ X)) as (_ & NE & W).
  assert (DB : forall w, blank w -> forall c, In c use -> ~ In c w).
  { intros w B c I J. unfold blank in B. rewrite Forall_forall in B. apply B in J. apply isSpace_iff in J. apply W in I. destruct I. congruence. }
  assert (DQ : forall q, quote_or_not q -> forall c, In c use -> ~ In c q).
  { intros q [-> | ->] c I J; [destruct J|]. destruct J as [<-|[]]. apply W in I. tauto. }
  apply occurs_skip in O; [|auto|auto]. apply occurs_skip in O; [|auto|auto].
  apply occurs_rev in O. rewrite !rev_app_distr, <- !app_assoc in O.
  assert (R : rev use <> []) by (destruct use; [congruence|]; cbn; intros E; apply app_eq_nil in E; destruct E; discriminate).
  apply occurs_skip in O; [|exact R|intros c I J; apply in_rev in I; apply in_rev in J; exact (DB w2 B2 c I J)].
  apply occurs_skip in O; [|exact R|intros c I J; apply in_rev in I; apply in_rev in J; exact (DQ q2 Q2 c I J)].
  apply occurs_rev in O. exact (helper_apart _ _ _ _ X Y O).
Qed.
Lemma without_in P ls out l : without P ls out -> (In l out <-> In l ls /\ ~ P l).
Proof.
  induction 1 as [|k ls out Pk W IH|k ls out Nk W IH]; [cbn; tauto| |].
  - rewrite IH. cbn. split; [tauto|]. intros [[<-|I] N]; [contradiction|auto].
  - cbn. rewrite IH. split; [|tauto]. intros [<-|[I N]]; auto.
Qed.
Lemma in_concat_occurs u l ls : In l ls -> occurs u l -> occurs u (concat ls).
Proof.
  intros I (x & y & ->). apply in_split in I. destruct I as (l1 & l2 & ->). rewrite concat_app. cbn.
  exists (concat l1 ++ x), (y ++ concat l2). now rewrite <- !app_assoc.
Qed.
(** What a text uses it uses after the cleaning. *)
Lemma clean_uses path use b : helper path use -> occurs use b -> occurs use (cleanImports b).
Proof.
  intros X O. destruct (clean_without b) as (kept & W & ->). destruct (wordy_parts use (helper_use _ _ X)) as (A & B & _).
  destruct (occurs_line use b A B O) as (l & Il & Ol). apply (in_concat_occurs use l kept); [|auto].
  apply (without_in _ _ _ l W). split; [auto|]. intros (path' & use' & Y & IL & _). exact (use_not_in_import _ _ _ _ _ X Y IL Ol).
Qed.
Lemma lines_of_kept P init last kept : Forall (fun l => exists t, l = t ++ [10] /\ ~ In 10 t) init -> ~ In 10 last ->
  without P (init ++ [last]) kept -> forall l, In l (splitLines (concat kept)) -> In l kept \/ l = [].
Proof.
  intros F N. revert kept. induction F as [|k init (t & -> & Nt) F IH]; intros kept W l.
  - cbn in W. inversion W as [|? ? ? Pk W'|? ? ? Nk W']; subst; inversion W'; subst.
    + cbn. intros [<-|[]]; auto.
    + cbn [concat]. rewrite app_nil_r, splitLines_last by auto. cbn. tauto.
  - cbn [app] in W. inversion W as [|? ? ? Pk W'|? ? ? Nk W']; subst; [apply IH; auto|].
    cbn [concat]. rewrite <- app_assoc. cbn [app]. rewrite splitLines_line by auto. intros [<-|I]; [left; now left|].
    destruct (IH _ W' l I) as [J|J]; [left; now right|auto].
Qed.
Lemma without_none P ls : (forall l, In l ls -> ~ P l) -> forall out, without P ls out -> out = ls.
Proof.
  intros N out W. induction W as [|k ls out Pk W IH|k ls out Nk W IH]; [reflexivity| |].
  - exfalso. apply (N k); [now left|auto].
  - f_equal. apply IH. intros l I. apply N. now right.
Qed.
Lemma clean_idem b : cleanImports (cleanImports b) = cleanImports b.
Proof.
  destruct (clean_without (cleanImports b)) as (k2 & W2 & E2). rewrite E2. clear E2.
  transitivity (concat (splitLines (cleanImports b))); [f_equal|apply splitLines_concat]. apply without_none with (P := superfluous (cleanImports b)); [|exact W2].
  clear k2 W2. destruct (clean_without b) as (kept & W & E). intros l I (path & use & Hh & IL & NO).
  assert (NB : ~ occurs use b) by (intros O; apply NO; eapply clean_uses; eauto).
  rewrite E in I. destruct (splitLines_lines b) as (init & last & L & _ & N & F). rewrite L in W.
  destruct (lines_of_kept _ init last kept F N W l I) as [K| ->].
  - apply (without_in _ _ _ l W) in K. destruct K as [_ K]. apply K. exists path, use. auto.
  - destruct IL as (w1 & q1 & q2 & w2 & _ & _ & _ & _ & X). symmetry in X. apply app_eq_nil in X. destruct X as [_ X].
    apply app_eq_nil in X. destruct X as [_ X]. apply app_eq_nil in X. destruct X as [X _]. subst path.
    apply helper_closed in Hh. discriminate.
Qed.
