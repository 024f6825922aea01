(** C134: rendering gives one result per language and package, or the error of one of them.
    C135: cleaning drops the imports of helpers that are not used, and nothing else.
    C136: the files of the packages are written, all of them or an error is returned. *)
From Coq Require Import String.
From Verif.Model Require Import Base Any Registry ErrText Utf8 Escape Idl Render.
From Verif.Spec Require Import Render.
From Verif.Proofs Require Import BaseLemmas RenderPar RenderText.
From Verif.Properties Require Import Registry.
From Coq Require Import Lia List Permutation Bool.
Import ListNotations.
Open Scope list_scope. Open Scope Z_scope.

(** *** C134 *)
Section C134.
Variable E : Type.
Variable supported : nat -> bool.
Variable RenderF : nat -> pkgFile -> bool -> bytes + E.
Variable RenderMore : nat -> pkgFile -> bool -> list (bytes * bytes) + E.
Notation renders := (renders E supported RenderF RenderMore).
(** The renderers ignore that the context was cancelled, or fail. *)
Hypothesis calm : forall l p b, RenderF l p true = inl b -> RenderF l p false = inl b.
Hypothesis calm_more : forall l p b, RenderMore l p true = inl b -> RenderMore l p false = inl b.

Lemma job_honest : honest _ _ _ (render_job E RenderF RenderMore).
Proof.
  intros [l p] a. unfold render_job. cbn [fst snd]. destruct (RenderF l p true) as [b|e] eqn:A; [|discriminate].
  rewrite (calm _ _ _ A). destruct (RenderMore l p true) as [m|e] eqn:B; [|discriminate]. rewrite (calm_more _ _ _ B). auto.
Qed.
Lemma jobs_prod langs pkgs : render_jobs langs pkgs = list_prod langs pkgs.
Proof. unfold render_jobs. induction langs as [|l ls IH]; [reflexivity|]. cbn. now rewrite IH. Qed.

(** The output has every package once in every language, with what the renderer made of it,
    cleaned. *)
Theorem C134_all : forall parent langs pkgs out, renders parent langs pkgs (Some (inl out)) ->
  Permutation (map (fun r => (rd_lang r, rd_pkg r)) out) (list_prod langs pkgs) /\
  Forall (fun r => exists b fs, RenderF (rd_lang r) (rd_pkg r) false = inl b /\ RenderMore (rd_lang r) (rd_pkg r) false = inl fs /\
    rd_native r = cleanImports b /\ rd_files r = map (fun f => (fst f, cleanImports (snd f))) fs) out.
Proof.
  intros parent langs pkgs out R. inversion R as [|s Sup Run Over Eq]; subst.
  destruct (par_result s) as [o|e] eqn:Res; [|discriminate]. injection Eq as <-.
  destruct (over_ok _ _ _ _ _ _ _ _ job_honest Run Over Res) as [P F]. rewrite jobs_prod in P.
  assert (G : Forall (fun x => (rd_lang (snd x), rd_pkg (snd x)) = fst x /\ exists b fs, RenderF (rd_lang (snd x)) (rd_pkg (snd x)) false = inl b /\
    RenderMore (rd_lang (snd x)) (rd_pkg (snd x)) false = inl fs /\ rd_native (snd x) = cleanImports b /\
    rd_files (snd x) = map (fun f => (fst f, cleanImports (snd f))) fs) o).
  { eapply Forall_impl; [|exact F]. intros [[l p] r] W. unfold render_job in W. cbn [fst snd] in W.
    destruct (RenderF l p false) as [b|e] eqn:A; [|discriminate]. destruct (RenderMore l p false) as [m|e] eqn:B; [|discriminate].
    injection W as <-. cbn. split; [reflexivity|]. exists b, m. auto. }
  split.
  - rewrite map_map. replace (map (fun x => (rd_lang (snd x), rd_pkg (snd x))) o) with (map fst o); [exact P|].
    apply map_ext_in. intros x Hx. rewrite Forall_forall in G. symmetry. apply (G x Hx).
  - rewrite Forall_map. eapply Forall_impl; [|exact G]. intros x [_ X]. exact X.
Qed.
(** If a package fails in a language, Render returns an error. *)
Theorem C134_fails : forall parent langs pkgs r l p e, renders parent langs pkgs r -> In l langs -> In p pkgs ->
  RenderF l p false = inr e \/ RenderMore l p false = inr e -> forall out, r <> Some (inl out).
Proof.
  intros parent langs pkgs r l p e R Hl Hp F out ->. apply C134_all in R. destruct R as [P G].
  assert (I : In (l, p) (list_prod langs pkgs)) by (now apply in_prod).
  apply (Permutation_in _ (Permutation_sym P)) in I. apply in_map_iff in I. destruct I as (x & X & Hx). injection X as <- <-.
  rewrite Forall_forall in G. destruct (G x Hx) as (b & fs & A & B & _). destruct F; congruence.
Qed.
(** The error is that of a package that fails by itself: never that of one that was stopped
    because another one had failed. *)
Theorem C134_error : forall langs pkgs e, renders false langs pkgs (Some (inr e)) ->
  exists l p, In l langs /\ In p pkgs /\ (RenderF l p false = inr e \/ RenderMore l p false = inr e).
Proof.
  intros langs pkgs e R. inversion R as [|s Sup Run Over Eq]; subst.
  destruct (par_result s) as [o|e'] eqn:Res; [discriminate|]. injection Eq as ->.
  destruct (over_err _ _ _ _ _ _ _ _ eq_refl Run Res) as ([l p] & I & W). rewrite jobs_prod in I. apply in_prod_iff in I.
  exists l, p. split; [tauto|]. split; [tauto|]. unfold render_job in W. cbn [fst snd] in W.
  destruct (RenderF l p false) as [b|e0] eqn:A; [|left; congruence]. destruct (RenderMore l p false) as [m|e0] eqn:B; [discriminate|].
  right. congruence.
Qed.
(** A language that is not supported is an error, whatever the rest, and the only such one. *)
Theorem C134_supported : forall parent langs pkgs r, renders parent langs pkgs r ->
  (r = None <-> exists l, In l langs /\ supported l = false).
Proof.
  intros parent langs pkgs r R. inversion R as [l Il Sl|s Sup Run Over Eq]; subst.
  - split; [eauto|reflexivity].
  - split; [discriminate|]. intros (l & Il & Sl). rewrite (Sup l Il) in Sl. discriminate.
Qed.
(** No run takes for ever: there is a result, every run can go on to one, and no run has more
    than three steps per package and language and one more. *)
Theorem C134_ends : forall parent langs pkgs, exists r, renders parent langs pkgs r.
Proof.
  intros parent langs pkgs. destruct (existsb (fun l => negb (supported l)) langs) eqn:X.
  - apply existsb_exists in X. destruct X as (l & Il & Sl). apply negb_true_iff in Sl. exists None. econstructor; eauto.
  - destruct (run_to_end _ _ _ (render_job E RenderF RenderMore) parent _ (par_init (render_jobs langs pkgs)) (le_n _)) as (t & R & O).
    eexists. eapply R_run; eauto. intros l Il. destruct (supported l) eqn:S; [reflexivity|].
    assert (existsb (fun l => negb (supported l)) langs = true) by (apply existsb_exists; exists l; rewrite S; auto). congruence.
Qed.
Inductive steps : nat -> par (nat * pkgFile) rendered E -> par (nat * pkgFile) rendered E -> Prop :=
| St_0 s : steps 0 s s
| St_S n s t u parent : steps n s t -> par_step (render_job E RenderF RenderMore) parent t u -> steps (S n) s u.
Lemma steps_measure n s t : steps n s t -> (n + measure _ _ _ t <= measure _ _ _ s)%nat.
Proof. induction 1 as [|n s t u parent R IH S]; [lia|]. apply step_measure in S. lia. Qed.
Theorem C134_bound : forall n langs pkgs s, steps n (par_init (render_jobs langs pkgs)) s ->
  (n <= 3 * (length langs * length pkgs) + 1)%nat.
Proof.
  intros n langs pkgs s R. apply steps_measure in R.
  assert (M : forall js, measure (nat * pkgFile) rendered E (par_init js) = (3 * length js + 1)%nat).
  { intros js. unfold measure, par_init. cbn [p_gors p_cancelled]. f_equal. induction js as [|j js IH]; [reflexivity|].
    cbn [map list_sum fold_right snd length]. change (fold_right Nat.add 0%nat) with list_sum. rewrite IH. cbn [left]. lia. }
  rewrite M, jobs_prod, prod_length in R. lia.
Qed.
End C134.

(** *** C135 *)
(** The text has the lines it had, without those that import a helper it does not use. *)
Theorem C135_lines : forall b ls, lines_of b ls ->
  exists kept, without (superfluous b) ls kept /\ cleanImports b = concat kept.
Proof. intros b ls L. rewrite (splitLines_unique b ls L). apply clean_without. Qed.
(** Every text has lines. *)
Theorem C135_has_lines : forall b, exists ls, lines_of b ls.
Proof. intros b. eexists. apply splitLines_lines. Qed.
(** The import of a helper that is used stays. *)
Theorem C135_used : forall b ls path use l kept, lines_of b ls -> helper path use -> occurs use b ->
  In l ls -> import_line path l -> without (superfluous b) ls kept -> In l kept.
Proof.
  intros b ls path use l kept L X O I IL W. apply (without_in _ _ _ l W). split; [auto|]. intros (path' & use' & Y & IL' & NO).
  assert (path' = path) as ->.
  { apply import_bare in IL; [|now apply (helper_closed path use)]. apply import_bare in IL'; [|now apply (helper_closed path' use')]. congruence. }
  rewrite (helper_fun _ _ _ Y X) in NO. contradiction.
Qed.
(** A text without such lines is not changed; neither is one that was cleaned. *)
Theorem C135_unchanged : forall b ls, lines_of b ls -> (forall l, In l ls -> ~ superfluous b l) -> cleanImports b = b.
Proof.
  intros b ls L N. destruct (C135_lines b ls L) as (kept & W & ->). rewrite (without_none _ _ N _ W).
  rewrite (splitLines_unique b ls L). apply splitLines_concat.
Qed.
Theorem C135_twice : forall b, cleanImports (cleanImports b) = cleanImports b.
Proof. exact clean_idem. Qed.
(** What is left uses every helper that it imports, as far as the text of the use occurs. *)
Theorem C135_rest : forall b ls path use l, lines_of (cleanImports b) ls -> helper path use ->
  In l ls -> import_line path l -> occurs use (cleanImports b).
Proof.
  intros b ls path use l L X I IL.
  destruct (contains (cleanImports b) use) eqn:C; [now apply contains_iff|exfalso].
  assert (NO : ~ occurs use (cleanImports b)) by (intros O; apply contains_iff in O; congruence).
  pose proof (C135_twice b) as T. destruct (C135_lines (cleanImports b) ls L) as (kept & W & E2).
  assert (NI : ~ In l kept).
  { intros K. apply (without_in _ _ _ l W) in K. destruct K as [_ K]. apply K. exists path, use. auto. }
  assert (Len : forall P ls out, without P ls out -> (length (concat out) <= length (concat ls))%nat /\
    (forall x, In x ls -> ~ In x out -> x <> [] -> (length (concat out) < length (concat ls))%nat)).
  { clear. induction 1 as [|k ls out Pk W IH|k ls out Nk W IH]; [split; [lia|intros x []]| |].
    - cbn. rewrite app_length. split; [lia|]. intros x [<-|I] N NE; [destruct k; [congruence|cbn; lia]|]. destruct IH as [_ IH]. specialize (IH x I N NE). lia.
    - cbn. rewrite !app_length. split; [lia|]. intros x [<-|I] N NE; [exfalso; apply N; now left|]. destruct IH as [_ IH].
      specialize (IH x I ltac:(intros J; apply N; now right) NE). lia. }
  destruct (Len _ _ _ W) as [_ Q]. specialize (Q l I NI).
  assert (NE : l <> []).
  { intros ->. destruct IL as (w1 & q1 & q2 & w2 & _ & _ & _ & _ & Y). symmetry in Y. apply app_eq_nil in Y. destruct Y as [_ Y].
    apply app_eq_nil in Y. destruct Y as [_ Y]. apply app_eq_nil in Y. destruct Y as [Y _]. subst path. apply helper_closed in X. discriminate. }
  specialize (Q NE). rewrite <- E2, T in Q.
  rewrite (splitLines_unique _ ls L), splitLines_concat in Q. lia.
Qed.

Definition nl : bytes := [10].
Definition ex_text : bytes := lit "import (" ++ nl ++ lit "    ""github.com/bearlytools/claw/languages/go/reflect""" ++ nl ++
  lit "    ""github.com/bearlytools/claw/clawc/languages/go/field""" ++ nl ++ lit ")" ++ nl ++ lit "var x = field.FTBool" ++ nl.
Example C135_case : cleanImports ex_text = lit "import (" ++ nl ++
  lit "    ""github.com/bearlytools/claw/clawc/languages/go/field""" ++ nl ++ lit ")" ++ nl ++ lit "var x = field.FTBool" ++ nl.
Proof. vm_compute. reflexivity. Qed.
(** The text of a use is not a use: an import that is only mentioned in a comment stays, and the
    Go compiler refuses it.  Here a program without comments would have it removed. *)
Definition ex_comment : bytes := lit "import ""fmt""" ++ nl ++ lit "import (" ++ nl ++ lit " ""github.com/bearlytools/claw/languages/go/reflect""" ++ nl ++ lit ")" ++ nl ++
  lit "// see reflect.Type" ++ nl.
(** A line without its comment, if it is one. *)
Definition comment_line (l : bytes) : Prop := exists x, l = lit "//" ++ x.
Theorem C135_comment_refuted : ~ (forall b ls path use l, lines_of b ls -> helper path use -> In l ls -> import_line path l ->
  (forall k, In k ls -> occurs use k -> comment_line k) -> ~ In l (splitLines (cleanImports b))).
Proof.
  intros A. refine (A ex_comment (splitLines ex_comment) (lit "github.com/bearlytools/claw/languages/go/reflect") (lit "reflect.")
    (lit " ""github.com/bearlytools/claw/languages/go/reflect""" ++ nl) (splitLines_lines _) _ _ _ _ _).
  - right. now left.
  - vm_compute. tauto.
  - exists [32], [34], [34], [10]. split; [constructor; [now right|constructor]|]. split; [now right|]. split; [now right|].
    split; [constructor; [left; lia|constructor]|]. vm_compute. reflexivity.
  - intros k I O. apply contains_iff in O. revert O.
    assert (G : Forall (fun k => contains k (lit "reflect.") = true -> comment_line k) (splitLines ex_comment)).
    { vm_compute. repeat constructor; try discriminate. exists (lit " see reflect.Type" ++ nl). vm_compute. reflexivity. }
    rewrite Forall_forall in G. exact (G k I).
  - vm_compute. tauto.
Qed.

(** *** C136 *)
Section C136.
Variable should : bytes -> bool.
Variable Abs : bytes -> option bytes.
Variable fails : fpath -> bool.
Variable E : Type.
Variable inRoot : bytes -> bool.
Variable get : bytes -> bytes -> bool -> unit + E.
Notation wj := (write_job should Abs fails).
Notation write_files := (write_files should Abs fails E inRoot get).
Hypothesis calm_get : forall p v, get p v true = inl tt -> get p v false = inl tt.

Definition in_dir (d : bytes) (w : fpath * bytes) : bool := bytes_eqb d (fst (fst w)).
Definition busy {X} (P : X -> bool) (ls : list (list X)) : nat := length (filter (existsb P) ls).
Lemma busy_app {X} (P : X -> bool) a b : busy P (a ++ b) = (busy P a + busy P b)%nat.
Proof. unfold busy. now rewrite filter_app, app_length. Qed.
Lemma busy_none {X} (P : X -> bool) ls : busy P ls = 0%nat -> filter P (concat ls) = [].
Proof.
  induction ls as [|l ls IH]; [reflexivity|]. unfold busy. cbn [filter]. destruct (existsb P l) eqn:B; [discriminate|]. intros Z0.
  cbn [concat]. rewrite filter_app. rewrite (IH Z0), app_nil_r. clear -B. induction l as [|x l IH]; [reflexivity|]. cbn in *.
  apply orb_false_iff in B. destruct B as [-> B]. auto.
Qed.
Lemma merged_filter P ls w : merged ls w -> (busy P ls <= 1)%nat -> filter P w = filter P (concat ls).
Proof.
  induction 1 as [ls F|l1 x xs l2 w M IH]; intros B.
  - assert (C : concat ls = []) by (clear B; induction F as [|l ls <- F IH]; [reflexivity|exact IH]). now rewrite C.
  - rewrite busy_app in B. unfold busy in B at 2. cbn [filter] in B.
    assert (B' : (busy P (l1 ++ xs :: l2) <= 1)%nat).
    { rewrite busy_app. unfold busy at 2. cbn [filter]. cbn [existsb] in B. fold (busy P l2) in *.
      destruct (existsb P xs); [rewrite orb_true_r in B; exact B|]. destruct (P x || false); cbn [length] in *; fold (busy P l2) in *; lia. }
    cbn [filter]. rewrite (IH B'), !concat_app. cbn [concat]. rewrite !filter_app. cbn [filter app]. destruct (P x) eqn:Px; [|reflexivity].
    cbn [existsb] in B. rewrite Px in B. cbn [orb length] in B. fold (busy P l2) in B.
    rewrite (busy_none P l1), (busy_none P l2) by lia. reflexivity.
Qed.
Lemma merged_in ls w x : merged ls w -> In x w -> exists l, In l ls /\ In x l.
Proof.
  induction 1 as [|l1 y ys l2 w M IH]; [intros []|]. intros [<-|I].
  - exists (y :: ys). split; [apply in_app_iff; right; now left|now left].
  - destruct (IH I) as (l & L & X). apply in_app_iff in L. destruct L as [L|[<-|L]].
    + exists l. split; [apply in_app_iff; auto|auto].
    + exists (y :: ys). split; [apply in_app_iff; right; now left|now right].
    + exists l. split; [apply in_app_iff; right; now right|auto].
Qed.
Lemma fpath_eqb_iff a b : fpath_eqb a b = true <-> a = b.
Proof.
  unfold fpath_eqb. rewrite andb_true_iff, !beq_spec. destruct a, b. cbn. split; [intros [-> ->]; auto|intros X; injection X as -> ->; auto].
Qed.
Lemma read_filter l fs f : fs_read (l ++ fs) f = fs_read (filter (in_dir (fst f)) l ++ fs) f.
Proof.
  induction l as [|[q c] l IH]; [reflexivity|]. cbn [app filter fs_read]. unfold in_dir at 1. cbn [fst].
  destruct (bytes_eqb (fst f) (fst q)) eqn:D.
  - cbn [app fs_read]. now rewrite IH.
  - unfold fpath_eqb. rewrite D. exact IH.
Qed.
Lemma read_absent l fs f : (forall c, ~ In (f, c) l) -> fs_read (l ++ fs) f = fs_read fs f.
Proof.
  induction l as [|[q c] l IH]; intros N; [reflexivity|]. cbn [app fs_read]. destruct (fpath_eqb f q) eqn:D.
  - apply fpath_eqb_iff in D. subst. exfalso. apply (N c). now left.
  - apply IH. intros c' I. apply (N c'). now right.
Qed.
Lemma read_nodup l fs f c : NoDup (map fst l) -> In (f, c) l -> fs_read (l ++ fs) f = Some c.
Proof.
  induction l as [|[q d] l IH]; [intros _ []|]. intros ND. inversion ND; subst. intros [X|I]; cbn [app fs_read].
  - injection X as -> ->. rewrite (proj2 (fpath_eqb_iff f f) eq_refl). reflexivity.
  - destruct (fpath_eqb f q) eqn:D; [|auto]. apply fpath_eqb_iff in D. subst. exfalso. apply H1. apply in_map_iff. exists (q, c). auto.
Qed.
Lemma filter_rev' {X} (P : X -> bool) l : filter P (rev l) = rev (filter P l).
Proof. induction l as [|x l IH]; [reflexivity|]. cbn. rewrite filter_app, IH. cbn. destruct (P x); cbn; [reflexivity|apply app_nil_r]. Qed.

Lemma nodup_pair (p : bytes) (l : list bytes) : NoDup l -> NoDup (map (pair p) l).
Proof.
  induction 1 as [|x l N NF IH]; [constructor|]. cbn [map]. constructor; [|exact IH]. intros C. apply in_map_iff in C. destruct C as (y & Y & C).
  injection Y as ->. auto.
Qed.
(** The directory a package is written to, if it is written. *)
Definition dir_of (r : rendered) : list bytes :=
  if should (pf_path (rd_pkg r)) then match Abs (pf_path (rd_pkg r)) with Some p => [p] | None => [] end else [].
Lemma until_fail_ok l : snd (until_fail fails l) = false -> fst (until_fail fails l) = l.
Proof.
  induction l as [|w l IH]; [reflexivity|]. cbn. destruct (fails (fst w)); [discriminate|]. destruct (until_fail fails l) as [d e]. cbn in *.
  intros X. now rewrite IH.
Qed.
Lemma until_fail_in l x : In x (fst (until_fail fails l)) -> In x l.
Proof.
  induction l as [|w l IH]; [auto|]. cbn. destruct (fails (fst w)); [intros []|]. destruct (until_fail fails l) as [d e]. cbn in *. tauto.
Qed.
Lemma until_fail_iff l : snd (until_fail fails l) = true <-> exists w, In w l /\ fails (fst w) = true.
Proof.
  induction l as [|w l IH]; [cbn; split; [discriminate|intros (w & [] & _)]|]. cbn. destruct (fails (fst w)) eqn:F.
  - cbn. split; [eauto|auto].
  - destruct (until_fail fails l) as [d e]. cbn in *. rewrite IH. split; [intros (v & I & V); eauto|]. intros (v & [<-|I] & V); [congruence|eauto].
Qed.
Lemma wj_dir r x : In x (fst (wj r)) -> dir_of r = [fst (fst x)].
Proof.
  unfold write_job, dir_of. destruct (should _); [|intros []]. destruct (Abs _) as [p|]; [|intros []]. intros I. apply until_fail_in in I.
  destruct I as [<-|I]; [reflexivity|]. apply in_map_iff in I. destruct I as (f & <- & _). reflexivity.
Qed.
Lemma busy_dirs rs d : NoDup (flat_map dir_of rs) ->
  (busy (in_dir d) (map (fun r => fst (wj r)) rs) <= 1)%nat /\
  (~ In d (flat_map dir_of rs) -> busy (in_dir d) (map (fun r => fst (wj r)) rs) = 0%nat).
Proof.
  induction rs as [|r rs IH]; intros ND; [split; [cbn; lia|reflexivity]|]. cbn [flat_map map] in *.
  assert (ND' : NoDup (flat_map dir_of rs)) by (clear -ND; induction (dir_of r) as [|a l IHl]; [exact ND|inversion ND; auto]).
  destruct (IH ND') as [I1 I2]. unfold busy. cbn [filter]. destruct (existsb (in_dir d) (fst (wj r))) eqn:B.
  - apply existsb_exists in B. destruct B as (x & Ix & Dx). apply beq_spec in Dx. rewrite (wj_dir r x Ix) in *. rewrite <- Dx in *. cbn [app] in *.
    apply NoDup_cons_iff in ND. destruct ND as [NI _]. cbn [length]. fold (busy (in_dir d) (map (fun r => fst (wj r)) rs)). split; [rewrite I2 by auto; lia|]. cbn. tauto.
  - fold (busy (in_dir d) (map (fun r => fst (wj r)) rs)). split; [auto|]. intros N. apply I2. intros I. apply N. apply in_app_iff. auto.
Qed.
Lemma write_files_inv parent pkgs rs fs fs' : write_files parent pkgs rs fs fs' false ->
  exists w, merged (map (fun r => fst (wj r)) rs) w /\ fs' = rev w ++ fs /\ (forall r, In r rs -> snd (wj r) = false).
Proof.
  intros W. inversion W as [|s l f e _ _ _ (w & M & Q & Er)]; subst. exists w. split; [auto|]. split; [auto|].
  intros r I. destruct (snd (wj r)) eqn:S; [|reflexivity].
  assert (existsb (fun r => snd (wj r)) rs = true) by (apply existsb_exists; eauto). congruence.
Qed.
Lemma dir_reads parent pkgs rs fs fs' r p : write_files parent pkgs rs fs fs' false -> NoDup (flat_map dir_of rs) ->
  In r rs -> should (pf_path (rd_pkg r)) = true -> Abs (pf_path (rd_pkg r)) = Some p ->
  forall n, fs_read fs' (p, n) = fs_read (rev (files_of r p) ++ fs) (p, n).
Proof.
  intros W ND I S A n. destruct (write_files_inv _ _ _ _ _ W) as (w & M & -> & Ok).
  rewrite read_filter, (read_filter (rev (files_of r p))). cbn [fst]. rewrite !filter_rev'. do 3 f_equal.
  rewrite (merged_filter _ _ _ M (proj1 (busy_dirs rs p ND))).
  assert (WJ : fst (wj r) = files_of r p).
  { specialize (Ok r I). unfold write_job in *. rewrite S, A in *. now apply until_fail_ok. }
  apply in_split in I. destruct I as (r1 & r2 & ->). rewrite map_app, concat_app. cbn [map concat]. rewrite !filter_app, WJ.
  rewrite flat_map_app in ND. cbn [flat_map] in ND. assert (DR : dir_of r = [p]) by (unfold dir_of; now rewrite S, A). rewrite DR in ND. cbn [app] in ND.
  assert (N1 : NoDup (flat_map dir_of r1) /\ NoDup (flat_map dir_of r2) /\ ~ In p (flat_map dir_of r1) /\ ~ In p (flat_map dir_of r2)).
  { pose proof (NoDup_remove_2 _ _ _ ND) as X. pose proof (NoDup_remove_1 _ _ _ ND) as Y. rewrite in_app_iff in X.
    assert (Z1 : forall a b : list bytes, NoDup (a ++ b) -> NoDup a /\ NoDup b).
    { clear. induction a as [|x a IH]; intros b N; [split; [constructor|exact N]|]. cbn in N. inversion N; subst. destruct (IH b H2). split; [|auto].
      constructor; auto. intros C. apply H1. apply in_app_iff. auto. }
    destruct (Z1 _ _ Y). tauto. }
  destruct N1 as (N1 & N2 & P1 & P2).
  rewrite (busy_none _ _ (proj2 (busy_dirs r1 p N1) P1)), (busy_none _ _ (proj2 (busy_dirs r2 p N2) P2)), app_nil_r. reflexivity.
Qed.

(** If WriteFiles returns no error, then for every package that is to be written each of its
    files has its content, provided the packages have different directories and the files of the
    package different names. *)
Theorem C136_written_partial : forall parent pkgs rs fs fs' r, write_files parent pkgs rs fs fs' false ->
  NoDup (flat_map dir_of rs) -> In r rs -> should (pf_path (rd_pkg r)) = true ->
  NoDup ((pf_name (rd_pkg r) ++ lit ".go") :: map fst (rd_files r)) ->
  exists p, Abs (pf_path (rd_pkg r)) = Some p /\
    fs_read fs' (p, pf_name (rd_pkg r) ++ lit ".go") = Some (rd_native r) /\
    forall n c, In (n, c) (rd_files r) -> fs_read fs' (p, n) = Some c.
Proof.
  intros parent pkgs rs fs fs' r W ND I S NF. destruct (Abs (pf_path (rd_pkg r))) as [p|] eqn:A.
  - exists p. split; [reflexivity|]. pose proof (dir_reads _ _ _ _ _ r p W ND I S A) as R.
    assert (NN : NoDup (map fst (rev (files_of r p)))).
    { rewrite map_rev. apply NoDup_rev. unfold files_of. cbn [map fst]. rewrite map_map. cbn [fst].
      pose proof (nodup_pair p _ NF) as NP. cbn [map] in NP. rewrite map_map in NP. exact NP. }
    split.
    + rewrite R. apply read_nodup; [exact NN|]. apply -> in_rev. unfold files_of. now left.
    + intros n c J. rewrite R. apply read_nodup; [exact NN|]. apply -> in_rev. unfold files_of. right. apply in_map_iff. exists (n, c). auto.
  - exfalso. destruct (write_files_inv _ _ _ _ _ W) as (w & _ & _ & Ok). specialize (Ok r I). unfold write_job in Ok. rewrite S, A in Ok. discriminate.
Qed.
(** Files that belong to no written package are left alone, also when there is an error. *)
Theorem C136_others : forall parent pkgs rs fs fs' err f, write_files parent pkgs rs fs fs' err ->
  (forall r p c, In r rs -> should (pf_path (rd_pkg r)) = true -> Abs (pf_path (rd_pkg r)) = Some p -> ~ In (f, c) (files_of r p)) ->
  fs_read fs' f = fs_read fs f.
Proof.
  intros parent pkgs rs fs fs' err f W N. inversion W as [|s l g e _ _ _ (w & M & Q & Er)]; subst; [reflexivity|].
  apply read_absent. intros c I. apply in_rev in I. destruct (merged_in _ _ _ M I) as (x & X & J). apply in_map_iff in X. destruct X as (r & <- & Ir).
  unfold write_job in J. destruct (should (pf_path (rd_pkg r))) eqn:S; [|destruct J]. destruct (Abs (pf_path (rd_pkg r))) as [p|] eqn:A; [|destruct J].
  apply until_fail_in in J. exact (N r p c Ir S A J).
Qed.
(** There is an error if a package that is to be written cannot be written, or a package of
    another repository cannot be fetched: in that case nothing is written. *)
Theorem C136_error : forall parent pkgs rs fs fs' err, write_files parent pkgs rs fs fs' err ->
  (exists r, In r rs /\ should (pf_path (rd_pkg r)) = true /\
     (Abs (pf_path (rd_pkg r)) = None \/ exists p w, Abs (pf_path (rd_pkg r)) = Some p /\ In w (files_of r p) /\ fails (fst w) = true)) ->
  err = true.
Proof.
  intros parent pkgs rs fs fs' err W (r & I & S & F). inversion W as [|s l g e _ _ _ (w & M & Q & Er)]; subst; [reflexivity|].
  apply existsb_exists. exists r. split; [auto|]. unfold write_job. rewrite S. destruct F as [->|(p & x & -> & J & Fx)]; [reflexivity|].
  apply until_fail_iff. eauto.
Qed.
Lemma get_honest : honest _ _ _ (get_job E inRoot get).
Proof.
  intros p [] X. unfold get_job in *. destruct (inRoot _); [reflexivity|]. now apply calm_get.
Qed.
Theorem C136_fetch : forall parent pkgs rs fs fs' err p e, write_files parent pkgs rs fs fs' err ->
  In p pkgs -> inRoot (pf_path p) = false ->
  get (pf_path p) (match pf_version p with [] => lit "latest" | v => v end) false = inr e ->
  err = true /\ fs' = fs.
Proof.
  intros parent pkgs rs fs fs' err p e W I R G. inversion W as [|s l g e' Run Over Res _]; subst; [auto|].
  exfalso. assert (WJ : get_job E inRoot get p false = inr e) by (unfold get_job; now rewrite R, G).
  destruct (over_fail _ _ _ _ _ _ _ _ _ get_honest Run Over I WJ) as (e2 & E2). congruence.
Qed.
(** Without any of these there is no error. *)
Theorem C136_no_error : forall pkgs rs fs fs' err, write_files false pkgs rs fs fs' err ->
  (forall p, In p pkgs -> inRoot (pf_path p) = false ->
     get (pf_path p) (match pf_version p with [] => lit "latest" | v => v end) false = inl tt) ->
  (forall r, In r rs -> should (pf_path (rd_pkg r)) = true -> exists p, Abs (pf_path (rd_pkg r)) = Some p /\
     forall w, In w (files_of r p) -> fails (fst w) = false) ->
  err = false.
Proof.
  intros pkgs rs fs fs' err W G F. inversion W as [s e Run Over Res|s l g e _ _ _ (w & M & Q & Er)]; subst.
  - exfalso. destruct (over_err _ _ _ _ _ _ _ _ eq_refl Run Res) as (p & I & WJ). unfold get_job in WJ. destruct (inRoot (pf_path p)) eqn:R; [discriminate|].
    rewrite (G p I R) in WJ. discriminate.
  - destruct (existsb (fun r => snd (wj r)) rs) eqn:X; [|reflexivity]. apply existsb_exists in X. destruct X as (r & I & X).
    unfold write_job in X. destruct (should (pf_path (rd_pkg r))) eqn:S; [|discriminate]. destruct (F r I S) as (p & A & Fw). rewrite A in X.
    apply until_fail_iff in X. destruct X as (x & J & V). rewrite (Fw x J) in V. discriminate.
Qed.
(** A package whose main file has the name of one of its other files loses the main file. *)
Theorem C136_lost : forall parent pkgs rs fs fs' r p c, write_files parent pkgs rs fs fs' false ->
  NoDup (flat_map dir_of rs) -> In r rs -> should (pf_path (rd_pkg r)) = true -> Abs (pf_path (rd_pkg r)) = Some p ->
  NoDup (map fst (rd_files r)) -> In (pf_name (rd_pkg r) ++ lit ".go", c) (rd_files r) ->
  fs_read fs' (p, pf_name (rd_pkg r) ++ lit ".go") = Some c.
Proof.
  intros parent pkgs rs fs fs' r p c W ND I S A NF J. rewrite (dir_reads _ _ _ _ _ r p W ND I S A).
  unfold files_of. cbn [rev]. rewrite <- app_assoc. apply read_nodup.
  - rewrite map_rev, map_map. cbn [fst]. apply NoDup_rev. pose proof (nodup_pair p _ NF) as NP. rewrite map_map in NP. exact NP.
  - apply -> in_rev. apply in_map_iff. exists (pf_name (rd_pkg r) ++ lit ".go", c). auto.
Qed.
End C136.

(** clawiter is a package name like any other, and clawiter.go one of the files of every package
    with structs. *)
Definition ex_pkg (n : string) : pkgFile := mkPkg (lit n) [] (lit "example.com/r/" ++ lit n).
Definition ex_rend (n : string) : rendered :=
  mkRend (ex_pkg n) 1 (lit "main") [(lit "clawiter.go", lit "iter"); (lit "clawingest.go", lit "ingest")].
Notation ex_write := (write_files (fun _ => true) (fun p => Some p) (fun _ => false) unit (fun _ => true) (fun _ _ _ => inl tt)).
Lemma par_start_over {A E} (work : pkgFile -> bool -> A + E) : par_run work false (par_init []) (par_init []) /\ par_over (@par_init pkgFile A E []) .
Proof. split; [constructor|constructor]. Qed.
Example C136_case : exists fs', ex_write false [] [ex_rend "cars"; ex_rend "clawiter"] [] fs' false /\
  fs_read fs' (lit "example.com/r/cars", lit "cars.go") = Some (lit "main") /\
  fs_read fs' (lit "example.com/r/cars", lit "clawiter.go") = Some (lit "iter") /\
  fs_read fs' (lit "example.com/r/clawiter", lit "clawiter.go") = Some (lit "iter").
Proof.
  eexists. split; [|split; [|split]].
  - eapply (W_write _ _ _ _ _ _ _ _ _ _ (par_init []) []); [constructor|constructor|reflexivity|].
    eexists. split; [|split; [reflexivity|reflexivity]].
    cbn [map]. apply (M_step [] _ _ [_]). apply (M_step [_] _ _ []). apply (M_step [] _ _ [_]). apply (M_step [] _ _ [_]).
    apply (M_step [_] _ _ []). apply (M_step [_] _ _ []). apply M_nil. repeat constructor.
  - vm_compute. reflexivity.
  - vm_compute. reflexivity.
  - vm_compute. reflexivity.
Qed.
Theorem C136_written_refuted : ~ (forall pkgs rs fs fs' r, ex_write false pkgs rs fs fs' false -> In r rs ->
  NoDup (map (fun r => pf_path (rd_pkg r)) rs) ->
  fs_read fs' (pf_path (rd_pkg r), pf_name (rd_pkg r) ++ lit ".go") = Some (rd_native r)).
Proof.
  intros A. destruct C136_case as (fs' & W & _ & _ & R).
  assert (X := A _ _ _ _ (ex_rend "clawiter") W ltac:(right; now left)). cbn [ex_rend rd_pkg rd_native ex_pkg pf_path pf_name] in X.
  assert (Y : fs_read fs' (lit "example.com/r/clawiter", lit "clawiter.go") = Some (lit "main")).
  { apply X. cbn [map]. constructor; [|constructor; [intros []|constructor]]. intros [C|[]]. vm_compute in C. discriminate. }
  rewrite R in Y. vm_compute in Y. discriminate.
Qed.

(** A run of Render with a failing package: the error is its own. *)
Definition ex_render (l : nat) (p : pkgFile) (v : bool) : bytes + bytes :=
  match pf_name p with [] => inr (lit "no name") | _ => if v then inr (lit "cancelled") else inl (pf_name p) end.
Notation ex_renders := (renders bytes (Nat.eqb 1) ex_render (fun _ _ _ => inl [])).
Example C134_case :
  (forall l p b, ex_render l p true = inl b -> ex_render l p false = inl b) /\
  (exists out, ex_renders false [1%nat] [ex_pkg "cars"] (Some (inl out)) /\ map rd_native out = [lit "cars"]) /\
  ex_renders false [1%nat] [ex_pkg "cars"; mkPkg [] [] []] (Some (inr (lit "no name"))) /\
  ex_renders false [1%nat; 2%nat] [ex_pkg "cars"] None.
Proof.
  split; [|split; [|split]].
  - intros l p b. unfold ex_render. destruct (pf_name p); discriminate.
  - eexists. split.
    + eapply R_run with (s := mkPar [((1%nat, ex_pkg "cars"), GAppended (mkRend (ex_pkg "cars") 1 (lit "cars") []))] [((1%nat, ex_pkg "cars"), mkRend (ex_pkg "cars") 1 (lit "cars") [])] None false).
      * intros l [<-|[]]. reflexivity.
      * eapply PR_step; [eapply PR_step; [apply PR_nil|]|].
        -- apply (SWork _ _ _ _ _ _ [] [] [] None false false). discriminate.
        -- apply (SAppend _ _ _ _ _ (1%nat, ex_pkg "cars") (mkRend (ex_pkg "cars") 1 (lit "cars") []) [] [] [] None false).
      * constructor; [exact I|constructor].
    + vm_compute. reflexivity.
  - set (J1 := (1%nat, ex_pkg "cars")). set (J2 := (1%nat, mkPkg [] [] [])).
    change (Some (inr (lit "no name"))) with (Some (match par_result (mkPar [(J1, @GReturned rendered bytes); (J2, GReturned)] [] (Some (lit "no name")) true) with inl out => inl (map snd out) | inr e => inr e end)).
    apply R_run; [intros l [<-|[]]; reflexivity| |repeat constructor].
    eapply PR_step; [eapply PR_step; [eapply PR_step; [eapply PR_step; [eapply PR_step; [eapply PR_step; [apply PR_nil|]|]|]|]|]|].
    + apply (SWork _ _ _ _ _ J2 [(J1, GTodo)] [] [] None false false). discriminate.
    + apply (SSend _ _ _ _ _ J2 (lit "no name") [(J1, GTodo)] [] [] None false).
    + apply (SCancel _ _ _ _ _ J2 [(J1, GTodo)] [] [] (Some (lit "no name")) false).
    + apply (SWork _ _ _ _ _ J1 [] [(J2, GReturned)] [] (Some (lit "no name")) true true). reflexivity.
    + apply (SSend _ _ _ _ _ J1 (lit "cancelled") [] [(J2, GReturned)] [] (Some (lit "no name")) true).
    + apply (SCancel _ _ _ _ _ J1 [] [(J2, GReturned)] [] (Some (lit "no name")) true).
  - eapply (R_unsupported _ _ _ _ _ _ _ 2%nat); [right; now left|reflexivity].
Qed.

Print Assumptions C134_all.
Print Assumptions C134_fails.
Print Assumptions C134_error.
Print Assumptions C134_supported.
Print Assumptions C134_ends.
Print Assumptions C134_bound.
Print Assumptions C135_lines.
Print Assumptions C135_has_lines.
Print Assumptions C135_used.
Print Assumptions C135_unchanged.
Print Assumptions C135_twice.
Print Assumptions C135_rest.
Print Assumptions C135_comment_refuted.
Print Assumptions C136_written_partial.
Print Assumptions C136_others.
Print Assumptions C136_error.
Print Assumptions C136_fetch.
Print Assumptions C136_no_error.
Print Assumptions C136_lost.
Print Assumptions C136_written_refuted.
