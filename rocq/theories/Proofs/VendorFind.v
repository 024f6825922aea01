(** What the search for a package finds. *)
From Coq Require Import ZArith List Bool String Lia.
Import ListNotations.
From Verif.Model Require Import Base Utf8 Field Any ClawText Idl ClawMod Vendor.
From Verif.Spec Require Import ClawText ClawMod VendorFind.
From Verif.Proofs Require Import BaseLemmas IngestProofs IdlBase ClawMod Vendor.
Local Open Scope Z_scope.

Lemma same_iff a b : bytes_eqb a b = true <-> a = b.
Proof. exact (bytes_eqb_eq a b). Qed.
Lemma replaced_some rs p t : replaced rs p = Some t <-> first_for rs p t.
Proof.
  unfold first_for. induction rs as [|[f u] rs IH]; cbn [replaced].
  - split; [discriminate|]. intros ([|x a] & b & E & _); discriminate E.
  - cbn [rp_from rp_to]. destruct (bytes_eqb f p) eqn:Q.
    + apply same_iff in Q. subst f. split.
      * intros E. injection E as <-. exists [], rs. split; [reflexivity|]. intros r [].
      * intros ([|x a] & b & E & N); [injection E as <- _; reflexivity|]. injection E as <- _. now elim (N _ (or_introl eq_refl)).
    + split.
      * intros H. apply IH in H. destruct H as (a & b & -> & N). exists (mkRep f u :: a), b. split; [reflexivity|]. intros r [<-|H]; [|auto].
        cbn. intros E. apply same_iff in E. congruence.
      * intros ([|x a] & b & E & N); [injection E as E1 _ _; apply same_iff in E1; congruence|].
        injection E as <- ->. apply IH. exists a, b. split; [reflexivity|]. intros r H. apply N. now right.
Qed.
Lemma replaced_none rs p : replaced rs p = None <-> none_for rs p.
Proof.
  unfold none_for. induction rs as [|[f u] rs IH]; cbn [replaced]; [split; [intros _ r []|reflexivity]|]. cbn [rp_from rp_to]. destruct (bytes_eqb f p) eqn:Q.
  - apply same_iff in Q. subst f. split; [discriminate|]. intros N. now elim (N _ (or_introl eq_refl)).
  - rewrite IH. split; [|intros N r H; apply N; now right]. intros N r [<-|H]; [|auto]. cbn. intros E. apply same_iff in E. congruence.
Qed.
Lemma apply_iff root local p a : applyReplace root local p = a <-> stands_for root.(m_replace) local p a.
Proof.
  unfold applyReplace, stands_for. destruct (replaced local p) as [t|] eqn:L.
  - assert (NN : ~ none_for local p) by (intros N; apply replaced_none in N; congruence). rewrite <- replaced_some, L. split; [intros <-; auto|].
    intros [H|[[H _]|[H _]]]; [now injection H|contradiction|contradiction].
  - pose proof (proj1 (replaced_none _ _) L) as NL. destruct (replaced (m_replace root) p) as [t|] eqn:O.
    + assert (NN : ~ none_for (m_replace root) p) by (intros N; apply replaced_none in N; congruence). rewrite <- !replaced_some, L, O. split; [intros <-; auto|].
      intros [H|[[_ H]|[_ [H _]]]]; [discriminate|now injection H|contradiction].
    + pose proof (proj1 (replaced_none _ _) O) as NO. rewrite <- !replaced_some, L, O. split; [intros <-; auto|].
      intros [H|[[_ H]|[_ [_ H]]]]; [discriminate|discriminate|auto].
Qed.
Lemma local_iff a : isLocalPath a = true <-> on_disk a.
Proof. unfold isLocalPath, on_disk, starts. rewrite !orb_true_iff, !prefix_iff. tauto. Qed.
Lemma filter_one {A} (f : A -> bool) l e : filter f l = [e] <-> exists l1 l2, l = l1 ++ e :: l2 /\ f e = true /\ forall x, In x (l1 ++ l2) -> f x = false.
Proof.
  split.
  - induction l as [|a l IH]; cbn; [discriminate|]. destruct (f a) eqn:F.
    + intros E. injection E as -> E. exists [], l. split; [reflexivity|]. split; [exact F|]. cbn. intros x H. destruct (f x) eqn:FX; [|reflexivity].
      assert (In x (filter f l)) by (apply filter_In; auto). rewrite E in H0. contradiction.
    + intros E. destruct (IH E) as (l1 & l2 & -> & FE & N). exists (a :: l1), l2. split; [reflexivity|]. split; [exact FE|]. intros x [<-|H]; auto.
  - intros (l1 & l2 & -> & FE & N). rewrite filter_app. cbn. rewrite FE.
    assert (Z : forall m, (forall x, In x m -> f x = false) -> filter f m = []).
    { induction m as [|b m IH]; intros H; [reflexivity|]. cbn. rewrite (H b (or_introl eq_refl)). apply IH. intros x I. apply H. now right. }
    rewrite !Z; [reflexivity| |]; intros x H; apply N; apply in_or_app; auto.
Qed.
Section Find.
Variable readDir : bytes -> option (list bytes).
Variable readFile : bytes -> option bytes.
Variable join : bytes -> bytes -> bytes.
Lemma lift_ok {A} (o : option A) a : lift o = Ok a <-> o = Some a.
Proof. destruct o; cbn; split; intros H; try discriminate; injection H as <-; reflexivity. Qed.
Lemma local_schema a c : getLocalClawFile readDir readFile join a = Ok c <-> schema_at readDir readFile join a c.
Proof.
  unfold getLocalClawFile, schema_at, ends_in. destruct (hasSuffix a (lit ".claw")) eqn:X.
  - apply suffix_iff in X. rewrite lift_ok. split; [auto|]. intros [[_ H]|[H _]]; [exact H|contradiction].
  - assert (NX : ~ exists b, a = b ++ lit ".claw") by (intros H; apply suffix_iff in H; congruence).
    destruct (readDir a) as [es|]; cbn [lift bind].
    2: { split; [discriminate|]. intros [[H _]|(_ & es & e & H & _)]; [contradiction|discriminate]. }
    destruct (filter (fun e => hasSuffix e (lit ".claw")) es) as [|e [|e2 r]] eqn:F.
    + split; [discriminate|]. intros [[H _]|(_ & es' & e & H & (l1 & l2 & -> & S & N) & _)]; [contradiction|]. injection H as ->.
      assert (In e []); [|contradiction]. rewrite <- F. apply filter_In. split; [apply in_elt|]. now apply suffix_iff.
    + rewrite lift_ok. apply filter_one in F. destruct F as (l1 & l2 & -> & S & N). split.
      * intros H. right. split; [exact NX|]. exists (l1 ++ e :: l2), e. split; [reflexivity|]. split; [|exact H]. exists l1, l2. split; [reflexivity|]. split; [now apply suffix_iff|].
        intros x I Q. specialize (N x I). apply suffix_iff in Q. congruence.
      * intros [[H _]|(_ & es' & e' & H & (m1 & m2 & E & S' & N') & R)]; [contradiction|]. injection H as <-.
        assert (e = e') as ->; [|exact R].
        assert (I : In e' (l1 ++ e :: l2)) by (rewrite E; apply in_elt). apply in_app_or in I. destruct I as [I|[I|I]]; [|exact I|];
          (assert (Q : hasSuffix e' (lit ".claw") = false) by (apply N, in_or_app; auto)); apply suffix_iff in S'; congruence.
    + split; [discriminate|]. intros [[H _]|(_ & es' & e' & H & (l1 & l2 & -> & S & N) & _)]; [contradiction|]. injection H as ->.
      assert (Q : filter (fun e => hasSuffix e (lit ".claw")) (l1 ++ e' :: l2) = [e']); [|congruence]. apply filter_one. exists l1, l2. split; [reflexivity|]. split; [now apply suffix_iff|].
      intros x I. destruct (hasSuffix x (lit ".claw")) eqn:Y; [|reflexivity]. apply suffix_iff in Y. now elim (N x I).
Qed.
Variable hasGit : bool.
Variable inRepo : bytes -> bool.
Variable abs : bytes -> option bytes.
Variable getClawFile : bytes -> bytes -> option bytes.
Variable importsOf : bytes -> option (list bytes).
Variable parseMod : bytes -> option module.
Variable root : module.
Variable local : list replace.
Lemma load_iff p v n : loadNode readDir readFile join hasGit inRepo abs getClawFile importsOf parseMod root local p v = Ok n <->
  exists a ds, stands_for root.(m_replace) local p a /\ schema_of readDir readFile join hasGit inRepo abs (fun q => getClawFile q v) a n.(n_content) n.(n_vendor) /\
    importsOf n.(n_content) = Some ds /\ n.(n_deps) = ds /\
    n.(n_module) = (if isLocalPath a then match readFile (join a (lit "claw.mod")) with Some c => parseMod c | None => None end else None).
Proof.
  unfold loadNode. set (a := applyReplace root local p).
  assert (SF : forall b, stands_for (m_replace root) local p b <-> a = b) by (intros b; symmetry; apply apply_iff).
  assert (G : forall c w, (if isLocalPath a then c <- getLocalClawFile readDir readFile join a ;; Ok (c, false)
     else if hasGit && inRepo a then d <- lift (abs a) ;; c <- getLocalClawFile readDir readFile join d ;; Ok (c, false)
     else c <- lift (getClawFile a v) ;; Ok (c, true)) = Ok (c, w) <-> schema_of readDir readFile join hasGit inRepo abs (fun q => getClawFile q v) a c w).
  { intros c w. unfold schema_of. destruct (isLocalPath a) eqn:LA.
    - apply local_iff in LA. split.
      + intros H. destruct (getLocalClawFile _ _ _ a) as [x| | |] eqn:E; try discriminate. cbn [bind] in H. injection H as -> <-. left. split; [exact LA|]. split; [now apply local_schema|reflexivity].
      + intros [(_ & H & ->)|[(H & _)|(H & _)]]; [|contradiction|contradiction]. apply local_schema in H. now rewrite H.
    - assert (NL : ~ on_disk a) by (intros H; apply local_iff in H; congruence). destruct (hasGit && inRepo a) eqn:GI.
      + apply andb_true_iff in GI. split.
        * intros H. destruct (abs a) as [d|] eqn:AB; [|discriminate]. cbn [lift bind] in H. destruct (getLocalClawFile _ _ _ d) as [x| | |] eqn:E; try discriminate. cbn [bind] in H. injection H as -> <-.
          right. left. split; [exact NL|]. destruct GI. repeat split; auto. exists d. split; [reflexivity|]. now apply local_schema.
        * intros [(H & _)|[(_ & _ & _ & (d & AB & H) & ->)|(_ & H & _)]]; [contradiction| |contradiction]. rewrite AB. cbn [lift bind]. apply local_schema in H. now rewrite H.
      + assert (NG : ~ (hasGit = true /\ inRepo a = true)) by (intros H; apply andb_true_iff in H; congruence). split.
        * intros H. destruct (getClawFile a v) as [x|] eqn:E; [|discriminate]. cbn in H. injection H as -> <-. right. right. auto.
        * intros [(H & _)|[(_ & H1 & H2 & _)|(_ & _ & H & ->)]]; [contradiction|elim NG; auto|]. now rewrite H. }
  split.
  - intros H. destruct (if isLocalPath a then _ else _) as [[c w]| | |] eqn:E; try discriminate H. cbn [bind] in H.
    destruct (importsOf c) as [ds|] eqn:I; [|discriminate]. cbn [lift bind] in H. injection H as <-. exists a, ds. split; [now apply SF|]. cbn [n_content n_vendor n_deps n_module].
    split; [now apply G|]. split; [exact I|]. split; reflexivity.
  - intros (b & ds & S & H & I & D & M). apply SF in S. subst b. apply G in H. rewrite H. cbn [bind]. rewrite I. cbn [lift bind]. destruct n as [nd nc nm nv]. cbn in *. subst. reflexivity.
Qed.
End Find.
