(** Which job a package gets. *)
From Coq Require Import ZArith List Bool String Lia Permutation.
Import ListNotations.
From Verif.Model Require Import Base Utf8 Field Any ClawText Idl ClawMod Vendor Compile.
From Verif.Spec Require Import Text Idl ClawText ClawMod Vendor VendorFind Compile.
From Verif.Proofs Require Import BaseLemmas IngestProofs IdlBase IdlText ClawMod Vendor VendorFind.
Local Open Scope Z_scope.

Lemma nameIn_iff d f n : In n (nameIn d f) <-> f = d ++ lit "/" ++ n /\ ~ In 47 n.
Proof.
  unfold nameIn. change (lit "/") with [47]. destruct (hasPrefix (d ++ [47]) f) eqn:P.
  - apply prefix_iff in P. destruct P as [m ->]. rewrite <- app_assoc. cbn [app].
    replace (skipn (length d + 1) (d ++ 47 :: m)) with m.
    2: { rewrite skipn_app, skipn_all2 by lia. replace (length d + 1 - length d)%nat with 1%nat by lia. reflexivity. }
    destruct (existsb (fun c => c =? 47) m) eqn:X.
    + split; [intros []|]. intros [A B]. apply app_inv_head in A. injection A as <-. apply existsb_exists in X. destruct X as (c & I & X). apply Z.eqb_eq in X. subst c. contradiction.
    + split.
      * intros [<-|[]]. split; [reflexivity|]. intros I. assert (existsb (fun c => c =? 47) m = true) by (apply existsb_exists; exists 47; split; [exact I|reflexivity]). congruence.
      * intros [A B]. apply app_inv_head in A. injection A as <-. left. reflexivity.
  - split; [intros []|]. intros [-> _]. assert (hasPrefix (d ++ [47]) (d ++ [47] ++ n) = true) by (apply prefix_iff; exists n; rewrite <- app_assoc; reflexivity). congruence.
Qed.
Lemma namesIn_iff d fs n : In n (namesIn d fs) <-> In (d ++ lit "/" ++ n) (map fst fs) /\ ~ In 47 n.
Proof.
  unfold namesIn. rewrite nodup_In, in_flat_map. split.
  - intros (e & I & X). apply nameIn_iff in X. destruct X as [X Y]. split; [|exact Y]. rewrite <- X. apply in_map. exact I.
  - intros [I Y]. apply in_map_iff in I. destruct I as (e & X & I). exists e. split; [exact I|]. apply nameIn_iff. auto.
Qed.
Lemma schema_filter es e : filter (fun e => hasSuffix e (lit ".claw")) es = [e] <-> only_schema es e.
Proof.
  rewrite filter_one. unfold only_schema. split; intros (l1 & l2 & A & B & C); exists l1, l2; (split; [exact A|split]).
  - apply suffix_iff. exact B.
  - intros x I E. assert (Q : hasSuffix x (lit ".claw") = true) by (apply suffix_iff; exact E). rewrite (C x I) in Q. discriminate.
  - apply suffix_iff. exact B.
  - intros x I. apply not_true_iff_false. intros Q. apply (C x I). apply suffix_iff. exact Q.
Qed.
Lemma find_iff names d f : findClawFileInDir names d = Ok f <-> exists es e, names = Some es /\ only_schema es e /\ f = d ++ lit "/" ++ e.
Proof.
  unfold findClawFileInDir. destruct names as [es|]; cbn [lift bind]; [|split; [discriminate|intros (? & ? & ? & _); discriminate]].
  split.
  - intros H. exists es. destruct (filter _ es) as [|e [|? ?]] eqn:F; try discriminate. injection H as <-. exists e. split; [reflexivity|]. split; [apply schema_filter; exact F|reflexivity].
  - intros (es' & e & [= <-] & O & ->). apply schema_filter in O. rewrite O. reflexivity.
Qed.
Lemma only_nodup es e : NoDup es -> (only_schema es e <-> In e es /\ ends_in (lit ".claw") e /\ forall x, In x es -> ends_in (lit ".claw") x -> x = e).
Proof.
  intros N. split.
  - intros (l1 & l2 & -> & B & C). split; [apply in_app_iff; right; left; reflexivity|]. split; [exact B|].
    intros x I X. apply in_app_iff in I. destruct I as [I|[<-|I]]; [|reflexivity|]; exfalso; apply (C x); auto; apply in_app_iff; auto.
  - intros (I & B & C). apply in_split in I. destruct I as (l1 & l2 & ->). exists l1, l2. split; [reflexivity|]. split; [exact B|].
    intros x X Y. assert (x = e) by (apply C; [apply in_app_iff in X; apply in_app_iff; destruct X; [left|right; right]; assumption|exact Y]). subst x.
    apply NoDup_remove_2 in N. contradiction.
Qed.

Section World.
Variable readDir : bytes -> option (list bytes).
Variable vendorDir workDir repo : bytes.
Lemma own_iff q d : starts repo q -> (d = workDir ++ lit "/" ++ trimPrefix (repo ++ lit "/") q <-> own_dir workDir repo q d).
Proof.
  intros S. unfold trimPrefix, own_dir. destruct (hasPrefix (repo ++ lit "/") q) eqn:P.
  - apply prefix_iff in P. destruct P as [rel ->]. rewrite skipn_app, skipn_all, Nat.sub_diag. cbn [skipn app]. split.
    + intros ->. left. exists rel. rewrite <- app_assoc. auto.
    + intros [(r & A & ->)|[A _]]; [|exfalso; apply A; exists rel; reflexivity]. rewrite <- app_assoc in A. do 2 apply app_inv_head in A. subst r. reflexivity.
  - split; [intros ->; right; split; [|reflexivity]|].
    + intros X. assert (hasPrefix (repo ++ lit "/") q = true) by (apply prefix_iff; exact X). congruence.
    + intros [(r & -> & _)|[_ ->]]; [|reflexivity]. assert (hasPrefix (repo ++ lit "/") (repo ++ lit "/" ++ r) = true) by (apply prefix_iff; exists r; rewrite <- app_assoc; reflexivity). congruence.
Qed.
Lemma jobOf_iff fs q j : jobOf readDir vendorDir workDir repo fs q = Ok j <-> compiled_from readDir workDir repo vendorDir (map fst fs) q j.
Proof.
  unfold jobOf, compiled_from. destruct (hasPrefix repo q) eqn:P.
  - apply prefix_iff in P. split.
    + intros H. left. split; [exact P|]. destruct (findClawFileInDir _ _) as [f| | |] eqn:F; try discriminate. cbn [bind] in H. injection H as <-.
      apply find_iff in F. destruct F as (es & e & A & B & ->). eexists _, es, e. split; [apply own_iff; [exact P|reflexivity]|]. auto.
    + intros [(_ & d & es & e & O & A & B & ->)|[X _]]; [|contradiction]. apply own_iff in O; [|exact P]. subst d.
      rewrite (proj2 (find_iff _ _ _)) by (exists es, e; split; [exact A|split; [exact B|reflexivity]]). reflexivity.
  - assert (NP : ~ starts repo q) by (intros X; assert (hasPrefix repo q = true) by (apply prefix_iff; exact X); congruence).
    set (d := vendorDir ++ lit "/" ++ q). assert (ND : NoDup (namesIn d fs)) by apply NoDup_nodup. split.
    + intros H. right. split; [exact NP|]. destruct (findClawFileInDir _ _) as [f| | |] eqn:F; try discriminate. cbn [bind] in H. injection H as <-.
      apply find_iff in F. destruct F as (es & e & [= <-] & B & ->). apply only_nodup in B; [|exact ND]. destruct B as (I & E & U). apply namesIn_iff in I. destruct I as [I NS].
      exists (d ++ lit "/" ++ e). split; [exact I|]. split; [exists e; auto|]. split; [|reflexivity].
      intros f' I' (n & -> & NS' & E'). rewrite (U n); [reflexivity| |exact E']. apply namesIn_iff. auto.
    + intros [[X _]|(_ & f & I & (n & -> & NS & E) & U & ->)]; [contradiction|].
      rewrite (proj2 (find_iff (Some (namesIn d fs)) d (d ++ lit "/" ++ n))); [reflexivity|]. exists (namesIn d fs), n. split; [reflexivity|]. split; [|reflexivity].
      apply only_nodup; [exact ND|]. split; [apply namesIn_iff; auto|]. split; [exact E|]. intros x X Y. apply namesIn_iff in X. destruct X as [X XS].
      assert (Q : d ++ lit "/" ++ x = d ++ lit "/" ++ n) by (apply U; [exact X|exists x; auto]). do 2 apply app_inv_head in Q. exact Q.
Qed.
Variable compile : job -> bool.
Notation all := (compileAll readDir vendorDir workDir repo compile).
Lemma all_iff fs file qs js : all fs file qs = Ok js <->
  Forall2 (fun q j => compiled_from readDir workDir repo vendorDir (map fst fs) q j /\ compile j = true) (filter (fun q => negb (containsSub file q)) qs) js.
Proof.
  revert js. induction qs as [|q qs IH]; intros js; cbn [compileAll filter].
  - split; [intros [= <-]; constructor|intros H; inversion H; reflexivity].
  - destruct (containsSub file q); cbn [negb]; [apply IH|]. split.
    + intros H. destruct (jobOf _ _ _ _ fs q) as [j| | |] eqn:J; try discriminate. cbn [bind] in H. destruct (compile j) eqn:C; [|discriminate].
      destruct (all fs file qs) as [l| | |] eqn:A; try discriminate. cbn [bind] in H. injection H as <-. constructor; [split; [apply jobOf_iff; exact J|exact C]|apply IH; reflexivity].
    + intros H0. inversion H0 as [|q0 j l l' [J C] H E1 E2]. clear H0. subst.
      apply jobOf_iff in J. rewrite J. cbn [bind]. rewrite C. apply IH in H. rewrite H. reflexivity.
Qed.
End World.
