(** C154: clawc compile. *)
From Coq Require Import ZArith List Bool String Lia Permutation.
Import ListNotations.
From Verif.Model Require Import Base Utf8 Field Any ClawText Idl ClawMod Vendor Compile.
From Verif.Spec Require Import Text Idl ClawText ClawMod Vendor VendorFind Compile.
From Verif.Proofs Require Import BaseLemmas IngestProofs IdlBase IdlText ClawMod Vendor VendorFind Compile.
From Verif.Properties Require Import ClawMod Vendor.
Local Open Scope Z_scope.

Section World.
(** fmt's %d, the file system, git, the fetching of packages and the parsers: see Model/Vendor.v. *)
Variable dec : Z -> bytes.
Variable readDir : bytes -> option (list bytes).
Variable readFile : bytes -> option bytes.
Variable join : bytes -> bytes -> bytes.
Variable hasGit : bool.
Variable inRepo : bytes -> bool.
Variable abs : bytes -> option bytes.
Variable getClawFile : bytes -> bytes -> option bytes.
Variable importsOf : bytes -> option (list bytes).
Variable parseMod : bytes -> option module.
Variable vendorDir workDir repo : bytes.
(** Maps are gone through in any order. *)
Variable order : list bytes -> list bytes.
Hypothesis order_perm : forall l, Permutation (order l) l.
Variable compile : job -> bool.
(** The claw.mod and the local.replace of the root; no claw.mod that can be read has required versions (C94). *)
Variable root : module.
Variable local : list replace.
Hypothesis none_required : root.(m_required) = [].
Notation load p := (loadNode readDir readFile join hasGit inRepo abs getClawFile importsOf parseMod root local p []).
Notation imports := (imports readDir readFile join hasGit inRepo abs getClawFile importsOf parseMod root local).
Notation vendor fuel p fs := (VendorDependencies dec readDir readFile join hasGit inRepo abs getClawFile importsOf parseMod vendorDir fuel root repo local p fs).
Notation run fuel file fs := (handleCompile dec readDir readFile join hasGit inRepo abs getClawFile importsOf parseMod vendorDir workDir repo order compile fuel root local file fs).
Notation from fs := (compiled_from readDir workDir repo vendorDir (map fst fs)).

Lemma vendor_graph fuel p fs g fs' : vendor fuel p fs = Ok (g, fs') ->
  NoDup (map fst g) /\ (forall q n, In (q, n) g <-> reach imports p q /\ load q = Ok n) /\ (forall q, In q (map fst g) <-> reach imports p q) /\
  fs' = createVendorStructure dec vendorDir g fs /\
  exists r, GetCompilationOrder (edgesOf g) (S (length g)) (order (map fst g)) = Ok r /\ Permutation r (map fst g) /\ importers_first imports r.
Proof.
  unfold VendorDependencies. intros H. destruct (ValidateModuleInRepo (m_path root) repo) as [[]| | |]; try discriminate. cbn [bind] in H.
  destruct (buildDependencyGraph _ _ _ _ _ _ _ _ _ _ _ _ _ _) as [g0| | |] eqn:B; try discriminate. cbn [bind] in H.
  destruct (validateACLs (m_path root) _) as [[]| | |]; try discriminate. cbn [bind] in H. injection H as <- <-.
  destruct (C98_graph dec readDir readFile join hasGit inRepo abs getClawFile importsOf parseMod root local none_required fuel p g0 B) as (N & G & D & _).
  split; [exact N|]. split; [exact G|]. split; [exact D|]. split; [reflexivity|].
  apply (C99_built dec readDir readFile join hasGit inRepo abs getClawFile importsOf parseMod root local none_required fuel p g0 _ _ B (order_perm _)). lia.
Qed.
Lemma run_iff fuel file fs jobs fs' : run fuel file fs = Ok (jobs, fs') <->
  exists g r js, vendor fuel file fs = Ok (g, fs') /\ GetCompilationOrder (edgesOf g) (S (length g)) (order (map fst g)) = Ok r /\
    Forall2 (fun q j => from fs' q j /\ compile j = true) (filter (fun q => negb (containsSub file q)) r) js /\ compile (Main file) = true /\ jobs = js ++ [Main file].
Proof.
  unfold handleCompile. split.
  - intros H. destruct (vendor fuel file fs) as [[g fs1]| | |]; try discriminate. cbn [bind] in H.
    destruct (GetCompilationOrder _ _ _) as [r| | |] eqn:R; try discriminate. cbn [bind] in H.
    destruct (compileAll _ _ _ _ _ fs1 file r) as [js| | |] eqn:A; try discriminate. cbn [bind] in H.
    destruct (compile (Main file)) eqn:C; [|discriminate]. injection H as <- <-. exists g, r, js. rewrite all_iff in A. auto.
  - intros (g & r & js & -> & R & A & C & ->). cbn [bind]. rewrite R. cbn [bind]. apply all_iff in A. rewrite A. cbn [bind]. rewrite C. reflexivity.
Qed.
Lemma kept_iff file q r : In q (filter (fun q => negb (containsSub file q)) r) <-> In q r /\ ~ part_of file q.
Proof.
  rewrite filter_In, negb_true_iff, <- not_true_iff_false. unfold part_of. rewrite contains_iff. reflexivity.
Qed.
Lemma before_filter (f : bytes -> bool) l : importers_first imports l -> NoDup l ->
  forall a x b, filter f l = a ++ x :: b -> forall y, imports x y -> ~ In y a.
Proof.
  intros I N a x b E y Y Q. apply in_split in Q. destruct Q as (a1 & a2 & ->).
  assert (S : forall l a1 y a2 x b, filter f l = (a1 ++ y :: a2) ++ x :: b -> exists l1 l2 l3, l = l1 ++ y :: l2 ++ x :: l3).
  { clear. assert (S1 : forall l a x b, filter f l = a ++ x :: b -> exists l1 l2, l = l1 ++ x :: l2 /\ filter f l1 = a /\ filter f l2 = b).
    { induction l as [|c l IH]; cbn [filter]; intros a x b E; [destruct a; discriminate|]. destruct (f c) eqn:C.
      - destruct a as [|d a]; cbn [app] in E; injection E as -> E.
        + exists [], l. auto.
        + destruct (IH _ _ _ E) as (l1 & l2 & -> & <- & <-). exists (d :: l1), l2. cbn [filter app]. rewrite C. auto.
      - destruct (IH _ _ _ E) as (l1 & l2 & -> & <- & <-). exists (c :: l1), l2. cbn [filter app]. rewrite C. auto. }
    intros l a1 y a2 x b E. rewrite <- app_assoc in E. cbn [app] in E. destruct (S1 _ _ _ _ E) as (l1 & l2 & -> & _ & E2). destruct (S1 _ _ _ _ E2) as (l3 & l4 & -> & _ & _). eauto. }
  destruct (S _ _ _ _ _ _ E) as (l1 & l2 & l3 & ->). specialize (I (l1 ++ y :: l2) x l3). rewrite <- app_assoc in I. cbn [app] in I. specialize (I eq_refl y Y).
  apply NoDup_remove_2 in N. apply N. apply in_app_iff. right. apply in_app_iff. right. right. exact I.
Qed.

(** When clawc compile succeeds, code was generated without an error for each package that the schema imports, directly
    or not, once, each from the only schema in its directory, those that import before those that are imported, and at last
    for the schema itself. *)
Theorem C154_compiled fuel file fs jobs fs' : run fuel file fs = Ok (jobs, fs') ->
  exists r js, jobs = js ++ [Main file] /\ NoDup r /\ (forall q, In q r <-> reach imports file q /\ ~ part_of file q) /\
    Forall2 (from fs') r js /\ (forall j, In j jobs -> compile j = true) /\
    (forall a x b, r = a ++ x :: b -> forall y, imports x y -> ~ In y a).
Proof.
  intros H. apply run_iff in H. destruct H as (g & r & js & V & R & A & C & ->). destruct (vendor_graph _ _ _ _ _ V) as (N & G & D & _ & r' & R' & P & F).
  rewrite R in R'. injection R' as <-. exists (filter (fun q => negb (containsSub file q)) r), js.
  assert (NR : NoDup r) by (eapply Permutation_NoDup; [symmetry; exact P|exact N]).
  split; [reflexivity|]. split; [apply NoDup_filter; exact NR|]. split; [|split; [|split]].
  - intros q. rewrite kept_iff. rewrite <- D. split; intros [X Y]; (split; [|exact Y]); (eapply Permutation_in; [|exact X]); [exact P|symmetry; exact P].
  - clear - A. induction A as [|q j l l' [X _] _ IH]; constructor; auto.
  - intros j I. apply in_app_iff in I. destruct I as [I|[<-|[]]]; [|exact C]. clear - A I. induction A as [|q j' l l' [_ X] _ IH]; [destruct I|]. destruct I as [<-|I]; auto.
  - apply before_filter; assumption.
Qed.
(** It succeeds whenever the dependencies can be vendored and each package has its schema and is compiled without an error. *)
Theorem C154_succeeds fuel file fs g fs' : vendor fuel file fs = Ok (g, fs') ->
  (forall q, reach imports file q -> ~ part_of file q -> exists j, from fs' q j /\ compile j = true) -> compile (Main file) = true ->
  exists jobs, run fuel file fs = Ok (jobs, fs').
Proof.
  intros V A C. destruct (vendor_graph _ _ _ _ _ V) as (_ & _ & D & _ & r & R & P & _).
  assert (X : exists js, Forall2 (fun q j => from fs' q j /\ compile j = true) (filter (fun q => negb (containsSub file q)) r) js).
  { assert (Y : forall q, In q (filter (fun q => negb (containsSub file q)) r) -> exists j, from fs' q j /\ compile j = true).
    { intros q I. apply kept_iff in I. destruct I as [I NI]. apply A; [|exact NI]. apply D. eapply Permutation_in; [exact P|exact I]. }
    induction (filter _ r) as [|q l IH]; [exists []; constructor|]. destruct (Y q (or_introl eq_refl)) as [j J]. destruct IH as [js IH]; [intros q' I; apply Y; right; exact I|].
    exists (j :: js). constructor; assumption. }
  destruct X as [js X]. exists (js ++ [Main file]). apply run_iff. exists g, r, js. auto.
Qed.

(** What is in the directory of a package in the vendor directory behind the vendoring. *)
Lemma put_keys {A} k (a : A) m f : In f (map fst (put k a m)) <-> f = k \/ In f (map fst m).
Proof.
  induction m as [|[q b] m IH]; cbn [put map fst In]; [intuition congruence|]. destruct (bytes_eqb k q) eqn:E; cbn [map fst In].
  - apply same_iff in E. subst q. intuition congruence.
  - rewrite IH. intuition congruence.
Qed.
Lemma vendor_keys g : forall fs f, In f (map fst (createVendorStructure dec vendorDir g fs)) ->
  In f (map fst fs) \/ exists q n, In (q, n) g /\ n.(n_vendor) = true /\ (f = place vendorDir q \/ f = modPlace vendorDir q).
Proof.
  unfold createVendorStructure. induction g as [|[q n] g IH]; cbn [fold_left]; intros fs f H; [left; exact H|]. cbn [fst snd] in H. apply IH in H. destruct H as [H|(q' & n' & I & V & X)].
  - destruct (n_vendor n) eqn:V; [|left; exact H]. unfold vendorPackage in H. destruct (n_module n); rewrite ?put_keys in H.
    + destruct H as [H|[H|H]]; [right; exists q, n|right; exists q, n|left; exact H]; (split; [left; reflexivity|]); auto.
    + destruct H as [H|H]; [right; exists q, n|left; exact H]. split; [left; reflexivity|]. auto.
  - right. exists q', n'. split; [right; exact I|]. auto.
Qed.
Lemma slash_eq : forall a b x y : bytes, a ++ 47 :: x = b ++ 47 :: y -> ~ In 47 x -> ~ In 47 y -> a = b /\ x = y.
Proof.
  induction a as [|c a IH]; intros [|d b] x y H X Y; cbn [app] in H.
  - injection H as ->. auto.
  - injection H as <- ->. exfalso. apply X. apply in_app_iff. right. left. reflexivity.
  - injection H as -> <-. exfalso. apply Y. apply in_app_iff. right. left. reflexivity.
  - injection H as <- H. destruct (IH b x y H X Y) as [-> ->]. auto.
Qed.
Lemma last_no_slash : forall s, ~ In 47 (last (splitAt 47 s) []).
Proof.
  assert (W : forall n s, (length s <= n)%nat -> ~ In 47 (last (splitAt 47 s) [])).
  { induction n as [|n IH]; intros s L; [destruct s; [intros []|cbn in L; lia]|].
    destruct (splitAt 47 s) as [|w ws] eqn:E; [intros []|]. destruct (splitAt_inv _ _ _ _ E) as (NW & [[-> _]|(q & -> & Q)]); [exact NW|].
    assert (LQ : last (w :: ws) [] = last (splitAt 47 q) []) by (rewrite Q; destruct ws; [exfalso; exact (splitAt_ne _ _ Q)|reflexivity]). rewrite LQ. apply IH.
    rewrite app_length in L. cbn [length] in L. lia. }
  intros s. exact (W (length s) s (Nat.le_refl _)).
Qed.
Lemma place_schema q q' : schema_in (vendorDir ++ lit "/" ++ q) (place vendorDir q') <-> q' = q.
Proof.
  unfold schema_in, place. change (lit "/") with [47].
  assert (L : ~ In 47 (last (splitAt 47 q') [] ++ lit ".claw")).
  { intros I. apply in_app_iff in I. destruct I as [I|I]; [exact (last_no_slash _ I)|vm_compute in I; lia]. }
  split.
  - intros (n & E & NS & _). rewrite <- !app_assoc in E. do 2 apply app_inv_head in E. cbn [app] in E. apply slash_eq in E; [|exact L|exact NS]. apply E.
  - intros ->. exists (last (splitAt 47 q) [] ++ lit ".claw"). split; [rewrite <- !app_assoc; reflexivity|]. split; [exact L|]. eexists; reflexivity.
Qed.
Lemma mod_no_schema q q' : ~ schema_in (vendorDir ++ lit "/" ++ q) (modPlace vendorDir q').
Proof.
  intros (n & E & NS & (a & ->)). unfold modPlace in E. apply (f_equal (@rev Z)) in E. rewrite !rev_app_distr in E. cbn in E. discriminate.
Qed.

(** A package from outside, where no other schema is left in its directory from before, is compiled from what was fetched. *)
Theorem C154_outside fuel file fs jobs fs' q n : run fuel file fs = Ok (jobs, fs') -> reach imports file q -> load q = Ok n -> n.(n_vendor) = true ->
  ~ starts repo q -> ~ part_of file q -> (forall f, In f (map fst fs) -> schema_in (vendorDir ++ lit "/" ++ q) f -> f = place vendorDir q) ->
  In (Vendored (place vendorDir q)) jobs /\ get (place vendorDir q) fs' = Some n.(n_content).
Proof.
  intros H R L V NR NP U. pose proof H as H0. destruct (C154_compiled _ _ _ _ _ H) as (r & js & -> & _ & IR & F & _ & _).
  apply run_iff in H0. destruct H0 as (g & r0 & js0 & VE & _ & _ & _ & _). destruct (vendor_graph _ _ _ _ _ VE) as (N & G & _ & -> & _).
  assert (GP : get (place vendorDir q) (createVendorStructure dec vendorDir g fs) = Some n.(n_content)).
  { apply (vendored_files dec readDir readFile join inRepo abs getClawFile importsOf parseMod vendorDir g N fs); [|exact V]. apply G. auto. }
  split; [|exact GP]. apply in_app_iff. left.
  assert (Q : In q r) by (apply IR; auto). clear IR H. induction F as [|q' j r js X F IH]; [destruct Q|]. destruct Q as [->|Q]; [|right; apply IH; exact Q]. left.
  destruct X as [[X _]|(_ & f & _ & _ & UF & ->)]; [contradiction|]. f_equal. symmetry. apply UF; [|apply place_schema; reflexivity]. apply in_map_iff. exists (place vendorDir q, n.(n_content)). split; [reflexivity|apply get_in; exact GP].
Qed.
(** A package that is not vendored, because a replacement makes it a local path or because it is in the git repository,
    and that is not in the workspace, cannot be compiled: its schema is looked for in the vendor directory. *)
Theorem C154_not_vendored fuel file fs q n : reach imports file q -> load q = Ok n -> n.(n_vendor) = false -> ~ starts repo q -> ~ part_of file q ->
  (forall f, In f (map fst fs) -> ~ schema_in (vendorDir ++ lit "/" ++ q) f) -> forall jobs fs', run fuel file fs <> Ok (jobs, fs').
Proof.
  intros R L V NR NP U jobs fs' H. pose proof H as H0. destruct (C154_compiled _ _ _ _ _ H) as (r & js & -> & _ & IR & F & _ & _).
  apply run_iff in H0. destruct H0 as (g & r0 & js0 & VE & _ & _ & _ & _). destruct (vendor_graph _ _ _ _ _ VE) as (N & G & _ & -> & _).
  assert (Q : In q r) by (apply IR; auto). clear IR H. induction F as [|q' j r js X F IH]; [destruct Q|]. destruct Q as [->|Q]; [|apply IH; exact Q].
  destruct X as [[X _]|(_ & f & I & S & _)]; [contradiction|]. apply vendor_keys in I. destruct I as [I|(q2 & n2 & I & V2 & [->| ->])].
  - exact (U f I S).
  - apply place_schema in S. subst q2. apply G in I. destruct I as [_ I]. rewrite L in I. injection I as <-. congruence.
  - exact (mod_no_schema _ _ S).
Qed.
End World.

(** ** Cases *)
(** The app imports a library from outside, which imports a base, and the parts of the own workspace. *)
Definition P_ : bytes := lit "github.com/a/mono/parts".
Definition own_files (p : bytes) : option bytes :=
  if p =b "/w/app/app.claw" then Some (lit "app") else if p =b "/w/parts/parts.claw" then Some (lit "parts") else
  if p =b "/w/old/old.claw" then Some (lit "base") else None.
Definition own_dirs (p : bytes) : option (list bytes) :=
  if p =b "/w/parts" then Some [lit "parts.claw"; lit "parts.go"] else if p =b "/w/old" then Some [lit "old.claw"] else None.
Definition app_imports (c : bytes) : option (list bytes) :=
  if c =b "app" then Some [B_; P_] else if c =b "lib" then Some [C_] else Some [].
Definition compile_it (ok : job -> bool) (local : list replace) :=
  handleCompile dec0 own_dirs own_files joinAt true (InRepo (lit "github.com/a/mono")) (fun _ => Some (lit "/w/parts")) fetchAt app_imports (fun _ => None)
    (lit "/w/vendor") (lit "/w") (lit "github.com/a/mono") (fun l => l) ok 9 (mkMod A_ [] [] []) local (lit "/w/app/app.claw").
Example app_compiled : compile_it (fun _ => true) [] [] =
  Ok ([Local (lit "/w/parts/parts.claw"); Vendored (lit "/w/vendor/github.com/b/lib/lib.claw"); Vendored (lit "/w/vendor/github.com/c/base/base.claw"); Main (lit "/w/app/app.claw")],
    [(lit "/w/vendor/github.com/b/lib/lib.claw", lit "lib"); (lit "/w/vendor/github.com/c/base/base.claw", lit "base")]).
Proof. vm_compute. reflexivity. Qed.
Example app_reaches : reach (imports own_dirs own_files joinAt true (InRepo (lit "github.com/a/mono")) (fun _ => Some (lit "/w/parts")) fetchAt app_imports (fun _ => None) (mkMod A_ [] [] []) []) (lit "/w/app/app.claw") C_ /\
  ~ starts (lit "github.com/a/mono") C_ /\ ~ part_of (lit "/w/app/app.claw") C_.
Proof.
  split; [|split].
  - eapply re_step; [eexists; split; [vm_compute; reflexivity|left; reflexivity]|]. eapply re_step; [eexists; split; [vm_compute; reflexivity|left; reflexivity]|apply re_here].
  - intros X. apply prefix_iff in X. discriminate X.
  - intros X. apply contains_iff in X. discriminate X.
Qed.
Example one_fails : compile_it (fun j => match j with Local _ => false | _ => true end) [] [] = Err.
Proof. vm_compute. reflexivity. Qed.
(** With the library replaced by a directory, as local.replace is there for, the dependencies are vendored, but the
    compilation ends with an error. *)
Theorem C154_replaced_refuted : exists local, (exists x, VendorDependencies dec0 own_dirs own_files joinAt true (InRepo (lit "github.com/a/mono")) (fun _ => Some (lit "/w/parts")) fetchAt app_imports (fun _ => None)
    (lit "/w/vendor") 9 (mkMod A_ [] [] []) (lit "github.com/a/mono") local (lit "/w/app/app.claw") [] = Ok x) /\
  forall ok, compile_it ok local [] = Err.
Proof.
  exists [mkRep B_ (lit "/w/old")]. split; [eexists; vm_compute; reflexivity|]. intros ok. vm_compute. destruct (ok _); reflexivity.
Qed.
(** With a copy left in the vendor directory from before, that copy is compiled, not the replacement. *)
Theorem C154_stale_refuted : exists local fs jobs fs', In (lit "/w/vendor/github.com/b/lib/lib.claw", lit "lib") fs /\ compile_it (fun _ => true) local fs = Ok (jobs, fs') /\
  In (Vendored (lit "/w/vendor/github.com/b/lib/lib.claw")) jobs /\ get (lit "/w/vendor/github.com/b/lib/lib.claw") fs' = Some (lit "lib") /\
  stands_for [] local B_ (lit "/w/old") /\ own_files (lit "/w/old/old.claw") = Some (lit "base").
Proof.
  exists [mkRep B_ (lit "/w/old")], [(lit "/w/vendor/github.com/b/lib/lib.claw", lit "lib")]. eexists _, _. split; [left; reflexivity|].
  split; [vm_compute; reflexivity|]. split; [right; left; reflexivity|]. split; [vm_compute; reflexivity|]. split; [|vm_compute; reflexivity].
  left. exists [], []. split; [reflexivity|]. intros r [].
Qed.

Print Assumptions C154_compiled.
Print Assumptions C154_succeeds.
Print Assumptions C154_outside.
Print Assumptions C154_not_vendored.
Print Assumptions C154_replaced_refuted.
Print Assumptions C154_stale_refuted.
