(** C153: clawc get. *)
From Coq Require Import ZArith List Bool String Lia.
Import ListNotations.
From Verif.Model Require Import Base Utf8 Field Any ClawText Idl ClawMod Vendor VendorGet.
From Verif.Spec Require Import Text Idl ClawText ClawMod Vendor VendorFind.
From Verif.Proofs Require Import BaseLemmas IngestProofs IdlBase IdlText ClawMod Vendor VendorFind VendorGet.
From Verif.Properties Require Import ClawMod Vendor.
Local Open Scope Z_scope.

Section World.
(** fmt's %d, the file system, git, the fetching of packages and the parsers: see Model/Vendor.v. *)
Variable dec : Z -> bytes.
Variable readDir : bytes -> option (list bytes).
Variable readFile : bytes -> option bytes.
Variable join : bytes -> bytes -> bytes.
Variable inRepo : bytes -> bool.
Variable abs : bytes -> option bytes.
Variable getClawFile : bytes -> bytes -> option bytes.
Variable importsOf : bytes -> option (list bytes).
Variable parseMod : bytes -> option module.
Variable vendorDir : bytes.
(** What was asked for, and the files of the root: None if there is none or it cannot be read. *)
Variable p version : bytes.
Variable rootFile : option module.
Variable localFile : option (list replace).
Definition the_root : module := match rootFile with Some m => m | None => mkMod (lit "local") [] [] [] end.
Definition the_local : list replace := match localFile with Some l => l | None => [] end.
(** The version to fetch: the one asked for, and for other packages the one the root requires. *)
Definition wanted (q : bytes) : bytes := if bytes_eqb q p then version else resolveVersion dec the_root.(m_required) q.
Notation get_it hasGit := (VendorSingleDependency dec readDir readFile join hasGit inRepo abs getClawFile importsOf parseMod vendorDir).

(** What is found for a package: schema, imports and module file. *)
Definition found (q : bytes) (c : bytes) (ds : list bytes) (m : option module) : Prop :=
  exists a w, stands_for the_root.(m_replace) the_local q a /\
    schema_of readDir readFile join true inRepo abs (fun r => getClawFile r (wanted q)) a c w /\ importsOf c = Some ds /\
    (on_disk a -> m = match readFile (join a (lit "claw.mod")) with Some c => parseMod c | None => None end) /\
    (~ on_disk a -> m = None).
Definition found_imports (q r : bytes) : Prop := exists c ds m, found q c ds m /\ In r ds.
Notation ld := (loadSingle readDir readFile join true inRepo abs getClawFile importsOf parseMod the_root the_local).
Notation load := (at_version dec ld the_root.(m_required) p version).

Lemma load_found q n : load q = Ok n <-> found q n.(n_content) n.(n_deps) n.(n_module) /\ n.(n_vendor) = true.
Proof.
  unfold at_version. fold (wanted q).
  assert (S : ld q (wanted q) = (n <- loadNode readDir readFile join true inRepo abs (fun r _ => getClawFile r (wanted q)) importsOf parseMod the_root the_local q [] ;; Ok (mkNode n.(n_deps) n.(n_content) n.(n_module) true))).
  { unfold loadSingle, loadNode. cbn [negb andb]. destruct (isLocalPath (applyReplace the_root the_local q)).
    - destruct (getLocalClawFile _ _ _ _) as [c| | |]; cbn [bind]; auto. destruct (lift (importsOf c)); reflexivity.
    - destruct (inRepo _).
      + destruct (lift (abs _)) as [a| | |]; cbn [bind]; auto. destruct (getLocalClawFile _ _ _ _) as [c| | |]; cbn [bind]; auto. destruct (lift (importsOf c)); reflexivity.
      + destruct (lift (getClawFile _ _)) as [c| | |]; cbn [bind]; auto. destruct (lift (importsOf c)); reflexivity. }
  rewrite S. split.
  - intros H. destruct (loadNode _ _ _ _ _ _ _ _ _ _ _ _ _) as [n0| | |] eqn:L; try discriminate. cbn [bind] in H. injection H as <-. cbn.
    apply C98_found in L. destruct L as (a & A & B & C). split; [|reflexivity]. exists a, n0.(n_vendor). auto.
  - intros [(a & w & A & B & C) V]. destruct n as [ds c m v]. cbn [n_content n_deps n_module n_vendor] in *. subst v.
    assert (L : loadNode readDir readFile join true inRepo abs (fun r _ => getClawFile r (wanted q)) importsOf parseMod the_root the_local q [] = Ok (mkNode ds c m w)).
    { apply C98_found. exists a. auto. }
    rewrite L. reflexivity.
Qed.
Notation E := (fun p q => exists n, load p = Ok n /\ In q n.(n_deps)).
Lemma edge_iff q r : E q r <-> found_imports q r.
Proof.
  split.
  - intros (n & L & I). apply load_found in L. destruct L as [L _]. exists n.(n_content), n.(n_deps), n.(n_module). auto.
  - intros (c & ds & m & F & I). exists (mkNode ds c m true). split; [|exact I]. apply load_found. auto.
Qed.
Lemma reach_iff q r : reach E q r <-> reach found_imports q r.
Proof.
  split; intros R; induction R; try (constructor; fail).
  - eapply re_step; [apply edge_iff; eassumption|assumption].
  - eapply re_step; [apply (proj2 (edge_iff _ _)); eassumption|assumption].
Qed.
Lemma cycle_iff q : cycle_from E q <-> cycle_from found_imports q.
Proof.
  split; intros (x & y & A & B & C); exists x, y.
  - split; [apply reach_iff; exact A|]. split; [apply edge_iff; exact B|apply reach_iff; exact C].
  - split; [apply reach_iff; exact A|]. split; [apply (proj2 (edge_iff _ _)); exact B|apply reach_iff; exact C].
Qed.
Lemma all_vendored g fs : (forall q n, In (q, n) g -> n.(n_vendor) = true) ->
  fold_left (fun fs e => vendorPackage dec vendorDir (fst e) (snd e) fs) g fs = createVendorStructure dec vendorDir g fs.
Proof.
  unfold createVendorStructure. revert fs. induction g as [|[q n] g IH]; intros fs H; cbn [fold_left]; [reflexivity|].
  cbn [fst snd]. rewrite (H q n (or_introl eq_refl)). apply IH. intros q' n' I. apply (H q' n'). right. exact I.
Qed.

(** After clawc get, the package, at the version asked for, and each package that is imported by it, directly or not, is
    in its place in the vendor directory as it was found, packages of this repository too; no other file has changed;
    none of them imports itself; and each that has an access list admits the root. *)
Theorem C153_got fuel fs fs' : get_it true fuel rootFile localFile p version fs = Ok fs' ->
  (forall q, reach found_imports p q -> exists c ds m, found q c ds m) /\
  (forall q c ds m, reach found_imports p q -> found q c ds m -> get (place vendorDir q) fs' = Some c) /\
  (forall f, (forall q, reach found_imports p q -> f <> place vendorDir q /\ f <> modPlace vendorDir q) -> get f fs' = get f fs) /\
  (forall q c ds m, reach found_imports p q -> found q c ds (Some m) -> exists acl, In acl m.(m_acls) /\ entry_admits_loosely acl the_root.(m_path)) /\
  ~ cycle_from found_imports p.
Proof.
  unfold VendorSingleDependency. change (match rootFile with Some m => m | None => minimal end) with the_root. fold the_local. rewrite single_search. intros H.
  destruct (search load fuel [] p []) as [g| | |] eqn:B; try discriminate. cbn [bind] in H.
  destruct (validateACLs (m_path the_root) _) as [[]| | |] eqn:V; try discriminate. cbn [bind] in H. injection H as <-.
  destruct (build_ok _ _ _ _ B) as (N & G & D & C & _).
  assert (IG : forall q n, In (q, n) g <-> reach E p q /\ load q = Ok n).
  { intros q n. rewrite <- G. split; [apply in_get; exact N|apply get_in]. }
  rewrite all_vendored by (intros q n I; apply IG in I; destruct I as [_ I]; apply load_found in I; apply I).
  destruct (vendored_files dec readDir readFile join inRepo abs getClawFile importsOf parseMod vendorDir g N fs) as [F1 F2].
  split; [|split; [|split; [|split]]].
  - intros q R. apply reach_iff in R. apply D in R. apply get_dom in R. destruct R as [n X]. apply G in X. destruct X as [_ X].
    apply load_found in X. destruct X as [X _]. exists n.(n_content), n.(n_deps), n.(n_module). exact X.
  - intros q c ds m R F. rewrite (F1 q (mkNode ds c m true)); [reflexivity| |reflexivity]. apply IG. split; [apply reach_iff; exact R|]. apply load_found. auto.
  - intros f X. apply F2. intros q n I _. apply IG in I. destruct I as [I _]. apply X. apply reach_iff. exact I.
  - intros q c ds m R F. rewrite C95_all in V. apply V. apply in_map_iff. exists (q, mkNode ds c (Some m) true). split; [reflexivity|].
    apply IG. split; [apply reach_iff; exact R|]. apply load_found. auto.
  - intros X. apply C. apply cycle_iff. exact X.
Qed.
Lemma acls_end c l : ends (validateACLs c l).
Proof.
  induction l as [|[m|] l IH]; cbn [validateACLs]; [left; eauto| |exact IH].
  unfold checkACLPermission, ok_if. repeat match goal with |- context [if ?b then _ else _] => destruct b end; cbn [bind]; try exact IH; right; reflexivity.
Qed.
(** If finitely many packages are imported, it ends, and it succeeds exactly if all are found, none imports itself and
    all access lists admit the root. *)
Theorem C153_exact fuel fs U : finite_from found_imports p U -> (length U < fuel)%nat ->
  ends (get_it true fuel rootFile localFile p version fs) /\
  ((exists fs', get_it true fuel rootFile localFile p version fs = Ok fs') <->
   (forall q, reach found_imports p q -> exists c ds m, found q c ds m) /\ ~ cycle_from found_imports p /\
   (forall q c ds m, reach found_imports p q -> found q c ds (Some m) -> exists acl, In acl m.(m_acls) /\ entry_admits_loosely acl the_root.(m_path))).
Proof.
  intros F L. assert (FU : finite_from E p U) by (intros x R; apply F, reach_iff, R).
  assert (LE : forall q, ends (load q)) by (intros q; apply single_ends; reflexivity).
  assert (S : forall x, get_it true fuel rootFile localFile p version fs = x -> x = get_it true fuel rootFile localFile p version fs) by auto.
  unfold VendorSingleDependency. change (match rootFile with Some m => m | None => minimal end) with the_root. fold the_local. rewrite single_search.
  destruct (process_end load LE U p fuel [] p [] FU (re_here _ _) (NoDup_nil _)) as [[g B]|[B BAD]]; [intros q []|intros q []|cbn [length]; lia| |]; rewrite B; cbn [bind].
  - destruct (build_ok _ _ _ _ B) as (N & G & D & C & _).
    assert (IG : forall q n, In (q, n) g <-> reach E p q /\ load q = Ok n).
    { intros q n. rewrite <- G. split; [apply in_get; exact N|apply get_in]. }
    destruct (validateACLs (m_path the_root) _) as [[]| | |] eqn:V; cbn [bind].
    + split; [left; eauto|]. split; [intros _|eauto]. split; [|split].
      * intros q R. apply reach_iff in R. apply D in R. apply get_dom in R. destruct R as [n X]. apply G in X. destruct X as [_ X].
        apply load_found in X. destruct X as [X _]. exists n.(n_content), n.(n_deps), n.(n_module). exact X.
      * intros X. apply C. apply cycle_iff. exact X.
      * intros q c ds m R X. rewrite C95_all in V. apply V. apply in_map_iff. exists (q, mkNode ds c (Some m) true). split; [reflexivity|].
        apply IG. split; [apply reach_iff; exact R|]. apply load_found. auto.
    + assert (NV : validateACLs the_root.(m_path) (map (fun e => (snd e).(n_module)) g) <> Ok tt) by congruence.
      split; [right; reflexivity|]. split; [intros [? X]; discriminate|]. intros (_ & _ & A). exfalso. apply NV. apply C95_all.
      intros m I. apply in_map_iff in I. destruct I as ([q n] & X & I). cbn [snd] in X. apply IG in I. destruct I as [R I]. apply load_found in I. destruct I as [I _].
      rewrite X in I. apply (A q _ _ m (proj1 (reach_iff _ _) R) I).
    + destruct (acls_end the_root.(m_path) (map (fun e => (snd e).(n_module)) g)) as [[? X]|X]; congruence.
    + destruct (acls_end the_root.(m_path) (map (fun e => (snd e).(n_module)) g)) as [[? X]|X]; congruence.
  - split; [right; reflexivity|]. split; [intros [? X]; discriminate|]. intros (A & C & _). exfalso. destruct BAD as [X|(q & R & X)].
    + apply C. apply cycle_iff. exact X.
    + apply X. destruct (A q (proj1 (reach_iff _ _) R)) as (c & ds & m & FQ). exists (mkNode ds c m true). apply load_found. auto.
Qed.

(** Outside of a git repository clawc get of a package panics, unless a replacement makes it a local path. *)
Theorem C153_no_git fuel fs : ~ (exists a, stands_for the_root.(m_replace) the_local p a /\ on_disk a) ->
  get_it false (S fuel) rootFile localFile p version fs = Panic.
Proof.
  intros H. unfold VendorSingleDependency. change (match rootFile with Some m => m | None => minimal end) with the_root. fold the_local. cbn [processSingle memb existsb get]. unfold loadSingle.
  destruct (isLocalPath (applyReplace the_root the_local p)) eqn:L; [|reflexivity]. exfalso. apply H.
  exists (applyReplace the_root the_local p). split; [apply apply_iff; reflexivity|apply local_iff; exact L].
Qed.
End World.

(** The library is asked for at v1.2.3; the base it imports is required at a commit; the world has each at that version only. *)
Definition fetchWant (p v : bytes) : option bytes :=
  if bytes_eqb p B_ && (v =b "v1.2.3") then Some (lit "lib") else if bytes_eqb p C_ && (v =b "c0ffee") then Some (lit "base") else None.
Definition get_mod : module := mkMod A_ [mkReq C_ (mkVer 0 0 0) (lit "c0ffee")] [mkRep L_ (lit "../old")] [].
Definition getIn (git : bool) := VendorSingleDependency dec0 dirAt fileAt joinAt git (InRepo (lit "github.com/a/mono")) (fun p => Some p) fetchWant importsAt modAt (lit "/w/vendor") 9.
Example lib_got : getIn true (Some get_mod) None B_ (lit "v1.2.3") [] =
  Ok [(lit "/w/vendor/github.com/b/lib/lib.claw", lit "lib"); (lit "/w/vendor/github.com/c/base/base.claw", lit "base")].
Proof. vm_compute. reflexivity. Qed.
Example old_got : exists fs, getIn true (Some get_mod) None L_ (lit "v1.0.0") [] = Ok fs /\ get (lit "/w/vendor/github.com/l/old/old.claw") fs = Some (lit "old").
Proof. eexists. split; vm_compute; reflexivity. Qed.
(** Without the claw.mod, for whatever reason, nothing is required, and the base is asked for at no version. *)
Example lib_unread : getIn true None None B_ (lit "v1.2.3") [] = Err.
Proof. vm_compute. reflexivity. Qed.
(** Outside of a git repository the same command panics. *)
Theorem C153_no_git_refuted : exists root p version fs, getIn true root None p version fs <> Err /\ getIn false root None p version fs = Panic.
Proof. exists (Some get_mod), B_, (lit "v1.2.3"), []. split; vm_compute; [discriminate|reflexivity]. Qed.
Notation worldImports := (found_imports dec0 dirAt fileAt joinAt (InRepo (lit "github.com/a/mono")) (fun p => Some p) fetchWant importsAt modAt B_ (lit "v1.2.3") (Some get_mod) None).
Example lib_finite : exists U, finite_from worldImports B_ U /\ (length U < 9)%nat.
Proof.
  exists [B_; C_]. split; [|cbn; lia].
  assert (Q : forall x y, reach worldImports x y -> In x [B_; C_] -> In y [B_; C_]).
  { intros x y R. induction R as [|x y z S _ IH]; [auto|]. intros I. apply IH. apply edge_iff in S. destruct S as (n & S & J).
    destruct I as [<-|[<-|[]]]; vm_compute in S; injection S as <-; cbn [n_deps] in J.
    - destruct J as [<-|[]]. right. left. reflexivity.
    - destruct J. }
  intros x R. apply (Q _ _ R). left. reflexivity.
Qed.

Print Assumptions C153_got.
Print Assumptions C153_exact.
Print Assumptions C153_no_git.
