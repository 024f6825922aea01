(** C98 to C104: the packages a compilation is made of. *)
From Coq Require Import ZArith List Bool String Lia Permutation.
Import ListNotations.
From Verif.Model Require Import Base Utf8 Field Any ClawText Idl ClawMod Vendor.
From Verif.Spec Require Import Text Idl ClawText ClawMod Vendor VendorFind.
From Verif.Proofs Require Import BaseLemmas IngestProofs IdlBase IdlText ClawMod Vendor VendorRead VendorFind.
From Verif.Properties Require Import Idl IdlText ClawMod.
Local Open Scope Z_scope.

Section World.
(** fmt's %d, the file system, git, the fetching of packages and the parsers: see Model/Vendor.v. *)
Variable dec : Z -> bytes.
Variable readDir : bytes -> option (list bytes).
Variable readFile : bytes -> option bytes.
Variable join : bytes -> bytes -> bytes.
Variable hasGit : bool.
Variable inRepo : bytes -> bool.
Variable abs : bytes -> option bytes.
Variable getClawFile : bytes -> bytes -> option bytes.
Variable importsOf : bytes -> option (list bytes).
Variable parseMod : bytes -> option module.
Variable vendorDir : bytes.
(** The claw.mod and the local.replace of the root; no claw.mod that can be read has required versions (C94). *)
Variable root : module.
Variable local : list replace.
Hypothesis none_required : root.(m_required) = [].
Notation load p := (loadNode readDir readFile join hasGit inRepo abs getClawFile importsOf parseMod root local p []).
Notation build := (buildDependencyGraph dec readDir readFile join hasGit inRepo abs getClawFile importsOf parseMod).
(** A package that can be found and read imports another. *)
Definition imports (p q : bytes) : Prop := exists n, load p = Ok n /\ In q n.(n_deps).

(** ** C98: the dependency graph *)
(** It has each package that is imported, directly or not, once, with what was found for it, and no other; and no
    package imports itself. *)
Theorem C98_graph fuel p g : build fuel root local p = Ok g ->
  NoDup (map fst g) /\ (forall q n, In (q, n) g <-> reach imports p q /\ load q = Ok n) /\ (forall q, In q (map fst g) <-> reach imports p q) /\ ~ cycle_from imports p.
Proof.
  intros H. destruct (build_ok _ _ _ _ _ _ _ _ _ _ root local none_required fuel p g H) as (N & G & D & C & _). split; [exact N|]. split; [|split; [exact D|exact C]].
  intros q n. rewrite <- G. split; [apply in_get; exact N|apply get_in].
Qed.
(** If finitely many packages are imported, directly or not, the search ends, and it fails exactly if one of them cannot
    be found and read or there is a cycle. *)
Theorem C98_exact fuel p U : finite_from imports p U -> (length U < fuel)%nat ->
  ends (build fuel root local p) /\
  ((exists g, build fuel root local p = Ok g) <-> (forall q, reach imports p q -> exists n, load q = Ok n) /\ ~ cycle_from imports p).
Proof.
  intros F L. destruct (process_end dec readDir readFile join hasGit inRepo abs getClawFile importsOf parseMod root local none_required U p fuel [] p [] F) as [[g Q]|[Q B]].
  - apply re_here.
  - constructor.
  - intros q [].
  - intros v [].
  - cbn [length]. lia.
  - split; [left; exists g; exact Q|]. split; [|intros _; exists g; exact Q]. intros _.
    destruct (C98_graph fuel p g Q) as (_ & G & D & C). split; [|exact C]. intros q R. apply D in R. apply in_map_iff in R. destruct R as ((q' & n) & <- & I). exists n. apply G in I. tauto.
  - split; [right; exact Q|]. split.
    + intros [g X]. unfold buildDependencyGraph in X. rewrite Q in X. discriminate.
    + intros [A C]. exfalso. destruct B as [B|(q & R & NL)]; [exact (C B)|exact (NL (A q R))].
Qed.
(** A package that is replaced is the one it is replaced by: local.replace counts before claw.mod. *)
Theorem C98_replaced p t : replaced local p = Some t \/ (replaced local p = None /\ replaced root.(m_replace) p = Some t) -> applyReplace root local p = t.
Proof. unfold applyReplace. intros [->|[-> ->]]; reflexivity. Qed.
(** What is found for a package: the schema of the path that stands for it, from the disk if that is a path on the disk
    or in this repository, otherwise fetched; only a fetched one is to be vendored. *)
Theorem C98_found p n : load p = Ok n <->
  exists a, stands_for root.(m_replace) local p a /\
    schema_of readDir readFile join hasGit inRepo abs (fun q => getClawFile q []) a n.(n_content) n.(n_vendor) /\
    importsOf n.(n_content) = Some n.(n_deps) /\
    (on_disk a -> n.(n_module) = match readFile (join a (lit "claw.mod")) with Some c => parseMod c | None => None end) /\
    (~ on_disk a -> n.(n_module) = None).
Proof.
  rewrite load_iff. split.
  - intros (a & ds & S & F & I & D & M). exists a. subst ds. split; [exact S|]. split; [exact F|]. split; [exact I|].
    destruct (isLocalPath a) eqn:L; (split; intros H; [|]); try exact M; [apply local_iff in L; contradiction|apply local_iff in H; congruence].
  - intros (a & S & F & I & M1 & M2). exists a, n.(n_deps). split; [exact S|]. split; [exact F|]. split; [exact I|]. split; [reflexivity|].
    destruct (isLocalPath a) eqn:L; [apply M1; now apply local_iff|]. apply M2. intros H. apply local_iff in H. congruence.
Qed.
(** The version asked for is that of the first requirement of the path: its version, or its commit where it has none. *)
Theorem C98_version a r b : (forall x, In x a -> x.(rq_path) <> r.(rq_path)) ->
  (r.(rq_version) <> mkVer 0 0 0 -> resolveVersion dec (a ++ r :: b) r.(rq_path) = lit "v" ++ dec r.(rq_version).(v_major) ++ lit "." ++ dec r.(rq_version).(v_minor) ++ lit "." ++ dec r.(rq_version).(v_patch)) /\
  (r.(rq_version) = mkVer 0 0 0 -> resolveVersion dec (a ++ r :: b) r.(rq_path) = r.(rq_id)).
Proof.
  intros N. induction a as [|x a IH]; cbn [app resolveVersion].
  - rewrite (proj2 (same_iff _ _) eq_refl). unfold verZero. destruct r as [p [x y z] i]. cbn [rq_version rq_path rq_id v_major v_minor v_patch]. split.
    + intros D. destruct (x =? 0) eqn:X; [|reflexivity]. destruct (y =? 0) eqn:Y; [|reflexivity]. destruct (z =? 0) eqn:Q; [|reflexivity].
      apply Z.eqb_eq in X, Y, Q. congruence.
    + intros D. injection D as -> -> ->. reflexivity.
  - destruct (bytes_eqb (rq_path x) (rq_path r)) eqn:E; [apply same_iff in E; elim (N x (or_introl eq_refl) E)|]. apply IH. intros y H. apply N. now right.
Qed.
(** The access list that is checked is that of a package at a local path; no other package has one. *)
Theorem C98_not_local p n : load p = Ok n -> isLocalPath (applyReplace root local p) = false -> n.(n_module) = None.
Proof.
  unfold loadNode. intros H I. rewrite I in H. destruct (hasGit && inRepo (applyReplace root local p)).
  - destruct (lift (abs _)) as [a| | |]; try discriminate. cbn [bind] in H. destruct (getLocalClawFile _ _ _ a) as [c| | |]; try discriminate. cbn [bind] in H.
    destruct (lift (importsOf c)) as [ds| | |]; try discriminate. cbn [bind] in H. injection H as <-. cbn. unfold getModuleFile. rewrite I. reflexivity.
  - destruct (lift (getClawFile _ [])) as [c| | |]; try discriminate. cbn [bind] in H.
    destruct (lift (importsOf c)) as [ds| | |]; try discriminate. cbn [bind] in H. injection H as <-. cbn. unfold getModuleFile. rewrite I. reflexivity.
Qed.

(** ** C99: the order of compilation *)
(** The order of the graph that was found: each package once and before those that it imports, whatever the order in
    which the nodes are taken. *)
Theorem C99_built fuel p g nodes fuel' : build fuel root local p = Ok g -> Permutation nodes (map fst g) -> (length g < fuel')%nat ->
  exists r, GetCompilationOrder (edgesOf g) fuel' nodes = Ok r /\ Permutation r (map fst g) /\ importers_first imports r.
Proof.
  intros H P L. destruct (build_ok _ _ _ _ _ _ _ _ _ _ root local none_required fuel p g H) as (N & G & D & C & _).
  assert (EQ : forall x y, In x (map fst g) -> (In y (edgesOf g x) <-> imports x y)).
  { intros x y I. unfold edgesOf, imports. apply get_dom in I. destruct I as [n X]. rewrite X. pose proof (proj1 (G x n) X) as [_ LD]. split; [eauto|]. intros (m & M & I). rewrite LD in M. injection M as <-. exact I. }
  assert (RE : forall x y, In x (map fst g) -> reach (fun p q => In q (edgesOf g p)) x y -> reach imports x y /\ In y (map fst g)).
  { intros x y I R. induction R as [x|x y z X R IH]; [split; [apply re_here|exact I]|]. apply EQ in X; [|exact I].
    assert (Y : In y (map fst g)) by (apply D; apply D in I; eapply reach_snoc; [exact I|exact X]).
    destruct (IH Y) as [R1 R2]. split; [eapply re_step; eauto|exact R2]. }
  assert (IN : forall q, In q nodes <-> In q (map fst g)) by (intros q; split; apply Permutation_in; [|symmetry]; exact P).
  destruct (order_end (edgesOf g) (map fst g) fuel' nodes) as [[r Q]|[_ (q & I & x & y & R & X & Y)]].
  - intros q I x R. apply IN in I. exact (proj2 (RE q x I R)).
  - rewrite map_length. exact L.
  - exists r. split; [exact Q|]. destruct (order_ok _ _ _ _ Q) as (NR & IR & FR & _). split.
    + apply NoDup_Permutation; [exact NR|exact N|]. intros q. rewrite IR. split.
      * intros (z & I & R). apply IN in I. exact (proj2 (RE z q I R)).
      * intros I. exists q. split; [apply IN; exact I|apply re_here].
    + intros a x b E y Y. apply (FR a x b E). apply EQ; [|exact Y].
      assert (I : In x r) by (rewrite E; apply in_app_iff; right; left; reflexivity). apply IR in I. destruct I as (z & I & R). apply IN in I. exact (proj2 (RE z x I R)).
  - exfalso. apply IN in I. destruct (RE q x I R) as [R1 R2]. apply EQ in X; [|exact R2].
    assert (Y2 : In y (map fst g)) by (apply D; apply D in R2; eapply reach_snoc; [exact R2|exact X]).
    apply C. exists x, y. split; [apply D; exact R2|]. split; [exact X|]. exact (proj1 (RE y x Y2 Y)).
Qed.

(** ** C100: vendoring *)
Notation vendor := (VendorDependencies dec readDir readFile join hasGit inRepo abs getClawFile importsOf parseMod vendorDir).
Lemma place_inj p q : place vendorDir p = place vendorDir q -> p = q.
Proof.
  unfold place. intros H. apply app_inv_head in H. apply app_inv_head in H.
  assert (X : forall p q a b, p ++ [47] ++ a = q ++ [47] ++ b -> ~ In 47 a -> ~ In 47 b -> p = q).
  { clear. induction p as [|c p IH]; intros [|d q] a b H A B; cbn [app] in H.
    - reflexivity.
    - exfalso. injection H as <- H. apply A. rewrite H. apply in_app_iff. right. left. reflexivity.
    - exfalso. injection H as -> H. apply B. rewrite <- H. apply in_app_iff. right. left. reflexivity.
    - injection H as <- H. f_equal. exact (IH q a b H A B). }
  assert (Y : forall p, ~ In 47 (last (splitAt 47 p) [] ++ lit ".claw")).
  { intros r I. apply in_app_iff in I. destruct I as [I|I]; [|vm_compute in I; lia].
    assert (W : forall s, ~ In 47 (last (splitAt 47 s) [])); [|exact (W r I)]. clear.
    assert (W : forall n s, (length s <= n)%nat -> ~ In 47 (last (splitAt 47 s) [])).
    { induction n as [|n IH]; intros s L; [destruct s; [intros []|cbn in L; lia]|].
      destruct (splitAt 47 s) as [|w ws] eqn:E; [intros []|]. destruct (splitAt_inv _ _ _ _ E) as (NW & [[-> _]|(q & -> & Q)]); [exact NW|].
      assert (LQ : last (w :: ws) [] = last (splitAt 47 q) []) by (rewrite Q; destruct ws; [exfalso; exact (splitAt_ne _ _ Q)|reflexivity]). rewrite LQ. apply IH.
      rewrite app_length in L. cbn [length] in L. lia. }
    intros s. exact (W (length s) s (Nat.le_refl _)). }
  exact (X p q _ _ H (Y p) (Y q)).
Qed.
Lemma place_not_mod p q : place vendorDir p <> modPlace vendorDir q.
Proof.
  unfold place, modPlace. intros H. apply (f_equal (@rev Z)) in H. rewrite !rev_app_distr in H. cbn in H. discriminate.
Qed.
Lemma vendored_files g : NoDup (map fst g) -> forall fs,
  (forall q n, In (q, n) g -> n.(n_vendor) = true -> get (place vendorDir q) (createVendorStructure dec vendorDir g fs) = Some n.(n_content)) /\
  (forall f, (forall q n, In (q, n) g -> n.(n_vendor) = true -> f <> place vendorDir q /\ f <> modPlace vendorDir q) -> get f (createVendorStructure dec vendorDir g fs) = get f fs).
Proof.
  unfold createVendorStructure. induction g as [|[q n] g IH]; intros N fs; cbn [fold_left].
  - split; [intros q n []|reflexivity].
  - cbn [map fst] in N. inversion N as [|? ? X N']; subst. destruct (IH N' (if n.(n_vendor) then vendorPackage dec vendorDir q n fs else fs)) as [A B]. cbn [fst snd]. split.
    + intros q' n' [[= <- <-]|I] V; [|apply A; assumption]. rewrite V in *. rewrite B.
      * unfold vendorPackage. destruct (n_module n); rewrite !get_put.
        -- destruct (bytes_eqb (place vendorDir q) (modPlace vendorDir q)) eqn:Y; [apply bytes_eqb_eq in Y; exfalso; exact (place_not_mod _ _ Y)|]. rewrite beq_refl. reflexivity.
        -- rewrite beq_refl. reflexivity.
      * intros q' n' I _. split; [|apply place_not_mod]. intros Y. apply place_inj in Y. subst. apply X. apply in_map_iff. exists (q', n'). auto.
    + intros f H. rewrite B by (intros q' n' I V; apply (H q' n'); [right; exact I|exact V]). destruct (n_vendor n) eqn:V; [|reflexivity].
      destruct (H q n (or_introl eq_refl) V) as [P1 P2]. unfold vendorPackage.
      destruct (n_module n); rewrite !get_put; repeat match goal with |- context [if bytes_eqb f ?x then _ else _] => destruct (bytes_eqb f x) eqn:?; [exfalso; match goal with K : bytes_eqb f _ = true |- _ => apply bytes_eqb_eq in K end; contradiction|] end; reflexivity.
Qed.
(** After vendoring, each package from outside is in its place in the vendor directory as it was fetched, no file but
    those of such packages has changed, and each package that has an access list admits the root. *)
Theorem C100_vendored fuel repo p fs g fs' : vendor fuel root repo local p fs = Ok (g, fs') ->
  within repo root.(m_path) /\
  (forall q n, reach imports p q -> load q = Ok n -> n.(n_vendor) = true -> get (place vendorDir q) fs' = Some n.(n_content)) /\
  (forall f, (forall q n, reach imports p q -> load q = Ok n -> n.(n_vendor) = true -> f <> place vendorDir q /\ f <> modPlace vendorDir q) -> get f fs' = get f fs) /\
  (forall q n m, reach imports p q -> load q = Ok n -> n.(n_module) = Some m -> exists acl, In acl m.(m_acls) /\ entry_admits_loosely acl root.(m_path)).
Proof.
  unfold VendorDependencies. intros H. destruct (ValidateModuleInRepo (m_path root) repo) as [[]| | |] eqn:W; try discriminate. cbn [bind] in H.
  destruct (build fuel root local p) as [g0| | |] eqn:B; try discriminate. cbn [bind] in H.
  destruct (validateACLs (m_path root) _) as [[]| | |] eqn:V; try discriminate. cbn [bind] in H. injection H as <- <-.
  destruct (C98_graph fuel p g0 B) as (N & G & D & C). destruct (vendored_files g0 N fs) as [F1 F2]. split; [apply C96_within; exact W|]. split; [|split].
  - intros q n R L. apply F1. apply G. auto.
  - intros f X. apply F2. intros q n I. apply G in I. destruct I. apply X; assumption.
  - intros q n m R L M. rewrite C95_all in V. apply V. rewrite <- M. apply in_map_iff. exists (q, n). split; [reflexivity|]. apply G. auto.
Qed.
(** What is from outside: what is, behind the replacements, neither a local path nor in the repository. *)
Theorem C100_outside q n : load q = Ok n ->
  n.(n_vendor) = negb (isLocalPath (applyReplace root local q)) && negb (hasGit && inRepo (applyReplace root local q)).
Proof.
  unfold loadNode. intros H. destruct (isLocalPath (applyReplace root local q)).
  - destruct (getLocalClawFile _ _ _ _) as [c| | |]; try discriminate. cbn [bind] in H. destruct (lift (importsOf c)) as [ds| | |]; try discriminate. cbn [bind] in H. injection H as <-. reflexivity.
  - destruct (hasGit && inRepo (applyReplace root local q)).
    + destruct (lift (abs _)) as [a| | |]; try discriminate. cbn [bind] in H. destruct (getLocalClawFile _ _ _ a) as [c| | |]; try discriminate. cbn [bind] in H.
      destruct (lift (importsOf c)) as [ds| | |]; try discriminate. cbn [bind] in H. injection H as <-. reflexivity.
    + destruct (lift (getClawFile _ [])) as [c| | |]; try discriminate. cbn [bind] in H. destruct (lift (importsOf c)) as [ds| | |]; try discriminate. cbn [bind] in H. injection H as <-. reflexivity.
Qed.
End World.
Print Assumptions C98_graph.
Print Assumptions C98_exact.
Print Assumptions C98_replaced.
Print Assumptions C98_not_local.
Print Assumptions C98_found.
Print Assumptions C98_version.
Print Assumptions C99_built.
Print Assumptions C100_vendored.
Print Assumptions C100_outside.

(** ** C99: the order of any graph *)
Section Order.
Variable edges : bytes -> list bytes.
Notation E := (fun p q => In q (edges p)).
Theorem C99_order fuel nodes r : GetCompilationOrder edges fuel nodes = Ok r ->
  NoDup r /\ (forall q, In q r <-> exists p, In p nodes /\ reach E p q) /\ importers_first E r.
Proof. intros H. destruct (order_ok edges fuel nodes r H) as (A & B & C & _). auto. Qed.
(** There is an order exactly if there is no cycle. *)
Theorem C99_exact fuel nodes U : (forall p, In p nodes -> finite_from E p U) -> (length U < fuel)%nat ->
  ends (GetCompilationOrder edges fuel nodes) /\
  ((exists r, GetCompilationOrder edges fuel nodes = Ok r) <-> forall p, In p nodes -> ~ cycle_from E p).
Proof.
  intros F L. destruct (order_end edges U fuel nodes F L) as [[r Q]|[Q (p & I & C)]].
  - split; [left; eauto|]. split; [intros _; destruct (order_ok edges fuel nodes r Q) as (_ & _ & _ & X); exact X|eauto].
  - split; [right; exact Q|]. split; [intros [r X]; congruence|]. intros H. exfalso. exact (H p I C).
Qed.
End Order.
Print Assumptions C99_order.
Print Assumptions C99_exact.

(** ** C101: reading the imports; C102: reading them from the vendor directory *)
Section Read.
Context {F : Type}.
(** The schema of a package if it can be found, parsed and is valid; the paths it imports. *)
Variable load : bytes -> option F.
Variable importsOf : F -> list bytes.
(** The path in claw.mod and the root schema. *)
Variable module : bytes.
Variable root : F.
(** The schema under a path: the root under its own. *)
Definition schema (p : bytes) : option F := if bytes_eqb p module then Some root else load p.
Definition schema_imports (p q : bytes) : Prop := exists f, schema p = Some f /\ In q (importsOf f).
Theorem C101_read fuel m : Read load importsOf fuel module root = Ok m ->
  NoDup (map fst m) /\ (forall q f, get q m = Some f <-> reach schema_imports module q /\ schema q = Some f) /\
  (forall q, reach schema_imports module q -> exists f, schema q = Some f) /\ ~ cycle_from schema_imports module.
Proof. apply Read_ok. Qed.
Theorem C101_exact fuel U : finite_from schema_imports module U -> (length U <= fuel)%nat ->
  ends (Read load importsOf fuel module root) /\
  ((exists m, Read load importsOf fuel module root = Ok m) <-> (forall q, reach schema_imports module q -> exists f, schema q = Some f) /\ ~ cycle_from schema_imports module).
Proof.
  intros FU L. destruct (Read_end importsOf load module root U fuel FU L) as [[m Q]|[Q B]].
  - split; [left; eauto|]. split; [|eauto]. intros _. destruct (C101_read fuel m Q) as (_ & _ & A & C). auto.
  - split; [right; exact Q|]. split; [intros [m X]; congruence|]. intros [A C]. exfalso. destruct B as [B|(q & R & NL)]; [exact (C B)|]. destruct (A q R) as [f X]. fold (schema q) in NL. unfold world in NL. unfold schema in X. congruence.
Qed.
Theorem C102_read fuel m : ReadVendored load importsOf fuel module root = Ok m ->
  NoDup (map fst m) /\ (forall q f, get q m = Some f <-> reach schema_imports module q /\ schema q = Some f) /\
  (forall q, reach schema_imports module q -> exists f, schema q = Some f) /\ ~ exists d, schema_imports module d /\ reach schema_imports d module.
Proof. apply ReadV_ok. Qed.
(** Only a cycle through the root is found. *)
Theorem C102_exact fuel U : finite_from schema_imports module U -> (length U <= fuel)%nat ->
  ends (ReadVendored load importsOf fuel module root) /\
  ((exists m, ReadVendored load importsOf fuel module root = Ok m) <->
   (forall q, reach schema_imports module q -> exists f, schema q = Some f) /\ ~ exists d, schema_imports module d /\ reach schema_imports d module).
Proof.
  intros FU L. destruct (ReadV_end importsOf load module root U fuel FU L) as [[m Q]|[Q B]].
  - split; [left; eauto|]. split; [|eauto]. intros _. destruct (C102_read fuel m Q) as (_ & _ & A & C). auto.
  - split; [right; exact Q|]. split; [intros [m X]; congruence|]. intros [A C]. exfalso. destruct B as [B|(q & R & NL)]; [exact (C B)|]. destruct (A q R) as [f X]. unfold world in NL. unfold schema in X. congruence.
Qed.
(** Where there is no cycle, both give the same. *)
Theorem C102_same fuel fuel' m m' : Read load importsOf fuel module root = Ok m -> ReadVendored load importsOf fuel' module root = Ok m' -> forall q, get q m = get q m'.
Proof.
  intros H H' q. destruct (C101_read _ _ H) as (_ & G & _). destruct (C102_read _ _ H') as (_ & G' & _).
  destruct (get q m) as [f|] eqn:X.
  - symmetry. apply G'. apply G. exact X.
  - destruct (get q m') as [f|] eqn:Y; [|reflexivity]. apply G' in Y. apply G in Y. congruence.
Qed.
End Read.
Print Assumptions C101_read.
Print Assumptions C101_exact.
Print Assumptions C102_read.
Print Assumptions C102_exact.
Print Assumptions C102_same.

(** ** C103: types from other packages *)
Section External.
Variables isUpper isLower isLetter isNumber : Z -> bool.
Variable load : bytes -> option file.
(** The paths of the imports, in the order a range over the map gives. *)
Variable importsOf : file -> list bytes.
Variable module : bytes.
Variable root : file.
Hypothesis paths : forall f p, In p (importsOf f) <-> exists l n, f.(f_imports) = Some l /\ In (n, p) l.
(** Each schema was accepted by the parser (C91). *)
Hypothesis accepted : forall p f, schema load module root p = Some f -> schema_ok isUpper isLower isLetter isNumber f.
(** Each type n.T that a schema names is looked for in the schema of the package that is imported under the name n; this
    does not fail and no type is left without a schema. *)
Theorem C103_externals fuel m q f : Read load importsOf fuel module root = Ok m -> get q m = Some f ->
  exists l, populate m f f.(f_external) = Ok l /\
    Forall2 (fun w e => exists n t ims path g, w = n ++ lit "." ++ t /\ f.(f_imports) = Some ims /\ In (n, path) ims /\ schema load module root path = Some g /\ e = (w, Some g)) f.(f_external) l.
Proof.
  intros H G. destruct (C101_read _ _ _ _ _ _ H) as (_ & IS & A & _). destruct (proj1 (IS q f) G) as [R L].
  pose proof (accepted q f L) as OK. pose proof (ok_external _ _ _ _ _ OK) as X. pose proof (ok_imports _ _ _ _ _ OK) as I.
  induction X as [|w ws (p & (ims & path & J & K) & NP & t & ->) X IH]; [exists []; split; [reflexivity|constructor]|].
  destruct IH as (l & P & FF). cbn [populate].
  assert (GP : importPath f p = Some path) by (unfold importPath; rewrite J; apply in_get; [exact (proj1 (proj2 (I ims J)))|exact K]).
  rewrite splitAt_app by exact NP. cbn [hd]. rewrite GP. cbn [lift bind]. rewrite P. cbn [bind].
  assert (RP : reach (schema_imports load importsOf module root) module path).
  { eapply reach_snoc; [exact R|]. exists f. split; [exact L|]. apply paths. eauto. }
  destruct (A path RP) as [g GG]. rewrite (proj2 (IS path g) (conj RP GG)).
  eexists. split; [reflexivity|]. constructor; [|exact FF]. exists p, t, ims, path, g. repeat split; auto.
Qed.
End External.
Print Assumptions C103_externals.

(** ** C104: the import path of the generated code *)
(** A package is taken for one of this repository exactly if its path begins with the repository's name. *)
Theorem C104_in_repo repo p : (InRepo repo p = true <-> starts repo p) /\ (within repo p -> InRepo repo p = true).
Proof.
  assert (E : InRepo repo p = true <-> starts repo p) by (unfold InRepo, starts; apply prefix_iff). split; [exact E|].
  intros H. apply E. destruct H as [->|[q ->]]; [exists []; symmetry; apply app_nil_r|]. eexists. reflexivity.
Qed.
Theorem C104_own repo dir p : within repo p -> TransformImportPath repo dir p = p.
Proof.
  intros H. unfold TransformImportPath. destruct (bytes_eqb repo [] || bytes_eqb dir []); [reflexivity|].
  replace (hasPrefix repo p) with true; [reflexivity|]. symmetry. apply prefix_iff. destruct H as [->|[q ->]]; [exists []; symmetry; apply app_nil_r|eauto].
Qed.
Theorem C104_other repo dir p : repo <> [] -> dir <> [] -> ~ starts repo p -> TransformImportPath repo dir p = repo ++ lit "/" ++ dir ++ lit "/" ++ p.
Proof.
  intros R D H. unfold TransformImportPath. destruct repo; [congruence|]. destruct dir; [congruence|]. cbn [bytes_eqb orb].
  destruct (hasPrefix _ p) eqn:X; [|reflexivity]. exfalso. apply H. apply prefix_iff in X. exact X.
Qed.
(** Different packages have different paths, unless one of them is already in the vendor directory of the repository. *)
Theorem C104_distinct repo dir p q : ~ within (repo ++ lit "/" ++ dir) p -> ~ within (repo ++ lit "/" ++ dir) q ->
  TransformImportPath repo dir p = TransformImportPath repo dir q -> p = q.
Proof.
  unfold TransformImportPath. intros P Q. destruct (bytes_eqb repo [] || bytes_eqb dir []); [auto|].
  destruct (hasPrefix repo p), (hasPrefix repo q); intros H; [exact H| | |].
  - exfalso. apply P. right. exists q. rewrite H. rewrite <- !app_assoc. reflexivity.
  - exfalso. apply Q. right. exists p. rewrite <- H. rewrite <- !app_assoc. reflexivity.
  - repeat apply app_inv_head in H. exact H.
Qed.
Print Assumptions C104_in_repo.
Print Assumptions C104_own.
Print Assumptions C104_other.
Print Assumptions C104_distinct.
(** Another repository whose name begins with that of this one is taken for a part of it: it is not vendored, and its
    path is not changed. *)
Theorem C104_refuted : exists repo dir p, repo <> [] /\ dir <> [] /\ ~ within repo p /\ InRepo repo p = true /\ TransformImportPath repo dir p = p.
Proof.
  exists (lit "github.com/a/mono"), (lit "vendor"), (lit "github.com/a/monolith/car"). repeat split; try discriminate.
  intros [H|[q H]]; vm_compute in H; discriminate.
Qed.

(** ** Cases *)
Definition A_ : bytes := lit "github.com/a/mono/app".
Definition B_ : bytes := lit "github.com/b/lib".
Definition C_ : bytes := lit "github.com/c/base".
Definition L_ : bytes := lit "github.com/l/old".
(** The root at a local path imports B and L, B imports C, L is replaced by a directory whose schema imports C. *)
Definition fileAt (p : bytes) : option bytes :=
  if p =b "/w/app/app.claw" then Some (lit "app") else if p =b "../old/old.claw" then Some (lit "old") else
  if p =b "../old/claw.mod" then Some (lit "mod") else None.
Definition dirAt (p : bytes) : option (list bytes) := if p =b "../old" then Some [lit "README"; lit "old.claw"; lit "claw.mod"] else None.
Definition joinAt (d n : bytes) : bytes := d ++ lit "/" ++ n.
Definition fetchAt (p v : bytes) : option bytes := if bytes_eqb p B_ then Some (lit "lib") else if bytes_eqb p C_ then Some (lit "base") else None.
Definition importsAt (c : bytes) : option (list bytes) :=
  if c =b "app" then Some [B_; L_] else if c =b "lib" then Some [C_] else if c =b "old" then Some [C_] else if c =b "base" then Some [] else None.
Definition modAt (c : bytes) : option module := if c =b "mod" then Some (mkMod L_ [] [] [lit "*"]) else None.
Definition app_mod : module := mkMod A_ [] [mkRep L_ (lit "../old")] [].
Definition app_graph := buildDependencyGraph dec0 dirAt fileAt joinAt true (InRepo (lit "github.com/a/mono")) (fun p => Some p) fetchAt importsAt modAt 9 app_mod [] (lit "/w/app/app.claw").
Example app_found : exists g, app_graph = Ok g /\ map fst g = [lit "/w/app/app.claw"; B_; C_; L_] /\
  map (fun e => n_vendor (snd e)) g = [false; true; true; false] /\
  GetCompilationOrder (edgesOf g) 9 (rev (map fst g)) = Ok [lit "/w/app/app.claw"; B_; L_; C_].
Proof. eexists. split; [vm_compute; reflexivity|]. repeat split; vm_compute; reflexivity. Qed.
Example app_finite : exists U, finite_from (imports dirAt fileAt joinAt true (InRepo (lit "github.com/a/mono")) (fun p => Some p) fetchAt importsAt modAt app_mod []) (lit "/w/app/app.claw") U /\ length U = 4%nat.
Proof.
  destruct app_found as (g & G & K & _). exists (map fst g). split; [|rewrite K; reflexivity]. intros x R.
  unfold app_graph in G. pose proof (C98_graph dec0 dirAt fileAt joinAt true _ _ fetchAt importsAt modAt app_mod [] eq_refl 9 _ g G) as (_ & _ & D & _). apply D. exact R.
Qed.
Example app_vendored : exists g fs, VendorDependencies dec0 dirAt fileAt joinAt true (InRepo (lit "github.com/a/mono")) (fun p => Some p) fetchAt importsAt modAt (lit "/w/vendor") 9 app_mod (lit "github.com/a/mono") [] (lit "/w/app/app.claw") [] = Ok (g, fs) /\
  fs = [(lit "/w/vendor/github.com/b/lib/lib.claw", lit "lib"); (lit "/w/vendor/github.com/c/base/base.claw", lit "base")].
Proof. eexists _, _. split; vm_compute; reflexivity. Qed.
(** Two packages that import each other. *)
Definition twoImports (c : bytes) : option (list bytes) := if c =b "lib" then Some [C_] else if c =b "base" then Some [B_] else None.
Example cycle_found : buildDependencyGraph dec0 dirAt fileAt joinAt false (fun _ => false) (fun p => Some p) fetchAt twoImports modAt 9 app_mod [] B_ = Err /\
  GetCompilationOrder (fun p => if bytes_eqb p B_ then [C_] else [B_]) 9 [B_; C_] = Err.
Proof. split; vm_compute; reflexivity. Qed.
(** The order is the reverse of the one the comment in the code promises: what is imported comes last. *)
Theorem C99_refuted : exists (edges : bytes -> list bytes) r, GetCompilationOrder edges 9 [B_; C_] = Ok r /\ ~ imported_first (fun p q => In q (edges p)) r.
Proof.
  exists (fun p => if bytes_eqb p B_ then [C_] else []), [B_; C_]. split; [vm_compute; reflexivity|]. intros H.
  specialize (H [] B_ [C_] eq_refl C_). destruct H. vm_compute. left. reflexivity.
Qed.
(** Schemas that are lists of imports. *)
Definition worldAt (p : bytes) : option (list bytes) := if bytes_eqb p B_ then Some [C_] else if bytes_eqb p C_ then Some [B_] else None.
Definition soundAt (p : bytes) : option (list bytes) := if bytes_eqb p B_ then Some [C_] else if bytes_eqb p C_ then Some [] else None.
Example sound_read : Read soundAt (fun f => f) 9 A_ [B_; C_] = Ok [(B_, [C_]); (C_, []); (A_, [B_; C_])] /\
  ReadVendored soundAt (fun f => f) 9 A_ [B_; C_] = Ok [(B_, [C_]); (C_, []); (A_, [B_; C_])].
Proof. split; vm_compute; reflexivity. Qed.
(** Imports in a circle that does not go through the root are read from the vendor directory without an error; Read
    refuses them. *)
Theorem C102_refuted : Read worldAt (fun f => f) 9 A_ [B_] = Err /\ (exists m, ReadVendored worldAt (fun f => f) 9 A_ [B_] = Ok m) /\
  cycle_from (schema_imports worldAt (fun f => f) A_ [B_]) A_.
Proof.
  split; [vm_compute; reflexivity|]. split; [eexists; vm_compute; reflexivity|]. exists B_, C_.
  split; [eapply re_step; [exists [B_]; split; [vm_compute; reflexivity|left; reflexivity]|apply re_here]|].
  split; [exists [C_]; split; [vm_compute; reflexivity|left; reflexivity]|].
  eapply re_step; [exists [B_]; split; [vm_compute; reflexivity|left; reflexivity]|apply re_here].
Qed.
(** A schema with a type from another package. *)
Definition importPaths (f : file) : list bytes := match f.(f_imports) with Some l => map snd l | None => [] end.
Definition loadParts (p : bytes) : option file := if (p =b "github.com/a/parts") || (p =b "github.com/b/parts") then Some wheels_file else None.
Example car_accepted : schema_ok up low (fun c => up c || low c) num car_file.
Proof. apply (C91_accepted up low (fun c => up c || low c) num spc lower parseInt (text car)). exact (proj1 car_parsed). Qed.
Example car_externals : exists m, Read loadParts importPaths 9 A_ car_file = Ok m /\ get A_ m = Some car_file /\
  populate m car_file car_file.(f_external) = Ok [(lit "parts.Wheel", Some wheels_file)] /\
  (forall f p, In p (importPaths f) <-> exists l n, f.(f_imports) = Some l /\ In (n, p) l) /\
  (forall p f, schema loadParts A_ car_file p = Some f -> schema_ok up low (fun c => up c || low c) num f).
Proof.
  eexists. split; [vm_compute; reflexivity|]. split; [vm_compute; reflexivity|]. split; [vm_compute; reflexivity|]. split.
  - intros f p. unfold importPaths. destruct (f_imports f) as [l|].
    + rewrite in_map_iff. split; [intros ((n & q) & <- & I); eauto|]. intros (l' & n & [= <-] & I). exists (n, p). auto.
    + split; [intros []|intros (? & ? & ? & _); discriminate].
  - intros p f. unfold schema, loadParts. destruct (bytes_eqb p A_); [intros [= <-]; exact car_accepted|].
    destruct ((p =b "github.com/a/parts") || (p =b "github.com/b/parts")); [|discriminate]. intros [= <-].
    apply (C91_accepted up low (fun c => up c || low c) num spc lower parseInt (text wheels)). vm_compute. reflexivity.
Qed.
Example app_stands : stands_for app_mod.(m_replace) [] L_ (lit "../old") /\ on_disk (lit "../old") /\ schema_at dirAt fileAt joinAt (lit "../old") (lit "old") /\
  stands_for app_mod.(m_replace) [] B_ B_ /\ ~ on_disk B_.
Proof.
  assert (O : on_disk (lit "../old")) by (right; right; now exists (lit "old")).
  split; [|split; [exact O|split; [|split]]].
  - right. left. split; [intros r []|]. exists [], []. split; [reflexivity|]. intros r [].
  - right. split; [intros [a H]; assert (G : hasSuffix (lit "../old") (lit ".claw") = true) by (apply suffix_iff; eauto); discriminate G|].
    exists [lit "README"; lit "old.claw"; lit "claw.mod"], (lit "old.claw"). split; [reflexivity|]. split; [|reflexivity].
    exists [lit "README"], [lit "claw.mod"]. split; [reflexivity|]. split; [now exists (lit "old")|].
    intros x H [a E]. assert (G : hasSuffix x (lit ".claw") = true) by (apply suffix_iff; eauto). destruct H as [<-|[<-|[]]]; discriminate G.
  - right. right. split; [intros r []|]. split; [|reflexivity]. intros r [<-|[]]. discriminate.
  - intros H. apply local_iff in H. discriminate H.
Qed.
