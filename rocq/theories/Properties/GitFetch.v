(** C137: a package is fetched at the commit that is asked for.  C138: clawc knows the git and the repository it runs in.
    C139: what init writes is read back.  C140: the package get is asked for. *)
From Coq Require Import ZArith List Bool String Lia.
Import ListNotations.
From Verif.Model Require Import Base Utf8 Field Any Escape ClawText Idl ClawMod GitFetch.
From Verif.Spec Require Import Text JsonGrammar ClawText ClawHand Idl IdlText ClawMod GitFetch.
From Verif.Proofs Require Import BaseLemmas ClawLine ClawHandWords IdlBase IdlTotal IdlText ClawMod ClawModText GitFetch GitRepo.
From Verif.Properties Require Import Idl IdlText ClawMod.
Local Open Scope Z_scope.

(** ** C137 *)
Section Fetch.
Variable openRepo : bytes -> bytes -> bytes -> option repo.
Variable lexer : bytes -> list iline.
Variable sha256 : bytes -> bytes.
Local Notation fetch := (GetClawFile openRepo lexer sha256).
(** What a global.replace says, see C137_redirect. *)
Local Notation is_text := (is_text openRepo (fun g to => parseGlobal (lexer g) = Ok to)).
Hypothesis world : sane_world openRepo.

(** A file is fetched for a commit, or for the head, exactly where the package is that text there, behind at most four
    redirects; it comes with the full name of the commit and the hash of the text. *)
Theorem C137_exact pkg version f : (version = [] \/ exists h, commit_name h version) ->
  fetch pkg version = Ok f <->
  exists n, (n < 5)%nat /\ is_text n pkg version f.(cf_version) f.(cf_content) /\ f.(cf_sha) = appendHex (sha256 f.(cf_content)).
Proof. intros V. apply (get_iff openRepo lexer sha256 world 5 pkg version f V). Qed.
(** The version that comes with the latest file gives the same file when it is asked for. *)
Lemma pin n pkg version full b : is_text n pkg version full b -> version = [] -> is_text n pkg full full b.
Proof.
  intros T E. destruct T as [pkg version full es b A O|n pkg version full es g to b A R P T].
  - destruct A as [host user name dir r h t L Op C E' K D|host user name dir r h t L Op _ K C D]; [subst; exfalso; exact (commit_ne _ _ C eq_refl)|].
    eapply it_here; [|exact O]. eapply at_named; eauto. exact (proj2 (proj2 (world _ _ _ _ Op) _ _ K)).
  - destruct A as [host user name dir r h t L Op C E' K D|host user name dir r h t L Op _ K C D]; [subst; exfalso; exact (commit_ne _ _ C eq_refl)|].
    eapply it_moved; [|exact R|exact P|exact T]. eapply at_named; eauto. exact (proj2 (proj2 (world _ _ _ _ Op) _ _ K)).
Qed.
Lemma pin_named n pkg version full b : is_text n pkg version full b -> version = [] -> exists h, commit_name h full.
Proof. intros T E. destruct T as [? ? ? ? ? A _|? ? ? ? ? ? ? ? A _ _ _]; eapply full_named; eauto. Qed.
Theorem C137_pinned pkg f : fetch pkg [] = Ok f -> fetch pkg f.(cf_version) = Ok f.
Proof.
  intros H. apply C137_exact in H; [|left; reflexivity]. destruct H as (n & L & T & E).
  apply C137_exact; [right; eapply pin_named; eauto|]. exists n. split; [exact L|]. split; [|exact E]. exact (pin _ _ _ _ _ T eq_refl).
Qed.
(** Where get asks for the latest version first and then for that version, this is the latest file. *)
Theorem C137_latest pkg v : GetLatestVersion openRepo pkg = Ok v -> forall f, fetch pkg v = Ok f <-> fetch pkg [] = Ok f.
Proof.
  intros H f. unfold GetLatestVersion in H. destruct (cloneRepo openRepo pkg []) as [[t ver]| | |] eqn:C; try discriminate. cbn [bind] in H. injection H as ->.
  assert (N : exists h, commit_name h v).
  { unfold cloneRepo in C. destruct (splitAt 47 pkg) as [|? [|? [|? ?]]]; try discriminate. destruct (openRepo _ _ _) as [r|] eqn:Op; [|discriminate]. cbn [lift bind] in C.
    destruct (r_head r) as [[h t']|] eqn:K; [|discriminate]. cbn [lift bind] in C. injection C as _ <-. exists h. apply commit_append. exact (proj1 (proj2 (world _ _ _ _ Op) _ _ K)). }
  assert (U : forall es, at_commit openRepo pkg [] v es <-> at_commit openRepo pkg v v es).
  { intros es. rewrite (clone_iff openRepo world pkg []) by (left; reflexivity). rewrite (clone_iff openRepo world pkg v) by (right; exact N).
    assert (K : cloneRepo openRepo pkg v = Ok (t, v)).
    { unfold cloneRepo in C |- *. destruct (splitAt 47 pkg) as [|host [|user [|name rest]]]; try discriminate. destruct (openRepo host user name) as [r|] eqn:Op; [|discriminate]. cbn [lift bind] in C |- *.
      destruct (r_head r) as [[h t']|] eqn:K; [|discriminate]. cbn [lift bind] in C. injection C as -> <-.
      pose proof (proj2 (world _ _ _ _ Op) _ _ K) as [AH CK]. pose proof (commit_append h AH) as CN. pose proof (commit_ne _ _ CN) as NE.
      rewrite (commit_version h (appendHex h) r CN), CK. destruct (appendHex h); [congruence|]. reflexivity. }
    rewrite C, K. split; intros (t' & ver & X & E & D); injection X as <- <-; exists t, v; (split; [reflexivity|]); (split; [|exact D]);
      destruct N as [h N]; pose proof (commit_ne _ _ N); destruct v; [congruence|reflexivity|congruence|reflexivity]. }
  assert (W : forall n full b, is_text n pkg v full b -> full = v).
  { intros n full b T. destruct N as [h N]. pose proof (commit_ne _ _ N). destruct T as [? ? ? ? ? A _|? ? ? ? ? ? ? ? A _ _ _]; destruct A; congruence. }
  assert (W' : forall n full b, is_text n pkg [] full b -> full = v).
  { intros n full b T. assert (A : exists es, at_commit openRepo pkg [] full es) by (inversion T; eauto). destruct A as [es A].
    apply (clone_iff openRepo world) in A; [|left; reflexivity]. rewrite C in A. destruct A as (t' & ver & X & E & _). injection X as _ <-. exact E. }
  rewrite (C137_exact pkg v f) by (right; exact N). rewrite (C137_exact pkg [] f) by (left; reflexivity).
  split; intros (n & L & T & E); exists n; (split; [exact L|]); (split; [|exact E]).
  - pose proof (W _ _ _ T) as Q. rewrite Q in *. inversion T as [? ? ? es ? A O|? ? ? ? es g to ? A R P T']; subst.
    + eapply it_here; [apply U; exact A|exact O].
    + eapply it_moved; [apply U; exact A|exact R|exact P|exact T'].
  - pose proof (W' _ _ _ T) as Q. rewrite Q in *. inversion T as [? ? ? es ? A O|? ? ? ? es g to ? A R P T']; subst.
    + eapply it_here; [apply U; exact A|exact O].
    + eapply it_moved; [apply U; exact A|exact R|exact P|exact T'].
Qed.

(** Five redirects, one after the other, are an error, so redirects in a circle are. *)
Inductive moves : nat -> bytes -> bytes -> Prop :=
| mv_zero pkg version : moves 0 pkg version
| mv_one n pkg version full es g to : at_commit openRepo pkg version full es -> redirects es g -> parseGlobal (lexer g) = Ok to ->
    moves n to full -> moves (S n) pkg version.
Theorem C137_five_redirects pkg version : (version = [] \/ exists h, commit_name h version) -> moves 5 pkg version -> fetch pkg version = Err.
Proof.
  unfold GetClawFile. generalize 5%nat. intros n V M. revert V. induction M as [|n pkg version full es g to A R P M IH]; intros V; [reflexivity|]. cbn [getClawFile].
  pose proof (full_named openRepo _ _ _ _ V A) as N.
  apply (clone_iff openRepo world _ _ V) in A. destruct A as (t & ver & -> & E & D). cbn [bind]. rewrite D. cbn [lift bind].
  apply redirect_iff in R. destruct R as [k ->]. cbn [lift bind]. rewrite P. cbn [bind].
  change (getClawFile openRepo lexer sha256 n to (full_of version ver) = Err). rewrite <- E. apply IH. right. exact N.
Qed.
(** Whatever is asked for, the answer comes. *)
Theorem C137_ends pkg version : (forall b, parseGlobal (lexer b) <> Hang) -> fetch pkg version <> Hang.
Proof.
  unfold GetClawFile. intros G. generalize 5%nat. intros n. revert pkg version. induction n as [|n IH]; intros pkg version; [discriminate|]. cbn [getClawFile].
  assert (CL : cloneRepo openRepo pkg version <> Hang).
  { unfold cloneRepo. destruct (splitAt 47 pkg) as [|? [|? [|? ?]]]; try discriminate. destruct (openRepo _ _ _) as [r|]; [|discriminate]. cbn [lift bind].
    destruct version as [|c v]; [destruct (r_head r) as [[? ?]|]; discriminate|].
    assert (X : versionCheckout r (c :: v) <> Hang).
    { unfold versionCheckout, semanticCheckout, hashCheckout, lift. destruct (gitFromString (c :: v)) eqn:X; try discriminate.
      - destruct (r_tags r); [|discriminate]. cbn [bind]. destruct (find _ _) as [[? ?]|]; [|discriminate]. destruct (r_checkout _ _); discriminate.
      - destruct (r_checkout _ _); discriminate.
      - destruct (r_checkout _ _); discriminate. }
    destruct (versionCheckout r (c :: v)); try discriminate. congruence. }
  destruct (cloneRepo openRepo pkg version) as [[t ver]| | |]; try discriminate; [|congruence]. cbn [bind].
  destruct (t (insidePath pkg)) as [es|]; [|discriminate]. cbn [lift bind]. destruct (find _ _) as [[k c]|].
  - destruct c as [g|]; [|discriminate]. cbn [lift bind]. destruct (parseGlobal (lexer g)) as [to| | |] eqn:P; try discriminate; [apply IH|]. exfalso. exact (G g P).
  - unfold readClaw. destruct (filter _ _) as [|[? [?|]] [|? ?]]; discriminate.
Qed.
(** A path without a host, a user and a name breaks the program. *)
Theorem C137_short_path pkg version : (forall host user name dir, ~ lies pkg host user name dir) -> fetch pkg version = Panic.
Proof.
  intros N. unfold GetClawFile. cbn [getClawFile]. unfold cloneRepo. destruct (splitAt 47 pkg) as [|host [|user [|name rest]]] eqn:E; try reflexivity.
  exfalso. exact (N _ _ _ _ (split_lies _ _ _ _ _ E)).
Qed.
(** All semantic versions are alike: what is fetched for one is what is fetched for another, whatever the tags are. *)
Lemma v_checkout r q q' t t' : sane r -> versionCheckout r (118 :: q) = Ok t -> versionCheckout r (118 :: q') = Ok t' -> t = t'.
Proof.
  intros S H H'. assert (W : forall q t, versionCheckout r (118 :: q) = Ok t -> r_checkout r no_hash = Some t).
  { clear - S. intros q t. unfold versionCheckout. destruct (gitFromString (118 :: q)) as [w| | |] eqn:E; try discriminate.
    - rewrite (semantic_none r _ w S E). discriminate.
    - unfold hashCheckout. rewrite v_hash. destruct (r_checkout r no_hash); [|discriminate]. cbn. intros [= ->]. reflexivity.
    - unfold hashCheckout. rewrite v_hash. destruct (r_checkout r no_hash); [|discriminate]. cbn. intros [= ->]. reflexivity. }
  apply W in H. apply W in H'. congruence.
Qed.
Theorem C137_tags_alike pkg v v' f f' : semantic v -> semantic v' -> fetch pkg v = Ok f -> fetch pkg v' = Ok f' -> f.(cf_content) = f'.(cf_content).
Proof.
  intros (a & b & c & -> & _) (a' & b' & c' & -> & _). change (lit "v") with [118]. cbn [app].
  generalize (a ++ lit "." ++ b ++ lit "." ++ c) (a' ++ lit "." ++ b' ++ lit "." ++ c'). clear a b c a' b' c'. intros q q'.
  unfold GetClawFile. generalize 5%nat. intros n. revert pkg. induction n as [|n IH]; intros pkg; [discriminate|]. cbn [getClawFile]. unfold cloneRepo.
  destruct (splitAt 47 pkg) as [|host [|user [|name rest]]]; try discriminate. destruct (openRepo host user name) as [r|] eqn:Op; [|discriminate]. cbn [lift bind].
  destruct (versionCheckout r (118 :: q)) as [t| | |] eqn:T; try discriminate. destruct (versionCheckout r (118 :: q')) as [t'| | |] eqn:T'; try discriminate. cbn [bind].
  rewrite <- (v_checkout r q q' t t' (world _ _ _ _ Op) T T'). destruct (t (insidePath pkg)) as [es|]; [|discriminate]. cbn [lift bind].
  destruct (find _ _) as [[k g]|].
  - destruct g as [g|]; [|discriminate]. cbn [lift bind]. destruct (parseGlobal (lexer g)) as [to| | |]; try discriminate. apply IH.
  - destruct (readClaw es) as [b| | |]; try discriminate. cbn [bind]. intros [= <-] [= <-]. reflexivity.
Qed.
End Fetch.
Print Assumptions C137_exact.
Print Assumptions C137_pinned.
Print Assumptions C137_latest.
Print Assumptions C137_five_redirects.
Print Assumptions C137_ends.
Print Assumptions C137_short_path.
Print Assumptions C137_tags_alike.

(** A redirect is a line with the word with and the package, maybe with a comment, and then nothing but comments. *)
Theorem C137_redirect l cs to : line_says l [lit "with"; to] -> Forall mod_comment cs -> parseGlobal (l :: cs ++ [eofLine]) = Ok to.
Proof.
  intros S C. unfold parseGlobal. cbn [next]. destruct S as (tl & (I & E & F) & T).
  assert (L : (len (l_items l) <? 3) = false) by (rewrite I; apply Z.ltb_ge; unfold len; rewrite !app_length; cbn [length]; lia).
  rewrite L. cbn [negb ok_if bind]. unfold item at 1. rewrite I. cbn [app nth_error bind].
  change (lit "with" =b "with") with true. cbn [ok_if bind]. unfold item at 1. rewrite I. cbn [app nth_error bind].
  assert (K : commentOrEOL l 2 = Ok tt).
  { unfold commentOrEOL, item. rewrite I. destruct T as [->|(w & q & -> & X)]; cbn [app nth_error bind].
    - reflexivity.
    - unfold isComment. change (lit "//") with [47; 47]. replace (hasPrefix [47; 47] w) with true by (symmetry; apply prefix_iff; exact X). reflexivity. }
  rewrite K. cbn [bind]. rewrite (skip_mod_comments cs [eofLine] C). reflexivity.
Qed.
Theorem C137_redirect_shown ls to : parseGlobal ls = Ok to -> exists l q, ls = l :: q /\ shows l [lit "with"; to].
Proof.
  unfold parseGlobal. destruct ls as [|l q]; [discriminate|]. cbn [next]. intros H. exists l, q. split; [reflexivity|].
  destruct (negb (len (l_items l) <? 3)); [|discriminate]. cbn [ok_if bind] in H.
  destruct (item l 0) as [w0| | |] eqn:I0; try discriminate. cbn [bind] in H. destruct (w0 =b "with") eqn:W; [|discriminate]. apply bytes_eqb_eq in W. subst w0. cbn [ok_if bind] in H.
  destruct (item l 1) as [w1| | |] eqn:I1; try discriminate. cbn [bind] in H. destruct (commentOrEOL l 2) as [[]| | |] eqn:E; try discriminate. cbn [bind] in H.
  destruct (modSkip q) as [r| | |]; try discriminate. cbn [bind] in H. destruct (next r) as [x y]. destruct (l_eof x); [|discriminate]. injection H as ->.
  apply shows2; assumption.
Qed.
Print Assumptions C137_redirect.
Print Assumptions C137_redirect_shown.

(** *** Cases *)
(** Two repositories; the first has a commit with a tag behind its head, and a package that moved to the second. *)
Definition old_hash : bytes := repeat 17 20.
Definition head_hash : bytes := repeat 171 20.
Definition two_hash : bytes := repeat 34 20.
Definition old_tree : tree := fun d => if bytes_eqb d [] then Some [(lit "LICENSE", Some []); (lit "car.claw", Some (lit "old"))] else None.
Definition head_tree : tree := fun d =>
  if bytes_eqb d [] then Some [(lit "LICENSE", Some []); (lit "car.claw", Some (lit "new"))]
  else if d =b "sub/bus" then Some [(lit "global.replace", Some (lit "there"))]
  else if d =b "self" then Some [(lit "global.replace", Some (lit "here"))]
  else None.
Definition two_tree : tree := fun d => if bytes_eqb d [] then Some [(lit "bus.claw", Some (lit "bus"))] else None.
(** Without a hash go-git checks out the branch master. *)
Definition repo_one : repo := mkRepo (Some [(lit "refs/tags/v1.2.3", old_hash)])
  (fun h => if bytes_eqb h old_hash then Some old_tree else if bytes_eqb h head_hash || bytes_eqb h no_hash then Some head_tree else None) (Some (head_hash, head_tree)).
Definition repo_two (shared : bool) : repo := mkRepo (Some [])
  (fun h => if bytes_eqb h two_hash || (shared && bytes_eqb h head_hash) then Some two_tree else None) (Some (two_hash, two_tree)).
Definition repos (shared : bool) (host user name : bytes) : option repo :=
  if negb (host =b "git.io") || negb (user =b "ann") then None
  else if name =b "one" then Some repo_one else if name =b "two" then Some (repo_two shared) else None.
Definition case_lexer (b : bytes) : list iline := text [if b =b "there" then "with git.io/ann/two // moved"%string else "with git.io/ann/one/self"%string].
Definition case_sha (b : bytes) : bytes := firstn 2 b.
Definition case_fetch (shared : bool) := GetClawFile (repos shared) case_lexer case_sha.
Lemma hash_ok h : length h = 20%nat -> forallb (fun b => (0 <=? b) && (b <? 256)) h = true -> a_hash h.
Proof. intros L F. split; [exact L|]. apply Forall_forall. intros b I. apply (proj1 (forallb_forall _ _) F) in I. lia. Qed.
Example repos_sane shared : sane_world (repos shared).
Proof.
  intros host user name r H. unfold repos in H. destruct (negb (host =b "git.io") || negb (user =b "ann")); [discriminate|].
  destruct (name =b "one"); [|destruct (name =b "two"); [|discriminate]]; injection H as <-.
  - split.
    + intros ts n h [= <-] [[= <- <-]|[]]. exists (lit "v1.2.3"). reflexivity.
    + intros h t [= <- <-]. split; [apply hash_ok; vm_compute; reflexivity|vm_compute; reflexivity].
  - split.
    + intros ts n h [= <-] [].
    + intros h t [= <- <-]. split; [apply hash_ok; vm_compute; reflexivity|destruct shared; vm_compute; reflexivity].
Qed.
Definition one_pkg : bytes := lit "git.io/ann/one".
Example C137_case :
  case_fetch false one_pkg (appendHex old_hash) = Ok (mkCF (lit "old") (appendHex old_hash) (lit "6f6c")) /\
  case_fetch false one_pkg [] = Ok (mkCF (lit "new") (appendHex head_hash) (lit "6e65")) /\
  case_fetch false (lit "git.io/ann/one/self") [] = Err /\
  case_fetch true (lit "git.io/ann/one/sub/bus") [] = Ok (mkCF (lit "bus") (appendHex head_hash) (lit "6275")) /\
  commit_name old_hash (appendHex old_hash) /\ lies (lit "git.io/ann/one/sub/bus") (lit "git.io") (lit "ann") (lit "one") (lit "sub/bus").
Proof.
  do 4 (split; [vm_compute; reflexivity|]). split; [apply commit_append, hash_ok; vm_compute; reflexivity|].
  exact (split_lies (lit "git.io/ann/one/sub/bus") (lit "git.io") (lit "ann") (lit "one") [lit "sub"; lit "bus"] eq_refl).
Qed.
Example C137_circle : moves (repos false) case_lexer 5 (lit "git.io/ann/one/self") [].
Proof.
  assert (A : forall v, v = [] \/ v = appendHex head_hash -> at_commit (repos false) (lit "git.io/ann/one/self") v (appendHex head_hash) [(lit "global.replace", Some (lit "here"))]).
  { intros v V. apply (clone_iff _ (repos_sane false)).
    - destruct V as [->| ->]; [left; reflexivity|right; exists head_hash; apply commit_append, hash_ok; vm_compute; reflexivity].
    - exists head_tree, (appendHex head_hash). destruct V as [->| ->]; split; [vm_compute; reflexivity|split; vm_compute; reflexivity|vm_compute; reflexivity|split; vm_compute; reflexivity]. }
  assert (M : forall n v, v = [] \/ v = appendHex head_hash -> moves (repos false) case_lexer n (lit "git.io/ann/one/self") v).
  { induction n as [|n IH]; intros v V; [constructor|]. eapply mv_one; [exact (A v V)|exists [], []; split; [reflexivity|intros []]| |apply IH; right; reflexivity].
    vm_compute. reflexivity. }
  apply M. left. reflexivity.
Qed.
(** *** What does not hold *)
(** The tag of a version is never found: the file that comes with v1.2.3 is that of the branch master, and v10.2.3 is an
    error, whatever the tags are; git.go says that a version is a hash or a semantic version tag. *)
Example semantic_123 : semantic (lit "v1.2.3").
Proof. exists (lit "1"), (lit "2"), (lit "3"). split; [reflexivity|]. repeat split; try discriminate; repeat (constructor; [cbn; lia|]); constructor. Qed.
Theorem C137_tag_refuted : exists openRepo pkg r, sane_world openRepo /\ openRepo (lit "git.io") (lit "ann") (lit "one") = Some r /\ pkg = one_pkg /\
  r.(r_tags) = Some [(lit "refs/tags/v1.2.3", old_hash)] /\ r.(r_checkout) old_hash = Some old_tree /\ old_tree [] = Some [(lit "LICENSE", Some []); (lit "car.claw", Some (lit "old"))] /\
  GetClawFile openRepo case_lexer case_sha pkg (lit "v1.2.3") = Ok (mkCF (lit "new") (lit "v1.2.3") (lit "6e65")) /\
  GetClawFile openRepo case_lexer case_sha pkg (lit "v10.2.3") = Err.
Proof.
  exists (repos false), one_pkg, repo_one. split; [apply repos_sane|]. split; [reflexivity|]. split; [reflexivity|]. split; [reflexivity|].
  split; [reflexivity|]. split; [reflexivity|]. split; vm_compute; reflexivity.
Qed.
(** The version v breaks the program. *)
Theorem C137_v_refuted : case_fetch false one_pkg (lit "v") = Panic.
Proof. vm_compute. reflexivity. Qed.
(** The short name of a commit is not that commit. *)
Theorem C137_short_name_refuted : repo_one.(r_checkout) old_hash = Some old_tree /\ case_fetch false one_pkg (firstn 12 (appendHex old_hash)) = Err.
Proof. split; [reflexivity|vm_compute; reflexivity]. Qed.
(** The latest version of a package that moved: the commit of the old repository is asked for in the new one. *)
Theorem C137_moved_refuted : case_fetch false (lit "git.io/ann/two") [] = Ok (mkCF (lit "bus") (appendHex two_hash) (lit "6275")) /\
  (exists es, head_tree (lit "sub/bus") = Some es /\ redirects es (lit "there")) /\ parseGlobal (case_lexer (lit "there")) = Ok (lit "git.io/ann/two") /\
  case_fetch false (lit "git.io/ann/one/sub/bus") [] = Err.
Proof.
  split; [vm_compute; reflexivity|]. split; [eexists; split; [reflexivity|]; exists [], []; split; [reflexivity|intros []]|]. split; vm_compute; reflexivity.
Qed.
(** A path of two parts, as for a package of the standard hosts without a name. *)
Theorem C137_short_path_refuted : case_fetch false (lit "git.io/ann") [] = Panic /\ forall host user name dir, ~ lies (lit "git.io/ann") host user name dir.
Proof.
  split; [vm_compute; reflexivity|]. intros host user name dir L. destruct (lies_split _ _ _ _ _ L) as (rest & E & _). vm_compute in E. discriminate.
Qed.
Print Assumptions C137_tag_refuted.
Print Assumptions C137_v_refuted.
Print Assumptions C137_short_name_refuted.
Print Assumptions C137_moved_refuted.
Print Assumptions C137_short_path_refuted.

(** ** C138 *)
(** The version in what git prints: three numbers with dots between them, the first that there are. *)
Theorem C138_version pre a b c rest : Forall (fun x => ~ digit x) pre -> digits1 a -> digits1 b -> digits1 c ->
  (forall x q, rest = x :: q -> ~ digit x) -> numval a < 2 ^ 63 -> numval b < 2 ^ 63 -> numval c < 2 ^ 63 ->
  gitVersion (pre ++ a ++ lit "." ++ b ++ lit "." ++ c ++ rest) = Ok (mkVer (numval a) (numval b) (numval c)).
Proof.
  intros P A B C R LA LB LC. unfold gitVersion. change (lit ".") with [46]. cbn [app].
  rewrite (find_version pre _ _ P (match_version a b c rest A B C R)). cbn [lift bind]. apply three_numbers; assumption.
Qed.
(** A git that is accepted is at least of version 2.18. *)
Theorem C138_supported out v : gitVersion out = Ok v -> gitSupported out = Ok tt -> at_least v 2 18.
Proof.
  intros H. unfold gitSupported. rewrite H. cbn [bind]. unfold meetsMin, at_least. destruct (Z.ltb_spec (v_major v) 2); [discriminate|].
  destruct (Z.ltb_spec (v_minor v) 18); [discriminate|]. intros _. lia.
Qed.
(** Of version two, every one from 2.18 is accepted. *)
Theorem C138_supported_partial out v : gitVersion out = Ok v -> v.(v_major) = 2 -> (gitSupported out = Ok tt <-> at_least v 2 18).
Proof.
  intros H M. split; [apply C138_supported; exact H|]. unfold gitSupported. rewrite H. cbn [bind]. unfold meetsMin, at_least. rewrite M. intros L.
  destruct (Z.ltb_spec 2 2); [lia|]. destruct (Z.ltb_spec (v_minor v) 18); [lia|]. reflexivity.
Qed.
Theorem C138_supported_refuted : gitVersion (lit "git version 3.0.1") = Ok (mkVer 3 0 1) /\ at_least (mkVer 3 0 1) 2 18 /\ gitSupported (lit "git version 3.0.1") = Err.
Proof. split; [vm_compute; reflexivity|]. split; [left; cbn; lia|vm_compute; reflexivity]. Qed.
Example C138_case_version : gitVersion (lit "git version 2.39.2 (Apple Git-143)") = Ok (mkVer 2 39 2) /\ gitSupported (lit "git version 2.39.2 (Apple Git-143)") = Ok tt /\
  gitSupported (lit "git version 2.17.9") = Err /\ gitSupported (lit "git version 1.19.0") = Err.
Proof. repeat split; vm_compute; reflexivity. Qed.

(** The root of the repository is found where its path does not have .git in it. *)
Theorem C138_root root rest : (forall a b, root <> a ++ lit ".git" ++ b) -> (forall a b, rest <> a ++ lit ".git" ++ b) ->
  gitRoot (root ++ lit "/" ++ lit ".git" ++ rest) = Ok (root ++ lit "/").
Proof.
  intros N M. unfold gitRoot. rewrite app_assoc. rewrite split_cons; [rewrite split_none; [reflexivity|discriminate|exact M]|discriminate|].
  intros p q E Q S. change (lit "/") with [47] in E. destruct (exists_last Q) as (q' & c & ->). rewrite app_assoc in E. apply app_inj_tail in E. destruct E as [E <-].
  rewrite <- app_assoc in S. cbn [app] in S. apply before_slash in S; [|vm_compute; intuition discriminate].
  destruct S as [b ->]. exact (N p b E).
Qed.
(** In the directory that has .git itself. *)
Theorem C138_root_here rest : (forall a b, rest <> a ++ lit ".git" ++ b) -> gitRoot (lit ".git" ++ rest) = Ok [].
Proof. intros M. unfold gitRoot. rewrite split_here by discriminate. rewrite split_none; [reflexivity|discriminate|exact M]. Qed.
(** A repository in a directory with .git in its name breaks the program. *)
Theorem C138_root_refuted : gitRoot (lit "/home/ann/ann.github.io/.git" ++ [10]) = Panic.
Proof. vm_compute. reflexivity. Qed.
Example C138_case_root : gitRoot (lit "/home/ann/mono/.git" ++ [10]) = Ok (lit "/home/ann/mono/") /\
  (forall a b, lit "/home/ann/mono" <> a ++ lit ".git" ++ b) /\ (forall a b, [10] <> a ++ lit ".git" ++ b).
Proof.
  split; [vm_compute; reflexivity|]. split; intros a b E; assert (containsSub (lit ".git") (a ++ lit ".git" ++ b) = true) as C by (apply contains_iff; eauto);
    rewrite <- E in C; vm_compute in C; discriminate.
Qed.

Section Abs.
Variable clean : bytes -> bytes.
(** The path inside the repository of a package in it, where the name of the repository comes only once. *)
Theorem C138_inside origin p sub : origin <> [] -> clean p = origin ++ lit "/" ++ sub -> (forall a b, lit "/" ++ sub <> a ++ origin ++ b) ->
  absInside clean origin p = sub.
Proof.
  intros N C M. unfold absInside. rewrite C, split_here by exact N. cbn [tl]. rewrite split_none by assumption. reflexivity.
Qed.
Theorem C138_inside_top origin p : origin <> [] -> clean p = origin -> absInside clean origin p = [].
Proof.
  intros N C. unfold absInside. rewrite C. replace origin with (origin ++ []) at 2 by apply app_nil_r. rewrite split_here by exact N. reflexivity.
Qed.
End Abs.
(** Where the name comes again, as for a copy of a package in the vendor directory, it is lost. *)
Theorem C138_inside_refuted : let origin := lit "git.io/ann/mono" in let p := lit "git.io/ann/mono/claw_vendor/git.io/ann/mono/car" in
  p = origin ++ lit "/" ++ lit "claw_vendor/git.io/ann/mono/car" /\ absInside (fun p => p) origin p = lit "claw_vendor///car".
Proof. split; [reflexivity|vm_compute; reflexivity]. Qed.
Example C138_case_inside : absInside (fun p => p) (lit "git.io/ann/mono") (lit "git.io/ann/mono/car/claw") = lit "car/claw" /\
  forall a b, lit "/" ++ lit "car/claw" <> a ++ lit "git.io/ann/mono" ++ b.
Proof.
  split; [vm_compute; reflexivity|]. intros a b E. assert (containsSub (lit "git.io/ann/mono") (a ++ lit "git.io/ann/mono" ++ b) = true) as C by (apply contains_iff; eauto).
  rewrite <- E in C. vm_compute in C. discriminate.
Qed.
Print Assumptions C138_version.
Print Assumptions C138_supported.
Print Assumptions C138_supported_partial.
Print Assumptions C138_root.
Print Assumptions C138_root_here.
Print Assumptions C138_inside.
Print Assumptions C138_inside_top.
Print Assumptions C138_supported_refuted.
Print Assumptions C138_root_refuted.
Print Assumptions C138_inside_refuted.

(** ** C139 *)
Section Init.
Variables isUpper isLower isLetter isNumber isSpace : Z -> bool.
Variable toLower : bytes -> bytes.
Variable toInt : bytes -> option Z.
Hypothesis tables : ascii_tables isUpper isLower isLetter isNumber isSpace toLower toInt.
Hypothesis S32 : isSpace 32 = true.
Hypothesis S9 : isSpace 9 = true.
(** A lexer that splits lines into words, as in C90. *)
Variable lexer : bytes -> list iline.
Hypothesis lexes : forall rss, Forall line_chars rss -> lexer (text_of_lines rss) = lines_of isSpace rss ++ [eofLine].
Local Notation readMod := (parseModule isUpper isLetter isNumber toLower).
Definition no_dec (_ : Z) : bytes := [].
Lemma mod_text p : word p -> module_path p -> readMod (lexer (modFileText p)) = Ok (mkMod p [] [] []).
Proof.
  intros W P. pose proof (path_line isSpace no_dec p W) as L.
  assert (E : modFileText p = text_of_lines [lit "module " ++ p]) by (rewrite (text_one _ _ L); unfold modFileText; rewrite <- app_assoc; reflexivity).
  rewrite E, lexes by (constructor; [exact (spaced_chars _ _ L)|constructor]).
  rewrite (lines_one _ _ _ _ _ _ _ tables S32 S9 _ _ L) by discriminate.
  apply (C94_read _ _ _ _ _ _ _ tables [_] (mkMod p [] [] [])). apply mt; [|exact P|apply mb_end; constructor].
  apply (words_say isSpace no_dec [lit "module"; p]). constructor; [|constructor; [exact W|constructor]].
  apply (lit_word isSpace no_dec "module"); [discriminate|reflexivity].
Qed.
Lemma work_text_read repo dir : word repo -> word dir -> ~ (exists a b, repo = a ++ lit "//" ++ b) -> ~ starts (lit "/") dir ->
  parseWork toLower (lexer (workFileText repo dir)) = Ok (mkWork repo dir).
Proof.
  intros W V N D.
  assert (L : forall k w, word (lit k) -> word w -> spaced (lit k ++ 32 :: w) [lit k; w]).
  { intros k w K X. change (lit k ++ 32 :: w) with ([] ++ lit k ++ 32 :: w). apply (sp_cons [] (lit k) 32 w [w]); [constructor|exact K|left; reflexivity|].
    apply (sp_one [] w); [constructor|exact X]. }
  assert (K1 : word (lit "repo")) by (apply (lit_word isSpace no_dec "repo"); [discriminate|reflexivity]).
  assert (K2 : word (lit "vendorDir")) by (apply (lit_word isSpace no_dec "vendorDir"); [discriminate|reflexivity]).
  pose proof (L "repo"%string repo K1 W) as L1. pose proof (L "vendorDir"%string dir K2 V) as L2.
  assert (E : workFileText repo dir = text_of_lines [lit "repo" ++ 32 :: repo; []; lit "vendorDir" ++ 32 :: dir]).
  { rewrite text_cons, (text_cons []), (text_one _ _ L1), (text_one _ _ L2). unfold workFileText. change (text_of_lines [[]]) with [10].
    change (lit "repo ") with (lit "repo" ++ [32]). change (lit "vendorDir ") with (lit "vendorDir" ++ [32]). rewrite <- !app_assoc. reflexivity. }
  rewrite E, lexes by (constructor; [exact (spaced_chars _ _ L1)|constructor; [eapply spaced_chars, (sp_nil []); constructor|constructor; [exact (spaced_chars _ _ L2)|constructor]]]).
  rewrite lines_cons, (lines_cons _ []), (lines_one _ _ _ _ _ _ _ tables S32 S9 _ _ L1), (lines_one _ _ _ _ _ _ _ tables S32 S9 _ _ L2) by discriminate.
  change (lines_of isSpace [[]]) with (@nil iline). cbn [app].
  apply (C96_read _ _ _ _ _ _ _ tables [_; _] (mkWork repo dir)).
  apply (wt [] _ [] _ []); try (constructor; fail); try assumption.
  - apply (words_say isSpace no_dec [lit "repo"; repo]). constructor; [exact K1|constructor; [exact W|constructor]].
  - apply (words_say isSpace no_dec [lit "vendorDir"; dir]). constructor; [exact K2|constructor; [exact V|constructor]].
Qed.
Lemma path_within repo rel : within repo (modulePath repo rel).
Proof. unfold modulePath. destruct (rel =b "."); [left; reflexivity|right; exists rel; reflexivity]. Qed.

(** Inside a workspace init writes a claw.mod that is read as the module at that place, and the module is in the
    repository of the workspace. *)
Theorem C139_module repo rel git : let p := if rel =b "." then repo else repo ++ lit "/" ++ rel in word p -> module_path p ->
  exists t, handleInit false (Some (repo, rel)) git = Ok (None, t) /\ readMod (lexer t) = Ok (mkMod p [] [] []) /\ ValidateModuleInRepo p repo = Ok tt.
Proof.
  intros p W P. eexists. split; [reflexivity|]. split; [apply mod_text; assumption|]. apply C96_within. apply path_within.
Qed.
(** Outside of one it writes a claw.work as well, which is read as the workspace of the repository. *)
Theorem C139_workspace origin rel : let p := if rel =b "." then origin else origin ++ lit "/" ++ rel in word p -> module_path p -> word origin ->
  exists w t, handleInit false None (Some (origin, rel)) = Ok (Some w, t) /\
    parseWork toLower (lexer w) = Ok (mkWork origin (lit "claw_vendor")) /\ readMod (lexer t) = Ok (mkMod p [] [] []) /\ ValidateModuleInRepo p origin = Ok tt.
Proof.
  intros p W P O. eexists _, _. split; [reflexivity|]. split; [|split; [apply mod_text; assumption|apply C96_within; apply path_within]].
  apply work_text_read; [exact O|apply (lit_word isSpace no_dec "claw_vendor"); [discriminate|reflexivity]| |intros [q E]; discriminate].
  intros (a & b & ->). destruct P as [_ P]. apply P. unfold p. destruct (rel =b "."); [eauto|]. exists a, (b ++ lit "/" ++ rel). rewrite <- !app_assoc. reflexivity.
Qed.
(** Nothing is written where there is a claw.mod, nor outside of a workspace and a repository. *)
Theorem C139_keeps work git : handleInit true work git = Err /\ handleInit false None None = Err.
Proof. split; reflexivity. Qed.
End Init.
Print Assumptions C139_module.
Print Assumptions C139_workspace.
Print Assumptions C139_keeps.
(** A repository with a name that is no name of a package: init writes a claw.mod that is refused. *)
Theorem C139_name_refuted : exists t, handleInit false (Some (lit "git.io/ann/my-cars", lit ".")) None = Ok (None, t) /\
  t = text_of_lines [lit "module git.io/ann/my-cars"] /\ mod_parse (lines_of spc [lit "module git.io/ann/my-cars"] ++ [eofLine]) = Err.
Proof. eexists. split; [reflexivity|]. split; vm_compute; reflexivity. Qed.
Print Assumptions C139_name_refuted.
Example C139_case : exists w t, handleInit false None (Some (lit "github.com/a", lit "car")) = Ok (Some w, t) /\
  w = text_of_lines [lit "repo github.com/a"; []; lit "vendorDir claw_vendor"] /\ t = text_of_lines [lit "module github.com/a/car"] /\
  module_path (lit "github.com/a" ++ lit "/" ++ lit "car") /\ word (lit "github.com/a") /\ word (lit "github.com/a/car").
Proof.
  eexists _, _. split; [reflexivity|]. split; [vm_compute; reflexivity|]. split; [vm_compute; reflexivity|]. split; [exact car_path|].
  split; [apply (lit_word spc dec0 "github.com/a")|apply (lit_word spc dec0 "github.com/a/car")]; first [discriminate|vm_compute; reflexivity].
Qed.

(** ** C140 *)
(** A package with a version, and white space anywhere around them. *)
Theorem C140_version a pkg b c v d : Forall blank a -> Forall blank b -> Forall blank c -> Forall blank d -> trimmed pkg -> ~ In 64 pkg -> trimmed v ->
  parsePackageSpec (a ++ pkg ++ b ++ lit "@" ++ c ++ v ++ d) = Ok (pkg, v).
Proof.
  intros A B C D P N V. unfold parsePackageSpec.
  assert (T : trimSpace (a ++ pkg ++ b ++ lit "@" ++ c ++ v ++ d) = pkg ++ b ++ lit "@" ++ c ++ v).
  { replace (a ++ pkg ++ b ++ lit "@" ++ c ++ v ++ d) with (a ++ (pkg ++ b ++ lit "@" ++ c ++ v) ++ d) by (rewrite <- !app_assoc; reflexivity).
    apply trim_trimmed; [exact A| |exact D]. destruct P as (NP & PH & PL), V as (NV & VH & VL). split; [destruct pkg; [congruence|discriminate]|]. split.
    - intros x q E. destruct pkg as [|y pkg]; [congruence|]. injection E as <- _. eapply PH. reflexivity.
    - intros x q E. destruct (exists_last NV) as (v' & y & ->). rewrite !app_assoc in E. apply app_inj_tail in E. destruct E as [_ <-]. eapply VL. reflexivity. }
  rewrite T. change (lit "@") with [64]. cbn [app].
  assert (NB : ~ In 64 (pkg ++ b)) by (intros I; apply in_app_or in I; destruct I as [I|I]; [exact (N I)|rewrite Forall_forall in B; apply B in I; unfold blank in I; lia]).
  rewrite app_assoc, (cut_here 64 (pkg ++ b) (c ++ v) NB).
  replace (trimSpace (pkg ++ b)) with pkg by (symmetry; exact (trim_trimmed [] pkg b (Forall_nil _) P B)).
  replace (trimSpace (c ++ v)) with v by (symmetry; rewrite <- (app_nil_r v) at 1; exact (trim_trimmed c v [] C V (Forall_nil _))).
  destruct P as (NP & _). destruct pkg as [|y pkg]; [congruence|]. reflexivity.
Qed.
(** A package alone, or with an at sign and nothing behind it, has no version. *)
Theorem C140_no_version a pkg b d : Forall blank a -> Forall blank b -> Forall blank d -> trimmed pkg -> ~ In 64 pkg ->
  parsePackageSpec (a ++ pkg ++ b) = Ok (pkg, []) /\ parsePackageSpec (a ++ pkg ++ b ++ lit "@" ++ d) = Ok (pkg, []).
Proof.
  intros A B D P N. unfold parsePackageSpec. split.
  - rewrite (trim_trimmed a pkg b A P B), (cut_none 64 pkg N).
    replace (trimSpace pkg) with pkg by (symmetry; rewrite <- (app_nil_r pkg) at 1; exact (trim_trimmed [] pkg [] (Forall_nil _) P (Forall_nil _))).
    destruct P as (NP & _). destruct pkg; [congruence|reflexivity].
  - assert (T : trimSpace (a ++ pkg ++ b ++ lit "@" ++ d) = pkg ++ b ++ lit "@").
    { replace (a ++ pkg ++ b ++ lit "@" ++ d) with (a ++ (pkg ++ b ++ lit "@") ++ d) by (rewrite <- !app_assoc; reflexivity).
      apply trim_trimmed; [exact A| |exact D]. destruct P as (NP & PH & PL). split; [destruct pkg; [congruence|discriminate]|]. split.
      - intros x q E. destruct pkg as [|y pkg]; [congruence|]. injection E as <- _. eapply PH. reflexivity.
      - intros x q E. rewrite !app_assoc in E. change (lit "@") with [64] in E. apply app_inj_tail in E. destruct E as [_ <-]. unfold blank. lia. }
    rewrite T. change (lit "@") with [64].
    assert (NB : ~ In 64 (pkg ++ b)) by (intros I; apply in_app_or in I; destruct I as [I|I]; [exact (N I)|rewrite Forall_forall in B; apply B in I; unfold blank in I; lia]).
    rewrite app_assoc, (cut_here 64 (pkg ++ b) [] NB).
    replace (trimSpace (pkg ++ b)) with pkg by (symmetry; exact (trim_trimmed [] pkg b (Forall_nil _) P B)).
    destruct P as (NP & _). destruct pkg as [|y pkg]; [congruence|]. reflexivity.
Qed.
(** What is accepted is a package, and what is refused has none. *)
Theorem C140_accepted s : (exists pkg v, parsePackageSpec s = Ok (pkg, v) /\ trimmed pkg /\ ~ In 64 pkg) \/
  (parsePackageSpec s = Err /\ (Forall blank s \/ exists a q, s = a ++ lit "@" ++ q /\ Forall blank a)).
Proof.
  unfold parsePackageSpec. destruct (trim_inv s) as [[F ->]|(a & t & b & E & A & B & T & ->)]; [right; split; [reflexivity|left; exact F]|].
  destruct t as [|x t]; [destruct T; congruence|]. remember (x :: t) as u eqn:Eu.
  destruct (cut_inv 64 u) as [(p & q & Ep & N & C)|[N C]]; rewrite C.
  - destruct (trim_inv p) as [[F Tp]|(a' & t' & b' & Ep' & A' & B' & T' & Tp)]; rewrite Tp; subst u.
    + right. split; [reflexivity|]. right. rewrite Ep in E. exists (a ++ p), (q ++ b). split; [rewrite E; rewrite <- !app_assoc; reflexivity|]. apply Forall_app. split; assumption.
    + left. destruct t' as [|y t']; [destruct T'; congruence|]. eexists _, _. split; [reflexivity|]. split; [exact T'|]. intros I. apply N. rewrite Ep'. apply in_or_app. right. apply in_or_app. left. exact I.
  - left. replace (trimSpace u) with u by (symmetry; rewrite <- (app_nil_r u) at 1; exact (trim_trimmed [] u [] (Forall_nil _) T (Forall_nil _))).
    subst u. eexists _, _. split; [reflexivity|]. split; [exact T|exact N].
Qed.
(** What get fetches without a version, or for latest, is the latest file; for any other version, what that version gives. *)
Theorem C140_get openRepo lexer sha256 spec pkg version : sane_world openRepo -> parsePackageSpec spec = Ok (pkg, version) ->
  forall p v, getTarget (GetLatestVersion openRepo) spec = Ok (p, v) -> p = pkg /\
  forall f, GetClawFile openRepo lexer sha256 p v = Ok f <->
    GetClawFile openRepo lexer sha256 pkg (if (version =b "latest") then [] else version) = Ok f.
Proof.
  intros S H p v G. unfold getTarget in G. rewrite H in G. cbn [bind] in G. destruct (version =b "latest") eqn:L.
  - cbn [orb] in G. destruct (GetLatestVersion openRepo pkg) as [w| | |] eqn:E; try discriminate. cbn [bind] in G. injection G as <- <-. split; [reflexivity|].
    apply (C137_latest openRepo lexer sha256 S pkg w E).
  - cbn [orb] in G. destruct (bytes_eqb version []) eqn:Z.
    + apply bytes_eqb_eq in Z. subst version. destruct (GetLatestVersion openRepo pkg) as [w| | |] eqn:E; try discriminate. cbn [bind] in G. injection G as <- <-. split; [reflexivity|].
      apply (C137_latest openRepo lexer sha256 S pkg w E).
    + injection G as <- <-. split; [reflexivity|]. reflexivity.
Qed.
Print Assumptions C140_version.
Print Assumptions C140_no_version.
Print Assumptions C140_accepted.
Print Assumptions C140_get.
Example C140_case : parsePackageSpec (lit " git.io/ann/one @ v1.2.3 ") = Ok (one_pkg, lit "v1.2.3") /\ parsePackageSpec (lit "git.io/ann/one@") = Ok (one_pkg, []) /\
  parsePackageSpec (lit " @v1") = Err /\ getTarget (GetLatestVersion (repos false)) (lit "git.io/ann/one@latest") = Ok (one_pkg, appendHex head_hash).
Proof. repeat split; vm_compute; reflexivity. Qed.
