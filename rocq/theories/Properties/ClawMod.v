(** C94, C95, C96, C97: claw.mod, its access lists, claw.work and local.replace. *)
From Coq Require Import ZArith List Bool String Lia.
Import ListNotations.
From Verif.Model Require Import Base Utf8 Field Any ClawText Idl ClawMod.
From Verif.Spec Require Import Text JsonGrammar ClawText ClawHand Idl IdlText ClawMod.
From Verif.Proofs Require Import BaseLemmas IngestProofs IdlBase IdlTotal IdlText ClawMod ClawModText.
From Verif.Properties Require Import Idl IdlText.
Local Open Scope Z_scope.

(** ** C94: the module file *)
Section Any.
(** unicode.IsUpper, IsLower, IsLetter, IsNumber, IsSpace; strings.ToLower; Item.ToInt of the lexer. *)
Variables isUpper isLower isLetter isNumber isSpace : Z -> bool.
Variable toLower : bytes -> bytes.
Variable toInt : bytes -> option Z.
Notation parse := (parseModule isUpper isLetter isNumber toLower).

(** Whatever the lines, reading them ends with a module or an error. *)
Theorem C94_total ls : Forall a_line ls -> ends (parse ls).
Proof. apply module_ends. Qed.
(** What is read is what the lines say: the path is on the first line, the replacements are on lines of their own in
    the same order, and the module is open to all only if a line says so; it has no other access list. *)
Theorem C94_shown ls m : Forall a_line ls -> parse ls = Ok m ->
  exists l q, ls = l :: q /\ shows l [lit "module"; m.(m_path)] /\
    (exists rl, among rl q /\ Forall2 replace_line rl m.(m_replace)) /\
    (m.(m_acls) = [] \/ (m.(m_acls) = [lit "*"] /\ exists l', In l' q /\ shows l' [lit "acls"; lit "="; lit "public"])).
Proof.
  intros A H. destruct (module_sound _ _ _ _ ls m A H) as ((l & q & E & S & (rl & AM & F) & AA) & _). exists l, q. repeat split; auto.
  exists rl. split; [exact AM|]. clear - F. induction F as [|? ? ? ? [R _]]; constructor; auto.
Qed.
(** No module that is read requires a version of another, although the documentation shows how to. *)
Theorem C94_no_require ls m : Forall a_line ls -> parse ls = Ok m -> m.(m_required) = [].
Proof. intros A H. exact (proj1 (proj2 (module_sound _ _ _ _ ls m A H))). Qed.

Hypothesis tables : ascii_tables isUpper isLower isLetter isNumber isSpace toLower toInt.
(** A text with a module line, at most one block of replacements and at most one line acls = public is read as that. *)
Theorem C94_read ls m : module_text ls m -> parse (ls ++ [eofLine]) = Ok m.
Proof. apply (module_read _ _ _ _ _ _ _ tables). Qed.
(** A module file that was read and has no access list is written into the vendor directory so that it is read again as
    the same; a lexer that splits lines into words, as in C90. *)
Theorem C94_saved_partial dec (lexer : bytes -> list iline) ls m : isSpace 32 = true -> isSpace 9 = true ->
  (forall rss, Forall line_chars rss -> lexer (text_of_lines rss) = lines_of isSpace rss ++ [eofLine]) ->
  Forall a_line ls -> parse ls = Ok m -> m.(m_acls) = [] ->
  word m.(m_path) -> Forall (fun r => word r.(rp_from) /\ word r.(rp_to)) m.(m_replace) ->
  parse (lexer (serializeModule dec m)) = Ok m.
Proof.
  intros S32 S9 L A H C W F. destruct (module_sound _ _ _ _ ls m A H) as ((l & q & _ & _ & (rl & _ & R) & _) & Q & V).
  assert (PW : plain_words m) by (split; assumption).
  rewrite (saved_text isSpace dec m PW Q C).
  rewrite L by exact (saved_chars isSpace dec m PW). apply (saved_read _ _ _ _ _ _ _ tables dec S32 S9 m PW Q C); [|exact V].
  clear - R. induction R as [|? ? ? ? [_ N]]; constructor; auto.
Qed.
End Any.
Print Assumptions C94_total.
Print Assumptions C94_shown.
Print Assumptions C94_no_require.
Print Assumptions C94_read.
Print Assumptions C94_saved_partial.

(** *** Cases *)
Definition mod_parse := parseModule up (fun c => up c || low c) num lower.
Definition car_mod : list string := ["module github.com/a/car"; "replace ("; "github.com/x/p => github.com/y/p // moved"; "github.com/x/q => github.com/y/q"; ")"; "// For all."; "acls = public"]%string.
Definition car_module : module := mkMod (lit "github.com/a/car") [] [mkRep (lit "github.com/x/p") (lit "github.com/y/p"); mkRep (lit "github.com/x/q") (lit "github.com/y/q")] [lit "*"].

Lemma text_lines ss : forallb (fun s => forallb (fun w => negb (bytes_eqb w []) && negb (bytes_eqb w [10])) (words_of s)) ss = true -> Forall a_line (text ss).
Proof.
  intros H. unfold text. apply Forall_app. split; [|constructor; [apply eof_line|constructor]].
  apply Forall_forall. intros l I. apply in_map_iff in I. destruct I as (s & <- & I). apply (proj1 (forallb_forall _ _) H) in I.
  exists (words_of s), [10]. split; [reflexivity|]. split; [|right; split; reflexivity].
  apply Forall_forall. intros w J. apply (proj1 (forallb_forall _ _) I) in J. apply andb_prop in J. destruct J.
  split; intros ->; discriminate.
Qed.
Example car_mod_parsed : mod_parse (text car_mod) = Ok car_module /\ Forall a_line (text car_mod).
Proof. split; [vm_compute; reflexivity|]. apply text_lines. vm_compute. reflexivity. Qed.
Example car_path : module_path (lit "github.com/a/car").
Proof.
  split.
  - exists (lit "github.com/a/"), (lit "car"). split; [reflexivity|]. split; [|right; exists (lit "github.com/a"); reflexivity].
    eexists _, _. split; [vm_compute; reflexivity|]. split; [unfold upper_letter, lower_letter; lia|].
    repeat (constructor; [unfold letter_or_digit, upper_letter, lower_letter; lia|]); constructor.
  - intros H. apply contains_iff in H. vm_compute in H. discriminate.
Qed.
Example car_mod_shows : module_text (map ln car_mod) car_module.
Proof.
  unfold car_mod, car_module. cbn [map]. apply mt; [plainline|exact car_path|].
  apply (mb_replace [] [ln "replace ("; ln "github.com/x/p => github.com/y/p // moved"; ln "github.com/x/q => github.com/y/q"; ln ")"]
           [mkRep (lit "github.com/x/p") (lit "github.com/y/p"); mkRep (lit "github.com/x/q") (lit "github.com/y/q")]
           [ln "// For all."; ln "acls = public"]); [constructor| |].
  - apply (rt (ln "replace (") [ln "github.com/x/p => github.com/y/p // moved"; ln "github.com/x/q => github.com/y/q"] _ (ln ")")); [plainline| |discriminate|plainline].
    repeat (constructor; [split; [cbn [rp_from rp_to]; first [plainline|asideline ["//"; "moved"]%string]|discriminate]|]). constructor.
  - apply (mb_public [ln "// For all."] (ln "acls = public") []); [|plainline|apply mb_end; constructor].
    constructor; [|constructor]. exists (map lit ["For"; "all."]%string). saysok.
Qed.
(** The saved copy of a module without an access list. *)
Definition car_closed : module := mkMod car_module.(m_path) [] car_module.(m_replace) [].
Definition dec0 (_ : Z) : bytes := lit "0".
Example car_saved : exists ls, Forall a_line ls /\ mod_parse ls = Ok car_closed /\ word car_closed.(m_path) /\
  Forall (fun r => word r.(rp_from) /\ word r.(rp_to)) car_closed.(m_replace) /\
  serializeModule dec0 car_closed = text_of_lines (saved_lines car_closed) /\
  mod_parse (lines_of spc (saved_lines car_closed) ++ [eofLine]) = Ok car_closed.
Proof.
  exists (text (firstn 5 car_mod)). split; [apply text_lines; vm_compute; reflexivity|]. split; [vm_compute; reflexivity|].
  assert (W : forall s, forallb (fun c => (33 <=? c) && (c <=? 126)) (lit s) = true -> s <> EmptyString -> word (lit s)).
  { intros s H N. apply (lit_word spc dec0); [destruct s; [congruence|discriminate]|exact H]. }
  split; [apply (W "github.com/a/car"%string); first [discriminate|vm_compute; reflexivity]|].
  split; [constructor; [split; [apply (W "github.com/x/p"%string)|apply (W "github.com/y/p"%string)]; first [discriminate|vm_compute; reflexivity]|
          constructor; [split; [apply (W "github.com/x/q"%string)|apply (W "github.com/y/q"%string)]; first [discriminate|vm_compute; reflexivity]|constructor]]|].
  split; vm_compute; reflexivity.
Qed.

(** *** What does not hold *)
(** The example of the documentation, with the module line the reader wants, is not read: neither the block of required
    versions nor the access list. *)
Theorem C94_require_refuted : mod_parse (text ["module github.com/a/car"; "require ("; "github.com/johnsiilver/trucks v1.1.1"; ")"]%string) = Err.
Proof. vm_compute. reflexivity. Qed.
Theorem C94_acls_refuted : mod_parse (text ["module github.com/a/car"; "acls ("; "github.com/johnsiilver/vehicles/*"; "github.com/djustice/vehicles/toyota"; ")"]%string) = Err /\
  mod_parse (text ["module github.com/a/car"; "acls ("; "github.com/djustice/vehicles/toyota"; ")"]%string) = Err.
Proof. split; vm_compute; reflexivity. Qed.
(** A comment whose first word is more than the slashes is refused, and so is any comment among the replacements. *)
Theorem C94_comment_refuted : mod_parse (text ["module github.com/a/car"; "//For all."; "acls = public"]%string) = Err /\
  mod_parse (text ["module github.com/a/car"; "replace ("; "// moved"; "a => b"; ")"]%string) = Err.
Proof. split; vm_compute; reflexivity. Qed.
(** A module open to all is written with a list that is refused when it is read. *)
Theorem C94_saved_refuted : exists ls m rss, Forall a_line ls /\ mod_parse ls = Ok m /\
  serializeModule dec0 m = text_of_lines rss /\ mod_parse (lines_of spc rss ++ [eofLine]) = Err.
Proof.
  exists (text ["module github.com/a/car"; "acls = public"]%string), (mkMod (lit "github.com/a/car") [] [] [lit "*"]),
    [lit "module github.com/a/car"; []; lit "acls ("; lit "    *"; lit ")"].
  split; [apply text_lines; vm_compute; reflexivity|]. repeat split; vm_compute; reflexivity.
Qed.

(** ** C95: access lists *)
(** Who an entry admits is let in. *)
Theorem C95_admitted current m : (exists acl, In acl m.(m_acls) /\ entry_admits acl current) -> checkACLPermission current m = Ok tt.
Proof.
  intros (acl & I & A). unfold checkACLPermission. destruct (m_acls m) as [|a q] eqn:E; [destruct I|].
  replace (negb (len (a :: q) =? 0)) with true by (unfold len; cbn [length]; symmetry; rewrite negb_true_iff; apply Z.eqb_neq; lia).
  cbn [ok_if bind]. replace (existsb (aclAllows current) (a :: q)) with true; [reflexivity|]. symmetry. apply existsb_exists. exists acl. split; [exact I|].
  unfold aclAllows. destruct A as [->|[->|(p & r & -> & ->)]].
  - reflexivity.
  - rewrite !orb_true_iff. left. right. apply beq_refl.
  - rewrite !orb_true_iff. right. rewrite trimSuffix_app. apply andb_true_intro. split; [apply suffix_iff; eauto|apply prefix_iff; eauto].
Qed.
(** Who is let in: an entry is everyone, the importer, or a prefix of its characters and a slash and a star. *)
Theorem C95_exact current m : checkACLPermission current m = Ok tt <-> exists acl, In acl m.(m_acls) /\ entry_admits_loosely acl current.
Proof.
  unfold checkACLPermission. split.
  - intros H. destruct (negb (len (m_acls m) =? 0)); [|discriminate]. cbn [ok_if bind] in H.
    destruct (existsb (aclAllows current) (m_acls m)) eqn:E; [|discriminate]. apply existsb_exists in E. destruct E as (acl & I & A).
    exists acl. split; [exact I|]. unfold aclAllows in A. rewrite !orb_true_iff in A. destruct A as [[[A|A]|A]|A].
    + left. apply bytes_eqb_eq. exact A.
    + right. left. apply bytes_eqb_eq. exact A.
    + right. right. left. apply bytes_eqb_eq. exact A.
    + right. right. right. apply andb_prop in A. destruct A as [A B]. apply suffix_iff in A. destruct A as [p ->]. rewrite trimSuffix_app in B. apply prefix_iff in B.
      destruct B as [q ->]. eauto.
  - intros (acl & I & A). destruct (m_acls m) as [|a q] eqn:E; [destruct I|].
    replace (negb (len (a :: q) =? 0)) with true by (unfold len; cbn [length]; symmetry; rewrite negb_true_iff; apply Z.eqb_neq; lia).
    cbn [ok_if bind]. replace (existsb (aclAllows current) (a :: q)) with true; [reflexivity|]. symmetry. apply existsb_exists. exists acl. split; [exact I|].
    unfold aclAllows. rewrite !orb_true_iff. destruct A as [->|[->|[->|(p & r & -> & ->)]]].
    + left. left. left. reflexivity.
    + left. left. right. reflexivity.
    + left. right. apply beq_refl.
    + right. rewrite trimSuffix_app. apply andb_true_intro. split; [apply suffix_iff; eauto|apply prefix_iff; eauto].
Qed.
(** A module without an access list lets no one in. *)
Theorem C95_closed current m : m.(m_acls) = [] -> checkACLPermission current m = Err.
Proof. intros E. unfold checkACLPermission. rewrite E. reflexivity. Qed.
(** A compilation goes on exactly if each package that has a claw.mod lets the root in. *)
Theorem C95_all current mods : validateACLs current mods = Ok tt <-> forall m, In (Some m) mods -> exists acl, In acl m.(m_acls) /\ entry_admits_loosely acl current.
Proof.
  induction mods as [|[m|] mods IH]; cbn [validateACLs].
  - split; [intros _ m []|reflexivity].
  - split.
    + intros H. destruct (checkACLPermission current m) as [[]| | |] eqn:E; try discriminate. cbn [bind] in H. intros m' [X|X].
      * injection X as <-. apply C95_exact. exact E.
      * exact (proj1 IH H m' X).
    + intros H. rewrite (proj2 (C95_exact current m) (H m (or_introl eq_refl))). cbn [bind]. apply IH. intros m' I. apply H. right. exact I.
  - rewrite IH. split; intros H m I; apply H; [destruct I as [|I]; [discriminate|exact I]|right; exact I].
Qed.
Print Assumptions C95_admitted.
Print Assumptions C95_exact.
Print Assumptions C95_closed.
Print Assumptions C95_all.
Definition friends : module := mkMod (lit "github.com/a/car") [] [] [lit "github.com/b/*"; lit "github.com/c/van"].
Example friends_in : checkACLPermission (lit "github.com/b/bus/small") friends = Ok tt /\ checkACLPermission (lit "github.com/c/van") friends = Ok tt /\
  checkACLPermission (lit "github.com/c/van/x") friends = Err /\ entry_admits (lit "github.com/b/*") (lit "github.com/b/bus/small").
Proof.
  repeat split; try (vm_compute; reflexivity). right. right. exists (lit "github.com/b"), (lit "bus/small"). split; reflexivity.
Qed.
(** The rule of the documentation, only packages underneath, is not kept: another account whose name has the same
    beginning is let in; and a package without a claw.mod is open to all. *)
Theorem C95_refuted : checkACLPermission (lit "github.com/bad/bus") friends = Ok tt /\
  ~ (exists acl, In acl friends.(m_acls) /\ entry_admits acl (lit "github.com/bad/bus")).
Proof.
  split; [vm_compute; reflexivity|]. intros (acl & I & A).
  destruct I as [<-|[<-|[]]]; (destruct A as [A|[A|(p & q & A & B)]]; [discriminate|discriminate|]).
  - change (lit "github.com/b/*") with (lit "github.com/b" ++ lit "/*") in A. apply app_inv_tail in A. subst. discriminate.
  - apply (f_equal (@rev Z)) in A. rewrite rev_app_distr in A. discriminate.
Qed.
Theorem C95_no_file_refuted current : validateACLs current [None] = Ok tt.
Proof. reflexivity. Qed.

(** ** C96: the workspace file *)
(** A package belongs to the repository exactly if it is the repository or has its path before a slash. *)
Theorem C96_within p repo : ValidateModuleInRepo p repo = Ok tt <-> within repo p.
Proof.
  unfold ValidateModuleInRepo, within. split.
  - intros H. destruct (hasPrefix repo p) eqn:E; [|discriminate]. apply prefix_iff in E. destruct E as [q ->]. cbn [ok_if bind] in H.
    destruct q as [|c q]; [left; apply app_nil_r|]. right.
    replace ((length repo <? length (repo ++ c :: q))%nat) with true in H by (symmetry; apply Nat.ltb_lt; rewrite app_length; cbn; lia).
    rewrite nth_error_app2 in H by lia. rewrite Nat.sub_diag in H. cbn [nth_error] in H.
    destruct (c =? 47) eqn:C; [|discriminate]. apply Z.eqb_eq in C. subst. exists q. reflexivity.
  - intros [->|[q ->]].
    + replace (hasPrefix repo repo) with true by (symmetry; apply prefix_iff; exists []; symmetry; apply app_nil_r). cbn [ok_if bind].
      rewrite Nat.ltb_irrefl. reflexivity.
    + replace (hasPrefix repo (repo ++ lit "/" ++ q)) with true by (symmetry; apply prefix_iff; eauto). cbn [ok_if bind].
      replace ((length repo <? length (repo ++ lit "/" ++ q))%nat) with true by (symmetry; apply Nat.ltb_lt; rewrite app_length; cbn; lia).
      rewrite nth_error_app2 by lia. rewrite Nat.sub_diag. reflexivity.
Qed.
Section Work.
Variables isUpper isLower isLetter isNumber isSpace : Z -> bool.
Variable toLower : bytes -> bytes.
Variable toInt : bytes -> option Z.
Theorem C96_total ls : Forall a_line ls -> ends (parseWork toLower ls).
Proof. apply work_ends. Qed.
(** What is read is what the lines say, and the vendor directory is relative. *)
Theorem C96_shown ls w : parseWork toLower ls = Ok w ->
  (exists p l q, ls = p ++ l :: q /\ shows l [lit "repo"; w.(wk_repo)] /\ exists l', In l' q /\ shows l' [lit "vendorDir"; w.(wk_vendor)]) /\
  w.(wk_repo) <> [] /\ w.(wk_vendor) <> [] /\ ~ (exists a b, w.(wk_repo) = a ++ lit "//" ++ b) /\ ~ starts (lit "/") w.(wk_vendor).
Proof. apply work_sound. Qed.
(** The file that counts is that of the nearest directory that has one, and no other is asked, not even where that one
    cannot be read. *)
Theorem C96_nearest dirs w d : FindWork toLower dirs = Ok (w, d) <->
  exists p ls q, dirs = p ++ (d, Some (Ok ls)) :: q /\ Forall (fun e => snd e = None) p /\ parseWork toLower ls = Ok w.
Proof.
  split.
  - induction dirs as [|[d' [c|]] dirs IH]; cbn [FindWork]; intros H; [discriminate| |].
    + destruct c as [ls| | |]; try discriminate. cbn [bind] in H. destruct (parseWork toLower ls) as [w'| | |] eqn:E; try discriminate. injection H as <- <-.
      exists [], ls, dirs. split; [reflexivity|]. split; [constructor|exact E].
    + destruct (IH H) as (p & ls & q & -> & F & P). exists ((d', None) :: p), ls, q. split; [reflexivity|]. split; [constructor; [reflexivity|exact F]|exact P].
  - intros (p & ls & q & -> & F & P). induction F as [|[d' c] p X F IH]; cbn [app FindWork].
    + cbn [bind]. rewrite P. reflexivity.
    + cbn [snd] in X. subst c. exact IH.
Qed.
Theorem C96_none dirs : Forall (fun e => snd e = None) dirs -> FindWork toLower dirs = Err.
Proof. intros F. induction F as [|[d c] p X F IH]; cbn [FindWork]; [reflexivity|]. cbn [snd] in X. subst. exact IH. Qed.
Hypothesis tables : ascii_tables isUpper isLower isLetter isNumber isSpace toLower toInt.
Theorem C96_read ls w : work_text ls w -> parseWork toLower (ls ++ [eofLine]) = Ok w.
Proof. apply (work_read _ _ _ _ _ _ _ tables). Qed.
End Work.
Print Assumptions C96_total.
Print Assumptions C96_shown.
Print Assumptions C96_within.
Print Assumptions C96_nearest.
Print Assumptions C96_none.
Print Assumptions C96_read.
Definition the_work : list string := ["//The workspace."; "repo github.com/a/mono // ours"; "// Copies."; "vendorDir claw/vendor"]%string.
Example the_work_shows : work_text (map ln the_work) (mkWork (lit "github.com/a/mono") (lit "claw/vendor")).
Proof.
  unfold the_work. cbn [map].
  apply (wt [ln "//The workspace."] (ln "repo github.com/a/mono // ours") [ln "// Copies."] (ln "vendorDir claw/vendor") []).
  - constructor; [|constructor]. exists (lit "//The"), [lit "workspace."]. split; [saysok|eexists; vm_compute; reflexivity].
  - asideline ["//"; "ours"]%string.
  - constructor; [|constructor]. exists (lit "//"), [lit "Copies."]. split; [saysok|eexists; vm_compute; reflexivity].
  - plainline.
  - constructor.
  - intros H. apply contains_iff in H. vm_compute in H. discriminate.
  - intros [q H]. vm_compute in H. discriminate.
Qed.
Example the_work_found : FindWork lower [(lit "/home/x/mono/car", None); (lit "/home/x/mono", Some (Ok (text the_work))); (lit "/home", Some Err)]
  = Ok (mkWork (lit "github.com/a/mono") (lit "claw/vendor"), lit "/home/x/mono").
Proof. vm_compute. reflexivity. Qed.
Example in_repo : within (lit "github.com/a/mono") (lit "github.com/a/mono/car") /\ ValidateModuleInRepo (lit "github.com/a/monolith") (lit "github.com/a/mono") = Err.
Proof. split; [right; exists (lit "car"); reflexivity|vm_compute; reflexivity]. Qed.
(** A last line that has no end of line is not looked at: here the vendor directory, so the file is refused. *)
Theorem C96_last_line_refuted : parseWork lower [ln "repo github.com/a/mono"; mkL [lit "vendorDir"; lit "claw/vendor"; []] true (lit "vendorDir claw/vendor")] = Err.
Proof. vm_compute. reflexivity. Qed.

(** ** C97: local.replace *)
Section Local.
Variable toLower : bytes -> bytes.
Variable dir_ok : bytes -> bool.
Lemma local_next fuel : forall have ls rs, localNext toLower fuel have ls = Ok rs ->
  rs = have \/ (have = [] /\ exists rl, among rl ls /\ Forall2 replace_line rl rs).
Proof.
  induction fuel as [|fuel IH]; intros have ls rs H; [discriminate|]. cbn [localNext] in H.
  destruct (modSkip ls) as [ls'| | |] eqn:E; try discriminate. cbn [bind] in H. pose proof (skip_rest _ _ E) as [p R].
  destruct (next ls') as [l q] eqn:N. destruct (item l 0) as [w| | |]; try discriminate. cbn [bind] in H.
  destruct (toLower w =b "replace").
  - destruct (0 <? len have) eqn:L; [discriminate|]. destruct have as [|a have]; [|exfalso; apply Z.ltb_ge in L; unfold len in L; cbn [length] in L; lia].
    destruct (parseReplace [] ls') as [[rs' r]| | |] eqn:P; try discriminate. cbn [bind] in H.
    right. split; [reflexivity|].
    destruct (replace_sound _ _ _ _ P eq_refl) as (u & rl & -> & _ & NE & A & F).
    destruct (IH _ _ _ H) as [->|[X _]]; [|congruence]. exists rl. split.
    + rewrite R. apply among_nil_app. rewrite <- (app_nil_r rl). apply among_app; [exact A|constructor].
    + clear - F. induction F as [|? ? ? ? [X _]]; constructor; auto.
  - destruct (l_eof l); [|discriminate]. left. congruence.
Qed.
Lemma local_checked root rs : localValidate root dir_ok rs = Ok tt -> rs = [] \/ exists f, root = Some f /\ Forall (fun r => imported f r.(rp_from) = true /\ dir_ok r.(rp_to) = true) rs.
Proof.
  induction rs as [|r rs IH]; intros H; [left; reflexivity|]. right. cbn [localValidate] in H. destruct root as [f|]; [|discriminate].
  exists f. split; [reflexivity|]. destruct (imported f (rp_from r)) eqn:I; [|discriminate]. cbn [ok_if bind] in H. destruct (dir_ok (rp_to r)) eqn:D; [|discriminate]. cbn [ok_if bind] in H.
  constructor; [auto|]. destruct (IH H) as [->|(g & [= <-] & F)]; [constructor|exact F].
Qed.
(** The replacements that are read are those of the lines; each is of an import of the schema, by the name it has there,
    and to a directory with a schema. *)
Theorem C97_shown root ls rs : parseLocalReplace toLower root dir_ok ls = Ok rs ->
  (exists rl, among rl ls /\ Forall2 replace_line rl rs) /\
  (rs = [] \/ exists f, root = Some f /\ Forall (fun r => imported f r.(rp_from) = true /\ dir_ok r.(rp_to) = true) rs).
Proof.
  unfold parseLocalReplace. intros H. destruct (localNext _ _ _ _) as [rs'| | |] eqn:E; try discriminate. cbn [bind] in H.
  destruct (localValidate root dir_ok rs') as [[]| | |] eqn:V; try discriminate. cbn [bind] in H. injection H as <-. split; [|apply local_checked; exact V].
  destruct (local_next _ _ _ _ E) as [->|[_ X]]; [|exact X]. exists []. split; constructor.
Qed.
(** The compiler calls it with no schema: then the only local.replace that is read is one that replaces nothing. *)
Theorem C97_nothing ls rs : parseLocalReplace toLower None dir_ok ls = Ok rs -> rs = [].
Proof. intros H. destruct (C97_shown None ls rs H) as [_ [X|(f & X & _)]]; [exact X|discriminate]. Qed.
Lemma lnext_ends fuel : forall have ls, Forall a_line ls -> (length ls < fuel)%nat -> ends (localNext toLower fuel have ls).
Proof.
  induction fuel as [|fuel IH]; intros have ls A L; [lia|]. cbn [localNext].
  destruct (mskip_ends ls A) as [[ls' E]|E]; rewrite E; cbn [bind]; [|right; reflexivity].
  pose proof (skip_rest _ _ E) as R. pose proof (rest_lines _ _ R A) as A'. pose proof (rest_len _ _ R) as L'.
  destruct (next ls') as [l q] eqn:N.
  assert (X : a_line l) by (destruct ls' as [|l' r]; cbn [next] in N; injection N as <- <-; [apply eof_line|inversion A'; assumption]).
  destruct X as (ws & e & I & _ & _).
  destruct (item l 0) as [w| | |] eqn:W; unfold item in W; rewrite I in W; [|destruct ws; discriminate..].
  cbn [bind]. destruct (toLower w =b "replace").
  - destruct (0 <? len have) eqn:H; [right; reflexivity|]. destruct have as [|a have]; [|exfalso; apply Z.ltb_ge in H; unfold len in H; cbn [length] in H; lia].
    destruct (replace_ends toLower [] ls') as [[[rs r] P]|P]; rewrite P; cbn [bind]; [|right; reflexivity].
    destruct (replace_sound _ _ _ _ P eq_refl) as (u & rl & -> & U & _). apply IH.
    + apply Forall_app in A'. tauto.
    + rewrite app_length in L'. destruct u; [congruence|cbn [length] in L'; lia].
  - destruct (l_eof l); [left; eauto|right; reflexivity].
Qed.
(** With a schema, reading it ends. *)
Theorem C97_total f ls : Forall a_line ls -> ends (parseLocalReplace toLower (Some f) dir_ok ls).
Proof.
  intros A. unfold parseLocalReplace. destruct (lnext_ends (S (S (length ls))) [] ls A) as [[rs E]|E]; [lia|rewrite E|rewrite E]; cbn [bind]; [|right; reflexivity].
  assert (V : ends (localValidate (Some f) dir_ok rs)).
  { clear. induction rs as [|r rs IH]; cbn [localValidate]; [left; eauto|].
    destruct (imported f (rp_from r)); [|right; reflexivity]. cbn [ok_if bind]. destruct (dir_ok (rp_to r)); [|right; reflexivity]. exact IH. }
  destruct V as [[u V]|V]; rewrite V; cbn [bind]; [left; eauto|right; reflexivity].
Qed.
End Local.
Print Assumptions C97_shown.
Print Assumptions C97_nothing.
Print Assumptions C97_total.
Definition local_text : list string := ["// While I work on it."; "replace ("; "parts => ../parts"; ")"]%string.
Example local_read : parseLocalReplace lower (Some car_file) (fun _ => true) (text local_text) = Ok [mkRep (lit "parts") (lit "../parts")] /\ Forall a_line (text local_text).
Proof. split; [vm_compute; reflexivity|]. apply text_lines. vm_compute. reflexivity. Qed.
(** A local.replace that replaces an import makes the compiler panic, and with a schema at hand the path of the import,
    which is what the documentation and the lookup of the replacement want, would be refused. *)
Theorem C97_refuted : parseLocalReplace lower None (fun _ => true) (text local_text) = Panic /\
  In (lit "parts", lit "github.com/a/parts") (match car_file.(f_imports) with Some l => l | None => [] end) /\
  parseLocalReplace lower (Some car_file) (fun _ => true) (text ["replace ("; "github.com/a/parts => ../parts"; ")"]%string) = Err.
Proof. split; [vm_compute; reflexivity|]. split; [vm_compute; left; reflexivity|vm_compute; reflexivity]. Qed.
