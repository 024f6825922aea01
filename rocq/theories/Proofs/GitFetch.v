(** Lemmas for Properties/GitFetch.v. *)
From Coq Require Import ZArith List Bool String Lia.
Import ListNotations.
From Verif.Model Require Import Base Utf8 Field Any Escape ClawText Idl ClawMod GitFetch.
From Verif.Spec Require Import ClawText ClawMod GitFetch.
From Verif.Proofs Require Import ClawMod.
Local Open Scope Z_scope.

Lemma bytes_eqb_eq a : forall b, bytes_eqb a b = true <-> a = b.
Proof.
  induction a as [|x a IH]; intros [|y b]; cbn; split; try discriminate; auto.
  - intros H. apply andb_prop in H. destruct H as [H I]. apply Z.eqb_eq in H. apply IH in I. congruence.
  - intros [= -> ->]. rewrite Z.eqb_refl. apply IH. reflexivity.
Qed.

(** ** Splitting at a character *)
Lemma splitAt_ne c s : splitAt c s <> [].
Proof. destruct s as [|d s]; cbn; [discriminate|]. destruct (d =? c); [discriminate|]. destruct (splitAt c s); discriminate. Qed.
Lemma splitAt_none c s : ~ In c s -> splitAt c s = [s].
Proof.
  induction s as [|d s IH]; intros N; cbn; [reflexivity|]. destruct (d =? c) eqn:E.
  - apply Z.eqb_eq in E. exfalso. apply N. left. exact E.
  - rewrite IH by (intros I; apply N; right; exact I). reflexivity.
Qed.
Lemma splitAt_cons c a s : ~ In c a -> splitAt c (a ++ c :: s) = a :: splitAt c s.
Proof.
  induction a as [|d a IH]; intros N; cbn.
  - rewrite Z.eqb_refl. reflexivity.
  - destruct (d =? c) eqn:E; [apply Z.eqb_eq in E; exfalso; apply N; left; exact E|].
    rewrite IH by (intros I; apply N; right; exact I). reflexivity.
Qed.
Lemma splitAt_join c s : join [c] (splitAt c s) = s /\ Forall (fun w => ~ In c w) (splitAt c s).
Proof.
  induction s as [|d s [IH F]]; cbn; [split; [reflexivity|constructor; [intros []|constructor]]|].
  destruct (d =? c) eqn:E.
  - apply Z.eqb_eq in E. subst d. pose proof (splitAt_ne c s) as N. destruct (splitAt c s) as [|w ws]; [congruence|]. split.
    + change (join [c] ([] :: w :: ws)) with ([] ++ [c] ++ join [c] (w :: ws)). rewrite IH. reflexivity.
    + constructor; [intros []|exact F].
  - pose proof (splitAt_ne c s) as N. destruct (splitAt c s) as [|w ws]; [congruence|]. split.
    + destruct ws as [|w' ws].
      * cbn in IH |- *. rewrite IH. reflexivity.
      * change (join [c] ((d :: w) :: w' :: ws)) with (d :: (w ++ [c] ++ join [c] (w' :: ws))).
        change (w ++ [c] ++ join [c] (w' :: ws)) with (join [c] (w :: w' :: ws)). rewrite IH. reflexivity.
    + inversion F; subst. constructor; [|assumption]. intros [I|I]; [subst; rewrite Z.eqb_refl in E; discriminate|contradiction].
Qed.

(** ** Where a package lies *)
Lemma lies_split pkg host user name dir : lies pkg host user name dir ->
  exists rest, splitAt 47 pkg = host :: user :: name :: rest /\ insidePath pkg = dir.
Proof.
  intros [Ph Pu Pn -> ->|Ph Pu Pn ->]; unfold insidePath.
  - exists []. change (lit "/") with [47]. cbn [app]. rewrite splitAt_cons, splitAt_cons, splitAt_none by assumption. split; reflexivity.
  - exists (splitAt 47 dir). change (lit "/") with [47]. cbn [app]. rewrite !splitAt_cons by assumption. split; [reflexivity|].
    cbn [skipn]. apply splitAt_join.
Qed.
Lemma split_lies pkg host user name rest : splitAt 47 pkg = host :: user :: name :: rest -> lies pkg host user name (insidePath pkg).
Proof.
  intros E. destruct (splitAt_join 47 pkg) as [J F]. unfold insidePath. rewrite E in J, F |- *. cbn [skipn].
  inversion F as [|? ? Ph F1]; subst. inversion F1 as [|? ? Pu F2]; subst. inversion F2 as [|? ? Pn F3]; subst.
  destruct rest as [|w ws].
  - apply lies_top; try assumption; [reflexivity|]. reflexivity.
  - apply lies_in; try assumption. cbn [skipn].
    change (join [47] (host :: user :: name :: w :: ws)) with (host ++ [47] ++ user ++ [47] ++ name ++ [47] ++ join [47] (w :: ws)).
    reflexivity.
Qed.

(** ** Names of commits *)
Lemma hex_digit_val d c : hex_digit d c -> hexVal c = Some d /\ c <> 46 /\ c <> 118.
Proof.
  unfold hexVal, in_range. intros [[D ->]|[D ->]].
  - replace ((48 <=? 48 + d) && (48 + d <=? 57)) with true by (symmetry; apply andb_true_iff; split; apply Z.leb_le; lia).
    split; [f_equal; lia|lia].
  - replace ((48 <=? 87 + d) && (87 + d <=? 57)) with false by (symmetry; apply andb_false_iff; right; apply Z.leb_gt; lia).
    replace ((97 <=? 87 + d) && (87 + d <=? 102)) with true by (symmetry; apply andb_true_iff; split; apply Z.leb_le; lia).
    split; [f_equal; lia|lia].
Qed.
Lemma hex_prefix h v : hex_of h v -> hexPrefix v = h.
Proof.
  induction 1 as [|hi lo a b h v A B H IH]; cbn [hexPrefix]; [reflexivity|].
  rewrite (proj1 (hex_digit_val _ _ A)), (proj1 (hex_digit_val _ _ B)), IH. f_equal. lia.
Qed.
Lemma new_hash h v : commit_name h v -> NewHash v = h.
Proof.
  intros [[L _] H]. unfold NewHash. rewrite (hex_prefix _ _ H). rewrite firstn_app, L, Nat.sub_diag.
  change (firstn 0 (repeat 0 20)) with (@nil Z). rewrite app_nil_r. apply firstn_all2. lia.
Qed.
Lemma hex_chars h v : hex_of h v -> ~ In 46 v /\ ~ In 118 v.
Proof.
  induction 1 as [|hi lo a b h v A B H [I J]]; [split; intros []|].
  destruct (hex_digit_val _ _ A) as (_ & A1 & A2). destruct (hex_digit_val _ _ B) as (_ & B1 & B2).
  split; intros [E|[E|E]]; try congruence; contradiction.
Qed.
Lemma hexDigit_spec i : 0 <= i < 16 -> hex_digit i (hexDigit i).
Proof. intros I. unfold hexDigit, hex_digit. destruct (Z.ltb_spec i 10); [left|right]; lia. Qed.
Lemma append_hex h : Forall (fun b => 0 <= b < 256) h -> hex_of h (appendHex h).
Proof.
  induction 1 as [|b h B F IH]; cbn; [constructor|].
  replace b with (16 * (b / 16) + b mod 16) at 1 by (rewrite <- Z.div_mod; lia).
  apply hx_cons; [| |exact IH]; apply hexDigit_spec.
  - split; [apply Z.div_pos; lia|apply Z.div_lt_upper_bound; lia].
  - apply Z.mod_pos_bound. lia.
Qed.
Lemma hex_digit_unique d c d' c' : hex_digit d c -> hex_digit d' c' -> (d = d' <-> c = c').
Proof. unfold hex_digit. lia. Qed.
Lemma hex_of_unique h v v' : hex_of h v -> hex_of h v' -> v = v'.
Proof.
  intros H. revert v'. induction H as [|hi lo a b h v A B H IH]; intros v' H'; inversion H'; subst; [reflexivity|].
  assert (hi0 = hi /\ lo0 = lo) as [-> ->].
  { assert (0 <= hi < 16 /\ 0 <= lo < 16 /\ 0 <= hi0 < 16 /\ 0 <= lo0 < 16) by (unfold hex_digit in *; lia).
    match goal with X : _ + lo0 = _ + lo |- _ => change (16 * hi0 + lo0 = 16 * hi + lo) in X end. lia. }
  f_equal; [apply (hex_digit_unique hi a hi a0); auto|]. f_equal; [apply (hex_digit_unique lo b lo b0); auto|]. apply IH. assumption.
Qed.
Lemma commit_append h : a_hash h -> commit_name h (appendHex h).
Proof. intros A. split; [exact A|]. apply append_hex, A. Qed.
Lemma commit_ne h v : commit_name h v -> v <> [].
Proof. intros [[L _] H] ->. inversion H; subst. discriminate. Qed.
Lemma commit_version h v r : commit_name h v -> versionCheckout r v = lift (r_checkout r h).
Proof.
  intros C. pose proof (commit_ne _ _ C) as N. unfold versionCheckout, hashCheckout. rewrite (new_hash _ _ C).
  destruct C as [_ H]. destruct (hex_chars _ _ H) as [D V].
  assert (E : gitFromString v = Err); [|rewrite E; reflexivity].
  unfold gitFromString, trimV, threeNumbers. destruct v as [|c v]; [congruence|].
  assert (T : match c :: v with 118 :: q => q | _ => c :: v end = c :: v).
  { destruct (Z.eq_dec c 118) as [->|X]; [exfalso; apply V; left; reflexivity|]. clear - X.
    destruct c as [|p|p]; try reflexivity. do 7 (destruct p as [p|p|]; try reflexivity). congruence. }
  rewrite T. rewrite splitAt_none by (intros I; apply D; right; exact I). reflexivity.
Qed.
(** What begins with a v names no commit. *)
Lemma v_hash q : NewHash (118 :: q) = no_hash.
Proof. unfold NewHash. destruct q; reflexivity. Qed.
Lemma tag_lost v : starts (lit "refs/tags/") v -> forall w, gitFromString v <> Ok w.
Proof.
  intros [q ->] w H. change (threeNumbers (lit "efs/tags/" ++ q) = Ok w) in H. unfold threeNumbers in H.
  assert (exists x ws, splitAt 46 (lit "efs/tags/" ++ q) = (101 :: x) :: ws) as (x & ws & E).
  { cbn. destruct (splitAt 46 q); eexists _, _; reflexivity. }
  rewrite E in H. destruct ws as [|b [|c [|d ws]]]; try discriminate.
Qed.
Lemma semantic_none r v w : sane r -> gitFromString v = Ok w -> semanticCheckout r v = Err.
Proof.
  intros S H. unfold semanticCheckout. destruct (r_tags r) as [ts|] eqn:T; [|reflexivity]. cbn [lift bind].
  destruct (find (fun t => bytes_eqb (fst t) v) ts) as [[n h]|] eqn:F; [|reflexivity]. exfalso.
  apply find_some in F. destruct F as [I E]. apply bytes_eqb_eq in E. cbn [fst] in E. subst n.
  exact (tag_lost v (proj1 S ts v h T I) w H).
Qed.

(** ** Directories *)
Lemma suffix_iff s e : hasSuffix s e = true <-> ends_with e s.
Proof.
  unfold hasSuffix, ends_with. rewrite prefix_iff. split; intros [q H].
  - exists (rev q). rewrite <- (rev_involutive s), H, rev_app_distr, rev_involutive. reflexivity.
  - exists (rev q). rewrite H, rev_app_distr. reflexivity.
Qed.
Lemma find_none_iff {A} n (es : list (bytes * A)) : find (fun e => bytes_eqb (fst e) n) es = None <-> ~ In n (map fst es).
Proof.
  induction es as [|[m a] es IH]; cbn [find map fst]; [split; [intros _ []|reflexivity]|].
  destruct (bytes_eqb m n) eqn:E.
  - apply bytes_eqb_eq in E. split; [discriminate|]. intros N. exfalso. apply N. left. exact E.
  - rewrite IH. split; intros N; [|intros I; apply N; right; exact I]. intros [I|I]; [|contradiction].
    apply bytes_eqb_eq in I. rewrite I in E. discriminate.
Qed.
Lemma find_some_iff {A} n (es : list (bytes * A)) m a : find (fun e => bytes_eqb (fst e) n) es = Some (m, a) <->
  m = n /\ exists p q, es = p ++ (n, a) :: q /\ ~ In n (map fst p).
Proof.
  split.
  - induction es as [|[k c] es IH]; cbn [find fst]; intros H; [discriminate|]. destruct (bytes_eqb k n) eqn:E.
    + injection H as -> ->. apply bytes_eqb_eq in E. subst m. split; [reflexivity|]. exists [], es. split; [reflexivity|intros []].
    + destruct (IH H) as (-> & p & q & -> & N). split; [reflexivity|]. exists ((k, c) :: p), q. split; [reflexivity|].
      intros [I|I]; [|contradiction]. cbn [fst] in I. apply bytes_eqb_eq in I. rewrite I in E. discriminate.
  - intros (-> & p & q & -> & N). induction p as [|[k c] p IH]; cbn [app find fst].
    + replace (bytes_eqb n n) with true by (symmetry; apply bytes_eqb_eq; reflexivity). reflexivity.
    + destruct (bytes_eqb k n) eqn:E; [apply bytes_eqb_eq in E; exfalso; apply N; left; exact E|]. apply IH. intros I. apply N. right. exact I.
Qed.
Lemma filter_none {A} (f : A -> bool) l : filter f l = [] <-> Forall (fun a => f a = false) l.
Proof.
  induction l as [|a l IH]; cbn; [split; [constructor|reflexivity]|]. destruct (f a) eqn:E.
  - split; [discriminate|]. intros F. inversion F; congruence.
  - rewrite IH. split; intros F; [constructor; assumption|inversion F; assumption].
Qed.
Lemma filter_one {A} (f : A -> bool) l a : filter f l = [a] <-> exists p q, l = p ++ a :: q /\ f a = true /\ Forall (fun a => f a = false) (p ++ q).
Proof.
  split.
  - induction l as [|b l IH]; cbn; intros H; [discriminate|]. destruct (f b) eqn:E.
    + injection H as -> H. exists [], l. split; [reflexivity|]. split; [exact E|]. apply filter_none. exact H.
    + destruct (IH H) as (p & q & -> & T & F). exists (b :: p), q. split; [reflexivity|]. split; [exact T|]. constructor; assumption.
  - intros (p & q & -> & T & F). apply Forall_app in F. destruct F as [F G]. rewrite filter_app. cbn [filter]. rewrite T.
    rewrite (proj2 (filter_none f p) F), (proj2 (filter_none f q) G). reflexivity.
Qed.
Lemma schema_iff es b : one_schema es b <-> find (fun e => bytes_eqb (fst e) (lit "global.replace")) es = None /\ readClaw es = Ok b.
Proof.
  rewrite find_none_iff. unfold readClaw. split.
  - intros (p & n & q & E & S & F & N). split; [exact N|]. rewrite (proj2 (filter_one _ es (n, Some b))); [reflexivity|].
    exists p, q. split; [exact E|]. split; [apply suffix_iff; exact S|]. eapply Forall_impl; [|exact F]. intros e X. cbn beta in X |- *.
    destruct (hasSuffix (fst e) (lit ".claw")) eqn:Y; [|reflexivity]. apply suffix_iff in Y. contradiction.
  - intros [N H]. destruct (filter (fun e => hasSuffix (fst e) (lit ".claw")) es) as [|[n c] [|? ?]] eqn:F; try discriminate.
    destruct c as [c|]; [|discriminate]. injection H as ->. apply filter_one in F. destruct F as (p & q & E & T & F).
    exists p, n, q. split; [exact E|]. split; [apply suffix_iff; exact T|]. split; [|exact N]. eapply Forall_impl; [|exact F].
    intros e X Y. apply suffix_iff in Y. cbn beta in X. congruence.
Qed.
Lemma redirect_iff es g : redirects es g <-> exists n, find (fun e => bytes_eqb (fst e) (lit "global.replace")) es = Some (n, Some g).
Proof.
  split.
  - intros (p & q & E & N). exists (lit "global.replace"). apply find_some_iff. split; [reflexivity|]. exists p, q. split; assumption.
  - intros [n H]. apply find_some_iff in H. destruct H as (_ & p & q & E & N). exists p, q. split; assumption.
Qed.

Section World.
Variable openRepo : bytes -> bytes -> bytes -> option repo.
Variable lexer : bytes -> list iline.
Variable sha256 : bytes -> bytes.
Hypothesis world : sane_world openRepo.
Definition full_of (version ver : bytes) : bytes := match version with [] => ver | _ => version end.
Lemma clone_iff pkg version : (version = [] \/ exists h, commit_name h version) -> forall full es,
  at_commit openRepo pkg version full es <->
  exists t ver, cloneRepo openRepo pkg version = Ok (t, ver) /\ full = full_of version ver /\ t (insidePath pkg) = Some es.
Proof.
  intros V full es. unfold cloneRepo, full_of. split.
  - intros [host user name dir r h t L O C -> K D|host user name dir r h t L O -> K C D]; destruct (lies_split _ _ _ _ _ L) as (rest & E & I); rewrite E, O; cbn [lift bind].
    + pose proof (commit_ne _ _ C) as N. destruct version as [|c v]; [congruence|]. rewrite (commit_version _ _ r C), K. cbn [lift bind].
      exists t, (c :: v). rewrite I. auto.
    + rewrite K. cbn [lift bind]. exists t, (appendHex h). rewrite I. split; [reflexivity|]. split; [|exact D].
      apply (hex_of_unique h); [apply C|apply append_hex, C].
  - intros (t & ver & H & -> & D). destruct (splitAt 47 pkg) as [|host [|user [|name rest]]] eqn:E; try discriminate.
    destruct (openRepo host user name) as [r|] eqn:O; [|discriminate]. cbn [lift bind] in H. pose proof (split_lies _ _ _ _ _ E) as L.
    destruct V as [->|[h C]].
    + destruct (r_head r) as [[h t']|] eqn:K; [|discriminate]. cbn [lift bind] in H. injection H as <- <-.
      eapply at_head; eauto. apply commit_append. exact (proj1 (proj2 (world _ _ _ _ O) _ _ K)).
    + pose proof (commit_ne _ _ C) as N. destruct version as [|c v]; [congruence|]. rewrite (commit_version _ _ r C) in H.
      destruct (r_checkout r h) as [t'|] eqn:K; [|discriminate]. cbn [lift bind] in H. injection H as <- <-.
      eapply at_named; eauto.
Qed.
Lemma full_named pkg version full es : (version = [] \/ exists h, commit_name h version) -> at_commit openRepo pkg version full es -> exists h, commit_name h full.
Proof. intros [->|[h C]] [? ? ? ? ? ? ? L O C' -> K D|? ? ? ? ? ? ? L O E K C' D]; eauto. Qed.
Definition says_to (g to : bytes) : Prop := parseGlobal (lexer g) = Ok to.
Lemma get_iff hops pkg version f : (version = [] \/ exists h, commit_name h version) ->
  getClawFile openRepo lexer sha256 hops pkg version = Ok f <->
  exists n, (n < hops)%nat /\ is_text openRepo says_to n pkg version f.(cf_version) f.(cf_content) /\ f.(cf_sha) = appendHex (sha256 f.(cf_content)).
Proof.
  revert pkg version. induction hops as [|hops IH]; intros pkg version V; cbn [getClawFile].
  { split; [discriminate|]. intros (n & L & _). lia. }
  split.
  - intros H. destruct (cloneRepo openRepo pkg version) as [[t ver]| | |] eqn:C; try discriminate. cbn [bind] in H.
    destruct (t (insidePath pkg)) as [es|] eqn:D; [|discriminate]. cbn [lift bind] in H.
    assert (A : at_commit openRepo pkg version (full_of version ver) es) by (apply clone_iff; eauto).
    destruct (find (fun e => bytes_eqb (fst e) (lit "global.replace")) es) as [[k c]|] eqn:F.
    + destruct c as [g|]; [|discriminate]. cbn [lift bind] in H. destruct (parseGlobal (lexer g)) as [to| | |] eqn:P; try discriminate. cbn [bind] in H.
      change (getClawFile openRepo lexer sha256 hops to (full_of version ver) = Ok f) in H.
      apply IH in H; [|right; eapply full_named; eauto]. destruct H as (n & L & T & Sh). exists (S n). split; [lia|]. split; [|exact Sh].
      assert (E : cf_version f = full_of version ver).
      { destruct (full_named _ _ _ _ V A) as [h N]. clear - T N.
        assert (W : forall n a b c d, is_text openRepo says_to n a b c d -> b <> [] -> c = b).
        { intros m a b c d X. induction X as [? ? ? ? ? Y _|? ? ? ? ? ? ? ? Y _ _ _ _]; intros Q; destruct Y; congruence. }
        apply (W _ _ _ _ _ T). exact (commit_ne _ _ N). }
      rewrite E in *. eapply it_moved; [exact A|apply redirect_iff; eauto|exact P|exact T].
    + destruct (readClaw es) as [b| | |] eqn:R; try discriminate. cbn [bind] in H. injection H as <-. exists O. split; [lia|]. cbn [cf_version cf_content cf_sha].
      split; [|reflexivity]. eapply it_here; [exact A|]. apply schema_iff. split; assumption.
  - intros (n & L & T & Sh). destruct f as [fb fv fs]. cbn [cf_version cf_content cf_sha] in T, Sh. destruct T as [pkg version full es b A O|n pkg version full es g to b A R P T].
    + destruct (proj1 (clone_iff _ _ V _ _) A) as (t & ver & -> & E & D). cbn [bind]. rewrite D. cbn [lift bind].
      apply schema_iff in O. destruct O as [-> ->]. cbn [bind]. change (Ok (mkCF b (full_of version ver) (appendHex (sha256 b))) = Ok (mkCF b full fs)).
      rewrite <- E, <- Sh. reflexivity.
    + destruct (full_named _ _ _ _ V A) as [h N].
      destruct (proj1 (clone_iff _ _ V _ _) A) as (t & ver & -> & E & D). cbn [bind]. rewrite D. cbn [lift bind].
      apply redirect_iff in R. destruct R as [k ->]. cbn [lift bind]. rewrite P. cbn [bind].
      change (getClawFile openRepo lexer sha256 hops to (full_of version ver) = Ok (mkCF b full fs)). rewrite <- E. apply IH; [eauto|]. exists n. split; [lia|]. auto.
Qed.
End World.
