(** claw.mod is read as what it shows, and what is read is shown by it. *)
From Coq Require Import ZArith List Bool Lia String.
Import ListNotations.
From Verif.Model Require Import Base Utf8 Field Any ClawText Idl ClawMod.
From Verif.Spec Require Import Text JsonGrammar ClawText Idl IdlText ClawMod.
From Verif.Proofs Require Import BaseLemmas IngestProofs IdlBase IdlTotal IdlText.
Local Open Scope Z_scope.

(** ** Strings *)
Lemma contains_iff t s : containsSub t s = true <-> exists a b, s = a ++ t ++ b.
Proof.
  split.
  - induction s as [|c s IH]; cbn [containsSub]; intros H.
    + rewrite orb_false_r in H. apply prefix_inv in H. destruct H as [b E]. exists [], b. exact E.
    + apply orb_prop in H. destruct H as [H|H].
      * apply prefix_inv in H. destruct H as [b E]. exists [], b. exact E.
      * destruct (IH H) as (a & b & ->). exists (c :: a), b. reflexivity.
  - intros (a & b & ->). induction a as [|c a IH]; [|cbn [app containsSub]; rewrite IH; apply orb_true_r].
    cbn [app]. pose proof (prefix_app t b) as P. destruct (t ++ b) as [|c q]; cbn [containsSub]; rewrite P; reflexivity.
Qed.
Lemma suffix_iff s t : hasSuffix s t = true <-> exists a, s = a ++ t.
Proof.
  unfold hasSuffix. split.
  - intros H. apply prefix_inv in H. destruct H as [q E]. exists (rev q). rewrite <- (rev_involutive s), E, rev_app_distr, rev_involutive. reflexivity.
  - intros (a & ->). rewrite rev_app_distr. apply prefix_app.
Qed.
Lemma trimSuffix_app a t : trimSuffix (a ++ t) t = a.
Proof.
  unfold trimSuffix. rewrite (proj2 (suffix_iff (a ++ t) t)) by eauto.
  rewrite app_length, Nat.add_sub, firstn_app, firstn_all, Nat.sub_diag. cbn. apply app_nil_r.
Qed.
Lemma prefix_iff p s : hasPrefix p s = true <-> exists q, s = p ++ q.
Proof. split; [apply prefix_inv|]. intros (q & ->). apply prefix_app. Qed.
Lemma dropSlashes_keep c q : c <> 47 -> dropSlashes (c :: q) = c :: q.
Proof.
  intros N. cbn [dropSlashes]. destruct c as [|p|p]; try reflexivity.
  do 6 (destruct p as [p|p|]; try reflexivity). congruence.
Qed.
Lemma last_split d b : ~ In 47 b -> (d = [] \/ exists d', d = d' ++ [47]) -> last (splitAt 47 (d ++ b)) [] = b.
Proof.
  intros N [->|(d' & ->)]; [cbn; rewrite splitAt_whole by exact N; reflexivity|].
  rewrite <- app_assoc. cbn [app]. induction d' as [|c d' IH].
  - cbn [app splitAt]. rewrite Z.eqb_refl. rewrite splitAt_whole by exact N. reflexivity.
  - cbn [app splitAt]. destruct (c =? 47).
    + cbn [last]. destruct (splitAt 47 (d' ++ 47 :: b)) eqn:E; [exfalso; eapply splitAt_ne; eauto|]. exact IH.
    + destruct (splitAt 47 (d' ++ 47 :: b)) as [|w ws] eqn:E; [exfalso; eapply splitAt_ne; eauto|].
      destruct ws as [|v vs]; [|exact IH]. exfalso. apply splitAt_inv in E. destruct E as (NI & [[_ E]|(q & _ & E)]).
      * apply NI. rewrite <- E. apply in_or_app. cbn. auto.
      * eapply splitAt_ne; eauto.
Qed.
Lemma base_of d b : pname b -> (d = [] \/ exists d', d = d' ++ [47]) -> pathBase (d ++ b) = b.
Proof.
  intros P D. assert (N : ~ In 47 b) by (apply pname_no; [exact P|nochar|lia]).
  assert (NE : b <> []) by (destruct P as (? & ? & -> & _); congruence).
  destruct (exists_last NE) as (b' & e & E). unfold pathBase.
  assert (R : rev (dropSlashes (rev (d ++ b))) = d ++ b).
  { rewrite E, app_assoc, rev_app_distr. cbn [rev app]. rewrite dropSlashes_keep, <- (rev_involutive (d ++ b')) at 1; [cbn [rev]; rewrite !rev_involutive; reflexivity|].
    intros ->. apply N. rewrite E. apply in_or_app. cbn. auto. }
  rewrite R. destruct (d ++ b) as [|c q] eqn:X; [apply app_eq_nil in X; tauto|]. rewrite <- X. apply last_split; assumption.
Qed.

(** ** Lines *)
Lemma shows_end l k ws : commentOrEOL l k = Ok tt -> length ws = k -> firstn k l.(l_items) = ws -> shows l ws.
Proof.
  unfold commentOrEOL, item. intros H L F. exists (skipn k (l_items l)). split; [rewrite <- F; symmetry; apply firstn_skipn|].
  destruct (nth_error (l_items l) k) as [w|] eqn:E; [|discriminate]. cbn [bind] in H.
  destruct (skipn k (l_items l)) as [|x q] eqn:S.
  - exfalso. assert (k < length (l_items l))%nat by (apply nth_error_Some; congruence). pose proof (skipn_length k (l_items l)) as Q. rewrite S in Q. cbn in Q. lia.
  - assert (x = w).
    { rewrite <- (firstn_skipn k (l_items l)), S, F, nth_error_app2, L, Nat.sub_diag in E by lia. cbn in E. congruence. }
    subst x. destruct (isComment w) eqn:C.
    + right. exists w, q. split; [reflexivity|]. apply prefix_inv in C. exact C.
    + left. apply ok_if_inv in H. apply negb_true_iff, Z.ltb_ge in H. unfold len in H. cbn in H. destruct q; [eauto|cbn in H; lia].
Qed.
Lemma items_first l : forall k ws, (forall i w, nth_error ws i = Some w -> item l i = Ok w) -> length ws = k -> firstn k l.(l_items) = ws.
Proof.
  unfold item. generalize (l_items l). intros items k ws. revert k items. induction ws as [|w ws IH]; intros k items H <-; [reflexivity|].
  cbn [length]. destruct items as [|x q]; [specialize (H O w eq_refl); discriminate|]. cbn [firstn]. pose proof (H O w eq_refl) as E. cbn in E.
  f_equal; [congruence|]. apply IH; [|reflexivity]. intros i v N. exact (H (S i) v N).
Qed.
Lemma shows1 l a : item l 0 = Ok a -> commentOrEOL l 1 = Ok tt -> shows l [a].
Proof.
  intros A C. apply (shows_end l 1); auto. apply items_first; [|reflexivity]. intros [|[|i]] w N; cbn in N; congruence.
Qed.
Lemma shows2 l a b : item l 0 = Ok a -> item l 1 = Ok b -> commentOrEOL l 2 = Ok tt -> shows l [a; b].
Proof.
  intros A B C. apply (shows_end l 2); auto. apply items_first; [|reflexivity]. intros [|[|[|i]]] w N; cbn in N; congruence.
Qed.
Lemma shows3 l a b c : item l 0 = Ok a -> item l 1 = Ok b -> item l 2 = Ok c -> commentOrEOL l 3 = Ok tt -> shows l [a; b; c].
Proof.
  intros A B C D. apply (shows_end l 3); auto. apply items_first; [|reflexivity]. intros [|[|[|[|i]]]] w N; cbn in N; congruence.
Qed.
Lemma among_nil_app {A} (p l : list A) s : among s l -> among s (p ++ l).
Proof. induction p; cbn; intros; [assumption|apply am_skip; auto]. Qed.
Lemma among_app {A} (a b p q : list A) : among a p -> among b q -> among (a ++ b) (p ++ q).
Proof. induction 1; cbn; intros H'; [apply among_nil_app; exact H'|constructor; auto|apply am_skip; auto]. Qed.
Lemma among_all {A} (a : list A) : among a a.
Proof. induction a; constructor; auto. Qed.
Lemma among_In {A} (a l : list A) x : among a l -> In x a -> In x l.
Proof. induction 1; cbn; intuition. Qed.

(** ** The pieces *)
Lemma skip_rest ls q : modSkip ls = Ok q -> rest_of q ls.
Proof.
  revert q. induction ls as [|l ls IH]; cbn [modSkip]; intros q H; [inversion H; apply rest_refl|].
  step H. destruct (hasPrefix a (lit "//")); [|inversion H; apply rest_refl].
  destruct (l_eof l); [inversion H; apply rest_cons, rest_refl|apply rest_cons, IH, H].
Qed.
Definition entry_line (l : iline) (r : replace) : Prop := replace_line l r /\ r.(rp_from) <> lit ")".
Lemma rline_sound l r : parseReplaceLine l = Ok r -> replace_line l r.
Proof.
  unfold parseReplaceLine. intros H. repeat step H. inversion H; subst. apply bytes_eqb_eq in E1. subst. apply shows3; cbn; auto.
  destruct a2. exact E4.
Qed.
Lemma rloop_sound ls : forall have rs q, replaceLoop ls have = Ok (rs, q) ->
  exists p new rl, ls = p ++ q /\ p <> [] /\ rs = have ++ new /\ rs <> [] /\ among rl p /\ Forall2 entry_line rl new.
Proof.
  induction ls as [|l ls IH]; intros have rs q H; cbn [replaceLoop] in H; [discriminate|].
  destruct (l_eof l); [discriminate|]. step H. step H. destruct (bytes_eqb a (lit ")")) eqn:X.
  - repeat step H. inversion H; subst. exists [l], [], []. rewrite app_nil_r. repeat split; auto; try discriminate; try constructor.
    destruct rs; [discriminate|congruence].
  - step H. apply IH in H. destruct H as (p & new & rl & -> & _ & -> & NE & AM & F).
    exists (l :: p), (a0 :: new), (l :: rl). rewrite <- app_assoc. cbn [app]. repeat split; try discriminate.
    + rewrite <- app_assoc in NE. exact NE.
    + constructor; exact AM.
    + constructor; [|exact F]. pose proof (rline_sound _ _ E1) as RL. split; [exact RL|]. destruct RL as (tl & I & _). unfold item in E0. rewrite I in E0. cbn in E0. inversion E0 as [W]. rewrite W. intros Q. rewrite Q in X. discriminate.
Qed.
Lemma replace_sound have ls rs q : parseReplace have ls = Ok (rs, q) -> have = [] ->
  exists p rl, ls = p ++ q /\ p <> [] /\ rs <> [] /\ among rl p /\ Forall2 entry_line rl rs.
Proof.
  intros H ->. unfold parseReplace in H. destruct ls as [|l ls]; cbn [next] in H; [discriminate|]. repeat step H.
  apply rloop_sound in H. destruct H as (p & new & rl & -> & _ & E' & NE & AM & F). cbn [app] in E'. subst new.
  exists (l :: p), rl. repeat split; try discriminate; auto. apply am_skip. exact AM.
Qed.
Lemma aclLoop_none ls : Forall a_line ls -> aclLoop ls [] = Err.
Proof.
  intros A. destruct A as [|l q A _]; cbn [aclLoop]; [auto|]. destruct (l_eof l); [auto|].
  destruct (negb (len (l_items l) <? 2)) eqn:E; cbn [ok_if bind]; [|reflexivity]. apply count_lt in E.
  destruct (item_ends l 0 ltac:(lia)) as [(w & W)|W]; rewrite W; cbn [bind]; [|reflexivity].
  destruct (item_word l 0 w A W ltac:(lia)) as [NE _].
  destruct (bytes_eqb w (lit ")")); [reflexivity|].
  replace (negb (indexFrom 0 42 w =? -1) || negb (indexFrom 0 42 w =? len w - 1)) with true; [reflexivity|]. symmetry.
  destruct (Z.eqb_spec (indexFrom 0 42 w) (-1)) as [I|I]; cbn [negb orb]; [|reflexivity]. rewrite I.
  destruct w as [|c w]; [congruence|]. apply negb_true_iff, Z.eqb_neq. unfold len. cbn [length]. lia.
Qed.
Lemma acls_sound have ls acls q : Forall a_line ls -> have = [] -> parseACLs have ls = Ok (acls, q) ->
  acls = [lit "*"] /\ exists l, ls = l :: q /\ shows l [lit "acls"; lit "="; lit "public"].
Proof.
  intros A -> H. unfold parseACLs in H. destruct A as [|l ls A F]; cbn [next] in H; [discriminate|]. repeat step H.
  apply bytes_eqb_eq in E1. subst a. destruct (bytes_eqb a0 (lit "=")) eqn:B.
  - apply bytes_eqb_eq in B. subst a0. step H. destruct (bytes_eqb a (lit "public")) eqn:C; [|discriminate]. apply bytes_eqb_eq in C. subst a.
    step H. destruct a. inversion H; subst. split; [reflexivity|]. exists l. split; [reflexivity|]. apply shows3; assumption.
  - step H. step H. rewrite (aclLoop_none ls F) in H. discriminate.
Qed.

Section Tables.
Variables isUpper isLetter isNumber : Z -> bool.
Variable toLower : bytes -> bytes.
Notation parse := (parseModule isUpper isLetter isNumber toLower).

Lemma next_sound fuel : forall m ls m', modNext toLower fuel m ls = Ok m' -> Forall a_line ls ->
  m'.(m_path) = m.(m_path) /\ m'.(m_required) = m.(m_required) /\
  (m'.(m_replace) = m.(m_replace) \/ (m.(m_replace) = [] /\ exists rl, among rl ls /\ Forall2 entry_line rl m'.(m_replace))) /\
  (m'.(m_acls) = m.(m_acls) \/ (m.(m_acls) = [] /\ m'.(m_acls) = [lit "*"] /\ exists l, In l ls /\ shows l [lit "acls"; lit "="; lit "public"])).
Proof.
  induction fuel as [|fuel IH]; intros m ls m' H A; cbn [modNext] in H; [discriminate|]. step H. rename a into ls'.
  pose proof (skip_rest _ _ E) as R. pose proof (rest_lines _ _ R A) as A'. destruct R as [pre R].
  destruct (next ls') as [l q] eqn:N. step H. rename a into w.
  destruct (bytes_eqb (toLower w) (lit "require")); [destruct (0 <=? len (m_required m)); discriminate|].
  destruct (bytes_eqb (toLower w) (lit "replace")).
  { destruct (Z.ltb_spec 0 (len (m_replace m))) as [|Z0]; [discriminate|].
    assert (R0 : m_replace m = []) by (destruct (m_replace m); [reflexivity|unfold len in Z0; cbn in Z0; lia]).
    step H. destruct (replace_sound _ _ _ _ E1 R0) as (p & rl & -> & _ & NE & AM & F).
    destruct (IH _ _ _ H (proj2 (proj1 (Forall_app _ _ _) A'))) as (P & Q & RR & AA). cbn in *.
    split; [exact P|]. split; [exact Q|]. split.
    - right. split; [exact R0|]. destruct RR as [RR|[RR _]]; [|congruence]. exists rl. rewrite RR. split; [|exact F]. rewrite R.
      apply among_nil_app. rewrite <- (app_nil_r rl). apply among_app; [exact AM|constructor].
    - destruct AA as [AA|(AA & BB & l' & I & S)]; [auto|]. right. repeat split; auto. exists l'. split; [|exact S]. rewrite R. apply in_or_app. right. apply in_or_app. auto. }
  destruct (bytes_eqb (toLower w) (lit "acls")).
  { destruct (Z.eqb_spec (len (m_acls m)) 0) as [Z0|]; [|discriminate]. cbn [negb] in H.
    assert (R0 : m_acls m = []) by (destruct (m_acls m); [reflexivity|unfold len in Z0; cbn in Z0; lia]).
    step H. destruct (acls_sound _ _ _ _ A' R0 E1) as (-> & l' & -> & S). inversion A' as [|? ? A1 A2]; subst.
    destruct (IH _ _ _ H A2) as (P & Q & RR & AA). cbn in *.
    split; [exact P|]. split; [exact Q|]. split.
    - destruct RR as [RR|(RR & rl & AM & F)]; [auto|]. right. split; [exact RR|]. exists rl. split; [|exact F]. apply among_nil_app. apply am_skip. exact AM.
    - right. split; [exact R0|]. destruct AA as [AA|[AA _]]; [|discriminate]. split; [exact AA|]. exists l'. split; [|exact S]. apply in_or_app. cbn. auto. }
  destruct (l_eof l); [|discriminate]. inversion H; subst. auto.
Qed.
Lemma module_sound ls m : Forall a_line ls -> parse ls = Ok m ->
  (exists l q, ls = l :: q /\ shows l [lit "module"; m.(m_path)] /\
    (exists rl, among rl q /\ Forall2 entry_line rl m.(m_replace)) /\
    (m.(m_acls) = [] \/ (m.(m_acls) = [lit "*"] /\ exists l', In l' q /\ shows l' [lit "acls"; lit "="; lit "public"]))) /\
  m.(m_required) = [] /\ ValidModuleName isUpper isLetter isNumber m.(m_path) = Ok tt.
Proof.
  intros A H. unfold parseModule in H. destruct A as [|l q A F]; cbn [next] in H; [discriminate|]. repeat step H.
  apply bytes_eqb_eq in E1. subst a. destruct a1. inversion H; subst. destruct (next_sound _ _ _ _ E4 F) as (P & Q & RR & AA). cbn in *.
  split; [|split; [exact Q|match goal with V : ValidModuleName _ _ _ _ = Ok ?u |- _ => destruct u; exact V end]]. exists l, q. rewrite P. repeat split; auto.
  - apply shows2; assumption.
  - destruct RR as [RR|(_ & rl & AM & FF)]; [|eauto]. exists []. rewrite RR. split; constructor.
  - destruct AA as [AA|(_ & AA & X)]; auto.
Qed.

(** ** It ends *)
Lemma mskip_ends ls : Forall a_line ls -> ends (modSkip ls).
Proof.
  induction 1 as [|l q A F IH]; cbn [modSkip]; [apply ends_Ok|]. apply ends_bind; [apply item_ends; pose proof (IdlTotal.line_len l A); lia|].
  intros w _. destruct (hasPrefix w (lit "//")); [|apply ends_Ok]. destruct (l_eof l); [apply ends_Ok|exact IH].
Qed.
Ltac iff_ := apply ends_bind; [apply ends_if|intros [] ?H].
Ltac it := apply ends_bind; [apply item_ends; lia|intros ? ?H].
Ltac ce := apply ends_bind; [apply comment_ends; lia|intros [] _].
Lemma rline_ends l : ends (parseReplaceLine l).
Proof. unfold parseReplaceLine. iff_. apply ok_if_inv, count_lt in H. it. iff_. it. it. ce. apply ends_Ok. Qed.
Lemma rloop_ends ls : forall have, ends (replaceLoop ls have).
Proof.
  induction ls as [|l q IH]; intros have; cbn [replaceLoop]; [apply ends_Err|]. destruct (l_eof l); [apply ends_Err|].
  iff_. apply ok_if_inv, count_lt in H. it. destruct (bytes_eqb a (lit ")")); [iff_; ce; apply ends_Ok|].
  apply ends_bind; [apply rline_ends|]. intros r _. apply IH.
Qed.
Lemma replace_ends have ls : ends (parseReplace have ls).
Proof.
  unfold parseReplace. destruct (next ls) as [l q]. iff_. apply ok_if_inv, count_lt in H. it. iff_. ce. apply rloop_ends.
Qed.
Lemma acls_ends ls : Forall a_line ls -> ends (parseACLs [] ls).
Proof.
  intros A. unfold parseACLs. destruct (next_line ls A) as [A1 A2]. destruct (next ls) as [l q]. cbn in A1, A2.
  iff_. apply ok_if_inv, count_lt in H. it. iff_. it. destruct (bytes_eqb a0 (lit "=")).
  - it. destruct (bytes_eqb a1 (lit "public")) eqn:B; [|apply ends_Err].
    pose proof (item_lit l 2 a1 "public" A1 H3 B ltac:(discriminate) ltac:(discriminate)). ce. apply ends_Ok.
  - iff_. ce. rewrite (aclLoop_none q A2). apply ends_Err.
Qed.
Lemma mnext_ends fuel : forall m ls, Forall a_line ls -> (length ls < fuel)%nat -> ends (modNext toLower fuel m ls).
Proof.
  induction fuel as [|fuel IH]; intros m ls A L; [lia|]. cbn [modNext]. apply ends_bind; [apply mskip_ends; exact A|]. intros ls' S.
  pose proof (skip_rest _ _ S) as R. pose proof (rest_lines _ _ R A) as A'. apply rest_len in R.
  destruct (next_line ls' A') as [A1 A2]. destruct (next ls') as [l q] eqn:N. cbn in A1, A2.
  apply ends_bind; [apply item_ends; pose proof (IdlTotal.line_len l A1); lia|]. intros w W.
  destruct (bytes_eqb (toLower w) (lit "require")); [unfold len; destruct (Z.leb_spec 0 (Z.of_nat (length (m_required m)))); [apply ends_Err|lia]|].
  destruct (bytes_eqb (toLower w) (lit "replace")).
  { destruct (Z.ltb_spec 0 (len (m_replace m))) as [|Z0]; [apply ends_Err|].
    assert (R0 : m_replace m = []) by (destruct (m_replace m); [reflexivity|unfold len in Z0; cbn in Z0; lia]).
    apply ends_bind; [apply replace_ends|]. intros [rs r] E. destruct (replace_sound _ _ _ _ E R0) as (p & rl & -> & NE & _).
    apply IH; [apply Forall_app in A'; tauto|]. rewrite app_length in R. destruct p; [congruence|cbn in R; lia]. }
  destruct (bytes_eqb (toLower w) (lit "acls")).
  { destruct (Z.eqb_spec (len (m_acls m)) 0) as [Z0|]; cbn [negb]; [|apply ends_Err].
    assert (R0 : m_acls m = []) by (destruct (m_acls m); [reflexivity|unfold len in Z0; cbn in Z0; lia]).
    rewrite R0. apply ends_bind; [apply acls_ends; exact A'|]. intros [acls r] E. destruct (acls_sound _ _ _ _ A' eq_refl E) as (-> & l' & -> & _).
    apply IH; [inversion A'; assumption|cbn in R; lia]. }
  destruct (l_eof l); [apply ends_Ok|apply ends_Err].
Qed.
Lemma base_ne p : pathBase p <> [].
Proof.
  unfold pathBase. destruct p as [|c q]; [discriminate|]. destruct (rev (dropSlashes (rev (c :: q)))) as [|d t] eqn:E; [discriminate|].
  assert (X : exists y z, d :: t = y ++ [z] /\ z <> 47).
  { destruct (dropSlashes (rev (c :: q))) as [|z y] eqn:D; [discriminate|]. exists (rev y), z. split; [rewrite <- E; reflexivity|].
    clear E. revert D. generalize (rev (c :: q)). induction l as [|x l IH]; [discriminate|]. intros D ->.
    destruct (Z.eq_dec x 47) as [->|NX]; [exact (IH D eq_refl)|rewrite dropSlashes_keep in D by exact NX; congruence]. }
  destruct X as (y & z & X & NZ). rewrite X. clear - NZ. induction y as [|x y IH].
  - cbn. destruct (Z.eqb_spec z 47); [congruence|]. discriminate.
  - cbn [app splitAt]. destruct (x =? 47).
    + cbn [last]. destruct (splitAt 47 (y ++ [z])) eqn:E; [exfalso; eapply splitAt_ne; eauto|exact IH].
    + destruct (splitAt 47 (y ++ [z])) as [|w ws] eqn:E; [exfalso; eapply splitAt_ne; eauto|]. destruct ws; [discriminate|exact IH].
Qed.
Lemma valid_ends p : ends (ValidModuleName isUpper isLetter isNumber p).
Proof.
  unfold ValidModuleName. apply ends_bind; [apply package_ends, base_ne|]. intros [] _. iff_. apply ends_if.
Qed.
Lemma module_ends ls : Forall a_line ls -> ends (parse ls).
Proof.
  intros A. unfold parseModule. destruct (next_line ls A) as [A1 A2]. destruct (next ls) as [l q] eqn:N. cbn in A1, A2.
  iff_. apply ok_if_inv, count_lt in H. it. iff_. it. ce. apply ends_bind; [|intros m _; apply ends_bind; [apply valid_ends|intros [] _; apply ends_Ok]].
  apply mnext_ends; [exact A2|]. destruct ls; cbn in N; inversion N; subst; cbn; lia.
Qed.
End Tables.
