(** The schema parser ends with a schema or an error. *)
From Coq Require Import ZArith List Bool String Lia Permutation Sorted.
Import ListNotations.
From Verif.Model Require Import Base Utf8 Field Any ClawText Idl.
From Verif.Spec Require Import Idl.
From Verif.Proofs Require Import BaseLemmas IngestProofs IdlBase IdlSound.
Local Open Scope Z_scope.

Lemma ends_Ok {A} (a : A) : ends (Ok a).
Proof. left. eauto. Qed.
Lemma ends_Err {A} : ends (@Err A).
Proof. right. reflexivity. Qed.
Lemma ends_bind {A B} (e : res A) (f : A -> res B) : ends e -> (forall a, e = Ok a -> ends (f a)) -> ends (bind e f).
Proof. intros [(a & ->)| ->] H; cbn; [apply H; reflexivity|right; reflexivity]. Qed.
Lemma ends_if b : ends (ok_if b).
Proof. destruct b; [apply ends_Ok|apply ends_Err]. Qed.
#[local] Hint Resolve ends_Ok ends_Err ends_if : core.

Lemma runes_ne w : w <> [] -> runes w <> [].
Proof. destruct w as [|c q]; [congruence|]. intros _. unfold runes. cbn [length range_fuel]. destruct (DecodeRune (c :: q)). congruence. Qed.
Lemma item_ends l k : (k < length (l_items l))%nat -> ends (item l k).
Proof. intros H. unfold item. destruct (nth_error (l_items l) k) eqn:E; [auto|]. apply nth_error_None in E. lia. Qed.
Lemma line_len l : a_line l -> (1 <= length (l_items l))%nat.
Proof. intros (ws & e & -> & _). rewrite app_length. cbn. lia. Qed.
Lemma item_word l k w : a_line l -> item l k = Ok w -> (S k < length (l_items l))%nat -> w <> [] /\ w <> [10].
Proof.
  intros (ws & e & I & F & _) E L. unfold item in E. rewrite I in *. rewrite app_length in L. cbn in L. rewrite nth_error_app1 in E by lia.
  destruct (nth_error ws k) eqn:N; [|discriminate]. inversion E; subst. rewrite Forall_forall in F. apply F. eapply nth_error_In; eauto.
Qed.
Lemma item_inner l k w : a_line l -> item l k = Ok w -> w <> [] -> w <> [10] -> (S k < length (l_items l))%nat.
Proof.
  intros (ws & e & I & F & T) E N1 N2. unfold item in E. rewrite I in *. rewrite app_length. cbn.
  destruct (nth_error (ws ++ [e]) k) eqn:N; [|discriminate]. inversion E; subst.
  assert (L : (k < length (ws ++ [e]))%nat) by (apply nth_error_Some; congruence). rewrite app_length in L. cbn in L.
  destruct (Nat.eq_dec k (length ws)) as [->|]; [|lia]. rewrite nth_error_app2, Nat.sub_diag in N by lia. cbn in N. inversion N; subst.
  destruct T as [(_ & ->)|(_ & ->)]; congruence.
Qed.
Lemma item_lit l k w s : a_line l -> item l k = Ok w -> bytes_eqb w (lit s) = true -> lit s <> [] -> lit s <> [10] -> (S k < length (l_items l))%nat.
Proof. intros A E W N1 N2. apply bytes_eqb_eq in W. subst. eapply item_inner; eauto. Qed.
Lemma count_lt l n : negb (len (l_items l) <? n) = true -> n <= Z.of_nat (length (l_items l)).
Proof. intros H. apply negb_true_iff, Z.ltb_ge in H. exact H. Qed.
Lemma comment_ends l k : (k < length (l_items l))%nat -> ends (commentOrEOL l k).
Proof. intros H. unfold commentOrEOL. apply ends_bind; [apply item_ends; exact H|]. intros w _. destruct (isComment w); auto. Qed.
Lemma eof_line : a_line eofLine.
Proof. exists [], []. cbn. auto. Qed.
Lemma next_line ls : Forall a_line ls -> a_line (fst (next ls)) /\ Forall a_line (snd (next ls)).
Proof. destruct 1; cbn; [split; [apply eof_line|constructor]|auto]. Qed.

(** What is left of the lines. *)
Definition rest_of (q ls : list iline) : Prop := exists p, ls = p ++ q.
Lemma rest_refl ls : rest_of ls ls.
Proof. exists []. reflexivity. Qed.
Lemma rest_cons l q ls : rest_of q ls -> rest_of q (l :: ls).
Proof. intros (p & ->). exists (l :: p). reflexivity. Qed.
Lemma rest_trans a b c : rest_of a b -> rest_of b c -> rest_of a c.
Proof. intros (p & ->) (q & ->). exists (q ++ p). rewrite app_assoc. reflexivity. Qed.
Lemma rest_lines q ls : rest_of q ls -> Forall a_line ls -> Forall a_line q.
Proof. intros (p & ->) F. apply Forall_app in F. tauto. Qed.
Lemma rest_len q ls : rest_of q ls -> (length q <= length ls)%nat.
Proof. intros (p & ->). rewrite app_length. lia. Qed.
Lemma next_rest ls : rest_of (snd (next ls)) ls.
Proof. destruct ls as [|l q]; cbn; [apply rest_refl|apply rest_cons, rest_refl]. Qed.

Section Total.
Variables isUpper isLower isLetter isNumber isSpace : Z -> bool.
Variable toLower : bytes -> bytes.
Variable toInt : bytes -> option Z.
Hypothesis lower_nil : toLower [] = [].

Lemma package_ends w : w <> [] -> ends (ValidPackage isUpper isLetter isNumber w).
Proof. intros H. unfold ValidPackage. pose proof (runes_ne w H). destruct (runes w); [congruence|auto]. Qed.
Lemma ident_ends w : w <> [] -> ends (validateIdent isLower isLetter isNumber w).
Proof. intros H. unfold validateIdent. pose proof (runes_ne w H). destruct (runes w); [congruence|auto]. Qed.

Lemma skip_ends ls : Forall a_line ls -> ends (skipComments ls) /\ forall q, skipComments ls = Ok q -> rest_of q ls.
Proof.
  induction 1 as [|l ls L F (IH1 & IH2)]; cbn [skipComments].
  - split; [auto|]. intros q E. inversion E; subst. apply rest_refl.
  - split.
    + apply ends_bind; [apply item_ends; pose proof (line_len _ L); lia|]. intros w _. destruct (isComment w); [destruct (l_eof l); auto|auto].
    + intros q E. step E. destruct (isComment a); [destruct (l_eof l)|]; try (inversion E; subst); [apply rest_cons, rest_refl|apply rest_cons; auto|apply rest_refl].
Qed.
Lemma collect_ends ls : Forall a_line ls -> ends (collectComments ls) /\ forall cs q, collectComments ls = Ok (cs, q) -> rest_of q ls.
Proof.
  induction 1 as [|l ls L F (IH1 & IH2)]; cbn [collectComments].
  - split; [auto|]. intros cs q E. inversion E; subst. apply rest_refl.
  - destruct (l_eof l); [split; [auto|]; intros cs q E; inversion E; subst; apply rest_cons, rest_refl|]. split.
    + apply ends_bind; [apply item_ends; pose proof (line_len _ L); lia|]. intros w _. destruct (isComment w); [|auto].
      apply ends_bind; [exact IH1|]. intros [cs q] _. auto.
    + intros cs q E. step E. destruct (isComment a); [|inversion E; subst; apply rest_refl]. step E. inversion E; subst. apply rest_cons. eauto.
Qed.
Lemma args_ends rs : forall args inq buff lns, ends (parseArgs isLetter isNumber isSpace rs args inq buff lns) /\
  forall r, parseArgs isLetter isNumber isSpace rs args inq buff lns = Ok r -> (length (snd r) <= length rs)%nat.
Proof.
  induction rs as [|r q IH]; intros args inq buff lns; cbn [parseArgs]; [split; [auto|discriminate]|].
  assert (T : forall a b c d, ends (parseArgs isLetter isNumber isSpace q a b c d) /\
     forall r0, parseArgs isLetter isNumber isSpace q a b c d = Ok r0 -> (length (snd r0) <= length (r :: q))%nat).
  { intros. destruct (IH a b c d) as (A & B). split; [exact A|]. intros r0 E. specialize (B _ E). cbn. lia. }
  assert (X : ends (@Err (list bytes * Z * list Z)) /\ forall r0, @Err (list bytes * Z * list Z) = Ok r0 -> (length (snd r0) <= length (r :: q))%nat) by (split; [auto|discriminate]).
  destruct (isSpace r); [apply T|]. destruct (r =? 44); [destruct inq; [apply T|]; destruct args; [exact X|destruct (lns =? 34); [apply T|exact X]]|].
  destruct (r =? 34); [destruct inq; apply T|]. destruct (isLetter r || isNumber r); [apply T|].
  destruct (r =? 41); [|exact X]. destruct inq; [exact X|]. destruct q as [|c q]; [exact X|]. split; [auto|]. intros r0 E. inversion E; subst. cbn. lia.
Qed.
Lemma opts_ends fuel : forall rs o buff last lns, (length rs < fuel)%nat -> ends (optLoop isLetter isNumber isSpace fuel rs o buff last lns).
Proof.
  induction fuel as [|fuel IH]; intros rs o buff last lns L; [lia|]. cbn [optLoop]. destruct rs as [|r q]; [auto|]. cbn in L.
  assert (T : forall o b x y, ends (optLoop isLetter isNumber isSpace fuel q o b x y)) by (intros; apply IH; lia).
  destruct (r =? 91); [apply T|]. destruct (r =? 93); [destruct o; auto|]. destruct (r =? 40).
  { destruct buff; [auto|]. destruct (args_ends q [] false [] 0) as (A & B). apply ends_bind; [exact A|]. intros [[args c] q'] E. apply IH.
    specialize (B _ E). cbn in B. lia. }
  destruct (r =? 44); [destruct o; [auto|destruct (lns =? 41); [apply T|auto]]|].
  destruct (isSpace r); [destruct (_ || _); [apply T|auto]|]. destruct (isLetter r || isNumber r); [apply T|auto].
Qed.
Lemma optTail_ends rs : ends (optTail isSpace rs).
Proof. induction rs as [|r q IH]; cbn [optTail]; [auto|]. destruct (isSpace r); [exact IH|]. destruct (r =? 47); [destruct q; auto|auto]. Qed.
Lemma addOptions_ends o : forall have, ends (addOptions have o).
Proof. induction o as [|x o IH]; intros have; cbn [addOptions]; [auto|]. destruct (existsb _ have); auto. Qed.
Lemma options_ends f ls : Forall a_line ls -> ends (parseOptions isLetter isNumber isSpace f ls) /\
  forall g q, parseOptions isLetter isNumber isSpace f ls = Ok (g, q) -> q = snd (next ls).
Proof.
  intros F. destruct (next_line ls F) as (L & _). unfold parseOptions. destruct (next ls) as [l q]. cbn [fst snd] in *. split.
  - apply ends_bind; [|intros o _; apply ends_bind; [apply addOptions_ends|intros; auto]]. unfold optionsParse.
    apply ends_bind; [apply item_ends; pose proof (line_len _ L); lia|]. intros w _. apply ends_bind; [auto|]. intros _ _.
    destruct (takeWord _ _) as [w' rest]. apply ends_bind; [auto|]. intros _ _. apply ends_bind; [auto|]. intros _ _.
    apply ends_bind; [apply opts_ends; lia|]. intros [o t] _. apply ends_bind; [apply optTail_ends|]. intros. auto.
  - intros g q' E. repeat step E. inversion E; subst. reflexivity.
Qed.
Lemma version_ends f ls : Forall a_line ls -> ends (parseVersion toInt f ls) /\ forall g q, parseVersion toInt f ls = Ok (g, q) -> q = snd (next ls).
Proof.
  intros F. destruct (next_line ls F) as (L & _). unfold parseVersion. destruct (next ls) as [l q]. cbn [fst snd] in *. split.
  - apply ends_bind; [auto|]. intros [] C. apply ok_if_inv, count_lt in C. apply ends_bind; [apply item_ends; lia|]. intros w _.
    apply ends_bind; [auto|]. intros _ _. apply ends_bind; [apply item_ends; lia|]. intros w1 _. destruct (toInt w1); [|auto].
    apply ends_bind; [apply comment_ends; lia|]. intros. auto.
  - intros g q' E. repeat step E. destruct (toInt _); [|discriminate]. repeat step E. inversion E; subst. reflexivity.
Qed.

Lemma without_words l : a_line l -> Forall (fun w => w <> []) (withoutCommentEOL (l_items l)).
Proof.
  intros (ws & e & -> & F & _). induction F as [|w ws (W & _) F IH]; cbn [app withoutCommentEOL]; [constructor|].
  destruct (ws ++ [e]) eqn:E; [constructor|]. destruct (isComment w); [constructor|]. constructor; auto.
Qed.
Lemma importLoop_ends ls : Forall a_line ls -> forall have, ends (importLoop isUpper isLetter isNumber ls have) /\
  forall l q, importLoop isUpper isLetter isNumber ls have = Ok (l, q) -> rest_of q ls.
Proof.
  induction 1 as [|x ls L F IH]; intros have; cbn [importLoop]; [split; [auto|discriminate]|].
  destruct (l_eof x); [split; [auto|discriminate]|]. pose proof (line_len _ L) as LL. pose proof (without_words _ L) as WW. split.
  - apply ends_bind; [apply item_ends; lia|]. intros w E. destruct (w =b ")") eqn:W.
    { apply ends_bind; [apply comment_ends|intros; auto]. eapply item_lit in W; eauto; [vm_compute; congruence|vm_compute; congruence]. }
    destruct (withoutCommentEOL (l_items x)) as [|w1 [|w2 [|]]]; auto.
    + destruct (validImportPath w1); [|auto]. apply ends_bind; [unfold addImport; destruct (existsb _ have); auto|]. intros h _. apply IH.
    + apply ends_bind; [apply package_ends; inversion WW; auto|]. intros _ _. destruct (validImportPath w2); [|auto].
      apply ends_bind; [unfold addImport; destruct (existsb _ have); auto|]. intros h _. apply IH.
  - intros l q H. step H. destruct (a =b ")"); [step H; inversion H; subst; apply rest_cons, rest_refl|].
    destruct (withoutCommentEOL (l_items x)) as [|w1 [|w2 [|]]]; try discriminate; repeat step H; (destruct (validImportPath _); [|discriminate]); repeat step H; apply rest_cons; eapply (proj2 (IH _)); eauto.
Qed.
Lemma import_ends ls : Forall a_line ls -> ends (parseImport isUpper isLetter isNumber ls) /\
  forall l q, parseImport isUpper isLetter isNumber ls = Ok (l, q) -> rest_of q (snd (next ls)).
Proof.
  intros F. destruct (next_line ls F) as (L & F'). unfold parseImport. destruct (next ls) as [l q]. cbn [fst snd] in *. split.
  - apply ends_bind; [auto|]. intros [] C. apply ok_if_inv, count_lt in C. apply ends_bind; [apply item_ends; lia|]. intros w _.
    apply ends_bind; [auto|]. intros _ _. apply ends_bind; [apply comment_ends; lia|]. intros _ _. destruct (l_eof l); [auto|].
    apply ends_bind; [apply importLoop_ends; exact F'|]. intros [is q'] _. destruct is; auto.
  - intros is q' E. repeat step E. destruct (l_eof l); [discriminate|]. step E. destruct x; [discriminate|]. inversion E; subst.
    eapply importLoop_ends; eauto.
Qed.
Lemma number_ends w : ends (atNumber w).
Proof. unfold atNumber. repeat (match goal with |- context [match ?x with _ => _ end] => destruct x end; auto). Qed.
Lemma enumLoop_ends ls : Forall a_line ls -> forall pend have, ends (enumLoop isLower isLetter isNumber ls pend have) /\
  forall l q, enumLoop isLower isLetter isNumber ls pend have = Ok (l, q) -> rest_of q ls.
Proof.
  induction 1 as [|x ls L F IH]; intros pend have; cbn [enumLoop]; [split; [auto|discriminate]|]. pose proof (line_len _ L) as LL. split.
  - apply ends_bind; [apply item_ends; lia|]. intros w E. destruct (w =b "}") eqn:W.
    { apply ends_bind; [apply comment_ends|intros; auto]. eapply item_lit in W; eauto; [vm_compute; congruence|vm_compute; congruence]. }
    destruct (l_eof x); [auto|]. destruct (isComment w); [apply IH|].
    apply ends_bind; [auto|]. intros [] C. apply ok_if_inv, count_lt in C. apply ends_bind; [apply ident_ends; eapply item_word; eauto; lia|]. intros _ _.
    destruct (existsb _ have); [auto|]. apply ends_bind; [apply item_ends; lia|]. intros w1 _. apply ends_bind; [apply number_ends|]. intros n _.
    apply ends_bind; [auto|]. intros _ _. destruct (existsb _ have); [auto|]. apply ends_bind; [apply comment_ends; lia|]. intros _ _. apply IH.
  - intros l q H. step H. destruct (a =b "}"); [step H; inversion H; subst; apply rest_cons, rest_refl|].
    destruct (l_eof x); [discriminate|]. destruct (isComment a); [apply rest_cons; eapply (proj2 (IH _ _)); eauto|].
    repeat step H. destruct (existsb _ have); [discriminate|]. repeat step H. destruct (existsb _ have); [discriminate|]. repeat step H.
    apply rest_cons; eapply (proj2 (IH _ _)); eauto.
Qed.
Lemma enum_ends c ls : Forall a_line ls -> ends (parseEnum isLower isLetter isNumber c ls) /\
  forall e q, parseEnum isLower isLetter isNumber c ls = Ok (e, q) -> rest_of q (snd (next ls)).
Proof.
  intros F. destruct (next_line ls F) as (L & F'). unfold parseEnum. destruct (next ls) as [l q]. cbn [fst snd] in *. split.
  - apply ends_bind; [auto|]. intros [] C. apply ok_if_inv, count_lt in C. apply ends_bind; [apply item_ends; lia|]. intros w E.
    apply ends_bind; [apply ident_ends; eapply item_word; eauto; lia|]. intros _ _. apply ends_bind; [apply item_ends; lia|]. intros w2 _.
    apply ends_bind; [destruct (w2 =b "uint8"); [auto|destruct (w2 =b "uint16"); auto]|]. intros sz _. apply ends_bind; [apply item_ends; lia|]. intros w3 _.
    apply ends_bind; [auto|]. intros _ _. apply ends_bind; [apply comment_ends; lia|]. intros _ _.
    apply ends_bind; [apply enumLoop_ends; exact F'|]. intros [vs q'] _. destruct vs; auto.
  - intros e q' E. repeat step E. destruct x; [discriminate|]. inversion E; subst. eapply enumLoop_ends; eauto.
Qed.

Lemma mapSplit_len s : forall d k v, mapSplit d s = Some (k, v) -> (length v < length s)%nat.
Proof.
  induction s as [|c q IH]; intros d k v H; cbn in H; [discriminate|].
  destruct ((c =? 93) && _); [inversion H; subst; cbn; lia|]. destruct (mapSplit _ q) as [[k' v']|] eqn:E; [|discriminate]. inversion H; subst. apply IH in E. cbn. lia.
Qed.
Lemma map_ends fuel f : forall s, (length s < fuel)%nat -> ends (parseMapType fuel f s).
Proof.
  induction fuel as [|fuel IH]; intros s L; [lia|]. cbn [parseMapType]. apply ends_bind; [auto|]. intros _ _.
  destruct (mapSplit 1 (skipn 4 s)) as [[k v]|] eqn:M; [|auto]. apply mapSplit_len in M. rewrite skipn_length in M.
  destruct (parseScalarType k); [|auto]. apply ends_bind; [auto|]. intros _ _. destruct (hasPrefix _ v); [apply ends_bind; [apply IH; lia|]; intros [m ext] _; auto|].
  destruct (v =b "[]Any"); [auto|]. destruct (parseScalarType v); [apply ends_bind; [auto|intros; auto]|].
  apply ends_bind; [|intros; auto]. destruct (splitAt 46 v) as [|p [|n [|]]]; auto. apply ends_bind; [auto|intros; auto].
Qed.
Lemma type_ends f self w : sizes_ok (f_idents f) -> ends (fieldType f self w).
Proof.
  intros SZ. unfold fieldType. destruct (lookup builtins w) as [[[t l] a]|]; [auto|].
  destruct (hasPrefix (lit "map[") w); [apply ends_bind; [apply map_ends; lia|]; intros [m ext] _; auto|]. cbv zeta.
  destruct (bytes_eqb self _); [destruct (ident_of _ _); auto|].
  set (ft := if hasPrefix _ w then _ else w). pose proof (find_decl (f_idents f) ft) as FD. destruct (ident_of (f_idents f) ft) as [[e|s]|]; [|auto|].
  - destruct FD as (I & _). apply SZ in I. destruct (Z.eqb_spec (e_size e) 8); [auto|]. destruct (Z.eqb_spec (e_size e) 16); [auto|]. lia.
  - apply ends_bind; [|intros; auto]. destruct (count 46 (trim 46 ft) =? 1); [apply ends_bind; [auto|intros; auto]|auto].
Qed.
Lemma field_ends f self c l : sizes_ok (f_idents f) -> a_line l -> ends (parseField isLower isLetter isNumber f self c l).
Proof.
  intros SZ L. unfold parseField. apply ends_bind; [auto|]. intros [] NE. apply ok_if_inv, negb_true_iff in NE.
  apply ends_bind; [auto|]. intros [] C. apply ok_if_inv, count_lt in C. apply ends_bind; [apply item_ends; lia|]. intros n E.
  apply ends_bind; [apply ident_ends; eapply item_word; eauto; lia|]. intros _ _. apply ends_bind; [apply item_ends; lia|]. intros w1 _.
  apply ends_bind; [apply type_ends; exact SZ|]. intros [t ext] _. apply ends_bind; [apply item_ends; lia|]. intros w2 E2.
  apply ends_bind; [apply number_ends|]. intros i N. apply ends_bind; [auto|]. intros _ _. apply ends_bind; [|intros; auto].
  apply comment_ends. eapply (item_inner l 2 w2); eauto; intros ->; discriminate.
Qed.
Lemma fieldLoop_ends ls : Forall a_line ls -> forall f self pend have, sizes_ok (f_idents f) -> ends (fieldLoop isLower isLetter isNumber f self ls pend have) /\
  forall fs g q, fieldLoop isLower isLetter isNumber f self ls pend have = Ok (fs, g, q) -> rest_of q ls.
Proof.
  induction 1 as [|x ls L F IH]; intros f self pend have SZ; cbn [fieldLoop]; [split; [auto|discriminate]|]. pose proof (line_len _ L) as LL. split.
  - apply ends_bind; [apply item_ends; lia|]. intros w E. destruct (w =b "}") eqn:W.
    { apply ends_bind; [apply comment_ends|intros; auto]. eapply item_lit in W; eauto; [vm_compute; congruence|vm_compute; congruence]. }
    destruct (l_eof x); [auto|]. destruct (isComment w); [apply IH; exact SZ|].
    apply ends_bind; [apply field_ends; assumption|]. intros [fd ext] _. apply IH. exact SZ.
  - intros fs g q H. step H. destruct (a =b "}"); [step H; inversion H; subst; apply rest_cons, rest_refl|].
    destruct (l_eof x); [discriminate|]. destruct (isComment a); [apply rest_cons; eapply (proj2 (IH _ _ _ _ SZ)); eauto|].
    step H. apply rest_cons. eapply IH in H; [exact H|exact SZ].
Qed.
Lemma check_ends fs : forall ids, ends (checkIds ids fs).
Proof. induction fs as [|fd q IH]; intros ids; cbn [checkIds]; [auto|]. destruct (nth_error _ _) as [[|]|]; auto. Qed.
Lemma struct_ends f c ls : sizes_ok (f_idents f) -> Forall a_line ls -> ends (parseStruct isLower isLetter isNumber f c ls) /\
  forall s g q, parseStruct isLower isLetter isNumber f c ls = Ok (s, g, q) -> rest_of q (snd (next ls)).
Proof.
  intros SZ F. destruct (next_line ls F) as (L & F'). unfold parseStruct. destruct (next ls) as [l q]. cbn [fst snd] in *. split.
  - apply ends_bind; [auto|]. intros [] C. apply ok_if_inv, count_lt in C. apply ends_bind; [apply item_ends; lia|]. intros w E.
    apply ends_bind; [apply ident_ends; eapply item_word; eauto; lia|]. intros _ _. apply ends_bind; [apply item_ends; lia|]. intros w2 E2.
    apply ends_bind; [auto|]. intros [] W. apply ok_if_inv in W. apply ends_bind.
    { apply comment_ends. eapply item_lit in W; eauto; vm_compute; congruence. }
    intros _ _. apply ends_bind; [apply fieldLoop_ends; assumption|]. intros [[fs g] q'] _. destruct fs; [auto|]. apply ends_bind; [apply check_ends|intros; auto].
  - intros s g q' E. repeat step E. destruct x; [discriminate|]. step E. inversion E; subst. eapply fieldLoop_ends; eauto.
Qed.

Notation good := (good isUpper isLower isLetter isNumber).
Lemma keyword_next ls w s : Forall a_line ls -> item (fst (next ls)) 0 = Ok w -> (toLower w =b s) = true -> lit s <> [] -> (length (snd (next ls)) < length ls)%nat.
Proof.
  intros F E W N. destruct ls as [|l q]; cbn in *; [|lia]. inversion E; subst. rewrite lower_nil in W. apply bytes_eqb_eq in W. congruence.
Qed.
Lemma find_ends fuel : forall f ls, good f -> none_yet f -> Forall a_line ls -> (length ls < fuel)%nat ->
  ends (findNext isUpper isLower isLetter isNumber isSpace toLower toInt fuel f ls).
Proof.
  induction fuel as [|fuel IH]; intros f ls G N F LEN; [lia|]. cbn [findNext].
  destruct (collect_ends ls F) as (CE & CR). apply ends_bind; [exact CE|]. intros [cs y] EC. specialize (CR _ _ EC).
  pose proof (rest_lines _ _ CR F) as FY. pose proof (rest_len _ _ CR) as LY. destruct (next_line y FY) as (LN & FN).
  pose proof (keyword_next y) as KN. destruct (next y) as [l r] eqn:NY. cbn [fst snd] in *.
  assert (SN : snd (next y) = r) by (rewrite NY; reflexivity).
  apply ends_bind; [apply item_ends; pose proof (line_len _ LN); lia|]. intros w EW. cbv zeta.
  destruct (toLower w =b "version") eqn:KV.
  { destruct (0 <=? f_version f); [auto|]. destruct (version_ends f y FY) as (VE & VR). apply ends_bind; [exact VE|]. intros [f' q] E.
    pose proof (VR _ _ E) as ->. rewrite SN. apply KN in KV; [|exact FY|exact EW|vm_compute; congruence].
    unfold parseVersion in E. rewrite NY in E. repeat step E. destruct (toInt _); [|discriminate]. step E. inversion E; subst.
    apply IH; [eapply head_good; [exact G|reflexivity..|left; reflexivity|exact (g_options _ _ _ _ _ G)]|exact N|exact FN|lia]. }
  destruct (toLower w =b "options") eqn:KO.
  { destruct (f_options f) as [|o os] eqn:O; [|auto]. destruct (no_idents f); [|auto]. destruct (options_ends f y FY) as (VE & VR). apply ends_bind; [exact VE|]. intros [f' q] E.
    pose proof (VR _ _ E) as ->. rewrite SN. apply KN in KO; [|exact FY|exact EW|vm_compute; congruence].
    unfold parseOptions in E. rewrite NY in E. repeat step E. inversion E; subst.
    apply IH; [eapply head_good; [exact G|reflexivity..|left; reflexivity|]|exact N|exact FN|lia].
    cbn [f_options]. eapply addOptions_sound; [|eassumption]. apply (g_options _ _ _ _ _ G). }
  destruct (toLower w =b "import") eqn:KI.
  { destruct (f_imports f) eqn:I; [auto|]. destruct (no_idents f) eqn:NI; [|auto]. apply no_idents_inv in NI.
    destruct (import_ends y FY) as (VE & VR). apply ends_bind; [exact VE|]. intros [is q] E. pose proof (VR _ _ E) as R. rewrite SN in R.
    apply KN in KI; [|exact FY|exact EW|vm_compute; congruence]. pose proof (rest_len _ _ R).
    apply IH; [|exact N|eapply rest_lines; eauto|lia]. eapply head_good; [exact G|reflexivity..| |exact (g_options _ _ _ _ _ G)].
    apply import_sound in E. right. cbn [f_imports]. repeat split; [exact NI|exact (N NI)|..]; match goal with X : Some _ = Some _ |- _ => inversion X; subst; apply E end. }
  destruct (toLower w =b "enum") eqn:KE.
  { destruct (enum_ends (commentLines cs) y FY) as (VE & VR). apply ends_bind; [exact VE|]. intros [e q] E. pose proof (VR _ _ E) as R. rewrite SN in R.
    apply KN in KE; [|exact FY|exact EW|vm_compute; congruence]. pose proof (rest_len _ _ R).
    apply ends_bind; [unfold addDecl; destruct (ident_of _ _); auto|]. intros g A.
    apply IH; [|eapply added_none; eauto|eapply rest_lines; eauto|lia]. eapply add_good; [exact G|exact A| |].
    - intros e' Q. inversion Q; subst. eapply enum_sound; eauto.
    - intros s Q. discriminate. }
  destruct (toLower w =b "struct") eqn:KS.
  { pose proof (good_sizes _ _ _ _ _ G) as SZ. destruct (struct_ends f (commentLines cs) y SZ FY) as (VE & VR). apply ends_bind; [exact VE|]. intros [[s f'] q] E. pose proof (VR _ _ _ E) as R. rewrite SN in R.
    apply KN in KS; [|exact FY|exact EW|vm_compute; congruence]. pose proof (rest_len _ _ R).
    eapply (struct_sound isUpper isLower isLetter isNumber) in E; [|exact SZ|apply (g_external _ _ _ _ _ G)]. destruct E as (S & X & K).
    apply ends_bind; [unfold addDecl; destruct (ident_of _ _); auto|]. intros g A.
    apply IH; [|eapply added_none; eauto|eapply rest_lines; eauto|lia]. eapply add_good; [eapply ext_good; eauto|exact A| |].
    - intros e Q. discriminate.
    - intros s' Q. inversion Q; subst. destruct S as (_ & _ & _ & -> & _). exact K. }
  destruct (l_eof l); auto.
Qed.
Lemma parse_ends ls : Forall a_line ls -> ends (parseFile isUpper isLower isLetter isNumber isSpace toLower toInt ls).
Proof.
  intros F. unfold parseFile. apply ends_bind.
  - unfold parsePackage. destruct (skip_ends ls F) as (SE & SR). apply ends_bind; [exact SE|]. intros y E. specialize (SR _ E).
    pose proof (rest_lines _ _ SR F) as FY. destruct (next_line y FY) as (L & F'). destruct (next y) as [l q]. cbn [fst snd] in *.
    apply ends_bind; [auto|]. intros [] C. apply ok_if_inv, count_lt in C. apply ends_bind; [apply item_ends; lia|]. intros w _.
    apply ends_bind; [auto|]. intros _ _. apply ends_bind; [apply item_ends; lia|]. intros w1 E1.
    apply ends_bind; [apply package_ends; eapply item_word; eauto; lia|]. intros u PK. apply ends_bind; [apply comment_ends; lia|]. intros _ _.
    apply find_ends; [|intros _; reflexivity|exact F'|lia]. constructor; cbn.
    + eapply package_sound; eauto.
    + constructor.
    + intros; discriminate.
    + constructor.
    + constructor.
    + intros; contradiction.
    + intros before s after Q. destruct before; discriminate.
  - intros f _. unfold validate. destruct (f_package f); [auto|]. destruct (_ || _); [|auto]. destruct (forallb _ _); auto.
Qed.
End Total.
