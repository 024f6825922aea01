(** Lemmas for Properties/GitFetch.v: versions of git, roots, specifications, the files of init. *)
From Coq Require Import ZArith List Bool String Lia.
Import ListNotations.
From Verif.Model Require Import Base Utf8 Field Any Escape ClawText Idl ClawMod GitFetch.
From Verif.Spec Require Import Text JsonGrammar ClawText ClawHand Idl IdlText ClawMod GitFetch.
From Verif.Proofs Require Import BaseLemmas ClawLine IdlBase IdlText ClawMod ClawModText GitFetch.
Local Open Scope Z_scope.

(** ** The version of git *)
Definition not_digit_first (s : bytes) : Prop := forall c q, s = c :: q -> ~ digit c.
Lemma isDigit_iff c : isDigit c = true <-> digit c.
Proof. unfold isDigit, digit. rewrite andb_true_iff, !Z.leb_le. lia. Qed.
Lemma span_digits a s : Forall digit a -> not_digit_first s -> spanDigits (a ++ s) = (a, s).
Proof.
  intros F N. induction F as [|c a D F IH]; cbn [app spanDigits].
  - destruct s as [|c q]; [reflexivity|]. cbn. destruct (isDigit c) eqn:E; [|reflexivity]. apply isDigit_iff in E. exfalso. exact (N c q eq_refl E).
  - rewrite (proj2 (isDigit_iff c) D), IH. reflexivity.
Qed.
Lemma some_digits a s : digits1 a -> not_digit_first s -> someDigits (a ++ s) = Some (a, s).
Proof. intros [N F] M. unfold someDigits. rewrite (span_digits a s F M). destruct a; [congruence|reflexivity]. Qed.
Lemma dot_first q : not_digit_first (46 :: q).
Proof. intros c r [= <- _]. unfold digit. lia. Qed.
Lemma match_version a b c rest : digits1 a -> digits1 b -> digits1 c -> not_digit_first rest ->
  matchVersion (a ++ 46 :: b ++ 46 :: c ++ rest) = Some (a ++ 46 :: b ++ 46 :: c).
Proof.
  intros A B C N. unfold matchVersion. rewrite (some_digits a _ A (dot_first _)). rewrite (some_digits b _ B (dot_first _)).
  rewrite (some_digits c _ C N). reflexivity.
Qed.
Lemma find_version pre s m : Forall (fun c => ~ digit c) pre -> matchVersion s = Some m -> findVersion (pre ++ s) = Some m.
Proof.
  intros F H. induction F as [|c pre D F IH]; cbn [app].
  - destruct s; cbn [findVersion]; rewrite H; reflexivity.
  - cbn [findVersion]. replace (matchVersion (c :: pre ++ s)) with (@None bytes); [exact IH|].
    unfold matchVersion, someDigits. cbn [spanDigits]. destruct (isDigit c) eqn:E; [apply isDigit_iff in E; contradiction|reflexivity].
Qed.
Lemma digits_no_dot a : Forall digit a -> ~ In 46 a.
Proof. intros F I. rewrite Forall_forall in F. apply F in I. unfold digit in I. lia. Qed.
Lemma numval_nonneg a : Forall digit a -> forall v, 0 <= v -> 0 <= fold_left (fun v d => 10 * v + (d - 48)) a v.
Proof. induction 1 as [|c a D F IH]; intros v V; cbn [fold_left]; [exact V|]. apply IH. unfold digit in D. lia. Qed.
Lemma parse_number a : digits1 a -> numval a < 2 ^ 63 -> parseInt a = Some (numval a).
Proof. intros D L. apply parseInt_lit; [constructor; exact D|]. pose proof (numval_nonneg a (proj2 D) 0). unfold numval in *. lia. Qed.
Lemma three_numbers a b c : digits1 a -> digits1 b -> digits1 c -> numval a < 2 ^ 63 -> numval b < 2 ^ 63 -> numval c < 2 ^ 63 ->
  threeNumbers (a ++ 46 :: b ++ 46 :: c) = Ok (mkVer (numval a) (numval b) (numval c)).
Proof.
  intros A B C LA LB LC. unfold threeNumbers. rewrite (splitAt_cons 46 a) by (apply digits_no_dot, A). rewrite (splitAt_cons 46 b) by (apply digits_no_dot, B).
  rewrite (splitAt_none 46 c) by (apply digits_no_dot, C). rewrite !parse_number by assumption. reflexivity.
Qed.

(** ** Splitting at a text *)
Lemma split_none sep s : sep <> [] -> (forall a b, s <> a ++ sep ++ b) -> splitSub sep 0 s = [s].
Proof.
  intros N. induction s as [|c s IH]; intros H; cbn [splitSub]; [reflexivity|].
  destruct (hasPrefix sep (c :: s)) eqn:P.
  - apply prefix_iff in P. destruct P as [q P]. exfalso. exact (H [] q P).
  - rewrite IH; [reflexivity|]. intros a b E. apply (H (c :: a) b). rewrite E. reflexivity.
Qed.
Lemma split_skip sep a s : splitSub sep (length a) (a ++ s) = splitSub sep 0 s.
Proof. induction a as [|c a IH]; cbn [length app splitSub]; [reflexivity|]. exact IH. Qed.
Lemma split_here sep s : sep <> [] -> splitSub sep 0 (sep ++ s) = [] :: splitSub sep 0 s.
Proof.
  intros N. destruct sep as [|c sep]; [congruence|]. cbn [app splitSub].
  replace (hasPrefix (c :: sep) (c :: sep ++ s)) with true by (symmetry; apply prefix_iff; exists s; reflexivity).
  cbn [length pred]. f_equal. apply split_skip.
Qed.
(** A first piece in which, with what follows, the separator does not begin. *)
Lemma split_cons sep a s : sep <> [] -> (forall p q, a = p ++ q -> q <> [] -> ~ starts sep (q ++ sep ++ s)) ->
  splitSub sep 0 (a ++ sep ++ s) = a :: splitSub sep 0 s.
Proof.
  intros N. induction a as [|c a IH]; intros H.
  - exact (split_here sep s N).
  - cbn [app splitSub]. destruct (hasPrefix sep (c :: a ++ sep ++ s)) eqn:P.
    + apply prefix_iff in P. exfalso. exact (H [] (c :: a) eq_refl ltac:(discriminate) P).
    + rewrite IH; [reflexivity|]. intros p q E Q. apply (H (c :: p) q); [rewrite E; reflexivity|exact Q].
Qed.
(** A text without slashes that begins in front of a slash lies in front of it. *)
Lemma before_slash t q s : ~ In 47 t -> starts t (q ++ 47 :: s) -> starts t q.
Proof.
  revert t. induction q as [|c q IH]; intros t N [r E].
  - destruct t as [|d t]; [exists []; reflexivity|]. cbn in E. injection E as <- _. exfalso. apply N. left. reflexivity.
  - destruct t as [|d t]; [exists (c :: q); reflexivity|]. cbn in E. injection E as <- E.
    destruct (IH t) as [r' ->]; [intros I; apply N; right; exact I|exists r; exact E|]. exists r'. reflexivity.
Qed.

(** ** Trimming *)
Lemma space_blank c : isSpace c = true <-> blank c.
Proof. unfold isSpace, in_range, blank. rewrite orb_true_iff, andb_true_iff, !Z.leb_le, Z.eqb_eq. lia. Qed.
Lemma trimL_blank b s : Forall blank b -> Escape.trimLeft (b ++ s) = Escape.trimLeft s.
Proof. induction 1 as [|c b B F IH]; cbn [app Escape.trimLeft]; [reflexivity|]. rewrite (proj2 (space_blank c) B). exact IH. Qed.
Lemma trimL_keep c s : ~ blank c -> Escape.trimLeft (c :: s) = c :: s.
Proof. intros N. cbn. destruct (isSpace c) eqn:E; [apply space_blank in E; contradiction|reflexivity]. Qed.
Lemma blanks_or s : Forall blank s \/ exists b c q, s = b ++ c :: q /\ Forall blank b /\ ~ blank c.
Proof.
  induction s as [|c s [F|(b & d & q & -> & B & N)]]; [left; constructor| |].
  - assert (blank c \/ ~ blank c) as [B|N] by (unfold blank; lia); [left; constructor; assumption|]. right. exists [], c, s. auto.
  - assert (blank c \/ ~ blank c) as [B'|N'] by (unfold blank; lia); right; [exists (c :: b), d, q|exists [], c, (b ++ d :: q)]; auto.
Qed.
Lemma trim_blanks b : Forall blank b -> trimSpace b = [].
Proof. intros F. unfold trimSpace. replace (Escape.trimLeft b) with (@nil Z); [reflexivity|]. symmetry. rewrite <- (app_nil_r b). apply trimL_blank. exact F. Qed.
Lemma trim_trimmed a s b : Forall blank a -> trimmed s -> Forall blank b -> trimSpace (a ++ s ++ b) = s.
Proof.
  intros A (N & H & L) B. unfold trimSpace. rewrite trimL_blank by exact A. destruct s as [|c s]; [congruence|].
  change ((c :: s) ++ b) with (c :: s ++ b). rewrite trimL_keep by (eapply H; reflexivity).
  change (c :: s ++ b) with ((c :: s) ++ b). rewrite rev_app_distr, trimL_blank by (apply Forall_rev; exact B).
  destruct (rev (c :: s)) as [|d r] eqn:E; [apply (f_equal (@length Z)) in E; rewrite rev_length in E; discriminate|].
  assert (E' : c :: s = rev r ++ [d]) by (rewrite <- (rev_involutive (c :: s)), E; reflexivity).
  rewrite trimL_keep by (eapply L; exact E'). rewrite <- E. apply rev_involutive.
Qed.
(** What trimming leaves. *)
Lemma trim_inv s : (Forall blank s /\ trimSpace s = []) \/ exists a t b, s = a ++ t ++ b /\ Forall blank a /\ Forall blank b /\ trimmed t /\ trimSpace s = t.
Proof.
  destruct (blanks_or s) as [F|(a & c & q & -> & A & N)]; [left; split; [exact F|apply trim_blanks; exact F]|right].
  destruct (blanks_or (rev (c :: q))) as [F|(b & d & r & E & B & M)].
  - apply Forall_rev in F. rewrite rev_involutive in F. inversion F; contradiction.
  - assert (E' : c :: q = rev (d :: r) ++ rev b) by (rewrite <- (rev_involutive (c :: q)), E, rev_app_distr; reflexivity).
    assert (T : trimmed (rev (d :: r))).
    { split; [|split].
      - intros X. apply (f_equal (@length Z)) in X. rewrite rev_length in X. discriminate.
      - intros x y X. rewrite X in E'. cbn in E'. injection E' as -> _. exact N.
      - intros x y X. cbn in X. apply app_inj_tail in X. destruct X as [_ <-]. exact M. }
    exists a, (rev (d :: r)), (rev b). rewrite E'. split; [reflexivity|]. split; [exact A|]. split; [apply Forall_rev; exact B|]. split; [exact T|].
    apply trim_trimmed; [exact A|exact T|apply Forall_rev; exact B].
Qed.
Lemma cut_here c a q : ~ In c a -> cutAt c (a ++ c :: q) = (a, Some q).
Proof.
  induction a as [|d a IH]; intros N; cbn [app cutAt]; [rewrite Z.eqb_refl; reflexivity|].
  destruct (d =? c) eqn:E; [apply Z.eqb_eq in E; exfalso; apply N; left; exact E|]. rewrite IH by (intros I; apply N; right; exact I). reflexivity.
Qed.
Lemma cut_none c a : ~ In c a -> cutAt c a = (a, None).
Proof.
  induction a as [|d a IH]; intros N; cbn [cutAt]; [reflexivity|].
  destruct (d =? c) eqn:E; [apply Z.eqb_eq in E; exfalso; apply N; left; exact E|]. rewrite IH by (intros I; apply N; right; exact I). reflexivity.
Qed.
Lemma cut_inv c s : (exists a q, s = a ++ c :: q /\ ~ In c a /\ cutAt c s = (a, Some q)) \/ (~ In c s /\ cutAt c s = (s, None)).
Proof.
  induction s as [|d s IH]; [right; split; [intros []|reflexivity]|]. destruct (Z.eq_dec d c) as [->|N].
  - left. exists [], s. split; [reflexivity|]. split; [intros []|]. cbn. rewrite Z.eqb_refl. reflexivity.
  - destruct IH as [(a & q & -> & M & E)|[M E]]; [left|right].
    + exists (d :: a), q. split; [reflexivity|]. split; [intros [I|I]; congruence|]. exact (cut_here c (d :: a) q ltac:(intros [I|I]; congruence)).
    + split; [intros [I|I]; congruence|]. apply cut_none. intros [I|I]; congruence.
Qed.
