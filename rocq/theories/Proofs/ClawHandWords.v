(** The lines and words of texts written by hand. *)
From Coq Require Import ZArith List Bool Lia ZifyBool.
Import ListNotations.
From Verif.Model Require Import Base Utf8 Field MapApi Token Walk Escape Json TokenStream Ingest JsonRead ClawText.
From Verif.Spec Require Import Text Message TokenGrammar Values Ingest JsonGrammar JsonRead ClawText ClawHand.
From Verif.Proofs Require Import BaseLemmas Utf8Proofs JsonLits TokenVals IngestProofs Rendering ClawTotal ClawLine ClawRound.
From Verif.Spec Require Import Message JsonGrammar JsonRead ClawText ClawHand.
From Verif.Model Require Import Ingest ClawText.
Open Scope Z_scope.

Section Lines.
Variable space : Z -> bool.
Hypothesis S32 : space 32 = true.
Hypothesis S9 : space 9 = true.
Hypothesis SP : forall c, 33 <= c <= 126 -> space c = false.

Lemma spaced_words rs ws : spaced rs ws -> words space rs = ws.
Proof.
  induction 1 as [b B|b w B [N P]|b w c q ws B [N P] C _ IH].
  - rewrite <- (app_nil_r b). rewrite (words_blanks space S32 S9) by exact B. reflexivity.
  - rewrite (words_blanks space S32 S9) by exact B. apply words_last; auto.
  - rewrite (words_blanks space S32 S9) by exact B. unfold words. rewrite (words_word space SP w P). rewrite app_nil_r. cbn [words_from].
    replace (space c) with true by (destruct C as [->| ->]; auto). rewrite rev_involutive. rewrite <- IH.
    destruct (rev w) eqn:R; [|reflexivity]. apply (f_equal (@rev Z)) in R. rewrite rev_involutive in R. cbn in R. congruence.
Qed.
Lemma spaced_chars rs ws : spaced rs ws -> line_chars rs.
Proof.
  induction 1 as [b B|b w B [N P]|b w c q ws B [N P] C _ IH].
  - apply blanks_line, B.
  - apply line_app; [apply blanks_line, B|apply printable_line, P].
  - apply line_app; [apply blanks_line, B|]. apply line_app; [apply printable_line, P|]. change (c :: q) with ([c] ++ q). apply line_app; [|exact IH].
    apply blanks_line. constructor; [exact C|constructor].
Qed.
Lemma spaced_word rs ws : spaced rs ws -> Forall word ws.
Proof. induction 1; repeat constructor; auto; apply H0. Qed.
Lemma words_utf8 ws : Forall word ws -> map utf8 ws = ws.
Proof. induction 1 as [|w ws [_ P] _ IH]; [reflexivity|]. cbn [map]. rewrite IH, utf8_ascii by apply printable_ascii, P. reflexivity. Qed.
(** The words of a line, and maybe the newline. *)
Definition newline (e : list bytes) : Prop := e = [] \/ e = [[10]].
Lemma spaced_items rs ws l : line_of space rs l -> spaced rs ws -> exists e, newline e /\ ln_items l = ws ++ e.
Proof.
  intros [IT _] S. rewrite (spaced_words rs ws S), words_utf8 in IT by (eapply spaced_word; eauto).
  destruct IT as [IT|IT]; [exists []|exists [[10]]]; rewrite IT; [rewrite app_nil_r|]; unfold newline; auto.
Qed.
(** The first word of a line that starts with a printable character. *)
Lemma words_some' : forall x acc, acc <> [] -> exists p r ws, words_from space acc x = (rev acc ++ p) :: ws /\ x = p ++ r /\ Forall (fun c => space c = false) p /\ (r = [] \/ exists c q, r = c :: q /\ space c = true).
Proof.
  induction x as [|c x IH]; intros acc N; cbn [words_from].
  - exists [], [], []. rewrite app_nil_r. destruct acc; [congruence|]. auto.
  - destruct (space c) eqn:S.
    + exists [], (c :: x), (words_from space [] x). rewrite app_nil_r. destruct acc; [congruence|]. repeat split; eauto.
    + destruct (IH (c :: acc) ltac:(discriminate)) as (p & r & ws & E & Q & F & R). exists (c :: p), r, ws. rewrite E, Q. cbn [rev]. rewrite <- app_assoc. repeat split; auto.
Qed.
Lemma words_start' c x : 33 <= c <= 126 -> exists p r ws, words space (c :: x) = (c :: p) :: ws /\ x = p ++ r /\ Forall (fun c => space c = false) p /\ (r = [] \/ exists c q, r = c :: q /\ space c = true).
Proof.
  intros P. unfold words. cbn [words_from]. rewrite (SP c P). destruct (words_some' x [c] ltac:(discriminate)) as (p & r & ws & E & Q & F & R).
  exists p, r, ws. rewrite E. auto.
Qed.

(** ** Field lines *)
Lemma headed_line n rs ws l : ident n -> headed n rs ws -> line_of space rs l -> exists hd e, heading n hd /\ newline e /\ ln_items l = hd ++ ws ++ e.
Proof.
  intros I (hd & H & S) L. destruct (spaced_items rs _ l L S) as (e & NE & IT). exists hd, e. rewrite app_assoc. auto.
Qed.
End Lines.
Lemma ident_last n : ident n -> hasLast 58 n = false.
Proof.
   intros I. unfold hasLast. destruct (rev n) as [|d r] eqn:R; [reflexivity|]. assert (IN : In d n) by (apply in_rev; rewrite R; left; reflexivity).
  destruct n as [|c q]; [destruct I|]. destruct I as [L F]. unfold letter in *. destruct IN as [->|IN]; [lia|]. rewrite Forall_forall in F. apply F in IN. lia.
Qed.
Lemma items_opens n hd more l : ident n -> heading n hd -> ln_items l = hd ++ more -> more <> [] -> opens l.
Proof.
   intros I H IT NE. unfold opens, blank_line, first_word. rewrite IT. destruct n as [|c q]; [destruct I|]. destruct I as [LT _]. unfold letter in LT.
  assert (X : forall d, d < 58 \/ 122 < d -> forall p q', hasPrefix (d :: p) (c :: q') = false) by (intros; cbn [hasPrefix]; apply andb_false_iff; left; lia).
  assert (Y : forall q', bytes_eqb (c :: q') [125] = false) by (intros; cbn [bytes_eqb]; apply andb_false_iff; left; lia).
  assert (Z' : forall q', closes 125 (c :: q') = false) by (intros; unfold closes; rewrite Y; apply X; lia).
  destruct H as [->| ->]; cbn [app] in *; (split; [destruct more; [congruence|reflexivity] || reflexivity|]); cbn [List.hd]; rewrite !X by lia; (do 2 (split; [reflexivity|])); eauto.
Qed.
Lemma items_field pf nested k n hd v more l ls : ident n -> heading n hd -> ln_items l = hd ++ v :: more -> v <> [10] ->
  parseField pf nested k l ls = parseValue pf nested k n v more (ln_raw l) ls.
Proof.
   intros I H IT NV. unfold parseField. rewrite IT. assert (B : bytes_eqb v [10] = false) by (apply not_true_is_false; intros X; apply bytes_eqb_eq in X; auto).
  destruct H as [->| ->]; cbn [app].
  - rewrite hasLast_snoc, Z.eqb_refl. rewrite B. rewrite removelast_last. reflexivity.
  - rewrite (ident_last n I). change (bytes_eqb [58] [58]) with true. cbn iota. rewrite B. reflexivity.
Qed.


(** ** Text *)
Lemma hexdigit_val c v : hexdigit c v -> hexVal c = Some v /\ 33 <= c <= 126.
Proof. intros H. unfold hexVal, Utf8.in_range. inversion H; subst; split; try lia; repeat match goal with |- context [if ?b then _ else _] => destruct b eqn:?; try (exfalso; lia) end; f_equal; lia. Qed.
Lemma spelled_unescape s rs : spelled s rs -> unescape (utf8 s) = Ok (utf8 rs).
Proof.
  induction 1 as [|r s rs R1 R2 R3 R4 _ IH|e r s rs I _ IH|h r s rs H4 SC _ IH]; [reflexivity| | |].
  - change (utf8 (r :: s)) with (utf8_of r ++ utf8 s). change (utf8 (r :: rs)) with (utf8_of r ++ utf8 rs). rewrite unescape_plain by (apply utf8_plain; auto). rewrite IH. reflexivity.
  - change (92 :: e :: s) with ([92; e] ++ s). change (r :: rs) with ([r] ++ rs). rewrite !utf8_app.
    cbn in I. destruct I as [I|[I|[I|[I|[I|[]]]]]]; inversion I; subst; match goal with |- unescape (utf8 [92; ?x] ++ _) = _ => change (utf8 [92; x]) with [92; x] end; cbn [app unescape Z.eqb Pos.eqb]; rewrite IH; reflexivity.
  - change (92 :: 117 :: h ++ s) with ([92; 117] ++ h ++ s). rewrite !utf8_app. change (r :: rs) with ([r] ++ rs). rewrite utf8_app.
    inversion H4 as [a b c d va vb vc vd A B C D]; subst. apply hexdigit_val in A, B, C, D. destruct A as [A A'], B as [B B'], C as [C C'], D as [D D'].
    rewrite (utf8_ascii [a; b; c; d]) by (repeat constructor; lia). change (utf8 [92; 117]) with [92; 117]. cbn [app unescape]. change (92 =? 92) with true. cbn iota. change (117 =? 34) with false. change (117 =? 92) with false.
    change (117 =? 110) with false. change (117 =? 114) with false. change (117 =? 116) with false. change (117 =? 117) with true. cbn iota.
    unfold parseHex4. rewrite A, B, C, D, IH. cbn [bind]. rewrite AppendRune_scalar by exact SC. cbn [utf8 flat_map app]. rewrite app_nil_r. reflexivity.
Qed.
Lemma spelled_chars s rs : spelled s rs -> Forall scalar s /\ ~ In 10 s /\ ~ In 13 s.
Proof.
  induction 1 as [|r s rs R1 R2 R3 R4 _ (A & B & C)|e r s rs I _ (A & B & C)|h r s rs H4 SC _ (A & B & C)].
  - repeat split; [constructor|intros []|intros []].
  - repeat split; [constructor; auto| |]; cbn [In]; intros [X|X]; lia || auto.
  - assert (L : 33 <= e <= 126) by (cbn in I; destruct I as [I|[I|[I|[I|[I|[]]]]]]; inversion I; lia).
    split; [constructor; [unfold scalar; lia|constructor; [unfold scalar; lia|exact A]]|]. cbn [In]; split; intros [X|[X|X]]; lia || auto.
  - inversion H4 as [a b c d va vb vc vd D1 D2 D3 D4]; subst. apply hexdigit_val in D1, D2, D3, D4.
    split; [|split].
    + do 2 (constructor; [unfold scalar; lia|]). cbn [app]. do 4 (constructor; [unfold scalar; lia|]). exact A.
    + cbn [In app]. intros X. repeat destruct X as [X|X]; lia || auto.
    + cbn [In app]. intros X. repeat destruct X as [X|X]; lia || auto.
Qed.
Lemma spelled_scalar s rs : spelled s rs -> Forall scalar rs.
Proof.
  induction 1 as [|r s rs R1 R2 R3 R4 _ IH|e r s rs I _ IH|h r s rs H4 SC _ IH]; constructor; auto.
  cbn in I; destruct I as [I|[I|[I|[I|[I|[]]]]]]; inversion I; unfold scalar; lia.
Qed.
Lemma unquote_spelled s rs : spelled s rs -> unquoteString (34 :: utf8 s ++ [34]) = Ok (utf8 rs).
Proof. intros S. unfold unquoteString. rewrite rev_unit. cbn [Z.eqb andb]. change (34 =? 34) with true. cbn [andb]. rewrite rev_involutive. apply spelled_unescape, S. Qed.
Lemma unquote_word s rs : spelled s rs -> word (34 :: s ++ [34]) -> unquoteString (34 :: s ++ [34]) = Ok (utf8 rs).
Proof.
  intros S [_ P]. inversion P as [|? ? _ P1]; subst. apply Forall_app in P1 as [P1 _]. rewrite <- (utf8_ascii s) by (apply printable_ascii; exact P1). apply unquote_spelled, S.
Qed.
