(** What a schema text shows is what the parser reads: words, lines, types. *)
From Coq Require Import ZArith List Bool Lia String Permutation Sorted.
Import ListNotations.
From Verif.Model Require Import Base Utf8 Field Any ClawText Idl.
From Verif.Spec Require Import Text JsonGrammar ClawText Idl IdlText.
From Verif.Proofs Require Import BaseLemmas Utf8Proofs IngestProofs ClawLine ClawHandValues IdlBase IdlSound IdlFinal.
Local Open Scope Z_scope.

Lemma beq_refl w : bytes_eqb w w = true.
Proof. apply bytes_eqb_eq. reflexivity. Qed.
Lemma beq_neq a b : a <> b -> bytes_eqb a b = false.
Proof. intros N. destruct (bytes_eqb a b) eqn:E; [apply bytes_eqb_eq in E; contradiction|reflexivity]. Qed.
(** ** Words *)
Lemma tname_chars w : tname w -> Forall letter_or_digit w.
Proof. intros (c & q & -> & U & Q). constructor; [left; exact U|exact Q]. Qed.
Lemma pname_chars w : pname w -> Forall (fun c => letter_or_digit c \/ c = 95) w.
Proof. intros (c & q & -> & U & Q). constructor; [left; right; left; exact U|exact Q]. Qed.
Lemma tname_no w c : tname w -> ~ letter_or_digit c -> ~ In c w.
Proof. intros T N I. apply N. exact (proj1 (Forall_forall _ _) (tname_chars w T) c I). Qed.
Lemma pname_no w c : pname w -> ~ letter_or_digit c -> c <> 95 -> ~ In c w.
Proof. intros T N N5 I. destruct (proj1 (Forall_forall _ _) (pname_chars w T) c I); auto. Qed.
Ltac nochar := unfold letter_or_digit, upper_letter, lower_letter in *; lia.
Lemma ref_no w c : type_ref w -> ~ letter_or_digit c -> c <> 95 -> c <> 46 -> ~ In c w.
Proof.
  intros [[T _]|(p & n & -> & P & N)] L N5 N46; [apply tname_no; auto|].
  intros I. apply in_app_or in I. destruct I as [I|[I|I]]; [exact (pname_no p c P L N5 I)|lia|exact (tname_no n c N L I)].
Qed.
Lemma chars_ascii w : Forall (fun c => letter_or_digit c \/ c = 95) w -> runes w = w.
Proof. intros H. apply runes_ascii. eapply Forall_impl; [|exact H]. cbn. intros a [A|A]; [nochar|lia]. Qed.
Lemma prefix_app p s : hasPrefix p (p ++ s) = true.
Proof. induction p as [|c p IH]; [destruct s; reflexivity|]. cbn. rewrite Z.eqb_refl. exact IH. Qed.
Lemma prefix_inv p : forall s, hasPrefix p s = true -> exists q, s = p ++ q.
Proof.
  induction p as [|c p IH]; intros s H; [exists s; reflexivity|]. destruct s as [|d s]; [discriminate|]. cbn in H.
  apply andb_prop in H. destruct H as [E H]. apply Z.eqb_eq in E. subst d. destruct (IH s H) as [q ->]. exists q. reflexivity.
Qed.
Lemma prefix_In p s c : In c p -> hasPrefix p s = true -> In c s.
Proof. intros I H. destruct (prefix_inv p s H) as [q ->]. apply in_or_app. left. exact I. Qed.
Lemma prefix_no p s c : In c p -> ~ In c s -> hasPrefix p s = false.
Proof. intros I N. destruct (hasPrefix p s) eqn:E; [|reflexivity]. exfalso. apply N. exact (prefix_In p s c I E). Qed.
Lemma upto_none sep s c : In c sep -> ~ In c s -> upto sep s = s.
Proof.
  intros I. induction s as [|d s IH]; intros N; cbn [upto]; rewrite (prefix_no sep _ c I N); [reflexivity|].
  f_equal. apply IH. intros J. apply N. right. exact J.
Qed.
Lemma starts_comment w : starts [47; 47] w -> isComment w = true.
Proof. intros [q ->]. exact (prefix_app [47; 47] q). Qed.
Lemma eqb_first w s : hd 0 w <> hd 0 (lit s) -> bytes_eqb w (lit s) = false.
Proof. intros N. apply beq_neq. intros E. rewrite E in N. congruence. Qed.
Lemma not_in {A} (a : A) l : Forall (fun b => b <> a) l -> ~ In a l.
Proof. intros F I. exact (proj1 (Forall_forall _ _) F a I eq_refl). Qed.

Section Tables.
Variables isUpper isLower isLetter isNumber isSpace : Z -> bool.
Variable toLower : bytes -> bytes.
Variable toInt : bytes -> option Z.
Hypothesis T : ascii_tables isUpper isLower isLetter isNumber isSpace toLower toInt.
Lemma letter_ok c : letter_or_digit c -> isLetter c || isNumber c = true.
Proof.
  intros [U|[L|D]].
  - rewrite (proj2 (proj2 (at_upper _ _ _ _ _ _ _ T c U))). reflexivity.
  - rewrite (proj2 (proj2 (at_lower _ _ _ _ _ _ _ T c L))). reflexivity.
  - rewrite (at_digit _ _ _ _ _ _ _ T c D). apply orb_true_r.
Qed.
Lemma tname_valid w : tname w -> validateIdent isLower isLetter isNumber w = Ok tt.
Proof.
  intros N. unfold validateIdent. rewrite (chars_ascii w); [|eapply Forall_impl; [|exact (tname_chars w N)]; cbn; auto].
  destruct N as (c & q & -> & U & Q). destruct (at_upper _ _ _ _ _ _ _ T c U) as (_ & E & E'). rewrite E, E'. cbn [negb andb].
  replace (forallb _ q) with true; [reflexivity|]. symmetry. apply forallb_forall. intros x I. apply letter_ok.
  exact (proj1 (Forall_forall _ _) Q x I).
Qed.
Lemma pname_valid w : pname w -> ValidPackage isUpper isLetter isNumber w = Ok tt.
Proof.
  intros N. unfold ValidPackage. rewrite (chars_ascii w (pname_chars w N)).
  destruct N as (c & q & -> & U & Q). destruct (at_lower _ _ _ _ _ _ _ T c U) as (E & _ & E'). rewrite E, E'. cbn [negb andb].
  replace (forallb _ q) with true; [reflexivity|]. symmetry. apply forallb_forall. intros x I.
  destruct (proj1 (Forall_forall _ _) Q x I) as [L| ->]; [rewrite (letter_ok x L); reflexivity|apply orb_true_r].
Qed.
Lemma lower_lit s w : keyword s w -> toLower w = lit s.
Proof. intros [L E]. rewrite (at_tolower _ _ _ _ _ _ _ T w L). exact E. Qed.
End Tables.

Lemma at_ok w n : at_number w n -> atNumber w = Ok n /\ 0 <= n < 65536.
Proof.
  intros (ds & -> & D & -> & R).
  assert (N : 0 <= numval ds).
  { destruct D as [_ D]. unfold numval.
    assert (G : forall a, 0 <= a -> 0 <= fold_left (fun a d => 10 * a + (d - 48)) ds a); [|apply G; lia].
    clear R. induction D as [|d ds Hd D IH]; intros a A; [exact A|]. cbn [fold_left]. apply IH. unfold digit in Hd. lia. }
  split; [|lia]. unfold atNumber.
  rewrite (upto_none [64] ds 64); [|left; reflexivity|].
  - rewrite (parseInt_lit ds (numval ds)); [reflexivity|apply il_pos; exact D|lia].
  - intros I. destruct D as [_ D]. pose proof (proj1 (Forall_forall _ _) D 64 I) as X. unfold digit in X. lia.
Qed.

(** ** Lines *)
Lemma says_item l ws k w : says l ws -> nth_error ws k = Some w -> item l k = Ok w.
Proof.
  intros (E & _) H. unfold item. rewrite E, nth_error_app1, H; [reflexivity|]. apply nth_error_Some. congruence.
Qed.
Lemma line_item l ws k w : line_says l ws -> nth_error ws k = Some w -> item l k = Ok w.
Proof.
  intros (tl & S & _) H. apply (says_item l _ k w S). rewrite nth_error_app1; [exact H|]. apply nth_error_Some. congruence.
Qed.
Lemma line_len l ws : line_says l ws -> len ws + 1 <= len (l_items l).
Proof. intros (tl & (E & _) & _). rewrite E. unfold len. rewrite !app_length. cbn. lia. Qed.
Lemma line_long l ws n : line_says l ws -> n <= len ws + 1 -> negb (len (l_items l) <? n) = true.
Proof. intros S H. pose proof (line_len l ws S). destruct (Z.ltb_spec (len (l_items l)) n); [lia|reflexivity]. Qed.
Lemma line_eof l ws : line_says l ws -> l_eof l = false.
Proof. intros (tl & (_ & E & _) & _). exact E. Qed.
Lemma line_end l ws k : line_says l ws -> k = length ws -> commentOrEOL l k = Ok tt.
Proof.
  intros (tl & (E & _) & [->|(w & q & -> & S)]) ->; unfold commentOrEOL, item; rewrite E.
  - rewrite app_nil_r, nth_error_app2, Nat.sub_diag by lia. cbn [nth_error bind]. rewrite skipn_app, skipn_all, Nat.sub_diag. reflexivity.
  - rewrite <- app_assoc. rewrite nth_error_app2, Nat.sub_diag by lia. cbn [nth_error bind app].
    rewrite (starts_comment w S). reflexivity.
Qed.
Lemma line_words l ws : line_says l ws -> Forall (fun w => isComment w = false) ws -> withoutCommentEOL (l_items l) = ws.
Proof.
  intros (tl & (E & _) & H) F. rewrite E. clear E. revert H. rewrite <- app_assoc.
  induction F as [|w ws N F IH]; intros H.
  - destruct H as [->|(w & q & -> & S)]; [reflexivity|]. cbn [app]. destruct (q ++ [[10]]) eqn:Q; [destruct q; discriminate|].
    cbn [withoutCommentEOL]. rewrite (starts_comment w S). reflexivity.
  - cbn [app]. destruct (ws ++ tl ++ [[10]]) as [|b l0] eqn:Q; [destruct ws, tl; discriminate|].
    change (withoutCommentEOL (w :: b :: l0)) with (if isComment w then [] else w :: withoutCommentEOL (b :: l0)).
    rewrite N. f_equal. exact (IH H).
Qed.
Lemma spoken_join t q : spoken t q -> join (lit " ") q = t.
Proof. intros H. induction H; [reflexivity|reflexivity|]. cbn [join] in *. rewrite IHspoken. reflexivity. Qed.
Lemma says_text l w q t : says l (w :: q) -> spoken t q -> commentText l = t.
Proof.
  intros (E & _ & F) S. unfold commentText. rewrite E. cbn [app tl]. rewrite filter_app. cbn [filter].
  rewrite (beq_refl [10]). cbn [negb]. rewrite app_nil_r. inversion_clear F.
  replace (filter _ q) with q; [exact (spoken_join t q S)|]. clear - H0. induction H0 as [|x q [_ X] F IH]; [reflexivity|].
  cbn [filter]. rewrite (beq_neq x [10] X). cbn [negb]. f_equal. exact IH.
Qed.
Lemma kept_lines c ts : kept_text c ts -> commentLines ts = c.
Proof.
  intros H. induction H as [|t|t r t' ts H IH]; [reflexivity|reflexivity|]. unfold commentLines in *.
  change (t ++ (10 :: lit "// ") ++ join (10 :: lit "// ") (t' :: ts) = t ++ [10; 47; 47; 32] ++ r). rewrite IH. reflexivity.
Qed.
(** A line that is neither a comment nor the end. *)
Definition proper (l : iline) : Prop := l_eof l = false /\ exists w, item l 0 = Ok w /\ isComment w = false.
Lemma line_proper l w ws : line_says l (w :: ws) -> isComment w = false -> proper l.
Proof. intros S N. split; [exact (line_eof _ _ S)|]. exists w. split; [exact (line_item l _ 0 w S eq_refl)|exact N]. Qed.
Lemma collect_comments cs ts l q : comments cs ts -> proper l -> collectComments (cs ++ l :: q) = Ok (ts, l :: q).
Proof.
  intros C (E & w & I & N). induction C as [|l0 w0 q0 t ls ts S St Sp C IH]; cbn [app collectComments].
  - rewrite E, I. cbn [bind]. rewrite N. reflexivity.
  - rewrite (proj1 (proj2 S)), (says_item l0 _ 0 w0 S eq_refl). cbn [bind]. rewrite (starts_comment w0 St), IH. cbn [bind].
    rewrite (says_text l0 w0 q0 t S Sp). reflexivity.
Qed.
Lemma collect_end cs ts : comments cs ts -> collectComments (cs ++ [eofLine]) = Ok (ts, []).
Proof.
  intros C. induction C as [|l0 w0 q0 t ls ts S St Sp C IH]; cbn [app collectComments]; [reflexivity|].
  rewrite (proj1 (proj2 S)), (says_item l0 _ 0 w0 S eq_refl). cbn [bind]. rewrite (starts_comment w0 St), IH. cbn [bind].
  rewrite (says_text l0 w0 q0 t S Sp). reflexivity.
Qed.
Lemma skip_comments cs ts l q : comments cs ts -> proper l -> skipComments (cs ++ l :: q) = Ok (l :: q).
Proof.
  intros C (E & w & I & N). induction C as [|l0 w0 q0 t ls ts S St Sp C IH]; cbn [app skipComments].
  - rewrite I. cbn [bind]. rewrite N. reflexivity.
  - rewrite (says_item l0 _ 0 w0 S eq_refl). cbn [bind]. rewrite (starts_comment w0 St), (proj1 (proj2 S)). exact IH.
Qed.
