(** claw.mod and claw.work texts are read as they show; a module without an access list is written so that it can be
    read. *)
From Coq Require Import ZArith List Bool Lia String.
Import ListNotations.
From Verif.Model Require Import Base Utf8 Field Any ClawText Idl ClawMod.
From Verif.Spec Require Import Text JsonGrammar ClawText Idl IdlText ClawMod.
From Verif.Spec Require Import ClawHand.
From Verif.Proofs Require Import BaseLemmas IngestProofs ClawLine ClawHandWords IdlBase IdlTotal IdlText ClawMod.
Local Open Scope Z_scope.

Lemma skip_mod_comments cs ls : Forall mod_comment cs -> modSkip (cs ++ ls) = modSkip ls.
Proof.
  induction 1 as [|l cs (q & S) F IH]; [reflexivity|]. cbn [app modSkip]. rewrite (says_item l _ 0 (lit "//") S eq_refl). cbn [bind].
  change (hasPrefix (lit "//") (lit "//")) with true. cbv iota. destruct S as (_ & -> & _). exact IH.
Qed.
Lemma skip_stop l ls w : item l 0 = Ok w -> hasPrefix w (lit "//") = false -> modSkip (l :: ls) = Ok (l :: ls).
Proof. intros E H. cbn [modSkip]. rewrite E. cbn [bind]. rewrite H. reflexivity. Qed.
Lemma rline_read l f t : line_says l [f; lit "=>"; t] -> parseReplaceLine l = Ok (mkRep f t).
Proof.
  intros S. unfold parseReplaceLine. rewrite (line_long l _ 4 S) by (cbn; lia). cbn [ok_if bind].
  rewrite (line_item l _ 1 (lit "=>") S eq_refl). cbn [bind]. rewrite beq_refl. cbn [ok_if bind].
  rewrite (line_item l _ 0 f S eq_refl), (line_item l _ 2 t S eq_refl). cbn [bind]. rewrite (line_end l _ 3 S eq_refl). reflexivity.
Qed.
Lemma rloop_read c q ls rs : Forall2 (fun l r => line_says l [r.(rp_from); lit "=>"; r.(rp_to)] /\ r.(rp_from) <> lit ")") ls rs -> line_says c [lit ")"] ->
  forall have, have ++ rs <> [] -> replaceLoop (ls ++ c :: q) have = Ok (have ++ rs, q).
Proof.
  intros F C. induction F as [|l r ls rs (S & N) F IH]; intros have NE; cbn [app replaceLoop].
  - rewrite (line_eof c _ C), (line_long c _ 2 C) by (cbn; lia). cbn [ok_if bind]. rewrite (line_item c _ 0 _ C eq_refl). cbn [bind]. rewrite beq_refl.
    rewrite app_nil_r in *. replace (negb (len have =? 0)) with true; [|destruct have; [congruence|reflexivity]]. cbn [ok_if bind].
    rewrite (line_end c _ 1 C eq_refl). reflexivity.
  - rewrite (line_eof l _ S), (line_long l _ 2 S) by (cbn; lia). cbn [ok_if bind]. rewrite (line_item l _ 0 _ S eq_refl). cbn [bind]. rewrite (beq_neq _ _ N).
    rewrite (rline_read l _ _ S). cbn [bind]. destruct r as [f t]. cbn in *. rewrite IH by (destruct have; discriminate). rewrite <- app_assoc. reflexivity.
Qed.
Lemma replace_read b rs q : replace_text b rs -> parseReplace [] (b ++ q) = Ok (rs, q) /\ exists l b', b = l :: b' /\ item l 0 = Ok (lit "replace").
Proof.
  intros T. destruct T as [o ls rs c O F NE C]. split; [|exists o, (ls ++ [c]); split; [reflexivity|exact (line_item o _ 0 _ O eq_refl)]].
  unfold parseReplace. cbn [app next]. rewrite (line_long o _ 3 O) by (cbn; lia). cbn [ok_if bind].
  rewrite (line_item o _ 0 _ O eq_refl). cbn [bind]. rewrite beq_refl. cbn [ok_if bind]. rewrite (line_end o _ 2 O eq_refl). cbn [bind].
  rewrite <- app_assoc. cbn [app]. rewrite (rloop_read c q ls rs F C [] NE). reflexivity.
Qed.
Lemma public_read l q : line_says l [lit "acls"; lit "="; lit "public"] -> parseACLs [] (l :: q) = Ok ([lit "*"], q).
Proof.
  intros S. unfold parseACLs. cbn [next]. rewrite (line_long l _ 3 S) by (cbn; lia). cbn [ok_if bind].
  rewrite (line_item l _ 0 _ S eq_refl). cbn [bind]. rewrite beq_refl. cbn [ok_if bind]. rewrite (line_item l _ 1 _ S eq_refl). cbn [bind]. rewrite beq_refl.
  rewrite (line_item l _ 2 _ S eq_refl). cbn [bind]. rewrite beq_refl. rewrite (line_end l _ 3 S eq_refl). reflexivity.
Qed.

Section Tables.
Variables isUpper isLower isLetter isNumber isSpace : Z -> bool.
Variable toLower : bytes -> bytes.
Variable toInt : bytes -> option Z.
Hypothesis T : ascii_tables isUpper isLower isLetter isNumber isSpace toLower toInt.
Notation parse := (parseModule isUpper isLetter isNumber toLower).

Lemma lower_of s : forallb (fun c => (97 <=? c) && (c <=? 122)) (lit s) = true -> toLower (lit s) = lit s.
Proof.
  intros H. rewrite forallb_forall in H. rewrite (at_tolower _ _ _ _ _ _ _ T).
  - rewrite <- (map_id (lit s)) at 2. apply map_ext_in. intros c I. specialize (H c I). unfold lower_ascii. destruct ((65 <=? c) && (c <=? 90)) eqn:E; [lia|reflexivity].
  - apply Forall_forall. intros c I. specialize (H c I). right. unfold lower_letter. lia.
Qed.
Lemma lower_nil : toLower [] = [].
Proof. exact (at_tolower _ _ _ _ _ _ _ T [] (Forall_nil _)). Qed.

Lemma body_read rs acls ls rs' acls' : mod_body rs acls ls rs' acls' -> forall fuel p, (length ls < fuel)%nat ->
  modNext toLower fuel (mkMod p [] rs acls) (ls ++ [eofLine]) = Ok (mkMod p [] rs' acls').
Proof.
  induction 1 as [cs rs acls C|cs b rs ls acls rs' acls' C B M IH|cs l ls rs rs' acls' C S M IH]; intros fuel p L; (destruct fuel as [|fuel]; [lia|]); cbn [modNext].
  - rewrite (skip_mod_comments cs _ C). cbn [modSkip]. change (item eofLine 0) with (Ok (@nil Z)). cbn [bind hasPrefix l_eof eofLine next].
    change (item eofLine 0) with (Ok (@nil Z)). cbn [bind]. rewrite lower_nil. reflexivity.
  - rewrite <- !app_assoc, (skip_mod_comments cs _ C). destruct (replace_read b rs (ls ++ [eofLine]) B) as (R & l & b' & -> & I).
    cbn [app]. rewrite (skip_stop l _ _ I) by reflexivity. cbn [bind next]. rewrite I. cbn [bind]. rewrite lower_of by reflexivity.
    change (bytes_eqb (lit "replace") (lit "require")) with false. change (bytes_eqb (lit "replace") (lit "replace")) with true. cbv iota.
    cbn [m_replace m_path m_required m_acls]. change (0 <? len (@nil replace)) with false. cbv iota. cbn [app] in R. rewrite R. cbn [bind].
    apply IH. rewrite !app_length in L. cbn in L. lia.
  - rewrite <- app_assoc, (skip_mod_comments cs _ C). cbn [app]. pose proof (line_item l _ 0 _ S eq_refl) as I.
    rewrite (skip_stop l _ _ I) by reflexivity. cbn [bind next]. rewrite I. cbn [bind]. rewrite lower_of by reflexivity.
    change (bytes_eqb (lit "acls") (lit "require")) with false. change (bytes_eqb (lit "acls") (lit "replace")) with false. change (bytes_eqb (lit "acls") (lit "acls")) with true. cbv iota.
    cbn [m_replace m_path m_required m_acls]. change (negb (len (@nil bytes) =? 0)) with false. cbv iota.
    rewrite (public_read l (ls ++ [eofLine]) S). cbn [bind]. apply IH. rewrite !app_length in L. cbn in L. lia.
Qed.
Lemma path_valid p : module_path p -> ValidModuleName isUpper isLetter isNumber p = Ok tt.
Proof.
  intros ((d & b & -> & P & D) & N). unfold ValidModuleName. rewrite (base_of d b P D).
  rewrite (pname_valid _ _ _ _ _ _ _ T b P). cbn [bind].
  replace (containsSub (lit "//") (d ++ b)) with false; [|symmetry; apply not_true_iff_false; intros E; apply N; apply contains_iff; exact E]. cbn [negb ok_if bind].
  rewrite (chars_ascii b (pname_chars b P)). replace (forallb _ b) with true; [reflexivity|]. symmetry. apply forallb_forall. intros x I.
  destruct (proj1 (Forall_forall _ _) (pname_chars b P) x I) as [L| ->].
  - pose proof (letter_ok _ _ _ _ _ _ _ T x L) as E. rewrite E. reflexivity.
  - rewrite orb_true_r. reflexivity.
Qed.
Lemma head_read l p q m : line_says l [lit "module"; p] -> modNext toLower (S (S (length (l :: q)))) (mkMod p [] [] []) q = Ok m ->
  m.(m_path) = p -> ValidModuleName isUpper isLetter isNumber p = Ok tt -> parse (l :: q) = Ok m.
Proof.
  intros S N E V. unfold parseModule. cbn [next]. rewrite (line_long l _ 3 S) by (cbn; lia). cbn [ok_if bind].
  rewrite (line_item l _ 0 _ S eq_refl). cbn [bind]. rewrite beq_refl. cbn [ok_if bind]. rewrite (line_item l _ 1 _ S eq_refl). cbn [bind].
  rewrite (line_end l _ 2 S eq_refl). cbn [bind]. rewrite N. cbn [bind]. rewrite E, V. reflexivity.
Qed.
Lemma module_read ls m : module_text ls m -> parse (ls ++ [eofLine]) = Ok m.
Proof.
  intros M. destruct M as [l ls p rs acls S P B]. cbn [app]. apply (head_read l p); auto using path_valid.
  apply body_read; [exact B|]. cbn [length]. rewrite app_length. cbn. lia.
Qed.

(** ** Writing and reading *)
Variable dec : Z -> bytes.
Hypothesis S32 : isSpace 32 = true.
Hypothesis S9 : isSpace 9 = true.
Definition saved_lines (m : module) : list (list Z) :=
  [lit "module " ++ m.(m_path); []] ++
  (match m.(m_replace) with [] => [] | rs => [lit "replace ("] ++ map (fun r => lit "    " ++ r.(rp_from) ++ lit " => " ++ r.(rp_to)) rs ++ [lit ")"; []] end).
Definition plain_words (m : module) : Prop := word m.(m_path) /\ Forall (fun r => word r.(rp_from) /\ word r.(rp_to)) m.(m_replace).
Lemma text_app a b : text_of_lines (a ++ b) = text_of_lines a ++ text_of_lines b.
Proof. unfold text_of_lines. apply flat_map_app. Qed.
Lemma spaced_utf8 rs ws : spaced rs ws -> utf8 rs = rs.
Proof.
  assert (B : forall b, Forall blank_char b -> utf8 b = b) by (intros b H; apply utf8_ascii, blanks_ascii, H).
  assert (W : forall w, word w -> utf8 w = w) by (intros w [_ H]; apply utf8_ascii, printable_ascii, H).
  induction 1 as [b H|b w H HW|b w c q ws H HW C S IH].
  - auto.
  - rewrite utf8_app, B, W by assumption. reflexivity.
  - change (c :: q) with ([c] ++ q). rewrite !utf8_app, (B b), W, IH, (B [c]) by auto. reflexivity.
Qed.
Lemma spaced_says rs ws : spaced rs ws -> ws <> [] -> lines_of isSpace [rs] = [mkL (ws ++ [[10]]) false (utf8 rs ++ [10])] /\ line_chars rs.
Proof.
  intros S N. split; [|eapply spaced_chars; eauto]. unfold lines_of, worded. cbn [filter]. 
  pose proof (spaced_words isSpace S32 S9 (at_print _ _ _ _ _ _ _ T) rs ws S) as W. rewrite W. destruct ws as [|w ws]; [congruence|]. cbn [map]. rewrite W.
  rewrite words_utf8 by (eapply spaced_word; eauto). reflexivity.
Qed.
Lemma lines_app a b : lines_of isSpace (a ++ b) = lines_of isSpace a ++ lines_of isSpace b.
Proof. unfold lines_of. rewrite filter_app, map_app. reflexivity. Qed.
Lemma words_say (ws : list bytes) raw : Forall word ws -> line_says (mkL (ws ++ [[10]]) false raw) ws.
Proof.
  intros F. exists []. split; [|left; reflexivity]. rewrite app_nil_r. split; [reflexivity|]. split; [reflexivity|].
  eapply Forall_impl; [|exact F]. intros w [N P]. split; [exact N|]. intros ->. inversion P. lia.
Qed.
Lemma lit_word s : lit s <> [] -> forallb (fun c => (33 <=? c) && (c <=? 126)) (lit s) = true -> word (lit s).
Proof. intros N H. split; [exact N|]. rewrite forallb_forall in H. apply Forall_forall. intros c I. specialize (H c I). lia. Qed.
Ltac lw := apply lit_word; [discriminate|reflexivity].
Lemma path_line p : word p -> spaced (lit "module " ++ p) [lit "module"; p].
Proof.
  intros W. change (lit "module " ++ p) with ([] ++ lit "module" ++ 32 :: [] ++ p). apply sp_cons; [constructor|lw|left; reflexivity|].
  apply (sp_one [] p); [constructor|exact W].
Qed.
Lemma entry_spaced f t : word f -> word t -> spaced (lit "    " ++ f ++ lit " => " ++ t) [f; lit "=>"; t].
Proof.
  intros F W. change (lit "    " ++ f ++ lit " => " ++ t) with (lit "    " ++ f ++ 32 :: [] ++ lit "=>" ++ 32 :: [] ++ t).
  apply sp_cons; [repeat constructor|exact F|left; reflexivity|]. apply sp_cons; [constructor|lw|left; reflexivity|]. apply (sp_one [] t); [constructor|exact W].
Qed.
Lemma open_spaced : spaced (lit "replace (") [lit "replace"; lit "("].
Proof.
  change (lit "replace (") with ([] ++ lit "replace" ++ 32 :: [] ++ lit "("). apply sp_cons; [constructor|lw|left; reflexivity|].
  apply (sp_one [] (lit "(")); [constructor|lw].
Qed.
Lemma close_spaced : spaced (lit ")") [lit ")"].
Proof. apply (sp_one [] (lit ")")); [constructor|lw]. Qed.
Lemma text_one rs ws : spaced rs ws -> text_of_lines [rs] = rs ++ [10].
Proof. intros S. unfold text_of_lines. cbn [flat_map]. rewrite (spaced_utf8 rs ws S), app_nil_r. reflexivity. Qed.
Lemma text_cons rs rss : text_of_lines (rs :: rss) = text_of_lines [rs] ++ text_of_lines rss.
Proof. exact (text_app [rs] rss). Qed.
Lemma saved_text m : plain_words m -> m.(m_required) = [] -> m.(m_acls) = [] -> serializeModule dec m = text_of_lines (saved_lines m).
Proof.
  intros [P F] R A. unfold serializeModule, saved_lines. rewrite R, A. rewrite app_nil_r. cbn [app].
  rewrite text_cons, (text_one _ _ (path_line _ P)), (text_cons []), <- app_assoc. rewrite <- (app_assoc (lit "module ") (m_path m)). do 4 f_equal.
  change (text_of_lines [[]]) with [10]. unfold lf. cbn [app]. f_equal. destruct (m_replace m) as [|r rs]; [reflexivity|].
  assert (G : forall l, Forall (fun r => word r.(rp_from) /\ word r.(rp_to)) l ->
    flat_map replaceText l = text_of_lines (map (fun r => lit "    " ++ r.(rp_from) ++ lit " => " ++ r.(rp_to)) l)).
  { induction 1 as [|x q (Hf & Ht) H IH]; [reflexivity|]. cbn [map flat_map]. rewrite text_cons, (text_one _ _ (entry_spaced _ _ Hf Ht)), IH.
    unfold replaceText, lf. rewrite <- !app_assoc. reflexivity. }
  rewrite text_cons, (text_one _ _ open_spaced), <- app_assoc, text_app, (G _ F). reflexivity.
Qed.
Lemma saved_chars m : plain_words m -> Forall line_chars (saved_lines m).
Proof.
  intros [P F]. unfold saved_lines. apply Forall_app. split.
  - constructor; [eapply spaced_chars, path_line, P|]. constructor; [|constructor]. eapply spaced_chars, (sp_nil []). constructor.
  - destruct (m_replace m) as [|r rs]; [constructor|]. cbn [app]. constructor; [exact (spaced_chars _ _ open_spaced)|]. apply Forall_app. split.
    + apply Forall_map. eapply Forall_impl; [|exact F]. intros x (Hf & Ht). exact (spaced_chars _ _ (entry_spaced _ _ Hf Ht)).
    + constructor; [exact (spaced_chars _ _ close_spaced)|]. constructor; [|constructor]. eapply spaced_chars, (sp_nil []). constructor.
Qed.
Lemma lines_cons rs rss : lines_of isSpace (rs :: rss) = lines_of isSpace [rs] ++ lines_of isSpace rss.
Proof. exact (lines_app [rs] rss). Qed.
Lemma lines_one rs ws : spaced rs ws -> ws <> [] -> lines_of isSpace [rs] = [mkL (ws ++ [[10]]) false (utf8 rs ++ [10])].
Proof. intros S N. exact (proj1 (spaced_says rs ws S N)). Qed.
Lemma saved_read m : plain_words m -> m.(m_required) = [] -> m.(m_acls) = [] -> Forall (fun r => r.(rp_from) <> lit ")") m.(m_replace) ->
  ValidModuleName isUpper isLetter isNumber m.(m_path) = Ok tt -> parse (lines_of isSpace (saved_lines m) ++ [eofLine]) = Ok m.
Proof.
  intros [P F] R A N V. unfold saved_lines. rewrite lines_app. cbn [app].
  rewrite lines_cons, (lines_one _ _ (path_line _ P)) by discriminate. rewrite <- app_assoc. cbn [app].
  change (lines_of isSpace [[]]) with (@nil iline). cbn [app].
  apply (head_read _ m.(m_path)); [apply (words_say [lit "module"; m.(m_path)]); constructor; [lw|constructor; [exact P|constructor]]| |reflexivity|exact V].
  destruct m as [p rq rs acls]. cbn [m_path m_required m_replace m_acls] in R, A, F, N, V, P |- *. subst.
  destruct rs as [|r rs]; [apply (body_read [] [] [] [] []); [apply mb_end; constructor|cbn; lia]|].
  apply body_read; [|cbn [length]; rewrite app_length; cbn [length]; lia].
  cbn [app]. rewrite lines_cons, (lines_one _ _ open_spaced) by discriminate. rewrite lines_app, (lines_cons (lit ")")), (lines_one _ _ close_spaced) by discriminate.
  change (lines_of isSpace [[]]) with (@nil iline). cbn [app].
  match goal with |- mod_body _ _ ?x _ _ => replace x with ([] ++ x ++ []) by (cbn [app]; rewrite app_nil_r; reflexivity) end.
  apply (mb_replace [] _ (r :: rs)); [constructor| |apply mb_end; constructor].
  apply rt; [apply (words_say [lit "replace"; lit "("]); repeat (constructor; [lw|]); constructor| |discriminate|apply (words_say [lit ")"]); repeat (constructor; [lw|]); constructor].
  revert F N. generalize (r :: rs). intros l F. induction F as [|x q (Hf & Ht) F IH]; intros N; [constructor|]. inversion N as [|? ? N1 N2]; subst. cbn [map].
  rewrite lines_cons, (lines_one _ _ (entry_spaced _ _ Hf Ht)) by discriminate. cbn [app]. constructor; [|exact (IH N2)].
  split; [|exact N1]. apply (words_say [x.(rp_from); lit "=>"; x.(rp_to)]). constructor; [exact Hf|constructor; [lw|constructor; [exact Ht|constructor]]].
Qed.
End Tables.

(** ** claw.work *)
Lemma skip_work_comments cs ls : Forall work_comment cs -> workSkip (cs ++ ls) = workSkip ls.
Proof.
  induction 1 as [|l cs (w & q & S & C) F IH]; [reflexivity|]. cbn [app workSkip]. destruct S as (-> & -> & _). cbn [app].
  rewrite (starts_comment w C). exact IH.
Qed.
Lemma work_stop l ls w q : line_says l (w :: q) -> isComment w = false -> workSkip (l :: ls) = l :: ls.
Proof. intros (tl & (E & _) & _) H. cbn [workSkip]. rewrite E. cbn [app]. rewrite H. reflexivity. Qed.
Lemma work_end l ws k : line_says l ws -> k = length ws -> workEnd l k = Ok tt.
Proof.
  intros S ->. unfold workEnd. destruct (Nat.leb_spec (length (l_items l)) (length ws)); [reflexivity|]. apply (line_end l ws _ S eq_refl).
Qed.
Section Work.
Variables isUpper isLower isLetter isNumber isSpace : Z -> bool.
Variable toLower : bytes -> bytes.
Variable toInt : bytes -> option Z.
Hypothesis T : ascii_tables isUpper isLower isLetter isNumber isSpace toLower toInt.
Lemma line_word l ws w : line_says l ws -> In w ws -> w <> [].
Proof. intros (tl & (_ & _ & F) & _) I. apply Forall_app in F. exact (proj1 (proj1 (Forall_forall _ _) (proj1 F) w I)). Qed.
Lemma work_read ls w : work_text ls w -> parseWork toLower (ls ++ [eofLine]) = Ok w.
Proof.
  intros W. destruct W as [cs l cs' l' cs'' repo dir C L C' L' C'' N D]. unfold parseWork. rewrite <- app_assoc, (skip_work_comments cs _ C). cbn [app].
  rewrite (work_stop l _ _ _ L) by reflexivity. cbn [next]. rewrite (line_long l _ 3 L) by (cbn; lia). cbn [ok_if bind].
  rewrite (line_item l _ 0 _ L eq_refl). cbn [bind]. rewrite beq_refl. cbn [ok_if bind]. rewrite (line_item l _ 1 _ L eq_refl). cbn [bind].
  rewrite (work_end l _ 2 L eq_refl). cbn [bind].
  rewrite <- app_assoc. cbn [workNext]. rewrite (skip_work_comments cs' _ C'). cbn [app]. rewrite (work_stop l' _ _ _ L') by reflexivity. cbn [next].
  rewrite (line_eof l' _ L'), (line_item l' _ 0 _ L' eq_refl). cbn [bind].
  rewrite (at_tolower _ _ _ _ _ _ _ T); [|apply Forall_forall; intros c I; vm_compute in I; unfold upper_letter, lower_letter; lia].
  change (bytes_eqb (map lower_ascii (lit "vendorDir")) (lit "vendordir")) with true. cbv iota. cbn [wk_vendor].
  change (negb (bytes_eqb [] [])) with false. cbv iota.
  unfold parseVendorDir. cbn [next]. rewrite (line_long l' _ 3 L') by (cbn; lia). cbn [ok_if bind].
  rewrite (line_item l' _ 0 _ L' eq_refl). cbn [bind]. rewrite beq_refl. cbn [ok_if bind]. rewrite (line_item l' _ 1 _ L' eq_refl). cbn [bind].
  rewrite (work_end l' _ 2 L' eq_refl). cbn [bind]. rewrite app_length. cbn [length]. rewrite Nat.add_succ_r. cbn [workNext].
  rewrite (skip_work_comments cs'' _ C''). cbn [workSkip eofLine l_items]. change (isComment []) with false. cbv iota. cbn [next]. change (l_eof eofLine) with true. cbv iota. cbn [bind].
  unfold workValidate. cbn [wk_repo wk_vendor].
  rewrite (beq_neq repo []); [|apply (line_word l _ _ L); cbn; auto]. rewrite (beq_neq dir []); [|apply (line_word l' _ _ L'); cbn; auto]. cbn [negb ok_if bind].
  replace (containsSub (lit "//") repo) with false; [|symmetry; apply not_true_iff_false; intros E; apply N; apply contains_iff; exact E]. cbn [negb ok_if bind].
  replace (hasPrefix (lit "/") dir) with false; [reflexivity|]. symmetry; apply not_true_iff_false. intros E. apply D. apply prefix_inv. exact E.
Qed.
Lemma wskip_rest ls : rest_of (workSkip ls) ls.
Proof.
  induction ls as [|l q IH]; cbn [workSkip]; [apply rest_refl|]. destruct (l_items l) as [|w ws]; [apply rest_refl|].
  destruct (isComment w); [|apply rest_refl]. destruct (l_eof l); [apply rest_cons, rest_refl|apply rest_cons, IH].
Qed.
Lemma wend_inv l u : workEnd l 2 = Ok u -> negb (len (l_items l) <? 3) = true -> commentOrEOL l 2 = Ok tt.
Proof.
  intros H L. apply count_lt in L. unfold workEnd in H. destruct (Nat.leb_spec (length (l_items l)) 2); [lia|]. destruct u. exact H.
Qed.
Lemma vdir_sound ls d q : parseVendorDir ls = Ok (d, q) -> exists l, ls = l :: q /\ shows l [lit "vendorDir"; d].
Proof.
  unfold parseVendorDir. destruct ls as [|l ls]; cbn [next]; intros H; [discriminate|]. repeat step H. inversion H; subst.
  apply bytes_eqb_eq in E1. subst. exists l. split; [reflexivity|]. apply shows2; auto. eapply wend_inv; eauto.
Qed.
Lemma wnext_sound fuel : forall w ls w', workNext toLower fuel w ls = Ok w' ->
  w'.(wk_repo) = w.(wk_repo) /\ (w'.(wk_vendor) = w.(wk_vendor) \/ exists l, In l ls /\ shows l [lit "vendorDir"; w'.(wk_vendor)]).
Proof.
  induction fuel as [|fuel IH]; intros w ls w' H; cbn [workNext] in H; [discriminate|].
  pose proof (wskip_rest ls) as R. destruct (next (workSkip ls)) as [l q] eqn:N. destruct (l_eof l); [inversion H; auto|].
  step H. destruct (bytes_eqb (toLower a) (lit "vendordir")); [|discriminate]. destruct (negb (bytes_eqb (wk_vendor w) [])) eqn:V; [discriminate|].
  step H. apply vdir_sound in E0. destruct E0 as (l' & E0 & S). rewrite E0 in R. destruct R as [pre ->].
  destruct (IH _ _ _ H) as (P & Q). cbn in P, Q. split; [exact P|]. right. destruct Q as [->|(l'' & I & Q)].
  - exists l'. split; [apply in_or_app; cbn; auto|exact S].
  - exists l''. split; [apply in_or_app; cbn; auto|exact Q].
Qed.
Lemma work_sound ls w : parseWork toLower ls = Ok w ->
  (exists p l q, ls = p ++ l :: q /\ shows l [lit "repo"; w.(wk_repo)] /\ exists l', In l' q /\ shows l' [lit "vendorDir"; w.(wk_vendor)]) /\
  w.(wk_repo) <> [] /\ w.(wk_vendor) <> [] /\ ~ (exists a b, w.(wk_repo) = a ++ lit "//" ++ b) /\ ~ starts (lit "/") w.(wk_vendor).
Proof.
  unfold parseWork. intros H. pose proof (wskip_rest ls) as [p R]. destruct (workSkip ls) as [|l q]; cbn [next] in H; [discriminate|].
  repeat step H. inversion H; subst. unfold workValidate in E5. repeat step E5. apply ok_if_inv' in E5.
  assert (V : wk_vendor w <> []) by (intros Q; match goal with X : negb (bytes_eqb (wk_vendor w) []) = true |- _ => rewrite Q in X; discriminate end).
  apply bytes_eqb_eq in E1. subst. destruct (wnext_sound _ _ _ _ E4) as (P & Q). cbn in P, Q.
  split.
  - exists p, l, q. split; [reflexivity|]. split; [rewrite P; apply shows2; auto; eapply wend_inv; eauto|]. destruct Q as [Q|Q]; [congruence|exact Q].
  - repeat split.
    + intros X. match goal with Y : negb (bytes_eqb (wk_repo w) []) = true |- _ => rewrite X in Y; discriminate end.
    + exact V.
    + intros X. apply contains_iff in X. match goal with Y : negb (containsSub _ (wk_repo w)) = true |- _ => rewrite X in Y; discriminate end.
    + intros X. apply prefix_iff in X. rewrite X in E5. discriminate.
Qed.
Lemma vdir_ends ls : ends (parseVendorDir ls).
Proof.
  unfold parseVendorDir. destruct (next ls) as [l q]. apply ends_bind; [apply ends_if|intros [] H]. apply ok_if_inv, count_lt in H.
  apply ends_bind; [apply item_ends; lia|intros ? _]. apply ends_bind; [apply ends_if|intros [] _]. apply ends_bind; [apply item_ends; lia|intros ? _].
  apply ends_bind; [|intros; apply ends_Ok]. unfold workEnd. destruct (Nat.leb_spec (length (l_items l)) 2); [apply ends_Ok|apply comment_ends; lia].
Qed.
Lemma wnext_ends fuel : forall w ls, Forall a_line ls -> (length ls < fuel)%nat -> ends (workNext toLower fuel w ls).
Proof.
  induction fuel as [|fuel IH]; intros w ls A L; [lia|]. cbn [workNext].
  pose proof (wskip_rest ls) as R. pose proof (rest_lines _ _ R A) as A'. apply rest_len in R.
  destruct (next_line _ A') as [A1 A2]. destruct (next (workSkip ls)) as [l q] eqn:N. cbn in A1, A2.
  destruct (l_eof l); [apply ends_Ok|]. apply ends_bind; [apply item_ends; pose proof (IdlTotal.line_len l A1); lia|]. intros w0 _.
  destruct (bytes_eqb (toLower w0) (lit "vendordir")); [|apply ends_Err]. destruct (negb (bytes_eqb (wk_vendor w) [])); [apply ends_Err|].
  apply ends_bind; [apply vdir_ends|]. intros [d r] E. apply vdir_sound in E. destruct E as (l' & E & _). rewrite E in *.
  apply IH; [inversion A'; assumption|cbn in R; lia].
Qed.
Lemma work_ends ls : Forall a_line ls -> ends (parseWork toLower ls).
Proof.
  intros A. unfold parseWork. pose proof (wskip_rest ls) as R. pose proof (rest_lines _ _ R A) as A'. apply rest_len in R.
  destruct (next_line _ A') as [A1 A2]. destruct (next (workSkip ls)) as [l q] eqn:N. cbn in A1, A2.
  apply ends_bind; [apply ends_if|intros [] H]. apply ok_if_inv, count_lt in H.
  apply ends_bind; [apply item_ends; lia|intros ? _]. apply ends_bind; [apply ends_if|intros [] _]. apply ends_bind; [apply item_ends; lia|intros ? _].
  apply ends_bind; [unfold workEnd; destruct (Nat.leb_spec (length (l_items l)) 2); [apply ends_Ok|apply comment_ends; lia]|intros ? _].
  apply ends_bind; [apply wnext_ends; [exact A2|]|].
  - destruct (workSkip ls); cbn in N; inversion N; subst; cbn in *; lia.
  - intros w _. apply ends_bind; [|intros; apply ends_Ok]. unfold workValidate. repeat (apply ends_bind; [apply ends_if|intros [] _]). apply ends_if.
Qed.
End Work.
