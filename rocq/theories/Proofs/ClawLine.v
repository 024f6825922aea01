(** One line of the text of a struct: what the writer makes of a value and what the parser makes of the
    line. *)
From Coq Require Import ZArith List Bool Lia ZifyBool.
Import ListNotations.
From Verif.Model Require Import Base Utf8 Field MapApi Token Walk Escape Json TokenStream Ingest JsonRead ClawText.
From Verif.Spec Require Import Text Message TokenGrammar Values JsonGrammar JsonRead ClawText.
From Verif.Proofs Require Import BaseLemmas Utf8Proofs JsonLits IngestProofs Rendering JsonReadProofs JsonRound ClawTotal.
From Verif.Properties Require Import Escape.
From Verif.Spec Require Import Message JsonGrammar JsonRead ClawText.
From Verif.Model Require Import Ingest ClawText.
Open Scope Z_scope.

(** ** Words *)
Definition blanks (b : bytes) : Prop := Forall (fun c => c = 32 \/ c = 9) b.
Definition printable (b : bytes) : Prop := Forall (fun c => 33 <= c <= 126) b.
Section Words.
Variable space : Z -> bool.
Hypothesis S32 : space 32 = true.
Hypothesis S9 : space 9 = true.
Hypothesis SP : forall c, 33 <= c <= 126 -> space c = false.
Notation WF := (words_from space).
Lemma words_blanks pre x : blanks pre -> words space (pre ++ x) = words space x.
Proof. unfold words. induction 1 as [|c pre [->| ->] _ IH]; cbn [app words_from]; [reflexivity| |]; rewrite ?S32, ?S9; exact IH. Qed.
Lemma words_word w : printable w -> forall acc x, WF acc (w ++ x) = WF (rev w ++ acc) x.
Proof.
  induction 1 as [|c w P _ IH]; intros acc x; [reflexivity|]. cbn [app words_from]. rewrite (SP c P), IH. cbn [rev]. rewrite <- app_assoc. reflexivity.
Qed.
Lemma words_first w x : w <> [] -> printable w -> words space (w ++ 32 :: x) = w :: words space x.
Proof.
  intros N P. unfold words. rewrite (words_word w P). rewrite app_nil_r. cbn [words_from]. rewrite S32.
  rewrite rev_involutive. destruct (rev w) eqn:R; [|reflexivity]. apply (f_equal (@rev Z)) in R. rewrite rev_involutive in R. cbn in R. congruence.
Qed.
Lemma words_last w : w <> [] -> printable w -> words space w = [w].
Proof.
  intros N P. unfold words. rewrite <- (app_nil_r w) at 1. rewrite (words_word w P). rewrite app_nil_r. cbn [words_from].
  rewrite rev_involutive. destruct (rev w) eqn:R; [|reflexivity]. apply (f_equal (@rev Z)) in R. rewrite rev_involutive in R. cbn in R. congruence.
Qed.
Lemma words_some : forall x acc, acc <> [] -> exists p r ws, WF acc x = (rev acc ++ p) :: ws /\ x = p ++ r.
Proof.
  induction x as [|c x IH]; intros acc N; cbn [words_from].
  - exists [], [], []. rewrite app_nil_r. destruct acc; [congruence|]. auto.
  - destruct (space c).
    + exists [], (c :: x), (WF [] x). rewrite app_nil_r. destruct acc; [congruence|]. auto.
    + destruct (IH (c :: acc) ltac:(discriminate)) as (p & r & ws & E & Q). exists (c :: p), r, ws. rewrite E. cbn [rev]. rewrite <- app_assoc. cbn [app]. rewrite Q. auto.
Qed.
Lemma words_start c x : 33 <= c <= 126 -> exists p r ws, words space (c :: x) = (c :: p) :: ws /\ c :: x = (c :: p) ++ r.
Proof.
  intros P. unfold words. cbn [words_from]. rewrite (SP c P). destruct (words_some x [c] ltac:(discriminate)) as (p & r & ws & E & Q).
  exists p, r, ws. rewrite E, Q. auto.
Qed.
End Words.
Lemma printable_ascii b : printable b -> Forall (fun c => 0 <= c < 0x80) b.
Proof. intros P. eapply Forall_impl; [|exact P]. cbn. intros. lia. Qed.
Lemma blanks_ascii b : blanks b -> Forall (fun c => 0 <= c < 0x80) b.
Proof. intros P. eapply Forall_impl; [|exact P]. cbn. intros. lia. Qed.
Lemma utf8_ascii b : Forall (fun c => 0 <= c < 0x80) b -> utf8 b = b.
Proof. intros P. apply (runes_ascii b P). Qed.
Lemma utf8_app a b : utf8 (a ++ b) = utf8 a ++ utf8 b.
Proof. unfold utf8. apply flat_map_app. Qed.
Lemma ident_printable b : ident b -> printable b.
Proof.
  destruct b as [|c q]; cbn; [tauto|]. intros [L F]. unfold letter in *. constructor; [lia|]. eapply Forall_impl; [|exact F]. cbn. intros. lia.
Qed.
Lemma ident_nonempty b : ident b -> b <> [].
Proof. destruct b; cbn; [tauto|discriminate]. Qed.
Lemma printable_line b : printable b -> line_chars b.
Proof.
  intros P. split; [eapply Forall_impl; [|exact P]; cbn; intros; unfold scalar; lia|].
  unfold printable, blanks in P. rewrite Forall_forall in P. split; intros I; apply P in I; lia.
Qed.
Lemma blanks_line b : blanks b -> line_chars b.
Proof.
  intros P. split; [eapply Forall_impl; [|exact P]; cbn; intros; unfold scalar; lia|].
  unfold printable, blanks in P. rewrite Forall_forall in P. split; intros I; apply P in I; lia.
Qed.
Lemma line_app a b : line_chars a -> line_chars b -> line_chars (a ++ b).
Proof. intros (A & B & C) (D & F & G). split; [apply Forall_app; auto|]. rewrite !in_app_iff. tauto. Qed.

(** ** Suffixes and prefixes *)
Lemma hasLast_snoc c w d : hasLast c (w ++ [d]) = (c =? d).
Proof. unfold hasLast. rewrite rev_unit. reflexivity. Qed.
Lemma trimLast_snoc c w : trimLast c (w ++ [c]) = w.
Proof. unfold trimLast. rewrite hasLast_snoc, Z.eqb_refl. apply removelast_last. Qed.
Lemma trimLast_none c w : ~ In c w -> trimLast c w = w.
Proof.
  intros N. unfold trimLast, hasLast. destruct (rev w) as [|d r] eqn:R; [reflexivity|].
  destruct (Z.eqb_spec c d) as [->|]; [|reflexivity]. exfalso. apply N. apply in_rev. rewrite R. left. reflexivity.
Qed.
Lemma last_differs c w x : hasLast c x = false -> bytes_eqb (w ++ [c]) x = false.
Proof.
  intros H. destruct (bytes_eqb (w ++ [c]) x) eqn:Q; [|reflexivity]. apply bytes_eqb_eq in Q. subst x. rewrite hasLast_snoc, Z.eqb_refl in H. discriminate.
Qed.

(** ** Numbers *)
Lemma digits_value l : Forall digit l -> forall v, digits l v = Some (fold_left (fun v d => 10 * v + (d - 48)) l v).
Proof.
  induction 1 as [|d l D _ IH]; intros v; [reflexivity|]. cbn [digits fold_left]. unfold isDigit, digit in *.
  replace ((48 <=? d) && (d <=? 57)) with true by lia. rewrite IH. do 2 f_equal. lia.
Qed.
Lemma int_lit_digits b v : int_lit b v -> exists ds, ds <> [] /\ Forall digit ds /\ ((b = ds /\ v = numval ds) \/ (b = 45 :: ds /\ v = - numval ds)).
Proof. intros [l [N D]|l [N D]]; exists l; auto. Qed.
Lemma parseInt_lit b v : int_lit b v -> - 2 ^ 63 <= v < 2 ^ 63 -> parseInt b = Some v.
Proof.
  intros L R. destruct (int_lit_digits b v L) as (ds & N & D & [[-> V]|[-> V]]).
  - unfold parseInt. destruct ds as [|d ds]; [congruence|]. inversion D as [|? ? D1 D2]; subst.
    assert (X : forall (f g : bytes -> bool * bytes) s, d <> 45 -> d <> 43 -> (match d with 45 => f s | 43 => g s | _ => (false, d :: s) end) = (false, d :: s)).
    { intros f g s N1 N2. destruct d as [|p|p]; try reflexivity. do 6 (destruct p as [p|p|]; try reflexivity; try congruence). }
    unfold digit in D1. rewrite (X (fun q => (true, q)) (fun q => (false, q))) by lia.
    rewrite digits_value by exact D. unfold numval in R. cbn zeta. 
    replace ((- 2 ^ 63 <=? _) && _) with true by lia. reflexivity.
  - unfold parseInt. cbv iota zeta beta. destruct ds as [|d ds]; [congruence|]. rewrite digits_value by exact D. fold (numval (d :: ds)). cbv iota zeta beta.
    rewrite <- V. replace ((- 2 ^ 63 <=? v) && _) with true by lia. reflexivity.
Qed.
Lemma int_lit_chars b v : int_lit b v -> Forall (fun c => digit c \/ c = 45) b /\ b <> [].
Proof.
  intros L. destruct (int_lit_digits b v L) as (ds & N & D & [[-> V]|[-> V]]).
  - split; [|exact N]. eapply Forall_impl; [|exact D]. cbn. auto.
  - split; [|discriminate]. constructor; [auto|]. eapply Forall_impl; [|exact D]. cbn. auto.
Qed.
Lemma chars_printable b : Forall (fun c => digit c \/ c = 45) b -> printable b.
Proof. intros F. eapply Forall_impl; [|exact F]. cbn. unfold digit. intros. lia. Qed.
Lemma isNumber_lit b v : int_lit b v -> isNumber (b ++ [44]) = true.
Proof.
  intros L. unfold isNumber. rewrite trimLast_snoc. destruct (int_lit_digits b v L) as (ds & N & D & [[-> V]|[-> V]]).
  - destruct ds as [|d ds]; [congruence|]. inversion D as [|? ? D1 D2]; subst. unfold digit in D1. replace ((d =? 45) || (d =? 43)) with false by lia. unfold isDigit. lia.
  - cbn. destruct ds as [|d ds]; [congruence|]. inversion D as [|? ? D1 D2]; subst. unfold digit in D1. unfold isDigit. lia.
Qed.
Lemma isFloat_lit b : Forall (fun c => digit c \/ c = 45) b -> isFloat b = false.
Proof.
  intros F. unfold isFloat. destruct (existsb _ b) eqn:X; [|reflexivity]. apply existsb_exists in X as (c & I & C).
  rewrite Forall_forall in F. apply F in I. unfold digit in I. lia.
Qed.
Lemma hexDecode_appendHex b : Forall (fun c => 0 <= c <= 255) b -> hexDecode (appendHex b) = Some b.
Proof.
  induction 1 as [|c b R _ IH]; [reflexivity|]. cbn [appendHex flat_map app hexDecode]. rewrite !hexVal_digit by dlia.
  fold (appendHex b). rewrite IH. do 2 f_equal. dlia.
Qed.
Lemma appendHex_printable b : Forall (fun c => 0 <= c <= 255) b -> printable (appendHex b).
Proof.
  induction 1 as [|c b R _ IH]; [constructor|]. cbn [appendHex flat_map app].
  assert (H : forall i, 0 <= i < 16 -> 33 <= hexDigit i <= 126) by (intros i Hi; unfold hexDigit; destruct (i <? 10); lia).
  constructor; [apply H; dlia|]. constructor; [apply H; dlia|]. exact IH.
Qed.

(** ** Values *)
Section Values.
Variable pf : bytes -> option Z.
(** The word [vt], with its comma, is read as the token [t]. *)
Definition word_reads (vt : bytes) (t : bytes -> token) : Prop :=
  forall nested k name items raw ls, parseValue pf nested k name (vt ++ [44]) items raw ls = ([t name], Ok ls).
Lemma parse_word nested k name vt items raw ls :
  match vt with c :: _ => c <> 34 /\ c <> 96 | [] => True end ->
  hasPrefix [48; 120] (vt ++ [44]) = false -> hasPrefix [48; 88] (vt ++ [44]) = false ->
  parseValue pf nested k name (vt ++ [44]) items raw ls =
    if isNumber (vt ++ [44]) then pbind (emitNumber pf name vt) (fun _ => ([], Ok ls)) else ([setName vt (tok0 TField name 0)], Ok ls).
Proof.
  intros F X1 X2. unfold parseValue. cbn zeta. rewrite !(last_differs 44) by reflexivity. rewrite X1, X2. cbn [orb]. rewrite trimLast_snoc.
  replace (hasPrefix [34] (vt ++ [44])) with false; [replace (hasPrefix [96] (vt ++ [44])) with false; [reflexivity|]|];
    destruct vt as [|c vt]; try reflexivity; destruct F; cbn [app hasPrefix]; symmetry; apply andb_false_iff; left; lia.
Qed.
Lemma word_ident n : ident n -> word_reads n (fun name => setName n (tok0 TField name 0)).
Proof.
  intros I nested k name items raw ls. destruct n as [|c q]; [destruct I|]. destruct I as [L _]. unfold letter in L.
  rewrite parse_word; [|cbn; lia|cbn [app hasPrefix]; apply andb_false_iff; left; lia|cbn [app hasPrefix]; apply andb_false_iff; left; lia].
  replace (isNumber ((c :: q) ++ [44])) with false; [reflexivity|]. symmetry.
  unfold isNumber. rewrite trimLast_snoc. replace ((c =? 45) || (c =? 43)) with false by lia. unfold isDigit. lia.
Qed.
Lemma word_empty : word_reads [] (fun name => setName [] (tok0 TField name 0)).
Proof. intros nested k name items raw ls. reflexivity. Qed.
Lemma word_int b v : int_lit b v -> - 2 ^ 63 <= v < 2 ^ 63 -> word_reads b (fun name => setValue KI64 v (tok0 TField name 0)).
Proof.
  intros L R nested k name items raw ls. destruct (int_lit_chars b v L) as [C N].
  assert (H : forall d, d <> 45 -> ~ digit d -> d <> 44 -> hasPrefix [48; d] (b ++ [44]) = false).
  { intros d D1 D2 D3. destruct b as [|c [|c2 b]]; [congruence| |].
    - cbn [app hasPrefix]. apply andb_false_iff. right. apply andb_false_iff. left. lia.
    - cbn [app hasPrefix]. inversion C as [|? ? _ C2]; subst. inversion C2 as [|? ? C3 _]; subst. apply andb_false_iff. right. apply andb_false_iff. left. unfold digit in *. lia. }
  rewrite parse_word; [|destruct b; [exact I|]; inversion C; subst; unfold digit in *; lia|apply H; unfold digit; lia|apply H; unfold digit; lia].
  rewrite (isNumber_lit b v L). unfold emitNumber.
  rewrite trimLast_none; [|intros I; rewrite Forall_forall in C; apply C in I; unfold digit in I; lia].
  unfold setNumber. rewrite (isFloat_lit b C), (parseInt_lit b v L R). reflexivity.
Qed.
Lemma word_hex b : Forall (fun c => 0 <= c <= 255) b -> word_reads ([48; 120] ++ appendHex b) (fun name => set_bytes b (set_type FTBytes (tok0 TField name 0))).
Proof.
  intros F nested k name items raw ls. unfold parseValue. cbn zeta. rewrite !(last_differs 44) by reflexivity. cbn [app hasPrefix].
  change (34 =? 48) with false. change (96 =? 48) with false. change ((48 =? 48) && ((120 =? 120) && true) || (48 =? 48) && ((88 =? 120) && true)) with true. cbn [andb]. cbv iota.
  change ((48 =? 48) && ((120 =? 120) && true)) with true. cbv iota.
  change (drop 2 (48 :: 120 :: appendHex b ++ [44])) with (appendHex b ++ [44]).
  replace (match appendHex b ++ [44] with [] => false | d :: s => (48 =? d) && match s with [] => false | d0 :: _ => (88 =? d0) && true end end) with false.
  - rewrite trimLast_snoc, hexDecode_appendHex by exact F. reflexivity.
  - symmetry. destruct b as [|c b]; [reflexivity|]. cbn [appendHex flat_map app]. apply andb_false_iff. right. inversion F; subst. unfold hexDigit. destruct (c mod 16 <? 10) eqn:Q; apply andb_false_iff; left; dlia.
Qed.
End Values.

(** *** Text *)
(** The characters the writer makes of one character. *)
Definition er (r : Z) : list Z := if (0x20 <=? r) && negb (r =? 34) && negb (r =? 92) then [r] else escapeRune r.
Lemma er_utf8 r : scalar r -> utf8 (er r) = escapeRune r /\ line_chars (er r).
Proof.
  intros S. unfold er. destruct ((0x20 <=? r) && negb (r =? 34) && negb (r =? 92)) eqn:Q.
  - split.
    + destruct (escapeRune_form r S) as [e r I|r R|r S' G N1 N2]; [cbn in I; exfalso|lia|unfold utf8; cbn [flat_map]; apply app_nil_r].
      destruct I as [I|[I|[I|[I|[I|[]]]]]]; inversion I; subst; cbn in Q; discriminate.
    + split; [auto|]. cbn [In]. lia.
  - assert (P : printable (escapeRune r)).
    { destruct (escapeRune_form r S) as [e r I|r R|r S' G N1 N2]; [|..].
      - cbn in I. destruct I as [I|[I|[I|[I|[I|[]]]]]]; inversion I; subst; repeat constructor; lia.
      - assert (H : forall i, 0 <= i < 16 -> 33 <= hexDigit i <= 126) by (intros i Hi; unfold hexDigit; destruct (i <? 10); lia).
        repeat (constructor; [first [lia|apply H; dlia]|]). constructor.
      - exfalso. lia. }
    split; [apply utf8_ascii, printable_ascii, P|apply printable_line, P].
Qed.
Lemma text_chars rs : Forall scalar rs -> utf8 (flat_map er rs) = flat_map escapeRune rs /\ line_chars (flat_map er rs).
Proof.
  induction 1 as [|r rs S _ [IH1 IH2]]; [split; [reflexivity|split; [constructor|cbn; tauto]]|]. cbn [flat_map]. destruct (er_utf8 r S) as [A B].
  split; [rewrite utf8_app, A, IH1; reflexivity|apply line_app; assumption].
Qed.
Definition quoted (rs : list Z) : list Z := 34 :: flat_map er rs ++ [34].
Lemma quoted_utf8 rs : Forall scalar rs -> utf8 (quoted rs) = textEscape (utf8 rs) /\ line_chars (quoted rs).
Proof.
  intros S. destruct (text_chars rs S) as [A B]. unfold quoted, textEscape. rewrite runes_utf8 by exact S. split.
  - change (34 :: flat_map er rs ++ [34]) with ([34] ++ flat_map er rs ++ [34]). rewrite !utf8_app, A. reflexivity.
  - change (34 :: flat_map er rs ++ [34]) with ([34] ++ flat_map er rs ++ [34]). 
    repeat apply line_app; auto; apply printable_line; repeat constructor; lia.
Qed.

(** ** Lines *)
Section Lines.
Variable pf : bytes -> option Z.
Variable space : Z -> bool.
Hypothesis S32 : space 32 = true.
Hypothesis S9 : space 9 = true.
Hypothesis SP : forall c, 33 <= c <= 126 -> space c = false.
(** The line of a field whose value is the text [vt]. *)
Definition fline (pre name vt : list Z) : list Z := pre ++ (name ++ [58]) ++ 32 :: vt.
Lemma fline_words pre name vt : blanks pre -> ident name -> words space (fline pre name vt) = (name ++ [58]) :: words space vt.
Proof.
  intros B I. unfold fline. rewrite (words_blanks space S32 S9 pre _ B). apply (words_first space S32 SP).
  - destruct name; discriminate.
  - apply Forall_app. split; [apply ident_printable, I|]. repeat constructor; lia.
Qed.
Lemma name_utf8 name : ident name -> utf8 (name ++ [58]) = name ++ [58].
Proof. intros I. apply utf8_ascii, printable_ascii. apply Forall_app. split; [apply ident_printable, I|]. repeat constructor; lia. Qed.
Lemma fline_items pre name vt l w ws : blanks pre -> ident name -> line_of space (fline pre name vt) l -> words space vt = w :: ws ->
  exists more, l.(ln_items) = (name ++ [58]) :: utf8 w :: more /\ (l.(ln_raw) = utf8 (fline pre name vt) \/ l.(ln_raw) = utf8 (fline pre name vt) ++ [10]).
Proof.
  intros B I [IT RAW] W. rewrite (fline_words pre name vt B I), W in IT. cbn [map] in IT. rewrite (name_utf8 name I) in IT.
  destruct IT as [IT|IT]; [exists (map utf8 ws)|exists (map utf8 ws ++ [[10]])]; auto.
Qed.
Lemma parse_line nested k pre name vt l ls w ws : blanks pre -> ident name -> line_of space (fline pre name vt) l -> words space vt = w :: ws -> utf8 w <> [10] ->
  exists items, parseField pf nested k l ls = parseValue pf nested k name (utf8 w) items (ln_raw l) ls.
Proof.
  intros B I L W N. destruct (fline_items pre name vt l w ws B I L W) as (more & IT & _). exists more. unfold parseField. rewrite IT.
  rewrite hasLast_snoc. change (58 =? 58) with true. cbn iota. rewrite removelast_last.
  destruct (bytes_eqb (utf8 w) [10]) eqn:Q; [apply bytes_eqb_eq in Q; congruence|reflexivity].
Qed.
(** What is asked of the first line of a field. *)
Definition opens (l : line) : Prop :=
  blank_line l = false /\ hasPrefix [47; 47] (hd [] l.(ln_items)) = false /\ hasPrefix [47; 42] (hd [] l.(ln_items)) = false /\
  exists w, first_word l = Ok w /\ closes 125 w = false /\ bytes_eqb w [125] = false.
Lemma fline_opens pre name vt l w ws : blanks pre -> ident name -> line_of space (fline pre name vt) l -> words space vt = w :: ws -> opens l.
Proof.
  intros B I L W. destruct (fline_items pre name vt l w ws B I L W) as (more & IT & _). unfold opens, blank_line, first_word. rewrite IT.
  destruct name as [|c q]; [destruct I|]. destruct I as [LT _]. unfold letter in LT. cbn [app hd hasPrefix].
  split; [reflexivity|]. split; [apply andb_false_iff; left; lia|]. split; [apply andb_false_iff; left; lia|].
  eexists. split; [reflexivity|]. unfold closes. cbn [hasPrefix app].
  assert (Q : bytes_eqb (c :: q ++ [58]) [125] = false).
  { destruct (bytes_eqb _ _) eqn:Q; [|reflexivity]. apply bytes_eqb_eq in Q. inversion Q. lia. }
  split; [|exact Q]. rewrite Q. cbn [orb]. apply andb_false_iff. left. lia.
Qed.
(** A value [vt] reads as the token [t], wherever its line is. *)
Definition reads_as (vt : list Z) (t : bytes -> token) : Prop :=
  line_chars vt /\ (exists w ws, words space (vt ++ [44]) = w :: ws) /\
  forall nested k pre name l ls, blanks pre -> ident name -> line_of space (fline pre name (vt ++ [44])) l ->
    parseField pf nested k l ls = ([t name], Ok ls).
Lemma reads_word vt t : printable vt -> word_reads pf vt t -> reads_as vt t.
Proof.
  intros P W. assert (PC : printable (vt ++ [44])) by (apply Forall_app; split; [exact P|repeat constructor; lia]).
  assert (WD : words space (vt ++ [44]) = [vt ++ [44]]) by (apply (words_last space SP); [destruct vt; discriminate|exact PC]).
  split; [apply printable_line, P|]. split; [eauto|]. intros nested k pre name l ls B I L.
  assert (U : utf8 (vt ++ [44]) = vt ++ [44]) by apply utf8_ascii, printable_ascii, PC.
  destruct (parse_line nested k pre name (vt ++ [44]) l ls _ _ B I L WD) as (items & ->).
  - rewrite U. intros Q. apply (app_inj_tail vt [] 44 10) in Q. destruct Q; discriminate.
  - rewrite U. apply W.
Qed.
Lemma reads_text rs : Forall scalar rs -> ~ In 34 rs -> reads_as (quoted rs) (fun name => setText (utf8 rs) (tok0 TField name 0)).
Proof.
  intros S NQ. destruct (quoted_utf8 rs S) as [U LC]. split; [exact LC|].
  destruct (words_start space SP 34 (flat_map er rs ++ [34] ++ [44]) ltac:(lia)) as (p & r & ws & W & Q).
  assert (QC : quoted rs ++ [44] = 34 :: flat_map er rs ++ [34] ++ [44]) by (unfold quoted; cbn [app]; rewrite <- app_assoc; reflexivity).
  rewrite QC. split; [eauto|]. intros nested k pre name l ls B I L.
  destruct (parse_line nested k pre name _ l ls _ _ B I L W) as (items & ->).
  - change (34 :: p) with ([34] ++ p). rewrite utf8_app. discriminate.
  - assert (T : utf8 (34 :: p) = 34 :: utf8 p) by reflexivity.
    assert (C : forall q, parseQuotedString (utf8 (34 :: p)) q = Ok (utf8 rs) -> parseValue pf nested k name (utf8 (34 :: p)) items q ls = ([setText (utf8 rs) (tok0 TField name 0)], Ok ls)).
    { intros q H. unfold parseValue. rewrite H. rewrite T. reflexivity. }
    apply C. destruct (fline_items pre name _ l _ _ B I L W) as (more & _ & RAW).
    assert (X : exists tail, Forall (fun c => isSpace c = true) tail /\ ln_raw l = field_line (pre ++ name) (utf8 rs) tail).
    { assert (FL : utf8 (fline pre name (34 :: flat_map er rs ++ [34] ++ [44])) = (pre ++ name) ++ [58; 32] ++ textEscape (utf8 rs) ++ [44]).
      { rewrite <- QC, <- U. unfold fline. rewrite !utf8_app. change (32 :: quoted rs ++ [44]) with ([32] ++ quoted rs ++ [44]). rewrite !utf8_app.
        rewrite (utf8_ascii pre) by apply blanks_ascii, B. rewrite (utf8_ascii name) by apply printable_ascii, ident_printable, I.
        change (utf8 [58]) with [58]. change (utf8 [32]) with [32]. change (utf8 [44]) with [44]. rewrite <- !app_assoc. reflexivity. }
      rewrite FL in RAW. unfold field_line. destruct RAW as [RAW|RAW]; [exists []|exists [10]]; (split; [repeat constructor|]); rewrite RAW.
      - rewrite app_nil_r. reflexivity.
      - rewrite <- !app_assoc. reflexivity. }
    destruct X as (tail & TS & ->). apply (C71_text_field_partial (pre ++ name) rs tail (utf8 (34 :: p)) (utf8 r)); auto.
    + intros IN. apply in_app_iff in IN as [IN|IN].
      * unfold blanks in B. rewrite Forall_forall in B. apply B in IN. lia.
      * destruct name as [|c q]; [destruct I|]. destruct I as [LT F]. unfold letter in LT. destruct IN as [->|IN]; [lia|]. rewrite Forall_forall in F. apply F in IN. unfold letter in IN. lia.
    + rewrite <- utf8_app, <- Q, <- QC, utf8_app, U. reflexivity.
Qed.
End Lines.
