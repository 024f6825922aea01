(** Texts written by hand are read as the structs they show. *)
From Coq Require Import ZArith List Bool Lia ZifyBool Permutation Sorted.
Import ListNotations.
From Verif.Model Require Import Base Utf8 Field MapApi Token Walk Escape Json TokenStream Ingest JsonRead ClawText.
From Verif.Spec Require Import Text Message MapSpec TokenGrammar Values Ingest JsonGrammar JsonRead ClawText ClawHand.
From Verif.Proofs Require Import BaseLemmas MapLemmas Utf8Proofs JsonLits TokenVals IngestProofs Rendering JsonReadProofs JsonRound ClawTotal ClawLine ClawRound ClawPad ClawHandWords ClawHandValues.
From Verif.Spec Require Import Message JsonGrammar JsonRead ClawText ClawHand.
From Verif.Model Require Import Ingest ClawText.
Open Scope Z_scope.

Lemma utf8_in c rs : Forall scalar rs -> 0 <= c < 0x80 -> In c (utf8 rs) -> In c rs.
Proof.
  intros S C I. unfold utf8 in I. apply in_flat_map in I as (r & R & I). rewrite Forall_forall in S. specialize (S r R).
  destruct (utf8_one r S) as [[L Q]|(L & d & t & Q & F)]; rewrite Q in I; [destruct I as [->|[]]; exact R|]. rewrite Forall_forall in F. apply F in I. lia.
Qed.
Lemma key_unique kt (a : list (mkey * mentry)) : forall b, (forall x, ~ key_lt kt x x) -> StronglySorted (key_lt kt) (map fst a) -> StronglySorted (key_lt kt) (map fst b) -> Permutation a b -> a = b.
Proof.
  induction a as [|x a IH]; intros b IR SA SB P; [apply Permutation_nil in P; subst; reflexivity|].
  destruct b as [|y b]; [apply Permutation_sym, Permutation_nil in P; discriminate|]. cbn [map] in *. inversion SA as [|? ? SA1 SA2]; subst. inversion SB as [|? ? SB1 SB2]; subst.
  assert (x = y).
  { assert (I1 : In x (y :: b)) by (eapply Permutation_in; [exact P|left; reflexivity]). assert (I2 : In y (x :: a)) by (eapply Permutation_in; [apply Permutation_sym, P|left; reflexivity]).
    destruct I1 as [->|I1]; [reflexivity|]. destruct I2 as [->|I2]; [reflexivity|]. exfalso. rewrite Forall_forall in SA2, SB2.
    apply (IR (fst x)). eapply key_lt_trans; [apply SA2|apply SB2]; apply in_map; eassumption. }
  subst y. f_equal. apply IH; auto. eapply Permutation_cons_inv; eauto.
Qed.
Lemma str_key_irr x : ~ key_lt KTStr x x.
Proof. destruct x; cbn; [tauto|]. apply str_lt_irr. Qed.

Section Hand.
Variable pf : bytes -> option Z.
Variable E : env.
Variable ig : bool.
Variable space : Z -> bool.
Hypothesis S32 : space 32 = true.
Hypothesis S9 : space 9 = true.
Hypothesis SP : forall c, 33 <= c <= 126 -> space c = false.
Hypothesis NI : names_ident E.
Hypothesis ND : names_differ E.
Notation PNS := (parseNestedStruct pf).
Notation LO := (Forall2 (line_of space)).

Definition field_reads (n : bytes) (ty : fty) (v : fval) (b : list (list Z)) : Prop := Forall line_chars b /\ exists t toks,
  (forall ls rest j k, LO b ls -> (length (ls ++ rest) <= j)%nat -> (length (ls ++ rest) <= k)%nat ->
     exists l0 more, ls = l0 :: more /\ opens l0 /\ parseField pf (PNS j) k l0 (more ++ rest) = (t :: toks, Ok rest)) /\
  t_kind t = TField /\ t_name t = n /\ rval E ig ty v t toks.

Lemma lo_one rs ls : LO [rs] ls -> exists l, ls = [l] /\ line_of space rs l.
Proof. intros F. inversion F as [|? l0 ? ? L F']; subst. inversion F'; subst. eauto. Qed.
Lemma lo_cons rs b ls : LO (rs :: b) ls -> exists l more, ls = l :: more /\ line_of space rs l /\ LO b more.
Proof. intros F. inversion F as [|? l0 ? ? L F']; subst. eauto. Qed.
Lemma lo_app a b ls : LO (a ++ b) ls -> exists la lb, ls = la ++ lb /\ LO a la /\ LO b lb.
Proof. intros F. apply Forall2_app_inv_l in F as (la & lb & F1 & F2 & ->). eauto. Qed.

(** ** Words *)
Lemma word_field n ty v rs w tl : ident n -> headed n rs (w :: tl) -> field_word pf ty w v -> field_reads n ty v [rs].
Proof.
  intros I H FW. pose proof H as (hd & HD & S). split; [constructor; [eapply spaced_chars; exact S|constructor]|].
  assert (W : word w). { apply spaced_word in S. apply Forall_app in S as [_ S]. inversion S; assumption. }
  destruct (field_value pf E ig ty w v n W FW) as (t & P & K & N & R). exists t, []. split; [|auto].
  intros ls rest j k F _ _. apply lo_one in F as (l0 & -> & L). exists l0, []. split; [reflexivity|].
  destruct (headed_line space S32 S9 SP n rs _ l0 I H L) as (hd' & e & HD' & NE & IT). cbn [app] in IT. split; [eapply items_opens; eauto; discriminate|].
  cbn [app]. rewrite (items_field pf (PNS j) k n hd' w (tl ++ e) l0 rest I HD' IT); [apply P|]. intros ->. destruct W as [_ W]. inversion W; lia.
Qed.

(** ** Lists *)
Lemma elems_read {A} (P : list Z -> A -> Prop) (R : A -> token -> Prop) ws l :
  (forall w a, word w -> P w a -> elem_starts w /\ exists t, emitArrayElement pf w = ([t], Ok tt) /\ R a t) -> Forall word ws -> elems P ws l ->
  exists ts, Forall2 R l ts /\ forall nested items ls, arrayItems pf nested (ws ++ items) ls = pbind (ts, Ok tt) (fun _ => arrayItems pf nested items ls).
Proof.
  intros H W. induction 1 as [|ws l _ IH|w a ws l PA _ IH].
  - exists []. split; [constructor|]. intros. cbn [app]. rewrite pbind_nil. reflexivity.
  - inversion W; subst. destruct IH as (ts & F & RD); [assumption|]. exists ts. split; [exact F|]. intros. cbn [app arrayItems]. change (closes 93 [44]) with false. cbn [bytes_eqb andb orb]. change (44 =? 44) with true. cbn iota. apply RD.
  - inversion W as [|? ? W1 W2]; subst. destruct IH as (ts & F & RD); [assumption|]. destruct (H w a W1 PA) as ((c & q & Q & C) & t & EM & RT). exists (t :: ts). split; [constructor; assumption|].
    intros. cbn [app arrayItems]. assert (CL : closes 93 w = false).
    { unfold closes. rewrite eqb_neq by (rewrite Q; intros X; inversion X; subst; unfold letter in C; lia). rewrite Q. rewrite prefix_neq by (unfold letter in C; lia). reflexivity. }
    rewrite CL. rewrite !eqb_neq by (rewrite Q; intros X; inversion X; subst; unfold letter in C; lia). cbn [orb]. rewrite EM, RD.
    change (t :: ts) with ([t] ++ ts). rewrite <- pbind_app. reflexivity.
Qed.
Lemma newline_items nested e ls : newline e -> arrayItems pf nested e ls = ([], Ok (false, ls)).
Proof. intros [->| ->]; reflexivity. Qed.
Lemma close_items nested cl more ls : ended [93] cl -> arrayItems pf nested (cl :: more) ls = ([tok0 TListEnd [] 0], Ok (true, ls)).
Proof. intros [->| ->]; reflexivity. Qed.
(** The lines of a list after the first one. *)
Definition elem_line (l : line) (ws : list (list Z)) : Prop := exists e, newline e /\ ln_items l = ws ++ e.
Lemma skip_some l w ws rest : ln_items l = w :: ws -> (exists c q, w = c :: q /\ c <> 47 /\ c <> 10) -> skipLines false (l :: rest) = l :: rest.
Proof.
  intros IT (c & q & -> & C1 & C2). cbn [skipLines]. unfold blank_line. rewrite IT. cbn [List.hd]. rewrite !prefix_neq by auto.
  destruct ws; [|reflexivity]. rewrite eqb_neq; [reflexivity|]. intros X. inversion X. congruence.
Qed.
Lemma elems_first {A} (P : list Z -> A -> Prop) w ws l : (forall w a, P w a -> elem_starts w) -> elems P (w :: ws) l -> exists c q, w = c :: q /\ c <> 47 /\ c <> 10.
Proof.
  intros H X. inversion X as [|? ? Y|? a ? ? PA Y]; subst; [exists 44, []; repeat split; lia|]. destruct (H _ _ PA) as (c & q & -> & C). exists c, q. unfold letter in C. split; [reflexivity|lia].
Qed.
Lemma list_lines {A} (P : list Z -> A -> Prop) (R : A -> token -> Prop) mids ml last ws' cl tl l' :
  (forall w a, P w a -> elem_starts w) ->
  (forall w a, word w -> P w a -> elem_starts w /\ exists t, emitArrayElement pf w = ([t], Ok tt) /\ R a t) ->
  Forall2 (fun rs l => exists ws, spaced rs ws /\ elems P ws l) mids ml -> spaced last (ws' ++ cl :: tl) -> elems P ws' l' -> ended [93] cl ->
  exists ts, Forall2 R (concat ml ++ l') ts /\ forall ls rest nested n, LO (mids ++ [last]) ls -> (length ls <= n)%nat ->
    arrayLines pf nested n (ls ++ rest) = (ts ++ [tok0 TListEnd [] 0], Ok rest).
Proof.
  intros HS H F SL EL EN. revert F. induction 1 as [|rs l mids ml (ws & SW & EW) _ IH].
  - pose proof (spaced_word _ _ SL) as W. apply Forall_app in W as [W _]. destruct (elems_read P R ws' l' H W EL) as (ts & FR & RD). exists ts. split; [exact FR|].
    intros ls rest nested n FL N. inversion FL as [|? l0 ? ? L F']; subst. inversion F'; subst. cbn [length] in N. destruct n as [|n]; [lia|]. cbn [app arrayLines].
    destruct (spaced_items space S32 S9 SP _ _ l0 L SL) as (e & NE & IT). rewrite <- app_assoc in IT.
    assert (SK : skipLines false (l0 :: rest) = l0 :: rest).
    { destruct ws' as [|w ws'].
      - cbn [app] in IT. eapply skip_some; [exact IT|]. destruct EN as [->| ->]; do 2 eexists; (split; [reflexivity|lia]).
      - cbn [app] in IT. eapply skip_some; [exact IT|]. eapply elems_first; eauto. }
    rewrite SK, IT, RD. cbn [app]. rewrite (close_items nested cl _ rest EN). unfold pbind. cbn [fst snd]. rewrite app_nil_r. reflexivity.
  - destruct IH as (ts & FR & RD). destruct (elems_read P R ws l H (spaced_word _ _ SW) EW) as (ts1 & FR1 & RD1). exists (ts1 ++ ts).
    cbn [concat]. rewrite <- app_assoc. split; [apply Forall2_app; assumption|]. intros ls rest nested n FL N. cbn [app] in FL. inversion FL as [|? l0 ? ls0 L F']; subst.
    cbn [length] in N. destruct n as [|n]; [lia|]. destruct (spaced_items space S32 S9 SP _ _ l0 L SW) as (e & NE & IT). destruct ws as [|w ws].
    + inversion EW; subst. inversion FR1; subst. cbn [app] in *. cbn [arrayLines].
      assert (SK : skipLines false (l0 :: ls0 ++ rest) = skipLines false (ls0 ++ rest)).
      { cbn [skipLines]. unfold blank_line. rewrite IT. destruct NE as [->| ->]; reflexivity. }
      rewrite SK. specialize (RD ls0 rest nested (S n) F' ltac:(lia)). cbn [arrayLines] in RD. exact RD.
    + cbn [app arrayLines]. rewrite (skip_some l0 w (ws ++ e)) by (auto; eapply elems_first; eauto). rewrite IT, RD1, (newline_items nested e _ NE).
      specialize (RD ls0 rest nested n F' ltac:(lia)). unfold pbind. cbn [fst snd app]. rewrite RD. cbn [fst snd]. rewrite app_nil_r, app_assoc. reflexivity.
Qed.
Lemma elem_word_chars {A} (P : list Z -> A -> Prop) mids ml : Forall2 (fun rs l => exists ws, spaced rs ws /\ elems P ws l) mids ml -> Forall line_chars mids.
Proof. induction 1 as [|? ? ? ? (ws & S & _)]; constructor; auto. eapply spaced_chars; exact S. Qed.
Lemma list_field {A} (P : list Z -> A -> Prop) (R : A -> token -> Prop) n l b : ident n ->
  (forall w a, P w a -> elem_starts w) ->
  (forall w a, word w -> P w a -> elem_starts w /\ exists t, emitArrayElement pf w = ([t], Ok tt) /\ R a t) ->
  list_text P n l b -> Forall line_chars b /\ exists ts, Forall2 R l ts /\
  forall ls rest j k, LO b ls -> (length (ls ++ rest) <= k)%nat ->
    exists l0 more, ls = l0 :: more /\ opens l0 /\ parseField pf (PNS j) k l0 (more ++ rest) = (tok0 TField n 0 :: tok0 TListStart [] 0 :: ts ++ [tok0 TListEnd [] 0], Ok rest).
Proof.
  intros I HS H [rs ws cl tl l0 HD EL EN _|rs ws l0 mids ml last ws' cl tl l' HD EL FM SL EL' EN _].
  - pose proof HD as (hd & HH & S). split; [constructor; [eapply spaced_chars; exact S|constructor]|].
    assert (W : Forall word ws) by (apply spaced_word in S; apply Forall_app in S as [_ S]; inversion S as [|? ? _ S2]; subst; apply Forall_app in S2; apply S2).
    destruct (elems_read P R ws l0 H W EL) as (ts & FR & RD). exists ts. split; [exact FR|]. intros ls rest j k F N. inversion F as [|? l1 ? ? L F']; subst. inversion F'; subst.
    exists l1, []. split; [reflexivity|]. destruct (headed_line space S32 S9 SP n rs _ l1 I HD L) as (hd' & e & HD' & NE & IT). cbn [app] in IT.
    split; [eapply items_opens; eauto; discriminate|]. rewrite (items_field pf (PNS j) k n hd' [91] ((ws ++ cl :: tl) ++ e) l1 _ I HD' IT) by discriminate.
    change (parseValue pf (PNS j) k n [91] ((ws ++ cl :: tl) ++ e) (ln_raw l1) ([] ++ rest)) with (parseArray pf (PNS j) k n ((ws ++ cl :: tl) ++ e) rest).
    unfold parseArray. rewrite <- app_assoc. cbn [app]. destruct ws as [|w ws].
    + inversion EL; subst. inversion FR; subst. cbn [app]. destruct EN as [->| ->]; reflexivity.
    + cbn [app]. assert (B : bytes_eqb w [93] = false).
      { inversion EL as [|? ? Y|? a ? ? PA Y]; subst; [reflexivity|]. destruct (HS _ _ PA) as (c & q & -> & C). apply eqb_neq. intros X. inversion X. subst. unfold letter in C. lia. }
      rewrite B. specialize (RD (PNS j) (cl :: tl ++ e) rest). cbn [app] in RD. rewrite RD, (close_items (PNS j) cl _ rest EN). unfold pbind, yield. cbn [fst snd app]. rewrite app_nil_r. reflexivity.
  - pose proof HD as (hd & HH & S). split.
    { constructor; [eapply spaced_chars; exact S|]. apply Forall_app. split; [eapply elem_word_chars; eauto|]. constructor; [eapply spaced_chars; eauto|constructor]. }
    assert (W : Forall word ws) by (apply spaced_word in S; apply Forall_app in S as [_ S]; inversion S; assumption).
    destruct (elems_read P R ws l0 H W EL) as (ts & FR & RD). destruct (list_lines P R mids ml last ws' cl tl l' HS H FM SL EL' EN) as (ts2 & FR2 & RD2).
    exists (ts ++ ts2). split; [apply Forall2_app; assumption|]. intros ls rest j k F N. inversion F as [|? l1 ? more L F']; subst.
    exists l1, more. split; [reflexivity|]. destruct (headed_line space S32 S9 SP n rs _ l1 I HD L) as (hd' & e & HD' & NE & IT). cbn [app] in IT.
    split; [eapply items_opens; eauto; discriminate|]. rewrite (items_field pf (PNS j) k n hd' [91] (ws ++ e) l1 _ I HD' IT) by discriminate.
    change (parseValue pf (PNS j) k n [91] (ws ++ e) (ln_raw l1) (more ++ rest)) with (parseArray pf (PNS j) k n (ws ++ e) (more ++ rest)).
    unfold parseArray. assert (B : match ws ++ e with w :: _ => bytes_eqb w [93] | [] => false end = false).
    { destruct ws as [|w ws]; [destruct NE as [->| ->]; reflexivity|]. cbn [app]. inversion EL as [|? ? Y|? a ? ? PA Y]; subst; [reflexivity|]. destruct (HS _ _ PA) as (c & q & -> & C). apply eqb_neq. intros X. inversion X. subst. unfold letter in C. lia. }
    rewrite B, RD, (newline_items (PNS j) e _ NE). specialize (RD2 more rest (PNS j) k F' ltac:(cbn [app length] in N; rewrite app_length in N; lia)).
    unfold pbind, yield. cbn [fst snd app]. rewrite RD2. cbn [fst snd]. rewrite app_nil_r, app_assoc. reflexivity.
Qed.

(** ** Text of several words *)
Lemma words_first' w c x : w <> [] -> Forall (fun c => 33 <= c <= 126) w -> blank_char c -> words space (w ++ c :: x) = w :: words space x.
Proof.
  intros N P C. unfold words. rewrite (words_word space SP w P). rewrite app_nil_r. cbn [words_from].
  replace (space c) with true by (destruct C as [->| ->]; auto). rewrite rev_involutive.
  destruct (rev w) eqn:R; [|reflexivity]. apply (f_equal (@rev Z)) in R. rewrite rev_involutive in R. cbn in R. congruence.
Qed.
Lemma text_words n pre gap0 gap x : ident n -> Forall blank_char pre -> Forall blank_char gap0 -> Forall blank_char gap -> gap <> [] ->
  exists hd, heading n hd /\ words space (pre ++ n ++ gap0 ++ [58] ++ gap ++ x) = hd ++ words space x.
Proof.
  intros I B0 B1 B2 NG. pose proof (ident_printable n I) as P. pose proof (ident_nonempty n I) as NE. rewrite (words_blanks space S32 S9 pre _ B0).
  destruct gap as [|g gap]; [congruence|]. inversion B2 as [|? ? G B3]; subst. destruct gap0 as [|g0 gap0].
  - exists [n ++ [58]]. split; [left; reflexivity|]. cbn [app]. change (n ++ 58 :: g :: gap ++ x) with (n ++ [58] ++ g :: gap ++ x). rewrite app_assoc. rewrite words_first'; auto.
    + rewrite (words_blanks space S32 S9 gap _ B3). reflexivity.
    + destruct n; discriminate.
    + apply Forall_app. split; [exact P|repeat constructor; lia].
  - inversion B1 as [|? ? G0 B4]; subst. exists [n; [58]]. split; [right; reflexivity|]. cbn [app]. rewrite words_first'; auto.
    rewrite (words_blanks space S32 S9 gap0 _ B4). change (58 :: g :: gap ++ x) with ([58] ++ g :: gap ++ x). rewrite words_first'; [|discriminate|repeat constructor; lia|exact G].
    rewrite (words_blanks space S32 S9 gap _ B3). reflexivity.
Qed.
Lemma not_quoted {A} (l : bytes) (a b : A) : (forall q, l = 34 :: q -> q = []) -> match l with 34 :: _ :: _ => a | _ => b end = b.
Proof.
  intros H. destruct l as [|c l]; [reflexivity|]. destruct (Z.eq_dec c 34) as [->|C]; [rewrite (H l eq_refl); reflexivity|].
  repeat match goal with |- match ?x with _ => _ end = _ => destruct x; try reflexivity end. congruence.
Qed.
Lemma part_quoted x : ~ In 34 x -> forall q, rev (trimComma (34 :: x)) = 34 :: q -> q = [].
Proof.
  intros N q. unfold trimComma. cbn [rev]. assert (N' : ~ In 34 (rev x)) by (intros I; apply N, in_rev, I). destruct (rev x) as [|y z] eqn:R.
  - cbn [app]. assert (x = []) by (apply (f_equal (@rev Z)) in R; rewrite rev_involutive in R; exact R). subst x. cbn. intros Q. congruence.
  - assert (XR : x = rev (y :: z)) by (rewrite <- R, rev_involutive; reflexivity). destruct (Z.eq_dec y 44) as [->|Y].
    + cbn [app]. rewrite rev_involutive. destruct z as [|y' z']; [cbn [app]; intros Q; congruence|]. intros Q. inversion Q. subst y'. exfalso. apply N'. right. left. reflexivity.
    + cbn [app]. replace (match y :: z ++ [34] with 44 :: r => rev r | _ => 34 :: x end) with (34 :: x).
      * cbn [rev]. rewrite R. cbn [app]. intros Q. inversion Q. subst y. exfalso. apply N'. left. reflexivity.
      * repeat match goal with |- _ = match ?x with _ => _ end => destruct x; try reflexivity end. congruence.
Qed.
Lemma afterColon_app a x : ~ In 58 a -> afterColon (a ++ 58 :: x) = Some x.
Proof.
  induction a as [|c a IH]; intros N; cbn [app afterColon]; [change (58 =? 58) with true; reflexivity|].
  destruct (Z.eqb_spec c 58) as [->|C]; [exfalso; apply N; left; reflexivity|]. apply IH. intros I. apply N. right. exact I.
Qed.
Lemma trimLeft_app b c x : Forall (fun c => isSpace c = true) b -> isSpace c = false -> trimLeft (b ++ c :: x) = c :: x.
Proof. induction 1 as [|d b D _ IH]; intros C; cbn [app trimLeft]; [rewrite C; reflexivity|]. rewrite D. auto. Qed.
Lemma blank_space b : Forall blank_char b -> Forall (fun c => isSpace c = true) b.
Proof. intros B. eapply Forall_impl; [|exact B]. cbn. intros c [->| ->]; reflexivity. Qed.
Lemma text_raw n pre gap0 gap s rs comma post tail : ident n -> Forall blank_char pre -> Forall blank_char gap0 -> Forall blank_char gap -> Forall blank_char post ->
  spelled s rs -> comma = [] \/ comma = [44] -> tail = [] \/ tail = [10] ->
  exists v, afterColon (utf8 (pre ++ n ++ gap0 ++ [58] ++ gap ++ (34 :: s ++ [34]) ++ comma ++ post) ++ tail) = Some v /\ unquoteString (trimComma (trimSpace v)) = Ok (utf8 rs).
Proof.
  intros I B0 B1 B2 B3 SL CM TL. exists (gap ++ (34 :: utf8 s ++ [34] ++ comma) ++ post ++ tail). split.
  - rewrite !utf8_app. rewrite (utf8_ascii pre), (utf8_ascii gap0), (utf8_ascii gap), (utf8_ascii post) by (apply blanks_ascii; assumption).
    rewrite (utf8_ascii n) by apply printable_ascii, ident_printable, I. change (34 :: s ++ [34]) with ([34] ++ s ++ [34]). rewrite !utf8_app.
    replace (utf8 comma) with comma by (destruct CM as [->| ->]; reflexivity). change (utf8 [58]) with [58]. change (utf8 [34]) with [34].
    replace ((pre ++ n ++ gap0 ++ [58] ++ gap ++ ([34] ++ utf8 s ++ [34]) ++ comma ++ post) ++ tail) with ((pre ++ n ++ gap0) ++ 58 :: (gap ++ (34 :: utf8 s ++ [34] ++ comma) ++ post ++ tail)).
    2:{ rewrite <- !app_assoc. cbn [app]. rewrite <- !app_assoc. reflexivity. }
    apply afterColon_app. rewrite !in_app_iff. assert (X : forall b, Forall blank_char b -> ~ In 58 b) by (intros b B Q; rewrite Forall_forall in B; apply B in Q; destruct Q; lia).
    intros [Q|[Q|Q]]; [exact (X pre B0 Q)| |exact (X gap0 B1 Q)]. destruct n as [|c q]; [destruct I|]. destruct I as [L F]. unfold letter in *. destruct Q as [->|Q]; [lia|]. rewrite Forall_forall in F. apply F in Q. lia.
  - assert (PT : Forall (fun c => isSpace c = true) (post ++ tail)) by (apply Forall_app; split; [apply blank_space, B3|destruct TL as [->| ->]; repeat constructor]).
    pose proof (blank_space gap B2) as GS. destruct CM as [->| ->].
    + rewrite app_nil_r.
      assert (TS : trimSpace (gap ++ (34 :: utf8 s ++ [34]) ++ post ++ tail) = 34 :: utf8 s ++ [34]).
      { unfold trimSpace. cbn [app]. rewrite trimLeft_app by auto. change (34 :: (utf8 s ++ [34]) ++ post ++ tail) with ((34 :: utf8 s ++ [34]) ++ post ++ tail).
        rewrite rev_app_distr. change (34 :: utf8 s ++ [34]) with ((34 :: utf8 s) ++ [34]) at 1. rewrite rev_unit. rewrite trimLeft_app; [|apply Forall_rev, PT|reflexivity]. rewrite <- rev_unit, rev_involutive. reflexivity. }
      rewrite TS. rewrite (trimComma_ended (34 :: utf8 s ++ [34]) _ (quote_last _)) by (left; reflexivity). apply unquote_spelled, SL.
    + assert (TS : trimSpace (gap ++ (34 :: utf8 s ++ [34] ++ [44]) ++ post ++ tail) = (34 :: utf8 s ++ [34]) ++ [44]).
      { unfold trimSpace. cbn [app]. rewrite trimLeft_app by auto. change (34 :: (utf8 s ++ [34; 44]) ++ post ++ tail) with ((34 :: utf8 s ++ [34; 44]) ++ post ++ tail).
        rewrite rev_app_distr. replace (34 :: utf8 s ++ [34; 44]) with ((34 :: utf8 s ++ [34]) ++ [44]) by (cbn [app]; rewrite <- app_assoc; reflexivity). rewrite rev_unit.
        rewrite trimLeft_app; [|apply Forall_rev, PT|reflexivity]. rewrite <- rev_unit, rev_involutive. reflexivity. }
      rewrite TS. rewrite (trimComma_ended (34 :: utf8 s ++ [34]) _ (quote_last _)) by (right; reflexivity). apply unquote_spelled, SL.
Qed.
Lemma text_field n pre gap0 gap s comma post rs : ident n -> Forall blank_char pre -> Forall blank_char gap0 -> Forall blank_char gap -> gap <> [] -> Forall blank_char post ->
  spelled s rs -> ~ In 34 s -> comma = [] \/ comma = [44] ->
  field_reads n (TyStr true) (FStr true (utf8 rs)) [pre ++ n ++ gap0 ++ [58] ++ gap ++ (34 :: s ++ [34]) ++ comma ++ post].
Proof.
  intros I B0 B1 B2 NG B3 SL NQ CM. pose proof (spelled_chars s rs SL) as LC. split.
  - constructor; [|constructor]. repeat apply line_app; try (apply blanks_line; assumption); try (apply printable_line; apply ident_printable, I); try (apply printable_line; repeat constructor; lia).
    + change (34 :: s ++ [34]) with ([34] ++ s ++ [34]). repeat apply line_app; auto; apply printable_line; repeat constructor; lia.
    + destruct CM as [->| ->]; apply printable_line; repeat constructor; lia.
  - exists (setText (utf8 rs) (tok0 TField n 0)), []. split; [|do 2 (split; [reflexivity|]); apply rv_str; reflexivity].
    intros ls rest j k F _ _. apply lo_one in F as (l0 & -> & L). exists l0, []. split; [reflexivity|].
    destruct (words_start' space SP 34 (s ++ [34] ++ comma ++ post) ltac:(lia)) as (p & r & ws & W & Q & NS & _).
    destruct (text_words n pre gap0 gap (34 :: s ++ [34] ++ comma ++ post) I B0 B1 B2 NG) as (hd & HD & WD).
    destruct L as [IT RAW]. replace ((34 :: s ++ [34]) ++ comma ++ post) with (34 :: s ++ [34] ++ comma ++ post) in IT by (cbn [app]; rewrite <- app_assoc; reflexivity).
    rewrite WD, W, map_app in IT. cbn [map] in IT.
    assert (HU : map utf8 hd = hd).
    { destruct HD as [->| ->]; cbn [map]; [rewrite (utf8_ascii (n ++ [58])); [reflexivity|]; apply Forall_app; split; [apply printable_ascii, ident_printable, I|repeat constructor; lia]|]. rewrite (utf8_ascii n) by apply printable_ascii, ident_printable, I. reflexivity. }
    rewrite HU in IT. assert (IT' : exists more, ln_items l0 = hd ++ utf8 (34 :: p) :: more) by (destruct IT as [IT|IT]; rewrite IT; [eauto|rewrite <- app_assoc; cbn [app]; eauto]).
    clear IT. destruct IT' as (more & IT). split; [eapply items_opens; eauto; discriminate|]. cbn [app].
    change (utf8 (34 :: p)) with (34 :: utf8 p) in *. rewrite (items_field pf (PNS j) k n hd (34 :: utf8 p) more l0 rest I HD IT) by discriminate.
    unfold parseValue. cbn zeta. rewrite !eqb_neq by (intros X; inversion X). cbn [hasPrefix]. change (34 =? 34) with true. cbn [andb].
    assert (U : parseQuotedString (34 :: utf8 p) (ln_raw l0) = Ok (utf8 rs)).
    { assert (SC : Forall scalar (s ++ [34] ++ comma ++ post)).
      { destruct LC as [LC _]. apply Forall_app. split; [exact LC|]. constructor; [unfold scalar; lia|]. apply Forall_app. split; [destruct CM as [->| ->]; repeat constructor; unfold scalar; lia|].
        eapply Forall_impl; [|exact B3]. cbn. intros c [->| ->]; unfold scalar; lia. }
      rewrite Q in SC. apply Forall_app in SC as [SCp _]. destruct (in_dec Z.eq_dec 34 p) as [IP|NP].
      - assert (PP : exists p', p = s ++ 34 :: p' /\ p' ++ r = comma ++ post).
        { clear -Q NQ IP. revert p IP Q. induction s as [|c s IH]; intros p IP Q.
          - destruct p as [|d p]; [destruct IP|]. cbn [app] in Q. inversion Q; subst. exists p. auto.
          - destruct p as [|d p]; [destruct IP|]. cbn [app] in Q. inversion Q; subst. destruct IP as [->|IP]; [exfalso; apply NQ; left; reflexivity|].
            destruct (IH ltac:(intros X; apply NQ; right; exact X) p IP H1) as (p' & -> & R). exists p'. auto. }
        destruct PP as (p' & -> & R). assert (EN : ended (34 :: utf8 s ++ [34]) (34 :: utf8 (s ++ 34 :: p'))).
        { rewrite utf8_app. change (utf8 (34 :: p')) with (34 :: utf8 p'). assert (P' : p' = [] \/ p' = [44]).
          { apply Forall_app in NS as [_ NS]. apply Forall_inv_tail in NS as NS'. destruct p' as [|x p']; [left; reflexivity|]. pose proof (Forall_inv NS') as X1. cbv beta in X1. apply Forall_inv_tail in NS' as X2.
            assert (BS : forall y z, y :: z = post -> space y = true) by (intros y z Y; subst post; inversion B3 as [|? ? [->| ->] _]; auto).
            destruct CM as [->| ->]; cbn [app] in R; [rewrite (BS _ _ R) in X1; discriminate|]. injection R as -> R'. destruct p' as [|y p']; [right; reflexivity|]. apply Forall_inv in X2. cbv beta in X2. cbn [app] in R'.
            rewrite (BS _ _ R') in X2. discriminate. }
          destruct P' as [->| ->]; [left; reflexivity|right]. cbn [app]. rewrite <- app_assoc. reflexivity. }
        unfold parseQuotedString. cbn zeta. rewrite (trimComma_ended _ _ (quote_last (utf8 s)) EN).
        change (34 :: utf8 s ++ [34]) with ((34 :: utf8 s) ++ [34]) at 1. rewrite rev_unit. cbn [rev].
        destruct (rev (utf8 s) ++ [34]) as [|x y] eqn:QQ; [apply app_eq_nil in QQ as [_ QQ]; discriminate|]. apply unquote_spelled, SL.
      - assert (NU : ~ In 34 (utf8 p)) by (intros X; apply NP; apply utf8_in; auto; lia).
        unfold parseQuotedString. cbn zeta. rewrite not_quoted by (apply part_quoted; exact NU).
        assert (TL : exists tail, (tail = [] \/ tail = [10]) /\ ln_raw l0 = utf8 (pre ++ n ++ gap0 ++ [58] ++ gap ++ (34 :: s ++ [34]) ++ comma ++ post) ++ tail)
          by (destruct RAW as [RAW|RAW]; rewrite RAW; [exists []; rewrite app_nil_r|exists [10]]; auto).
        destruct TL as (tail & TL & ->). destruct (text_raw n pre gap0 gap s rs comma post tail I B0 B1 B2 B3 SL CM TL) as (v & -> & UV). exact UV. }
    rewrite U. reflexivity.
Qed.

(** ** Raw strings *)
Lemma upto_none x : ~ In 96 x -> upto_backtick x = None.
Proof.
  induction x as [|c x IH]; intros N; [reflexivity|]. cbn [upto_backtick]. destruct (Z.eqb_spec c 96) as [->|C]; [exfalso; apply N; left; reflexivity|].
  rewrite IH; [reflexivity|]. intros I. apply N. right. exact I.
Qed.
Lemma upto_some x y : ~ In 96 x -> upto_backtick (x ++ 96 :: y) = Some x.
Proof.
  induction x as [|c x IH]; intros N; cbn [app upto_backtick]; [change (96 =? 96) with true; reflexivity|]. destruct (Z.eqb_spec c 96) as [->|C]; [exfalso; apply N; left; reflexivity|].
  rewrite IH; [reflexivity|]. intros I. apply N. right. exact I.
Qed.
Lemma raw_lines mids : forall acc p after ls rest, Forall (fun m => line_chars m /\ ~ In 96 m) mids -> line_chars p -> ~ In 96 p -> LO (mids ++ [p ++ 96 :: after]) ls ->
  rawLines acc (ls ++ rest) = Ok (acc ++ concat (map (fun m => 10 :: utf8 m) mids) ++ 10 :: utf8 p, rest).
Proof.
  induction mids as [|m mids IH]; intros acc p after ls rest F LP NP L.
  - apply lo_one in L as (l & -> & [_ RAW]). cbn [app rawLines]. destruct LP as [SC _]. assert (N : ~ In 96 (utf8 p)) by (intros X; apply NP, utf8_in; auto; lia).
    assert (R : exists y, ln_raw l = utf8 p ++ 96 :: y).
    { rewrite utf8_app in RAW. change (96 :: after) with ([96] ++ after) in RAW. rewrite (utf8_app [96] after) in RAW. change (utf8 [96]) with [96] in RAW. cbn [app] in RAW.
      destruct RAW as [->| ->]; [eauto|]. rewrite <- app_assoc. cbn [app]. eauto. }
    destruct R as (y & ->). rewrite upto_some by exact N. reflexivity.
  - inversion F as [|? ? [LM NM] F']; subst. cbn [app] in L. apply lo_cons in L as (l & more & -> & [_ RAW] & L). cbn [app rawLines]. pose proof LM as (SC & N10 & _).
    assert (N : ~ In 96 (utf8 m)) by (intros X; apply NM, utf8_in; auto; lia). assert (N' : ~ In 10 (utf8 m)) by (intros X; apply N10, utf8_in; auto; lia).
    assert (R : upto_backtick (ln_raw l) = None /\ trimLast 10 (ln_raw l) = utf8 m).
    { destruct RAW as [->| ->]; (split; [apply upto_none|]); rewrite ?trimLast_snoc, ?(trimLast_none 10 (utf8 m) N'); auto. rewrite in_app_iff. intros [X|[X|[]]]; [auto|lia]. }
    destruct R as [-> ->]. rewrite (IH _ p after more rest F' LP NP L). cbn [map concat]. rewrite <- !app_assoc. reflexivity.
Qed.
Lemma raw_field n rs t mids p after : ident n -> headed n rs [96 :: t] -> ~ In 96 t -> Forall (fun m => line_chars m /\ ~ In 96 m) mids -> line_chars p -> ~ In 96 p -> line_chars after ->
  field_reads n (TyStr true) (FStr true (t ++ concat (map (fun m => 10 :: utf8 m) mids) ++ 10 :: utf8 p)) (rs :: mids ++ [p ++ 96 :: after]).
Proof.
  intros I H NT F LP NP LA. pose proof H as (hd & HD & S). split.
  - constructor; [eapply spaced_chars; exact S|]. apply Forall_app. split; [eapply Forall_impl; [|exact F]; cbn; tauto|]. constructor; [|constructor].
    apply line_app; [exact LP|]. change (96 :: after) with ([96] ++ after). apply line_app; [apply printable_line; repeat constructor; lia|exact LA].
  - eexists (setText _ (tok0 TField n 0)), []. split; [|do 2 (split; [reflexivity|]); apply rv_str; reflexivity].
    intros ls rest j k FL _ _. apply lo_cons in FL as (l0 & more & -> & L & FL). exists l0, more. split; [reflexivity|].
    destruct (headed_line space S32 S9 SP n rs _ l0 I H L) as (hd' & e & HD' & NE & IT). cbn [app] in IT. split; [eapply items_opens; eauto; discriminate|].
    rewrite (items_field pf (PNS j) k n hd' (96 :: t) e l0 _ I HD' IT) by discriminate.
    unfold parseValue. cbn zeta. rewrite !eqb_neq by (intros X; inversion X). rewrite prefix_neq by lia. cbn [hasPrefix]. change (96 =? 96) with true. cbn [andb].
    unfold parseRawString. cbn [filter]. change (96 =? 96) with true. cbn iota.
    replace (filter (Z.eqb 96) t) with (@nil Z).
    + change (2 <=? len [96]) with false. cbn iota. rewrite (raw_lines mids t p after more rest F LP NP FL). reflexivity.
    + clear -NT. induction t as [|c t IH]; [reflexivity|]. cbn [filter]. destruct (Z.eqb_spec 96 c) as [<-|C]; [exfalso; apply NT; left; reflexivity|]. apply IH. intros X. apply NT. right. exact X.
Qed.

(** ** Structs *)
Definition flat (tbs : list (token * list token)) : list token := flat_map (fun tb => fst tb :: snd tb) tbs.
Definition fields_reads (id : nat) (said : list (bytes * fval)) (b : list (list Z)) : Prop := Forall line_chars b /\ exists tbs,
  Forall2 (fun nv tb => t_kind (fst tb) = TField /\ t_name (fst tb) = fst nv /\ exists ty, In (fst nv, ty) (snd (E id)) /\ rval E ig ty (snd nv) (fst tb) (snd tb)) said tbs /\
  (forall ls rest n, LO b ls -> (length (ls ++ rest) < n)%nat ->
     exists m, (length rest < m)%nat /\ PNS n (ls ++ rest) = pbind (flat tbs, Ok tt) (fun _ => PNS m rest)) /\
  (forall ls rest n, LO b ls -> (length (ls ++ rest) < n)%nat ->
     exists m, (length rest < m)%nat /\ parseFields pf n (ls ++ rest) = pbind (flat tbs, Ok tt) (fun _ => parseFields pf m rest)).
Definition msg_reads (id : nat) (fs : list (bytes * fval)) (b : list (list Z)) : Prop := Forall line_chars b /\ exists toks,
  (forall ls rest n, LO b ls -> (length (ls ++ rest) < n)%nat ->
     exists m, (length rest < m)%nat /\ PNS n (ls ++ rest) = pbind (toks, Ok tt) (fun _ => PNS m rest)) /\
  (forall ls rest n, LO b ls -> (length (ls ++ rest) < n)%nat ->
     exists m, (length rest < m)%nat /\ parseFields pf n (ls ++ rest) = pbind (toks, Ok tt) (fun _ => parseFields pf m rest)) /\
  forall a z, rmsg E ig id fs (tok0 TStructStart a 0 :: toks ++ [tok0 TStructEnd z 0]).
Lemma fields_cons id n ty v b q rss : In (n, ty) (snd (E id)) -> field_reads n ty v b -> fields_reads id q rss -> fields_reads id ((n, v) :: q) (b ++ rss).
Proof.
  intros IN (LC1 & t & toks & R1 & TK & TN & RV) (LC2 & tbs & F2 & N2 & P2). split; [apply Forall_app; auto|]. exists ((t, toks) :: tbs).
  split; [constructor; [cbn [fst snd]; eauto 10|exact F2]|]. change (flat ((t, toks) :: tbs)) with ((t :: toks) ++ flat tbs). split.
  - intros ls rest m F L. apply lo_app in F as (ls1 & ls2 & -> & F1 & F2'). rewrite <- app_assoc in L |- *.
    destruct m as [|m]; [lia|]. destruct (R1 ls1 (ls2 ++ rest) m (S (length (tl ls1 ++ ls2 ++ rest))) F1 ltac:(lia)) as (l0 & more & -> & OP & PF).
    { destruct ls1; cbn [tl app length]; rewrite ?app_length; lia. }
    cbn [app length tl] in *. cbn [parseNestedStruct]. rewrite (opens_skip l0 _ OP). destruct OP as (_ & _ & _ & w & FW & CL & _).
    rewrite FW. unfold of_res at 1. rewrite pbind_field, pbind_nil. rewrite CL. rewrite PF, pbind_field.
    destruct (N2 ls2 rest m F2' ltac:(rewrite !app_length in *; lia)) as (m' & LM & ->). exists m'. split; [exact LM|]. apply pbind_app.
  - intros ls rest m F L. apply lo_app in F as (ls1 & ls2 & -> & F1 & F2'). rewrite <- app_assoc in L |- *.
    destruct m as [|m]; [lia|]. destruct (R1 ls1 (ls2 ++ rest) (S (length (tl ls1 ++ ls2 ++ rest))) (S (length (tl ls1 ++ ls2 ++ rest))) F1) as (l0 & more & -> & OP & PF).
    { destruct ls1; cbn [tl app length]; rewrite ?app_length; lia. }
    { destruct ls1; cbn [tl app length]; rewrite ?app_length; lia. }
    cbn [app length tl] in *. cbn [parseFields]. rewrite (opens_skip l0 _ OP). destruct OP as (_ & _ & _ & w & FW & _ & CL).
    rewrite FW. unfold of_res at 1. rewrite pbind_field, pbind_nil. rewrite CL. rewrite PF, pbind_field.
    destruct (P2 ls2 rest m F2' ltac:(rewrite !app_length in *; lia)) as (m' & LM & ->). exists m'. split; [exact LM|]. apply pbind_app.
Qed.
Lemma fields_none id : fields_reads id [] [].
Proof.
  split; [constructor|]. exists []. split; [constructor|]. split; intros ls rest n F L; inversion F; subst; exists n; rewrite pbind_nil; auto.
Qed.
(** The fields still to be named are zero. *)
Definition named_in (l : list bytes) (n : bytes) : bool := existsb (bytes_eqb n) l.
Lemma named_in_in l n : named_in l n = true <-> In n l.
Proof.
  unfold named_in. rewrite existsb_exists. split; [intros (x & I & Q); apply bytes_eqb_eq in Q; subst; exact I|]. intros I. exists n. split; [exact I|apply bytes_eqb_refl].
Qed.
Fixpoint waiting (l : list bytes) (decl : list (bytes * fty)) (fs : list (bytes * fval)) : list (bytes * fval) :=
  match decl, fs with
  | (n, ty) :: decl, (_, v) :: fs => (n, if named_in l n then zero_value ty else v) :: waiting l decl fs
  | _, _ => []
  end.
Lemma waiting_nil decl fs : Forall2 (fun nt nv => fst nt = fst nv) decl fs -> waiting [] decl fs = fs.
Proof. induction 1 as [|[n t] [m v] decl fs H _ IH]; [reflexivity|]. cbn in *. subst. rewrite IH. reflexivity. Qed.
Lemma waiting_assoc l decl fs n ty : Forall2 (fun nt nv => fst nt = fst nv) decl fs -> In n l -> assoc n decl = Some ty -> assoc n (waiting l decl fs) = Some (zero_value ty).
Proof.
  intros F I. induction F as [|[m t] [m' v] decl fs H _ IH]; cbn; [discriminate|]. destruct (bytes_eqb n m) eqn:Q; [|exact IH].
  intros X. inversion X; subst. apply bytes_eqb_eq in Q. subst m. rewrite (proj2 (named_in_in l n) I). reflexivity.
Qed.
Lemma waiting_set l decl fs n v : Forall2 (fun nt nv => fst nt = fst nv) decl fs -> NoDup (map fst decl) -> In (n, v) fs -> ~ In n l ->
  set_field n v (waiting (n :: l) decl fs) = waiting l decl fs.
Proof.
  intros F D I NL. induction F as [|[m t] [m' w] decl fs H F IH]; [reflexivity|]. cbn [fst] in H. subst m'. cbn [map fst] in D. inversion D as [|? ? N1 N2]; subst.
  cbn [waiting set_field]. destruct (bytes_eqb n m) eqn:Q.
  - apply bytes_eqb_eq in Q. subst m. destruct I as [I|I].
    + inversion I; subst. replace (named_in l n) with false by (symmetry; apply not_true_is_false; intros X; apply NL, named_in_in, X). f_equal.
      clear -F N1. induction F as [|[a b] [a' c] decl fs H F IH]; [reflexivity|]. cbn [waiting map fst] in *. cbn [named_in existsb].
      destruct (bytes_eqb a n) eqn:Q; [apply bytes_eqb_eq in Q; subst; exfalso; apply N1; left; reflexivity|]. cbn [orb]. unfold named_in in IH. rewrite IH by (intros X; apply N1; right; exact X). reflexivity.
    + exfalso. apply N1. clear -F I. induction F as [|[a b] [a' c] decl fs H F IH]; [destruct I|]. cbn [fst] in H. subst a'. destruct I as [I|I]; [inversion I; left; reflexivity|right; auto].
  - destruct I as [I|I]; [inversion I; subst; rewrite bytes_eqb_refl in Q; discriminate|]. rewrite IH by auto. f_equal. f_equal.
    cbn [named_in existsb]. replace (bytes_eqb m n) with false; [reflexivity|]. symmetry. apply eqb_neq. intros ->. rewrite bytes_eqb_refl in Q. discriminate.
Qed.
Lemma fills_same decl said fs : fills decl said fs -> Forall2 (fun nt nv => fst nt = fst nv) decl fs.
Proof. induction 1 as [|? ? ? ? [H _] _ IH]; constructor; auto. Qed.
Lemma fills_blank id said fs : fills (snd (E id)) said fs -> blank E id = waiting (map fst said) (snd (E id)) fs.
Proof.
  unfold blank. generalize (snd (E id)). induction 1 as [|[n ty] [n' v] decl fs [H C] _ IH]; [reflexivity|]. cbn [map waiting fst snd] in *. subst n'. rewrite IH. f_equal. f_equal.
  destruct (named_in (map fst said) n) eqn:Q; [reflexivity|]. destruct C as [I|[_ ->]]; [|reflexivity]. exfalso. apply (in_map fst) in I. apply named_in_in in I. cbn [fst] in I. congruence.
Qed.
Lemma fills_in decl said fs n v ty : fills decl said fs -> NoDup (map fst said) -> In (n, v) said -> In (n, ty) decl -> In (n, v) fs.
Proof.
  intros F D I. induction F as [|[m t] [m' w] decl fs [H C] _ IH]; [intros []|]. cbn [fst snd] in *. subst m'. intros [X|X]; [|right; auto].
  inversion X; subst. destruct C as [C|[C _]]; [|exfalso; apply C; apply (in_map fst) in I; exact I].
  left. f_equal. clear -D C I. induction said as [|[a b] said IH]; [destruct C|]. cbn [map fst] in D. inversion D as [|? ? D1 D2]; subst.
  destruct C as [C|C], I as [I|I]; [congruence| | |auto].
  - inversion C; subst. exfalso. apply D1. apply (in_map fst) in I. exact I.
  - inversion I; subst. exfalso. apply D1. apply (in_map fst) in C. exact C.
Qed.
Lemma fields_msg id said fs b : fields_reads id said b -> NoDup (map fst said) -> fills (snd (E id)) said fs -> msg_reads id fs b.
Proof.
  intros (LC & tbs & F & N2 & P2) D FI. split; [exact LC|]. exists (flat tbs). split; [exact N2|]. split; [exact P2|]. intros a z. constructor; [reflexivity|reflexivity|].
  pose proof (fills_same _ _ _ FI) as FS. rewrite (fills_blank id said fs FI).
  assert (X : forall rest tbs', Forall2 (fun nv tb => t_kind (fst tb) = TField /\ t_name (fst tb) = fst nv /\ exists ty, In (fst nv, ty) (snd (E id)) /\ rval E ig ty (snd nv) (fst tb) (snd tb)) rest tbs' ->
    incl rest said -> NoDup (map fst rest) -> rfields E ig id (waiting (map fst rest) (snd (E id)) fs) (flat tbs') fs).
  { intros rest tbs'. induction 1 as [|[n v] [t tk] rest tbs' (K & TN & ty & IT & RV) _ IH]; intros INC DR; [cbn [map]; rewrite (waiting_nil _ _ FS); constructor|].
    cbn [fst snd map] in *. inversion DR as [|? ? D1 D2]; subst. change (flat ((t, tk) :: tbs')) with (t :: tk ++ flat tbs').
    assert (AS : assoc (t_name t) (snd (E id)) = Some ty) by (apply (in_assoc (fun _ => 0)); [apply ND|exact IT]).
    apply (rf_cons E ig id _ ty v t tk (flat tbs') fs K AS); [|exact RV|].
    - apply waiting_assoc; [exact FS|left; reflexivity|exact AS].
    - rewrite waiting_set; [|exact FS|apply ND| |exact D1].
      + apply IH; [|exact D2]. intros y Y. apply INC. right. exact Y.
      + eapply fills_in; eauto. apply INC. left. reflexivity. }
  apply (X said tbs F); [apply incl_refl|exact D].
Qed.
Lemma closing_line c rs l : closing c rs -> line_of space rs l -> exists cl more, ended [c] cl /\ ln_items l = cl :: more.
Proof.
  intros (cl & tl & S & EN & _) L. destruct (spaced_items space S32 S9 SP _ _ l L S) as (e & _ & IT). cbn [app] in IT. eauto.
Qed.
Lemma closing_chars c rs : closing c rs -> line_chars rs.
Proof. intros (cl & tl & S & _). eapply spaced_chars; exact S. Qed.
Lemma closing_skip c l cl more rest : c = 93 \/ c = 125 -> ended [c] cl -> ln_items l = cl :: more -> skipLines false (l :: rest) = l :: rest.
Proof. intros C EN IT. eapply skip_some; [exact IT|]. destruct EN as [->| ->]; cbn [app]; do 2 eexists; (split; [reflexivity|lia]). Qed.
(** The lines of a struct, to the brace that closes it. *)
Lemma nested_closed id fs b rc : msg_reads id fs b -> closing 125 rc -> Forall line_chars (b ++ [rc]) /\ exists toks,
  (forall ls rest j, LO (b ++ [rc]) ls -> (length (ls ++ rest) < j)%nat -> PNS j (ls ++ rest) = (toks ++ [tok0 TStructEnd [] 0], Ok rest)) /\
  forall a, rmsg E ig id fs (tok0 TStructStart a 0 :: toks ++ [tok0 TStructEnd [] 0]).
Proof.
  intros (LC & toks & N2 & _ & RM) CL. split; [apply Forall_app; split; [exact LC|constructor; [eapply closing_chars; exact CL|constructor]]|]. exists toks. split; [|intros a; apply RM].
  intros ls rest j F L. apply lo_app in F as (ls1 & ls2 & -> & F1 & F2). apply lo_one in F2 as (lc & -> & L2). rewrite <- app_assoc in L |- *. cbn [app] in L |- *.
  destruct (N2 ls1 (lc :: rest) j F1 L) as (m & LM & ->). destruct m as [|m]; [cbn in LM; lia|]. destruct (closing_line 125 rc lc CL L2) as (cl & more & EN & IT). cbn [parseNestedStruct].
  rewrite (closing_skip 125 lc cl more rest) by auto. unfold first_word. rewrite IT. destruct EN as [->| ->]; reflexivity.
Qed.
Lemma msg_field n id fs rs tl body rc : ident n -> headed n rs ([123] :: tl) -> msg_reads id fs body -> closing 125 rc ->
  field_reads n (TyMsg id) (FMsg (if nothing_set fs then None else Some (TMsg (fst (E id)) fs))) (rs :: body ++ [rc]).
Proof.
  intros I H M CL. destruct (nested_closed id fs body rc M CL) as (LC & toks & RD & RM). pose proof H as (hd & HD & S). split; [constructor; [eapply spaced_chars; exact S|exact LC]|].
  exists (tok0 TField n FTStruct), (tok0 TStructStart n 0 :: toks ++ [tok0 TStructEnd [] 0]). split.
  - intros ls rest j k F L _. apply lo_cons in F as (l0 & more & -> & L0 & F). exists l0, more. split; [reflexivity|].
    destruct (headed_line space S32 S9 SP n rs _ l0 I H L0) as (hd' & e & HD' & NE & IT). cbn [app] in IT. split; [eapply items_opens; eauto; discriminate|].
    rewrite (items_field pf (PNS j) k n hd' [123] (tl ++ e) l0 _ I HD' IT) by discriminate.
    change (parseValue pf (PNS j) k n [123] (tl ++ e) (ln_raw l0) (more ++ rest)) with (pbind (yield [tok0 TField n FTStruct; tok0 TStructStart n 0]) (fun _ => PNS j (more ++ rest))).
    rewrite RD; [reflexivity|exact F|]. cbn [app length] in L. lia.
  - split; [reflexivity|]. split; [reflexivity|]. destruct (nothing_set fs) eqn:Z; [eapply rv_zero|apply rv_msg]; eauto.
Qed.

(** ** Lists of structs *)
Definition msgs_read (id : nat) (l : list tmsg) (b : list (list Z)) : Prop := Forall line_chars b /\ exists toks, rmsgs E ig id l toks /\
  forall ls rest j n, LO b ls -> (length (ls ++ rest) <= j)%nat -> (length (ls ++ rest) <= n)%nat -> arrayLines pf (PNS j) n (ls ++ rest) = (toks ++ [tok0 TListEnd [] 0], Ok rest).
Lemma msgs_end id rs : closing 93 rs -> msgs_read id [] [rs].
Proof.
  intros CL. split; [constructor; [eapply closing_chars; exact CL|constructor]|]. exists []. split; [constructor|]. intros ls rest j n F _ N. apply lo_one in F as (l & -> & L). cbn [app length] in *.
  destruct n as [|n]; [lia|]. destruct (closing_line 93 rs l CL L) as (cl & more & EN & IT). cbn [arrayLines]. rewrite (closing_skip 93 l cl more rest) by auto. rewrite IT, (close_items _ cl more rest EN). reflexivity.
Qed.
Lemma msgs_cons id fs ro body rc l b : spaced ro [[123]] -> msg_reads id fs body -> closing 125 rc -> msgs_read id l b -> msgs_read id (TMsg (fst (E id)) fs :: l) (ro :: body ++ [rc] ++ b).
Proof.
  intros S M CL (LC2 & toks2 & RS & RD2). destruct (nested_closed id fs body rc M CL) as (LC & toks & RD & RM). rewrite app_assoc.
  split; [constructor; [eapply spaced_chars; exact S|apply Forall_app; auto]|].
  exists ((tok0 TStructStart [] 0 :: toks ++ [tok0 TStructEnd [] 0]) ++ toks2). split; [constructor; auto|].
  intros ls rest j n F J N. apply lo_cons in F as (l0 & more & -> & L0 & F). apply lo_app in F as (ls1 & ls2 & -> & F1 & F2). cbn [app length] in *. destruct n as [|n]; [lia|].
  destruct (spaced_items space S32 S9 SP _ _ l0 L0 S) as (e & NE & IT). cbn [app] in IT. cbn [arrayLines]. rewrite (skip_some l0 [123] e) by (auto; exists 123, []; repeat split; lia).
  rewrite IT. cbn [arrayItems]. change (closes 93 [123]) with false. change (bytes_eqb [123] [44] || bytes_eqb [123] [10]) with false. change (bytes_eqb [123] [123]) with true. cbn iota.
  rewrite <- app_assoc in *. rewrite RD by (auto; lia). rewrite app_length in J, N.
  unfold pbind at 3. cbn [fst snd]. rewrite (newline_items (PNS j) e _ NE). specialize (RD2 ls2 rest j n F2 ltac:(lia) ltac:(lia)).
  unfold pbind. cbn [fst snd]. rewrite RD2. cbn [fst snd app]. rewrite !app_nil_r, <- !app_assoc. reflexivity.
Qed.
Lemma msgs_field n id l rs b : ident n -> headed n rs [[91]] -> msgs_read id l b -> field_reads n (TyMsgs id) (FMsgs l) (rs :: b).
Proof.
  intros I H (LC & toks & RS & RD). pose proof H as (hd & HD & S). split; [constructor; [eapply spaced_chars; exact S|exact LC]|].
  exists (tok0 TField n 0), (tok0 TListStart [] 0 :: toks ++ [tok0 TListEnd [] 0]). split; [|do 2 (split; [reflexivity|]); apply rv_msgs; auto].
  intros ls rest j k F L K. apply lo_cons in F as (l0 & more & -> & L0 & F). exists l0, more. split; [reflexivity|].
  destruct (headed_line space S32 S9 SP n rs _ l0 I H L0) as (hd' & e & HD' & NE & IT). cbn [app] in IT. split; [eapply items_opens; eauto; discriminate|].
  rewrite (items_field pf (PNS j) k n hd' [91] e l0 _ I HD' IT) by discriminate.
  change (parseValue pf (PNS j) k n [91] e (ln_raw l0) (more ++ rest)) with (parseArray pf (PNS j) k n e (more ++ rest)). unfold parseArray.
  replace (match e with w :: _ => bytes_eqb w [93] | [] => false end) with false by (destruct NE as [->| ->]; reflexivity).
  rewrite (newline_items (PNS j) e _ NE). cbn [app length] in L, K. specialize (RD more rest j k F ltac:(lia) ltac:(lia)). unfold pbind, yield. cbn [fst snd app]. rewrite RD. reflexivity.
Qed.

(** ** Maps *)
Definition entries_read (vt : valty) (id : nat) (said : list (mkey * mentry)) (b : list (list Z)) : Prop := Forall line_chars b /\ exists tbs,
  Forall2 (fun ke tb => t_kind (fst tb) = TMapEntry /\ tok_key KTStr (fst tb) = fst ke /\ key_ok KTStr (fst ke) /\ rentry E ig vt id (snd ke) (fst tb) (snd tb)) said tbs /\
  forall ls rest j n, LO b ls -> (length (ls ++ rest) <= j)%nat -> (length (ls ++ rest) <= n)%nat -> mapLines pf (PNS j) n (ls ++ rest) = (flat tbs ++ [tok0 TMapEnd [] 0], Ok rest).
Lemma entries_end vt id rs : closing 125 rs -> entries_read vt id [] [rs].
Proof.
  intros CL. split; [constructor; [eapply closing_chars; exact CL|constructor]|]. exists []. split; [constructor|]. intros ls rest j n F _ N. apply lo_one in F as (l & -> & L). cbn [app length] in *.
  destruct n as [|n]; [lia|]. destruct (closing_line 125 rs l CL L) as (cl & more & EN & IT). cbn [mapLines]. rewrite (closing_skip 125 l cl more rest) by auto. unfold first_word. rewrite IT. destruct EN as [->| ->]; reflexivity.
Qed.
Lemma key_utf8 s k : spelled s k -> key_ok KTStr (KStr (utf8 k)).
Proof.
  intros S. apply spelled_scalar in S. cbn. unfold byte_list, utf8. induction S as [|r rs [R1 R2] _ IH]; [constructor|]. cbn [flat_map]. apply Forall_app. split; [|exact IH].
  unfold utf8_of. destruct (Z.ltb_spec r 0x80); [|destruct (Z.ltb_spec r 0x800); [|destruct (Z.ltb_spec r 0x10000)]]; repeat constructor; dlia.
Qed.
(** A line that starts with a key. *)
Lemma entry_start s k w tl l e nested n q : spelled s k -> word (34 :: s ++ [34]) -> newline e -> ln_items l = ((34 :: s ++ [34]) :: [58] :: w :: tl) ++ e ->
  mapLines pf nested (S n) (l :: q) =
    let v := trimLast 44 w in
    let e := set_keyBytes (utf8 k) (tok0 TMapEntry [] 0) in
    if hasPrefix [34] v then pbind (of_res (unquoteString v)) (fun s => pbind (yield [setText s e]) (fun _ => mapLines pf nested n q))
    else if bytes_eqb v j_true then pbind (yield [setBool true e]) (fun _ => mapLines pf nested n q)
    else if bytes_eqb v j_false then pbind (yield [setBool false e]) (fun _ => mapLines pf nested n q)
    else if isNumber v then pbind (of_option (setNumber pf v e)) (fun e => pbind (yield [e]) (fun _ => mapLines pf nested n q))
    else if bytes_eqb v [123] then
      pbind (yield [set_type FTStruct e; tok0 TStructStart [] 0]) (fun _ => pbind (nested q) (fun ls => mapLines pf nested n ls))
    else pbind (yield [setName v e]) (fun _ => mapLines pf nested n q).
Proof.
  intros SL W NE IT. cbn [app] in IT. cbn [mapLines]. rewrite (skip_some l (34 :: s ++ [34]) ([58] :: w :: tl ++ e) q IT) by (exists 34, (s ++ [34]); repeat split; lia).
  unfold first_word. rewrite IT. unfold of_res at 1. rewrite pbind_field, pbind_nil.
  replace (closes 125 (34 :: s ++ [34])) with false by (unfold closes; rewrite eqb_neq by (intros X; inversion X); rewrite prefix_neq by lia; reflexivity).
  cbn [hasPrefix]. change (34 =? 34) with true. cbn [andb negb]. rewrite (unquote_word s k SL W). unfold of_res at 1. rewrite pbind_field, pbind_nil.
  change (bytes_eqb [58] [58]) with true. cbn [negb]. reflexivity.
Qed.
Lemma pbind_yield {A} t (x : pr A) : pbind (yield [t]) (fun _ => x) = (t :: fst x, snd x).
Proof. destruct x. reflexivity. Qed.
Lemma entries_word vt id s k e rs w tl l b : spaced rs ((34 :: s ++ [34]) :: [58] :: w :: tl) -> spelled s k -> entry_word pf vt w e -> entries_read vt id l b ->
  entries_read vt id ((KStr (utf8 k), e) :: l) (rs :: b).
Proof.
  intros S SL EW (LC & tbs & F & RD). split; [constructor; [eapply spaced_chars; exact S|exact LC]|].
  pose proof (spaced_word _ _ S) as W. inversion W as [|? ? W1 W2]; subst. inversion W2 as [|? ? _ W3]; subst. inversion W3 as [|? ? Ww _]; subst. clear W W2 W3.
  set (e0 := set_keyBytes (utf8 k) (tok0 TMapEntry [] 0)).
  assert (X : exists t, t_kind t = TMapEntry /\ t_keyBytes t = utf8 k /\ rentry E ig vt id e t [] /\
    forall (x : pr (list line)) (y : pr (list line)), (let v := trimLast 44 w in
     if hasPrefix [34] v then pbind (of_res (unquoteString v)) (fun s => pbind (yield [setText s e0]) (fun _ => x))
     else if bytes_eqb v j_true then pbind (yield [setBool true e0]) (fun _ => x)
     else if bytes_eqb v j_false then pbind (yield [setBool false e0]) (fun _ => x)
     else if isNumber v then pbind (of_option (setNumber pf v e0)) (fun e => pbind (yield [e]) (fun _ => x))
     else if bytes_eqb v [123] then y
     else pbind (yield [setName v e0]) (fun _ => x)) = (t :: fst x, snd x)).
  { destruct EW as [kd w z NEl|w bt SE].
    - inversion NEl as [w0 w' z0 KB BW EN EQ1 EQ2|w0 w' z0 NW EN EQ1 EQ2]; subst.
      + exists (setBool (0 <? z) e0). split; [reflexivity|]. split; [reflexivity|]. split.
        * replace z with (getValue KBool (setBool (0 <? z) e0)) by (destruct BW; reflexivity). destruct BW; apply ry_num.
        * intros x y. destruct BW, EN as [->| ->]; cbn -[pbind yield]; apply pbind_yield.
      + destruct (num_gives pf kd None w0 z NW) as (P & f & G & T). destruct (T e0 eq_refl) as (_ & T1 & T2 & _ & T3). exists (f e0). split; [rewrite T2; reflexivity|]. split; [rewrite T3; reflexivity|]. split.
        * rewrite <- (T1 eq_refl). apply ry_num.
        * intros x y. cbv zeta. rewrite (ended_trim w0 w (pl_last w0 P) EN). change j_true with true_word. change j_false with false_word.
          rewrite !(plain_not w0 w0) by (auto; cbn; auto; left; reflexivity).
          destruct G as [[IN G]|[IN ->]]; rewrite IN.
          -- destruct (pl_first w0 P) as (c & q & Q & L). rewrite Q at 1. unfold letter in L. rewrite prefix_neq by lia. rewrite G. unfold of_option. rewrite pbind_field, pbind_nil. apply pbind_yield.
          -- destruct (pl_first w0 P) as (c & q & Q & L). rewrite Q at 1. unfold letter in L. rewrite prefix_neq by lia. rewrite (eqb_neq w0 [123]) by (rewrite Q; intros X; inversion X; lia). apply pbind_yield.
    - inversion SE as [s1 rs1 w' SL1 EN EQ1 EQ2]; subst. exists (setText (utf8 rs1) e0). split; [reflexivity|]. split; [reflexivity|]. split; [exact (ry_str E ig id (setText (utf8 rs1) e0))|].
      intros x y. cbv zeta. rewrite (ended_trim _ _ (quote_last s1) EN). cbn [hasPrefix]. change (34 =? 34) with true. cbn [andb].
      rewrite (unquote_word s1 rs1 SL1) by (apply (ended_word _ w); [discriminate|exact EN|exact Ww]). unfold of_res. rewrite pbind_field, pbind_nil. apply pbind_yield. }
  destruct X as (t & K & KB & RE & RW). exists ((t, []) :: tbs). split.
  - constructor; [|exact F]. cbn [fst snd]. split; [exact K|]. split; [cbn [tok_key]; rewrite KB; reflexivity|]. split; [eapply key_utf8; exact SL|exact RE].
  - intros ls rest j n FL J N. apply lo_cons in FL as (l0 & more & -> & L0 & FL). cbn [app length] in *. destruct n as [|n]; [lia|].
    destruct (spaced_items space S32 S9 SP _ _ l0 L0 S) as (nl & NE & IT). rewrite (entry_start s k w tl l0 nl (PNS j) n (more ++ rest) SL W1 NE IT). cbv zeta. fold e0.
    rewrite RW. rewrite RD by (auto; lia). reflexivity.
Qed.
Lemma entries_msg id s k fs rs tl body rc l b : spaced rs ((34 :: s ++ [34]) :: [58] :: [123] :: tl) -> spelled s k -> msg_reads id fs body -> closing 125 rc -> entries_read VTStruct id l b ->
  entries_read VTStruct id ((KStr (utf8 k), EMsg (Some (TMsg (fst (E id)) fs))) :: l) (rs :: body ++ [rc] ++ b).
Proof.
  intros S SL M CL (LC2 & tbs & F2 & RD2). destruct (nested_closed id fs body rc M CL) as (LC & toks & RD & RM). rewrite app_assoc.
  split; [constructor; [eapply spaced_chars; exact S|apply Forall_app; auto]|].
  pose proof (spaced_word _ _ S) as W. inversion W as [|? ? W1 _]; subst.
  set (e0 := set_keyBytes (utf8 k) (tok0 TMapEntry [] 0)). exists ((set_type FTStruct e0, tok0 TStructStart [] 0 :: toks ++ [tok0 TStructEnd [] 0]) :: tbs). split.
  - constructor; [|exact F2]. cbn [fst snd]. split; [reflexivity|]. split; [reflexivity|]. split; [eapply key_utf8; exact SL|]. apply ry_msg. apply RM.
  - intros ls rest j n FL J N. apply lo_cons in FL as (l0 & more & -> & L0 & FL). apply lo_app in FL as (ls1 & ls2 & -> & FL1 & FL2). cbn [app length] in *. destruct n as [|n]; [lia|].
    destruct (spaced_items space S32 S9 SP _ _ l0 L0 S) as (nl & NE & IT). rewrite (entry_start s k [123] tl l0 nl (PNS j) n _ SL W1 NE IT). cbv zeta. fold e0.
    change (trimLast 44 [123]) with [123]. change (hasPrefix [34] [123]) with false. change (bytes_eqb [123] j_true) with false. change (bytes_eqb [123] j_false) with false. change (isNumber [123]) with false. change (bytes_eqb [123] [123]) with true. cbn iota.
    rewrite <- app_assoc in *. rewrite RD by (auto; lia). rewrite app_length in J, N. specialize (RD2 ls2 rest j n FL2 ltac:(lia) ltac:(lia)).
    unfold pbind, yield. cbn [fst snd]. rewrite RD2. cbn [fst snd app flat flat_map]. rewrite <- !app_assoc. reflexivity.
Qed.
Lemma upsert_new es k e : keys_ok KTStr (map fst es) -> key_ok KTStr k -> ~ In k (map fst es) -> Permutation (upsert KTStr es k e) ((k, e) :: es).
Proof.
  intros H K N. destruct (upsert_at KTStr es k e H K) as [(a & b & -> & A & B & ->)|(a & k0 & e0 & b & -> & A & Q & B & ->)].
  - apply Permutation_sym, Permutation_middle.
  - exfalso. apply N. rewrite map_app. apply in_app_iff. right. left. cbn [fst]. destruct k0, k; cbn in Q; congruence.
Qed.
Lemma entries_all vt id said tbs : Forall2 (fun ke tb => t_kind (fst tb) = TMapEntry /\ tok_key KTStr (fst tb) = fst ke /\ key_ok KTStr (fst ke) /\ rentry E ig vt id (snd ke) (fst tb) (snd tb)) said tbs ->
  forall cur, keys_ok KTStr (map fst cur) -> NoDup (map fst (cur ++ said)) -> exists es, rentries E ig KTStr vt id cur (flat tbs) es /\ keys_ok KTStr (map fst es) /\ Permutation es (cur ++ said).
Proof.
  induction 1 as [|[k e] [t b] said tbs (K & TK & KO & RE) _ IH]; intros cur H D.
  - exists cur. rewrite app_nil_r. split; [constructor|]. auto.
  - cbn [fst snd] in *. assert (NK : ~ In k (map fst cur)).
    { rewrite map_app in D. cbn [map fst] in D. apply NoDup_remove_2 in D. intros X. apply D. apply in_app_iff. left. exact X. }
    pose proof (upsert_new cur k e H KO NK) as PU.
    assert (PQ : Permutation (upsert KTStr cur k e ++ said) (cur ++ (k, e) :: said)).
    { rewrite PU. cbn [app]. apply Permutation_middle. }
    destruct (IH (upsert KTStr cur k e)) as (es & R & KS & P).
    + apply upsert_keys; assumption.
    + eapply Permutation_NoDup; [|exact D]. apply Permutation_map, Permutation_sym, PQ.
    + exists es. split; [|split; [exact KS|rewrite P; exact PQ]]. change (flat ((t, b) :: tbs)) with (t :: b ++ flat tbs). eapply re_cons; [exact K|exact RE| |exact R].
      rewrite TK. apply put_entry_ok; assumption.
Qed.
Lemma map_field n vt id said es rs tl b : ident n -> headed n rs ([64; 109; 97; 112] :: [123] :: tl) -> entries_read vt id said b ->
  NoDup (map fst said) -> Permutation said es -> StronglySorted (key_lt KTStr) (map fst es) -> field_reads n (TyMap KTStr vt id) (FMap KTStr vt es) (rs :: b).
Proof.
  intros I H (LC & tbs & F & RD) D P SO. pose proof H as (hd & HD & S). split; [constructor; [eapply spaced_chars; exact S|exact LC]|].
  destruct (entries_all vt id said tbs F []) as (es' & RE & [SO' _] & P'); [split; constructor|exact D|]. cbn [app] in P'.
  assert (es' = es) by (apply (key_unique KTStr); auto using str_key_irr; eapply Permutation_trans; eauto). subst es'.
  exists (tok0 TField n FTMap), (tok0 TMapStart [] 0 :: flat tbs ++ [tok0 TMapEnd [] 0]). split; [|do 2 (split; [reflexivity|]); apply rv_map; auto].
  intros ls rest j k FL L K. apply lo_cons in FL as (l0 & more & -> & L0 & FL). exists l0, more. split; [reflexivity|].
  destruct (headed_line space S32 S9 SP n rs _ l0 I H L0) as (hd' & e & HD' & NE & IT). cbn [app] in IT. split; [eapply items_opens; eauto; discriminate|].
  rewrite (items_field pf (PNS j) k n hd' [64; 109; 97; 112] ([123] :: tl ++ e) l0 _ I HD' IT) by discriminate.
  change (parseValue pf (PNS j) k n [64; 109; 97; 112] ([123] :: tl ++ e) (ln_raw l0) (more ++ rest)) with
    (pbind (yield [tok0 TField n FTMap; tok0 TMapStart [] 0]) (fun _ => mapLines pf (PNS j) k (more ++ rest))).
  cbn [app length] in L, K. rewrite RD by (auto; lia). reflexivity.
Qed.

(** ** All texts *)
Scheme shows_msg_ind' := Minimality for shows_msg Sort Prop
  with shows_fields_ind' := Minimality for shows_fields Sort Prop
  with shows_field_ind' := Minimality for shows_field Sort Prop
  with shows_msgs_ind' := Minimality for shows_msgs Sort Prop
  with shows_entries_ind' := Minimality for shows_entries Sort Prop.
Combined Scheme shows_ind from shows_msg_ind', shows_fields_ind', shows_field_ind', shows_msgs_ind', shows_entries_ind'.
Theorem shown_read :
  (forall id fs b, shows_msg pf E id fs b -> msg_reads id fs b) /\
  (forall id said b, shows_fields pf E id said b -> fields_reads id said b) /\
  (forall n ty v b, shows_field pf E n ty v b -> ident n -> field_reads n ty v b) /\
  (forall id l b, shows_msgs pf E id l b -> msgs_read id l b) /\
  (forall vt id l b, shows_entries pf E vt id l b -> entries_read vt id l b).
Proof.
  apply shows_ind; intros.
  - eapply fields_msg; eauto.
  - apply fields_none.
  - eapply fields_cons; eauto. apply H1. pose proof (NI id) as N. rewrite Forall_forall in N. apply (N _ H).
  - eapply word_field; eauto.
  - apply text_field; auto.
  - apply raw_field; auto.
  - eapply msg_field; eauto.
  - destruct (list_field (num_elem pf k e) (num_tok k e) n l b) as (LC & ts & F & RD); auto; [intros; eapply num_elem_reads; eauto|intros; eapply num_elem_reads; eauto|].
    split; [exact LC|]. exists (tok0 TField n 0), (tok0 TListStart [] 0 :: ts ++ [tok0 TListEnd [] 0]). split; [intros; apply RD; auto|]. do 2 (split; [reflexivity|]). apply rv_nums; auto.
  - destruct (list_field str_elem (fun b u => t_kind u = TField /\ t_bytes u = b) n l b) as (LC & ts & F & RD); auto.
    + intros w a SE. destruct SE as [s rs w' SL EN]. destruct (quote_ended s w' EN) as (q & ->). exists 34, q. auto 10.
    + intros; eapply str_elem_reads; eauto.
    + split; [exact LC|]. exists (tok0 TField n 0), (tok0 TListStart [] 0 :: ts ++ [tok0 TListEnd [] 0]). split; [intros; apply RD; auto|]. do 2 (split; [reflexivity|]). apply rv_strs; auto.
  - eapply msgs_field; eauto.
  - eapply map_field; eauto.
  - apply msgs_end; auto.
  - apply msgs_cons; auto.
  - apply entries_end; auto.
  - eapply entries_word; eauto.
  - eapply entries_msg; eauto.
Qed.
End Hand.

Lemma hand_read pf E ig lexer id fs rss : splits lexer -> names_ident E -> names_differ E -> shows_msg pf E id fs rss -> Forall visible rss ->
  UnmarshalText pf lexer E ig id (blank E id) (text_of_lines rss) = Ok fs.
Proof.
  intros (space & S32 & S9 & SP & LX) NI ND SH VI. destruct (shown_read pf E ig space S32 S9 SP NI ND) as [M _]. destruct (M id fs rss SH) as (LC & toks & _ & P & RM).
  destruct (LX rss LC VI) as (ls & extra & LE & F & X).
  unfold UnmarshalText. rewrite LE. unfold textToTokens. destruct (P ls extra (S (length (ls ++ extra))) F ltac:(lia)) as (m & LM & ->).
  destruct m as [|m]; [lia|].
  assert (SK : skipLines false extra = []).
  { clear -X. induction X as [|l extra [Q|Q] _ IH]; [reflexivity| |]; cbn [skipLines]; unfold blank_line; rewrite Q; exact IH. }
  cbn [parseFields]. rewrite SK. unfold pbind, yield. cbn [fst snd app].
  rewrite app_nil_r. rewrite <- (app_nil_r (_ :: toks ++ _)). apply render_ingest. apply RM.
Qed.
