(** The words of texts written by hand as values. *)
From Coq Require Import ZArith List Bool Lia ZifyBool.
Import ListNotations.
From Verif.Model Require Import Base Utf8 Field MapApi Token Walk Escape Json TokenStream Ingest JsonRead ClawText.
From Verif.Spec Require Import Text Message TokenGrammar Values Ingest JsonGrammar JsonRead ClawText ClawHand.
From Verif.Proofs Require Import BaseLemmas Utf8Proofs JsonLits TokenVals IngestProofs Rendering JsonReadProofs ClawTotal ClawLine ClawRound ClawHandWords.
From Verif.Spec Require Import Message JsonGrammar JsonRead ClawText ClawHand.
From Verif.Model Require Import Ingest ClawText.
Open Scope Z_scope.

Lemma ended_trim w w' : hasLast 44 w = false -> ended w w' -> trimLast 44 w' = w.
Proof. intros N [->| ->]; [unfold trimLast; rewrite N; reflexivity|apply trimLast_snoc]. Qed.
Lemma hasLast_none c w : ~ In c w -> hasLast c w = false.
Proof.
  intros N. unfold hasLast. destruct (rev w) as [|d r] eqn:R; [reflexivity|]. apply Z.eqb_neq. intros ->. apply N. apply in_rev. rewrite R. left. reflexivity.
Qed.
Lemma eqb_neq a b : a <> b -> bytes_eqb a b = false.
Proof. intros N. apply not_true_is_false. intros X. apply bytes_eqb_eq in X. auto. Qed.
Lemma prefix_neq c p d q : c <> d -> hasPrefix (c :: p) (d :: q) = false.
Proof. intros. cbn [hasPrefix]. apply andb_false_iff. left. lia. Qed.

Section Values.
Variable pf : bytes -> option Z.
Variable E : env.
Variable ig : bool.

(** ** Plain words: numbers and names *)
Record plain (w : list Z) : Prop := {
  pl_last : hasLast 44 w = false;
  pl_word : ~ In w [null_word; true_word; false_word];
  pl_first : exists c q, w = c :: q /\ (letter c \/ 48 <= c <= 57 \/ c = 45 \/ c = 43);
  pl_hex : forall w', ended w w' -> hasPrefix [48; 120] w' = false /\ hasPrefix [48; 88] w' = false }.
Lemma plain_first w w' : plain w -> ended w w' -> exists c q, w' = c :: q /\ (letter c \/ 48 <= c <= 57 \/ c = 45 \/ c = 43).
Proof. intros P [->| ->]; destruct (pl_first w P) as (c & q & -> & L); [|exists c, (q ++ [44])]; eauto. Qed.
Lemma plain_not w w' x : plain w -> ended w w' -> In x [null_word; true_word; false_word] -> bytes_eqb w' x = false.
Proof.
  intros P [->| ->] I; [apply eqb_neq; intros ->; exact (pl_word x P I)|]. apply last_differs. cbn in I. destruct I as [<-|[<-|[<-|[]]]]; reflexivity.
Qed.
Lemma isNumber_ended w w' : hasLast 44 w = false -> ended w w' -> isNumber w' = isNumber w.
Proof. intros N H. unfold isNumber. rewrite (ended_trim w w' N H), (ended_trim w w N) by (left; reflexivity). reflexivity. Qed.
Lemma plain_value w w' nested k n items raw ls : plain w -> ended w w' -> parseValue pf nested k n w' items raw ls =
  if isNumber w then pbind (emitNumber pf n w) (fun _ => ([], Ok ls)) else ([setName w (tok0 TField n 0)], Ok ls).
Proof.
  intros P H. unfold parseValue. cbn zeta. destruct (pl_hex w P w' H) as [X1 X2]. rewrite X1, X2.
  change j_null with null_word. change j_true with true_word. change j_false with false_word.
  rewrite !(plain_not w w') by (auto; cbn; auto). rewrite (isNumber_ended w w' (pl_last w P) H), (ended_trim w w' (pl_last w P) H).
  destruct (plain_first w w' P H) as (c & q & -> & L). unfold letter in L.
  rewrite !eqb_neq by (intros X; inversion X; subst; lia). rewrite !prefix_neq by lia. reflexivity.
Qed.
Lemma plain_elem w w' : plain w -> ended w w' -> emitArrayElement pf w' = if isNumber w then emitNumber pf [] w else yield [setName w (tok0 TField [] 0)].
Proof.
  intros P H. unfold emitArrayElement. cbn zeta. rewrite (ended_trim w w' (pl_last w P) H).
  change j_true with true_word. change j_false with false_word. rewrite !(plain_not w w) by (auto; cbn; auto; left; reflexivity).
  destruct (pl_first w P) as (c & q & -> & L). unfold letter in L. rewrite !prefix_neq by lia. reflexivity.
Qed.

(** The token of a plain word. *)
Definition gives (w : list Z) (f : token -> token) : Prop :=
  (isNumber w = true /\ forall t, setNumber pf w t = Some (f t)) \/ (isNumber w = false /\ f = setName w).
Lemma gives_emit w f n : plain w -> gives w f ->
  (if isNumber w then emitNumber pf n w else yield [setName w (tok0 TField n 0)]) = ([f (tok0 TField n 0)], Ok tt).
Proof.
  intros P [[-> H]|[-> ->]]; [|reflexivity]. unfold emitNumber. rewrite (ended_trim w w (pl_last w P)) by (left; reflexivity). rewrite H. reflexivity.
Qed.
Lemma digits_hex w : Forall (fun c => 48 <= c <= 57 \/ In c [43; 45; 46; 69; 101]) w -> forall w', ended w w' -> hasPrefix [48; 120] w' = false /\ hasPrefix [48; 88] w' = false.
Proof.
  intros F w' H. assert (F' : Forall (fun c => c <> 120 /\ c <> 88) w').
  { assert (X : Forall (fun c => c <> 120 /\ c <> 88) w) by (eapply Forall_impl; [|exact F]; cbn; intros; lia).
    destruct H as [->| ->]; [exact X|]. apply Forall_app. split; [exact X|repeat constructor; lia]. }
  clear F H. destruct w' as [|c [|d w']]; [split; reflexivity|split; cbn [hasPrefix]; apply andb_false_r|].
  inversion F' as [|? ? _ F2]; subst. inversion F2; subst. cbn [hasPrefix]. split; apply andb_false_iff; right; apply andb_false_iff; left; lia.
Qed.
Lemma digits_plain w : Forall (fun c => 48 <= c <= 57 \/ In c [43; 45; 46; 69; 101]) w ->
  (exists c q, (w = c :: q \/ w = 43 :: c :: q \/ w = 45 :: c :: q) /\ 48 <= c <= 57) -> plain w /\ isNumber w = true.
Proof.
  intros F (c & q & W & C). assert (L : hasLast 44 w = false).
  { apply hasLast_none. intros I. rewrite Forall_forall in F. apply F in I. cbn in I. lia. }
  split.
  - split; [exact L| | |apply digits_hex, F].
    + intros I. assert (Q : exists d r, w = d :: r /\ (48 <= d <= 57 \/ d = 43 \/ d = 45)) by (destruct W as [->|[->| ->]]; eauto 10).
      destruct Q as (d & r & -> & D). cbn in I. destruct I as [I|[I|[I|[]]]]; inversion I; lia.
    + destruct W as [->|[->| ->]]; eauto 10.
  - unfold isNumber. rewrite (ended_trim w w L) by (left; reflexivity). unfold isDigit. destruct W as [->|[->| ->]]; cbn [Z.eqb Pos.eqb orb]; try lia.
    replace ((c =? 45) || (c =? 43)) with false by lia. lia.
Qed.
Lemma num_gives k e w z : num_word pf k e w z -> plain w /\ exists f, gives w f /\
  forall t, t_bytes t = [] -> tok_num k e (f t) = z /\ (e = None -> getValue k (f t) = z) /\ t_kind (f t) = t_kind t /\ t_name (f t) = t_name t /\ t_keyBytes (f t) = t_keyBytes t.
Proof.
  assert (INT : forall w z, int_lit w z -> - 2 ^ 63 <= z < 2 ^ 63 -> plain w /\ gives w (setValue KI64 z)).
  { intros w' z' LIT R. destruct (int_lit_chars w' z' LIT) as [C N]. destruct (digits_plain w') as [P I].
    - eapply Forall_impl; [|exact C]. cbn. unfold digit. lia.
    - destruct (int_lit_digits w' z' LIT) as (ds & ND & D & W). destruct ds as [|d ds]; [congruence|]. inversion D as [|? ? D1 _]; subst. exists d, ds. unfold digit in D1.
      split; [|exact D1]. destruct W as [[-> _]|[-> _]]; auto.
    - split; [exact P|]. left. split; [exact I|]. intros t. unfold setNumber. rewrite (isFloat_lit w' C), (parseInt_lit w' z' LIT R). reflexivity. }
  intros [k0 e0 w0 z0 KI NB LIT R L|k0 e0 w0 LIT|e0 w0 f (FC & FP & FD) PF R KE|k0 tbl w0 z0 KE ID NR IN D].
  - assert (R63 : - 2 ^ 63 <= z0) by (destruct KI; destruct k0; cbn [in_range] in R; lia).
    destruct (INT w0 z0 LIT ltac:(lia)) as [P G]. split; [exact P|]. exists (setValue KI64 z0). split; [exact G|]. intros t T.
    assert (V : getValue k0 (setValue KI64 z0 t) = z0) by (unfold getValue; cbn [t_data setValue]; pose proof (get_as_i64 k0 z0 KI R L NB) as Q; exact Q).
    unfold tok_num. cbn [t_bytes setValue]. rewrite T. change (0 <? len []) with false. cbn iota. split; [destruct e0; exact V|]. auto.
  - destruct (INT w0 0 LIT ltac:(lia)) as [P G]. split; [exact P|]. exists (setValue KI64 0). split; [exact G|]. intros t T.
    assert (V : getValue k0 (setValue KI64 0 t) = 0) by (destruct k0; reflexivity).
    unfold tok_num. cbn [t_bytes setValue]. rewrite T. change (0 <? len []) with false. cbn iota. split; [destruct e0; exact V|]. auto.
  - destruct (digits_plain w0 FC FD) as [P I]. split; [exact P|]. exists (fun t => setValue KF64 f (set_type FTFloat64 t)). split.
    + left. split; [exact I|]. intros t. unfold setNumber. replace (isFloat w0) with true; [rewrite PF; reflexivity|]. symmetry. unfold isFloat. apply existsb_exists.
      destruct FP as [Q|[Q|Q]]; eexists; (split; [exact Q|reflexivity]).
    + intros t T. assert (V : getValue KF64 (setValue KF64 f (set_type FTFloat64 t)) = f) by (unfold getValue; cbn [t_data setValue]; apply get_put; exact R).
      unfold tok_num. cbn [t_bytes setValue set_type]. rewrite T. change (0 <? len []) with false. cbn iota. split; [destruct e0; exact V|]. auto.
  - assert (P : plain w0).
    { pose proof ID as ID'. destruct w0 as [|c q]; [destruct ID|]. destruct ID as [LT F]. split; auto.
      - apply hasLast_none. intros I. unfold letter in *. destruct I as [->|I]; [lia|]. rewrite Forall_forall in F. apply F in I. lia.
      - exists c, q. auto.
      - intros w' H. destruct H as [->| ->]; unfold letter in LT; cbn [app]; rewrite !prefix_neq by lia; auto. }
    split; [exact P|]. exists (setName w0). split.
    + right. split; [|reflexivity]. unfold isNumber. rewrite (ended_trim w0 w0 (pl_last w0 P)) by (left; reflexivity). destruct w0 as [|c q]; [reflexivity|]. destruct ID as [LT _]. unfold letter in LT.
      replace ((c =? 45) || (c =? 43)) with false by lia. unfold isDigit. lia.
    + intros t T. unfold tok_num. cbn [t_bytes setName set_bytes]. replace (0 <? len w0) with true by (destruct w0; [destruct ID|unfold len; cbn [length]; lia]).
      unfold by_name. rewrite (in_assoc (fun _ => 0) _ _ _ D IN). split; [reflexivity|]. split; [discriminate|]. auto.
Qed.
Lemma num_kept k e w z : num_word pf k e w z -> kept k z = z.
Proof. intros [k0 e0 w0 z0 KI NB LIT R L|k0 e0 w0 LIT|e0 w0 f FL PF R KE|k0 tbl w0 z0 KE ID NR IN D]; auto; [apply int_kept, KI|apply zero_kept]. Qed.

(** ** Fields *)
Lemma hex_chars b s : hex_text b s -> hexDecode s = Some b /\ ~ In 44 s /\ ~ In 88 s.
Proof.
  induction 1 as [|b d c1 c2 t v1 v2 D1 D2 EQ _ (IH & N1 & N2)]; [repeat split; intros []|]. subst b.
  assert (X : forall c v, hexdigit c v -> c <> 44 /\ c <> 88) by (intros c v H; inversion H; lia).
  pose proof (X _ _ D1). pose proof (X _ _ D2). apply hexdigit_val in D1, D2. destruct D1 as [D1 _], D2 as [D2 _].
  cbn [hexDecode]. rewrite D1, D2, IH. cbn [In]. repeat split; intros Q; repeat destruct Q as [Q|Q]; try lia; auto.
Qed.
Lemma backticks_none t : ~ In 96 t -> backticks t = t.
Proof.
  destruct t as [|c q]; [reflexivity|]. intros N. cbn [backticks]. assert (C : c <> 96) by (intros ->; apply N; left; reflexivity).
  repeat match goal with |- match ?x with _ => _ end = _ => destruct x; try reflexivity end. congruence.
Qed.
Lemma raw_word t ls : ~ In 96 t -> parseRawString (96 :: t ++ [96]) ls = Ok (t, ls).
Proof.
  intros N. unfold parseRawString. cbn [filter]. change (96 =? 96) with true. cbn iota. rewrite filter_app. cbn [filter]. change (96 =? 96) with true. cbn iota.
  replace (2 <=? len (96 :: filter (Z.eqb 96) t ++ [96])) with true by (unfold len; cbn [length]; rewrite app_length; cbn [length]; lia).
  cbn [backticks]. destruct t as [|c q]; [reflexivity|]. do 2 f_equal.
  assert (B : backticks ((c :: q) ++ [96]) = (c :: q) ++ [96]).
  { cbn [app backticks]. assert (C : c <> 96) by (intros ->; apply N; left; reflexivity). repeat match goal with |- match ?x with _ => _ end = _ => destruct x; try reflexivity end. congruence. }
  rewrite B, rev_unit. cbn [backticks]. rewrite backticks_none by (intros I; apply N, in_rev, I). apply rev_involutive.
Qed.
Lemma trimComma_ended w w' : hasLast 44 w = false -> ended w w' -> trimComma w' = w.
Proof.
  intros N [->| ->]; unfold trimComma.
  - unfold hasLast in N. destruct (rev w) as [|d r] eqn:R; [reflexivity|]. repeat match goal with |- match ?x with _ => _ end = _ => destruct x; try reflexivity end. discriminate.
  - rewrite rev_unit. apply rev_involutive.
Qed.
Lemma quote_last s : hasLast 44 (34 :: s ++ [34]) = false.
Proof. change (34 :: s ++ [34]) with ((34 :: s) ++ [34]). rewrite hasLast_snoc. reflexivity. Qed.
Lemma quote_ended s w' : ended (34 :: s ++ [34]) w' -> exists q, w' = 34 :: q.
Proof. intros [->| ->]; cbn [app]; eauto. Qed.
Lemma ended_word w w' : w <> [] -> ended w w' -> word w' -> word w.
Proof. intros N [->| ->] [_ P]; [split; auto|]. apply Forall_app in P as [P _]. split; auto. Qed.
Lemma field_value ty w v n : word w -> field_word pf ty w v -> exists t,
  (forall nested k items raw ls, parseValue pf nested k n w items raw ls = ([t], Ok ls)) /\ t_kind t = TField /\ t_name t = n /\ rval E ig ty v t [].
Proof.
  intros W FW. revert W. destruct FW as [ty0|e w0 z [| ]|k e w0 w' z NW EN|s rs w' SL EN|s b w' HX EN|t NT]; intros W.
  - exists (set_nil (tok0 TField n 0)). split; [intros; reflexivity|]. do 2 (split; [reflexivity|]).
    destruct ty0 as [k e|st| | | | | | |]; try (apply rv_nil; reflexivity).
    + apply rv_num. unfold tok_num. cbn [t_bytes set_nil tok0]. change (0 <? len []) with false. cbn iota. destruct e, k; reflexivity.
    + apply rv_str. reflexivity.
  - exists (setBool true (tok0 TField n 0)). split; [intros; reflexivity|]. do 2 (split; [reflexivity|]). apply rv_num. destruct e; reflexivity.
  - exists (setBool false (tok0 TField n 0)). split; [intros; reflexivity|]. do 2 (split; [reflexivity|]). apply rv_num. destruct e; reflexivity.
  - destruct (num_gives k e w0 z NW) as (P & f & G & T). exists (f (tok0 TField n 0)). destruct (T (tok0 TField n 0) eq_refl) as (T1 & _ & T2 & T3 & _).
    split; [|split; [rewrite T2; reflexivity|split; [rewrite T3; reflexivity|apply rv_num; rewrite T1; eapply num_kept; eauto]]].
    intros nested k0 items raw ls. rewrite (plain_value w0 w') by auto. destruct G as [[I G]|[I ->]]; rewrite I; [|reflexivity].
    unfold emitNumber. rewrite (ended_trim w0 w0 (pl_last w0 P)) by (left; reflexivity). rewrite G. reflexivity.
  - exists (setText (utf8 rs) (tok0 TField n 0)). split; [|do 2 (split; [reflexivity|]); apply rv_str; reflexivity].
    intros nested k items raw ls. unfold parseValue. cbn zeta.
    assert (U : parseQuotedString w' raw = Ok (utf8 rs)).
    { unfold parseQuotedString. cbn zeta. rewrite (trimComma_ended _ _ (quote_last s) EN).
      change (34 :: s ++ [34]) with ((34 :: s) ++ [34]) at 1. rewrite rev_unit. cbn [rev].
      destruct (rev s ++ [34]) as [|x y] eqn:Q; [apply app_eq_nil in Q as [_ Q]; discriminate|]. apply unquote_word; [exact SL|]. apply (ended_word _ w'); [discriminate|exact EN|exact W]. }
    destruct (quote_ended s w' EN) as (q & ->). rewrite !eqb_neq by (intros X; inversion X). cbn [hasPrefix]. change (34 =? 34) with true. cbn [andb]. rewrite U. reflexivity.
  - destruct (hex_chars b s HX) as (H1 & H2 & H3). exists (set_bytes b (set_type FTBytes (tok0 TField n 0))). split; [|do 2 (split; [reflexivity|]); apply rv_str; reflexivity].
    intros nested k items raw ls. unfold parseValue. cbn zeta.
    assert (Q : exists s', w' = 48 :: 120 :: s' /\ ended s s') by (destruct EN as [->| ->]; [exists s|exists (s ++ [44])]; split; unfold ended; auto).
    destruct Q as (s' & -> & EN'). rewrite !eqb_neq by (intros X; inversion X). cbn [hasPrefix]. change (34 =? 48) with false. change (96 =? 48) with false.
    change (48 =? 48) with true. change (120 =? 120) with true. change (88 =? 120) with false. cbn [andb orb]. cbv iota. change (drop 2 (48 :: 120 :: s')) with s'.
    assert (HP : match s' with [] => false | d :: s0 => (48 =? d) && match s0 with [] => false | d0 :: _ => (88 =? d0) && true end end = false).
    { assert (N : ~ In 88 s') by (destruct EN' as [->| ->]; [exact H3|rewrite in_app_iff; intros [X|[X|[]]]; [auto|lia]]).
      destruct s' as [|c [|d s']]; [reflexivity|apply andb_false_r|]. apply andb_false_iff. right. apply andb_false_iff. left. apply Z.eqb_neq. intros <-. apply N. right. left. reflexivity. }
    rewrite HP. rewrite (ended_trim s s') by (auto; apply hasLast_none, H2). rewrite H1. reflexivity.
  - exists (setText t (tok0 TField n 0)). split; [|do 2 (split; [reflexivity|]); apply rv_str; reflexivity].
    intros nested k items raw ls. unfold parseValue. cbn zeta. rewrite !eqb_neq by (intros X; inversion X). rewrite prefix_neq by lia. cbn [hasPrefix]. change (96 =? 96) with true. cbn [andb].
    rewrite raw_word by exact NT. reflexivity.
Qed.

(** ** Elements of lists *)
Definition elem_starts (w : list Z) : Prop := exists c q, w = c :: q /\ (letter c \/ 48 <= c <= 57 \/ c = 45 \/ c = 43 \/ c = 34).
Lemma num_elem_reads k e w z : num_elem pf k e w z -> elem_starts w /\ exists t, emitArrayElement pf w = ([t], Ok tt) /\ num_tok k e z t.
Proof.
  intros [w0 w' z0 -> BW EN|w0 w' z0 NW EN].
  - split; [destruct BW, EN as [->| ->]; cbn; unfold elem_starts, letter; do 2 eexists; (split; [reflexivity|lia])|].
    exists (setBool (0 <? z0) (tok0 TField [] 0)).  split; [destruct BW, EN as [->| ->]; reflexivity|]. destruct BW; (split; [reflexivity|]); (split; [destruct e; reflexivity|reflexivity]).
  - destruct (num_gives k e w0 z0 NW) as (P & f & G & T). destruct (T (tok0 TField [] 0) eq_refl) as (T1 & _ & T2 & _). split.
    + destruct (plain_first w0 w' P EN) as (c & q & -> & L). exists c, q. split; [reflexivity|]. tauto.
    + exists (f (tok0 TField [] 0)). split; [rewrite (plain_elem w0 w' P EN); apply gives_emit; auto|]. split; [rewrite T2; reflexivity|]. split; [exact T1|reflexivity].
Qed.
Lemma str_elem_reads w b : word w -> str_elem w b -> elem_starts w /\ exists t, emitArrayElement pf w = ([t], Ok tt) /\ t_kind t = TField /\ t_bytes t = b.
Proof.
  intros W SE. revert W. destruct SE as [s rs w' SL EN]. intros W. split; [destruct (quote_ended s w' EN) as (q & ->); exists 34, q; auto 10|]. exists (setText (utf8 rs) (tok0 TField [] 0)). split; [|split; reflexivity].
  unfold emitArrayElement. cbn zeta. rewrite (ended_trim _ _ (quote_last s) EN). rewrite !eqb_neq by (intros X; inversion X). cbn [hasPrefix]. change (34 =? 34) with true. cbn [andb].
  rewrite (unquote_word s rs); [reflexivity|exact SL|apply (ended_word _ w'); [discriminate|exact EN|exact W]].
Qed.
End Values.
