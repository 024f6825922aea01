(** UTF-8 decoding inverts encoding, and escaping inverts unescaping. *)
From Coq Require Import ZArith List Bool Lia ZifyBool.
Import ListNotations.
From Verif.Model Require Import Base Utf8 Escape.
From Verif.Spec Require Import Text.
Open Scope Z_scope.

Ltac dlia := Z.to_euclidean_division_equations; lia.
Lemma AppendRune_scalar r : scalar r -> AppendRune r = utf8_of r.
Proof.
  intros [R S]. unfold AppendRune, utf8_of.
  assert (E : (0 <=? r) = true) by lia. rewrite E. cbn [andb].
  destruct (Z.ltb_spec r 0x80); [reflexivity|].
  destruct (Z.ltb_spec r 0x800); [reflexivity|].
  assert (E' : (r <? 0) || ((0xD800 <=? r) && (r <=? 0xDFFF)) || (0x10FFFF <? r) = false) by lia. rewrite E'. reflexivity.
Qed.

Lemma ir_true lo hi b : lo <= b <= hi -> in_range lo hi b = true.
Proof. unfold in_range. lia. Qed.
Lemma ir_false lo hi b : ~ lo <= b <= hi -> in_range lo hi b = false.
Proof. unfold in_range. lia. Qed.

Lemma second_ok p0 b1 :
  (p0 = 0xE0 -> 0xA0 <= b1) -> (p0 = 0xED -> b1 <= 0x9F) -> (p0 = 0xF0 -> 0x90 <= b1) -> (p0 = 0xF4 -> b1 <= 0x8F) ->
  0x80 <= b1 <= 0xBF -> in_range (fst (second p0)) (snd (second p0)) b1 = true.
Proof.
  intros. unfold second.
  destruct (Z.eqb_spec p0 0xE0); [apply ir_true; cbn; lia|].
  destruct (Z.eqb_spec p0 0xED); [apply ir_true; cbn; lia|].
  destruct (Z.eqb_spec p0 0xF0); [apply ir_true; cbn; lia|].
  destruct (Z.eqb_spec p0 0xF4); [apply ir_true; cbn; lia|]. apply ir_true; cbn; lia.
Qed.

Lemma DecodeRune_utf8 r rest : scalar r -> DecodeRune (utf8_of r ++ rest) = (r, length (utf8_of r)).
Proof.
  intros [R S]. unfold utf8_of.
  destruct (Z.ltb_spec r 0x80); [cbn -[Z.ltb]; replace (r <? 128) with true by lia; reflexivity|].
  destruct (Z.ltb_spec r 0x800).
  { cbn -[Z.ltb Z.modulo Z.div Z.add Z.mul in_range]. replace (_ <? 128) with false by dlia.
    rewrite ir_true by dlia. rewrite ir_true by dlia. f_equal. dlia. }
  destruct (Z.ltb_spec r 0x10000).
  { cbn -[Z.ltb Z.modulo Z.div Z.add Z.mul in_range second]. replace (_ <? 128) with false by dlia.
    rewrite ir_false by dlia. rewrite ir_true by dlia. rewrite second_ok by dlia. rewrite ir_true by dlia. cbn [andb].
    f_equal. dlia. }
  cbn -[Z.ltb Z.modulo Z.div Z.add Z.mul in_range second]. replace (_ <? 128) with false by dlia.
  rewrite ir_false by dlia. rewrite ir_false by dlia. rewrite ir_true by dlia.
  rewrite second_ok by dlia. rewrite ir_true by dlia. rewrite ir_true by dlia. cbn [andb].
  f_equal. dlia.
Qed.

Lemma utf8_of_len r : (1 <= length (utf8_of r) <= 4)%nat.
Proof. unfold utf8_of. destruct (_ <? _); [cbn; lia|]. destruct (_ <? _); [cbn; lia|]. destruct (_ <? _); cbn; lia. Qed.

Lemma skipn_app_len {A} (a b : list A) : skipn (length a) (a ++ b) = b.
Proof. induction a; cbn; auto. Qed.

Lemma range_fuel_utf8 rs : Forall scalar rs -> forall n, (length (utf8 rs) <= n)%nat -> range_fuel n (utf8 rs) = rs.
Proof.
  induction 1 as [|r rs Sr _ IH]; intros n L; [destruct n; reflexivity|].
  unfold utf8 in *. cbn [flat_map] in *. rewrite app_length in L. pose proof (utf8_of_len r).
  destruct n as [|n]; [lia|]. cbn [range_fuel].
  pose proof (DecodeRune_utf8 r (flat_map utf8_of rs) Sr) as D.
  destruct (utf8_of r ++ flat_map utf8_of rs) as [|x q] eqn:E.
  { apply app_eq_nil in E. destruct E as [E _]. rewrite E in H. cbn in H. lia. }
  rewrite D. rewrite <- E, skipn_app_len. f_equal. apply IH. lia.
Qed.
Lemma runes_utf8 rs : Forall scalar rs -> runes (utf8 rs) = rs.
Proof. intros. apply range_fuel_utf8; auto. Qed.

(** Whatever the bytes, the runes are scalar values. *)
Lemma ir_spec lo hi b : in_range lo hi b = true -> lo <= b <= hi.
Proof. unfold in_range. lia. Qed.
Ltac sca := unfold scalar; dlia.
Lemma DecodeRune_scalar s : Forall (fun b => 0 <= b <= 255) s -> s <> [] -> scalar (fst (DecodeRune s)) /\ (1 <= snd (DecodeRune s))%nat.
Proof.
  intros F N. destruct s as [|p0 q]; [congruence|]. inversion F as [|? ? P0 F1]; subst. clear N F.
  assert (B : scalar 0xFFFD) by sca. unfold DecodeRune.
  destruct (Z.ltb_spec p0 0x80); [split; [cbn; sca|cbn; lia]|].
  destruct (in_range 0xC2 0xDF p0) eqn:E1; [apply ir_spec in E1; destruct q as [|b1 q]; [cbn; auto|]|].
  { destruct (in_range _ _ b1) eqn:E2; [apply ir_spec in E2|cbn; auto]. split; [cbn [fst]; sca|cbn; lia]. }
  destruct (in_range 0xE0 0xEF p0) eqn:E2; [apply ir_spec in E2; destruct q as [|b1 [|b2 q]]; [cbn; auto|cbn; auto|]|].
  { destruct (_ && _) eqn:E3; [|cbn; auto]. apply andb_true_iff in E3. destruct E3 as [E3 E4]. apply ir_spec in E3, E4.
    split; [cbn [fst]|cbn; lia]. revert E3. unfold second.
    destruct (Z.eqb_spec p0 0xE0); [cbn; sca|]. destruct (Z.eqb_spec p0 0xED); [cbn; sca|].
    destruct (Z.eqb_spec p0 0xF0); [cbn; sca|]. destruct (Z.eqb_spec p0 0xF4); [cbn; sca|]. cbn. sca. }
  destruct (in_range 0xF0 0xF4 p0) eqn:E3; [apply ir_spec in E3; destruct q as [|b1 [|b2 [|b3 q]]]; [cbn; auto|cbn; auto|cbn; auto|]|cbn; auto].
  destruct (_ && _ && _) eqn:E4; [|cbn; auto]. apply andb_true_iff in E4. destruct E4 as [E4 E5]. apply andb_true_iff in E4. destruct E4 as [E4 E6].
  apply ir_spec in E4, E5, E6. split; [cbn [fst]|cbn; lia]. revert E4. unfold second.
  destruct (Z.eqb_spec p0 0xE0); [cbn; sca|]. destruct (Z.eqb_spec p0 0xED); [cbn; sca|].
  destruct (Z.eqb_spec p0 0xF0); [cbn; sca|]. destruct (Z.eqb_spec p0 0xF4); [cbn; sca|]. cbn. sca.
Qed.
Lemma Forall_skipn {A} (P : A -> Prop) n l : Forall P l -> Forall P (skipn n l).
Proof. intros F. revert n. induction F; intros [|n]; cbn; auto. Qed.
Lemma range_fuel_scalar n : forall s, Forall (fun b => 0 <= b <= 255) s -> Forall scalar (range_fuel n s).
Proof.
  induction n; intros s F; [constructor|]. destruct s as [|p q]; [constructor|].
  cbn [range_fuel]. pose proof (DecodeRune_scalar (p :: q) F ltac:(discriminate)) as [D _].
  destruct (DecodeRune (p :: q)) as [r w] eqn:E. constructor; [exact D|]. apply IHn. apply Forall_skipn, F.
Qed.
Lemma runes_scalar s : Forall (fun b => 0 <= b <= 255) s -> Forall scalar (runes s).
Proof. apply range_fuel_scalar. Qed.

(** The fast path. *)
Lemma runes_ascii s : Forall (fun b => 0 <= b < 0x80) s -> runes s = s /\ utf8 s = s.
Proof.
  intros F. assert (U : utf8 s = s).
  { induction F; [reflexivity|]. unfold utf8 in *. cbn [flat_map]. unfold utf8_of at 1.
    destruct (Z.ltb_spec x 128); [|lia]. cbn [app]. f_equal. exact IHF. }
  split; [|exact U]. rewrite <- U at 1. apply runes_utf8.
  eapply Forall_impl; [|exact F]. cbn. intros. sca.
Qed.

Lemma hexDigit_ok i : 0 <= i < 16 -> hexdigit (hexDigit i) i.
Proof.
  intros. unfold hexDigit. destruct (Z.ltb_spec i 10).
  - replace i with (48 + i - 48) at 2 by lia. constructor. lia.
  - replace i with (97 + (i - 10) - 87) at 2 by lia. constructor. lia.
Qed.
Lemma hexVal_digit i : 0 <= i < 16 -> hexVal (hexDigit i) = Some i.
Proof.
  intros. unfold hexDigit, hexVal. destruct (Z.ltb_spec i 10).
  - rewrite ir_true by lia. f_equal. lia.
  - rewrite ir_false by lia. rewrite ir_true by lia. f_equal. lia.
Qed.

(** What the writer makes of one rune. *)
Inductive esc_form : Z -> bytes -> Prop :=
| ef_simple e r : In (e, r) [(34, 34); (92, 92); (110, 10); (114, 13); (116, 9)] -> esc_form r [92; e]
| ef_ctl r : 0 <= r < 0x20 -> esc_form r [92; 117; 48; 48; hexDigit (r / 16); hexDigit (r mod 16)]
| ef_plain r : scalar r -> 0x20 <= r -> r <> 34 -> r <> 92 -> esc_form r (utf8_of r).
Lemma escapeRune_form r : scalar r -> esc_form r (escapeRune r).
Proof.
  intros S. unfold escapeRune.
  destruct (Z.eqb_spec r 34); [subst; apply ef_simple; cbn; auto|].
  destruct (Z.eqb_spec r 92); [subst; apply ef_simple; cbn; auto|].
  destruct (Z.eqb_spec r 10); [subst; apply ef_simple; cbn; auto|].
  destruct (Z.eqb_spec r 13); [subst; apply ef_simple; cbn; auto|].
  destruct (Z.eqb_spec r 9); [subst; apply ef_simple; cbn; auto 6|].
  destruct (Z.ltb_spec r 0x20); [apply ef_ctl; unfold scalar in S; lia|].
  destruct (Z.ltb_spec 0x10FFFF r); [unfold scalar in S; lia|].
  rewrite AppendRune_scalar by auto. apply ef_plain; auto; lia.
Qed.

Lemma jchars_escape rs : Forall scalar rs -> jchars (flat_map escapeRune rs) rs.
Proof.
  induction 1 as [|r rs S _ IH]; cbn [flat_map]; [constructor|].
  destruct (escapeRune_form r S) as [e r I|r R|r S' G N1 N2].
  - cbn [app]. apply jc_esc; [|exact IH]. cbn in I |- *. intuition congruence.
  - change (jchars (92 :: 117 :: [48; 48; hexDigit (r / 16); hexDigit (r mod 16)] ++ flat_map escapeRune rs) (r :: rs)).
    apply jc_uni; [|exact S|exact IH].
    replace r with (((0 * 16 + 0) * 16 + r / 16) * 16 + r mod 16) at 3 by dlia.
    constructor; [apply (hd_09 48); lia|apply (hd_09 48); lia|apply hexDigit_ok; dlia|apply hexDigit_ok; dlia].
  - apply jc_plain; auto.
Qed.

Definition hi_byte (b : Z) := b <> 92 /\ b <> 34 /\ b <> 10.
Lemma utf8_plain r : scalar r -> 0x20 <= r -> r <> 34 -> r <> 92 -> Forall hi_byte (utf8_of r).
Proof.
  intros [R S] G N1 N2. unfold utf8_of, hi_byte.
  destruct (Z.ltb_spec r 0x80); [repeat constructor; lia|].
  destruct (Z.ltb_spec r 0x800); [repeat constructor; dlia|].
  destruct (Z.ltb_spec r 0x10000); repeat constructor; dlia.
Qed.
Lemma unescape_plain u rest : Forall hi_byte u -> unescape (u ++ rest) = (r <- unescape rest ;; Ok (u ++ r)).
Proof.
  induction 1 as [|b u [B _] _ IH]; cbn [app]; [destruct (unescape rest); reflexivity|].
  cbn [unescape]. destruct (Z.eqb_spec b 92); [congruence|]. rewrite IH. destruct (unescape rest); reflexivity.
Qed.

Lemma unescape_escape rs : Forall scalar rs -> unescape (flat_map escapeRune rs) = Ok (utf8 rs).
Proof.
  induction 1 as [|r rs S _ IH]; cbn [flat_map utf8]; [reflexivity|].
  fold (utf8 rs).
  destruct (escapeRune_form r S) as [e r I|r R|r S' G N1 N2].
  - cbn in I. destruct I as [I|[I|[I|[I|[I|[]]]]]]; inversion I; subst; cbn -[utf8]; rewrite IH; reflexivity.
  - cbn [app unescape]. change (92 =? 92) with true. cbn iota. change (117 =? 34) with false. change (117 =? 92) with false.
    change (117 =? 110) with false. change (117 =? 114) with false. change (117 =? 116) with false. change (117 =? 117) with true. cbn iota.
    unfold parseHex4. change (hexVal 48) with (Some 0). rewrite !hexVal_digit by dlia. rewrite IH. cbn [bind].
    replace (((0 * 16 + 0) * 16 + r / 16) * 16 + r mod 16) with r by dlia.
    rewrite AppendRune_scalar by auto. reflexivity.
  - rewrite unescape_plain by (apply utf8_plain; auto). rewrite IH. reflexivity.
Qed.

Lemma closed_plain u rest : Forall hi_byte u -> closed_text (u ++ rest) = closed_text rest.
Proof.
  induction 1 as [|b u [B [B2 _]] _ IH]; cbn [app]; [reflexivity|].
  cbn [closed_text]. destruct (Z.eqb_spec b 92); [congruence|]. destruct (Z.eqb_spec b 34); [congruence|]. exact IH.
Qed.
Lemma closed_escape rs : Forall scalar rs -> closed_text (flat_map escapeRune rs) = true /\ ~ In 10 (flat_map escapeRune rs).
Proof.
  induction 1 as [|r rs S _ [IH IN]]; cbn [flat_map]; [split; [reflexivity|intros []]|].
  assert (HD : forall i, 0 <= i < 16 -> hi_byte (hexDigit i)).
  { intros i Hi. unfold hi_byte, hexDigit. destruct (Z.ltb_spec i 10); lia. }
  split.
  - destruct (escapeRune_form r S) as [e r I|r R|r S' G N1 N2].
    + cbn [app closed_text]. cbn in I. destruct I as [I|[I|[I|[I|[I|[]]]]]]; inversion I; subst; cbn; exact IH.
    + change (closed_text (([48; 48; hexDigit (r / 16); hexDigit (r mod 16)]) ++ flat_map escapeRune rs) = true).
      rewrite closed_plain; [exact IH|]. repeat constructor; try (apply HD; dlia); lia.
    + rewrite closed_plain; [exact IH|]. apply utf8_plain; auto.
  - rewrite in_app_iff. intros [I|I]; [|auto].
    destruct (escapeRune_form r S) as [e r I'|r R|r S' G N1 N2].
    + cbn in I, I'. destruct I as [I|[I|[]]]; [discriminate|]. subst e.
      destruct I' as [I|[I|[I|[I|[I|[]]]]]]; inversion I.
    + assert (H1 := HD (r / 16) ltac:(dlia)). assert (H2 := HD (r mod 16) ltac:(dlia)). unfold hi_byte in *.
      cbn -[Z.div Z.modulo hexDigit] in I. intuition congruence.
    + pose proof (utf8_plain r S' G N1 N2) as F. rewrite Forall_forall in F. specialize (F 10 I). unfold hi_byte in F. tauto.
Qed.
