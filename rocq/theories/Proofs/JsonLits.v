(** The literals of the JSON writer. *)
From Coq Require Import ZArith List Bool Lia ZifyBool.
Import ListNotations.
From Verif.Model Require Import Base Field MapApi Token Walk Utf8 Escape Json.
From Verif.Spec Require Import Text JsonGrammar.
From Verif.Proofs Require Import Utf8Proofs.
Open Scope Z_scope.

Lemma numval_snoc l d : numval (l ++ [d]) = 10 * numval l + (d - 48).
Proof. unfold numval. rewrite fold_left_app. reflexivity. Qed.
Definition isB (s : bytes) : Prop := Forall (fun b => 0 <= b <= 255) s.

Lemma revDigits_ok fuel : forall v, 0 <= v -> (Z.to_nat (Z.log2 v) < fuel)%nat ->
  Forall digit (revDigits fuel v) /\ numval (rev (revDigits fuel v)) = v /\
  int_part (rev (revDigits fuel v)).
Proof.
  induction fuel as [|f IH]; intros v P F; [lia|]. cbn [revDigits].
  assert (D : digit (48 + v mod 10)) by (unfold digit; dlia).
  destruct (Z.ltb_spec v 10) as [L|L].
  - split; [auto|]. cbn [rev app]. split; [unfold numval; cbn [fold_left]; dlia|].
    destruct (Z.eq_dec v 0) as [->|N]; [constructor|]. apply ip_pos; [dlia|constructor].
  - assert (G : (Z.to_nat (Z.log2 (v / 10)) < f)%nat).
    { assert (v / 10 <= Z.shiftr v 1) by (rewrite Z.shiftr_div_pow2 by lia; change (2 ^ 1) with 2; dlia).
      assert (Z.log2 (v / 10) <= Z.log2 (Z.shiftr v 1)) by (apply Z.log2_le_mono; lia).
      rewrite Z.log2_shiftr in * by lia.
      assert (0 < Z.log2 v) by (apply Z.log2_pos; lia). lia. }
    destruct (IH (v / 10) ltac:(dlia) G) as (A & B & C). cbn [rev]. split; [auto|]. split.
    + rewrite numval_snoc, B. dlia.
    + inversion C as [E|d l Hd Hl E].
      * exfalso. rewrite <- E in B. unfold numval in B. cbn in B. dlia.
      * cbn [app]. apply ip_pos; [exact Hd|]. apply Forall_app. auto.
Qed.
Lemma appendUint_ok v : 0 <= v -> int_part (appendUint v) /\ int_lit (appendUint v) v /\ appendUint v <> [].
Proof.
  intros P. destruct (revDigits_ok (S (Z.to_nat (Z.log2 v))) v P ltac:(lia)) as (A & B & C). fold (appendUint v) in B, C.
  split; [exact C|]. assert (NE : appendUint v <> []) by (intros E; rewrite E in C; inversion C). split; [|exact NE].
  rewrite <- B at 2. apply il_pos. split; [exact NE|]. unfold appendUint. apply Forall_rev, A.
Qed.
Lemma jnumber_int b : int_part b -> jnumber b /\ jnumber (45 :: b).
Proof.
  intros I. rewrite <- (app_nil_r b). change (b ++ []) with (b ++ [] ++ []). split; constructor; auto using fp_none, ep_none.
Qed.
Lemma appendInt_ok v : jnumber (appendInt v) /\ int_lit (appendInt v) v.
Proof.
  unfold appendInt. destruct (Z.ltb_spec v 0).
  - destruct (appendUint_ok (- v) ltac:(lia)) as (I & L & N). split; [apply jnumber_int, I|].
    replace v with (- - v) at 2 by lia. remember (- v) as u. destruct L; [apply il_neg; assumption|].
    inversion I; lia.
  - destruct (appendUint_ok v ltac:(lia)) as (I & L & N). split; [apply jnumber_int, I|exact L].
Qed.
Lemma appendUint_num v : 0 <= v -> jnumber (appendUint v) /\ int_lit (appendUint v) v.
Proof. intros P. destruct (appendUint_ok v P) as (I & L & N). split; [apply jnumber_int, I|exact L]. Qed.

(** Plain ASCII between quotes. *)
Definition plain (c : Z) : Prop := 0x20 <= c < 0x7f /\ c <> 34 /\ c <> 92.
Lemma jchars_plain t : Forall plain t -> jchars t t.
Proof.
  induction 1 as [|c t (R & Q & B) _ IH]; [constructor|]. change (c :: t) with ([c] ++ t) at 1.
  replace [c] with (utf8_of c) by (unfold utf8_of; destruct (Z.ltb_spec c 0x80); [reflexivity|lia]).
  constructor; [unfold scalar; lia|lia|lia|lia|exact IH].
Qed.
Lemma jstring_plain t : Forall plain t -> jstring (34 :: t ++ [34]) t.
Proof. intros. constructor. apply jchars_plain. assumption. Qed.
Lemma hexDigit_plain i : 0 <= i < 16 -> plain (hexDigit i).
Proof. intros R. unfold hexDigit, plain. destruct (Z.ltb_spec i 10); lia. Qed.
Lemma appendHex_ok h : isB h -> hex_text h (appendHex h) /\ Forall plain (appendHex h).
Proof.
  induction 1 as [|b h R _ (A & B)]; [split; constructor|]. cbn [appendHex flat_map app].
  split.
  - econstructor; [apply hexDigit_ok; dlia|apply hexDigit_ok; dlia|dlia|exact A].
  - constructor; [apply hexDigit_plain; dlia|]. constructor; [apply hexDigit_plain; dlia|]. exact B.
Qed.
Lemma b64char_ok v : 0 <= v < 64 -> b64digit (b64char v) v /\ plain (b64char v).
Proof.
  intros R. unfold b64char, plain. destruct (Z.ltb_spec v 26); [split; [constructor; lia|lia]|].
  destruct (Z.ltb_spec v 52); [split; [constructor; lia|lia]|]. destruct (Z.ltb_spec v 62); [split; [constructor; lia|lia]|].
  destruct (Z.eqb_spec v 62) as [->|]; [split; [constructor|lia]|]. assert (v = 63) by lia. subst. split; [constructor|lia].
Qed.
Lemma base64_ok : forall n d, (length d <= n)%nat -> isB d -> b64_text d (base64 d) /\ Forall plain (base64 d).
Proof.
  induction n as [|n IH]; intros d L F.
  - destruct d; [split; constructor|cbn in L; lia].
  - destruct d as [|a [|b [|c q]]]; cbn [base64]; inversion F as [|? ? Ra F1]; subst.
    + split; constructor.
    + cbn zeta. pose proof (b64char_ok (a * 16 / 64) ltac:(dlia)) as [A1 P1]. pose proof (b64char_ok (a * 16 mod 64) ltac:(dlia)) as [A2 P2].
      split; [econstructor; [exact A1|exact A2|dlia]|]. repeat constructor; try (unfold plain; lia); apply P1 || apply P2.
    + inversion F1 as [|? ? Rb F2]; subst. cbn zeta. set (m := (a * 256 + b) * 4).
      assert (Rm : 0 <= m < 262144) by (unfold m; lia).
      pose proof (b64char_ok (m / 4096) ltac:(dlia)) as [A1 P1]. pose proof (b64char_ok (m / 64 mod 64) ltac:(dlia)) as [A2 P2]. pose proof (b64char_ok (m mod 64) ltac:(dlia)) as [A3 P3].
      split; [econstructor; [exact A1|exact A2|exact A3|fold m; dlia]|].
      repeat first [assumption | constructor]; unfold plain; lia.
    + inversion F1 as [|? ? Rb F2]; subst. inversion F2 as [|? ? Rc F3]; subst. cbn zeta. set (m := (a * 256 + b) * 256 + c).
      assert (Rm : 0 <= m < 16777216) by (unfold m; lia).
      pose proof (b64char_ok (m / 262144) ltac:(dlia)) as [A1 P1]. pose proof (b64char_ok (m / 4096 mod 64) ltac:(dlia)) as [A2 P2].
      pose proof (b64char_ok (m / 64 mod 64) ltac:(dlia)) as [A3 P3]. pose proof (b64char_ok (m mod 64) ltac:(dlia)) as [A4 P4].
      destruct (IH q ltac:(cbn in L; lia) F3) as [B1 B2].
      split; [econstructor; [exact A1|exact A2|exact A3|exact A4|fold m; dlia|exact B1]|]. repeat (constructor; [assumption|]). exact B2.
Qed.
(** The escaped form of any bytes. *)
Lemma jsonEscape_ok s : isB s -> exists rs, jstring (jsonEscape s) rs /\ text_of s rs.
Proof.
  intros F. exists (runes s). assert (T : text_of s (runes s)).
  { split; [apply runes_scalar, F|]. intros rs' F' ->. apply runes_utf8, F'. }
  split; [|exact T]. unfold jsonEscape. destruct (needsEscape s) eqn:N.
  - constructor. apply jchars_escape, runes_scalar, F.
  - assert (A : Forall plain s).
    { apply Forall_forall. intros c I. unfold isB in F; rewrite Forall_forall in F. specialize (F c I). unfold needsEscape in N.
      destruct (existsb_exists (fun c => (c <? 0x20) || (c =? 34) || (c =? 92) || (0x7e <? c)) s) as [_ X]. rewrite N in X.
      destruct ((c <? 0x20) || (c =? 34) || (c =? 92) || (0x7e <? c)) eqn:E; [|unfold plain; lia].
      discriminate X. eexists; split; eauto. }
    assert (E : runes s = s). { apply runes_ascii. eapply Forall_impl; [|exact A]. unfold plain. intros; lia. }
    rewrite E. apply jstring_plain, A.
Qed.
