(** C33, C34, C71: how strings are written in clawtext and clawjson. *)
From Coq Require Import ZArith List Bool Lia ZifyBool.
Import ListNotations.
From Verif.Model Require Import Base Utf8 Escape.
From Verif.Spec Require Import Text.
From Verif.Proofs Require Import Utf8Proofs.
Open Scope Z_scope.

(** ** C33: clawtext *)

(** Unquoting the written form of a Unicode string gives the string. *)
Theorem C33_round_trip rs : Forall scalar rs -> unquoteString (textEscape (utf8 rs)) = Ok (utf8 rs).
Proof.
  intros F. unfold textEscape, unquoteString. rewrite runes_utf8 by exact F. rewrite rev_app_distr. cbn [rev app].
  change (34 =? 34) with true. cbn [andb]. rewrite rev_involutive. apply unescape_escape, F.
Qed.

(** The written form is one quoted text: no quote inside it is bare, and it has no line break, for
    any bytes at all. *)
Theorem C33_no_bare_quote s :
  Forall (fun b => 0 <= b <= 255) s ->
  exists inner, textEscape s = 34 :: inner ++ [34] /\ closed_text inner = true /\ ~ In 10 inner.
Proof.
  intros F. exists (flat_map escapeRune (runes s)). split; [reflexivity|]. apply closed_escape, runes_scalar, F.
Qed.

(** Bytes that are not UTF-8 are read back as their replacement: the result is always UTF-8. *)
Theorem C33_any_bytes s :
  Forall (fun b => 0 <= b <= 255) s ->
  exists rs, Forall scalar rs /\ unquoteString (textEscape s) = Ok (utf8 rs) /\ (forall rs', Forall scalar rs' -> s = utf8 rs' -> rs = rs').
Proof.
  intros F. pose proof (runes_scalar s F) as S. exists (runes s). split; [exact S|]. split.
  - unfold textEscape, unquoteString. rewrite rev_app_distr. cbn [rev app].
    change (34 =? 34) with true. cbn [andb]. rewrite rev_involutive. apply unescape_escape, S.
  - intros rs' F' ->. apply runes_utf8, F'.
Qed.

(** "a", quote, backslash, line feed, U+0001, e acute, a snowman and an emoji. *)
Example C33_case :
  let rs := [97; 34; 92; 10; 1; 233; 0x2603; 0x1F600] in
  Forall scalar rs /\
  textEscape (utf8 rs) = [34; 97; 92; 34; 92; 92; 92; 110; 92; 117; 48; 48; 48; 49; 195; 169; 226; 152; 131; 240; 159; 152; 128; 34] /\
  unquoteString (textEscape (utf8 rs)) = Ok (utf8 rs).
Proof. cbn zeta. split; [repeat constructor; unfold scalar; lia|]. split; vm_compute; reflexivity. Qed.

(** ** C34: clawjson *)

(** A literal stands for one text only, so "denotes" makes sense. *)
Lemma utf8_prefix r b r' b' : scalar r -> scalar r' -> utf8_of r ++ b = utf8_of r' ++ b' -> r = r' /\ b = b'.
Proof.
  intros S S' E. pose proof (DecodeRune_utf8 r b S) as D. pose proof (DecodeRune_utf8 r' b' S') as D'. rewrite E, D' in D.
  inversion D; subst. split; [reflexivity|]. eapply app_inv_head, E.
Qed.
Lemma utf8_not_bs r b q : scalar r -> 0x20 <= r -> r <> 34 -> r <> 92 -> utf8_of r ++ b = 92 :: q -> False.
Proof.
  intros S G N1 N2 E. pose proof (utf8_plain r S G N1 N2) as F. pose proof (utf8_of_len r) as L.
  destruct (utf8_of r) as [|x u]; cbn in *; [lia|]. inversion E; subst. inversion F as [|? ? H ?]; subst. unfold hi_byte in H. lia.
Qed.
Lemma hexdigit_fun c v v' : hexdigit c v -> hexdigit c v' -> v = v'.
Proof. intros H H'. destruct H; inversion H'; subst; lia. Qed.
Lemma hex4_fun h h' r r' b b' : hex4 h r -> hex4 h' r' -> h ++ b = h' ++ b' -> r = r' /\ b = b'.
Proof.
  intros H H' E. destruct H. destruct H'. cbn in E. inversion E; subst.
  split; [|reflexivity]. repeat match goal with A : hexdigit ?c ?v, B : hexdigit ?c ?v' |- _ => rewrite (hexdigit_fun c v v' A B) in *; clear A end. reflexivity.
Qed.
Theorem jchars_functional b rs rs' : jchars b rs -> jchars b rs' -> rs = rs'.
Proof.
  intros H. revert rs'. remember b as b0 eqn:Eb. revert b Eb.
  induction H as [|r b rs S G N1 N2 H IH|e r b rs I H IH|h r b rs Hh S H IH|h1 h2 r1 r2 b rs Hh1 Hh2 R1 R2 H IH]; intros b0 E rs' H'.
  - remember [] as x eqn:Ex. destruct H' as [|r' b' rs' S' G' N1' N2' H'|e' r' b' rs' I' H'|h' r' b' rs' Hh' S' H'|h1' h2' r1' r2' b' rs' Hh1' Hh2' R1' R2' H']; try discriminate; auto.
    apply app_eq_nil in Ex. destruct Ex as [Ex _]. pose proof (utf8_of_len r') as L. rewrite Ex in L. cbn in L. lia.
  - remember (utf8_of r ++ b) as x eqn:Ex. destruct H' as [|r' b' rs' S' G' N1' N2' H'|e' r' b' rs' I' H'|h' r' b' rs' Hh' S' H'|h1' h2' r1' r2' b' rs' Hh1' Hh2' R1' R2' H'].
    + symmetry in Ex. apply app_eq_nil in Ex. destruct Ex as [Ex _]. pose proof (utf8_of_len r) as L. rewrite Ex in L. cbn in L. lia.
    + destruct (utf8_prefix _ _ _ _ S' S Ex) as [-> ->]. f_equal. eapply IH; eauto.
    + exfalso. eapply utf8_not_bs; [exact S|auto|auto|auto|]. symmetry. exact Ex.
    + exfalso. eapply utf8_not_bs; [exact S|auto|auto|auto|]. symmetry. exact Ex.
    + exfalso. eapply utf8_not_bs; [exact S|auto|auto|auto|]. symmetry. exact Ex.
  - remember (92 :: e :: b) as x eqn:Ex. destruct H' as [|r' b' rs' S' G' N1' N2' H'|e' r' b' rs' I' H'|h' r' b' rs' Hh' S' H'|h1' h2' r1' r2' b' rs' Hh1' Hh2' R1' R2' H'].
    + discriminate.
    + exfalso. eapply utf8_not_bs; [exact S'|auto|auto|auto|]. exact Ex.
    + inversion Ex; subst. assert (r' = r) by (cbn in I, I'; intuition congruence). subst. f_equal. eapply IH; eauto.
    + inversion Ex; subst. cbn in I. intuition congruence.
    + inversion Ex; subst. cbn in I. intuition congruence.
  - remember (92 :: 117 :: h ++ b) as x eqn:Ex. destruct H' as [|r' b' rs' S' G' N1' N2' H'|e' r' b' rs' I' H'|h' r' b' rs' Hh' S' H'|h1' h2' r1' r2' b' rs' Hh1' Hh2' R1' R2' H'].
    + discriminate.
    + exfalso. eapply utf8_not_bs; [exact S'|auto|auto|auto|]. exact Ex.
    + inversion Ex; subst. cbn in I'. intuition congruence.
    + inversion Ex as [Ex']. destruct (hex4_fun _ _ _ _ _ _ Hh' Hh Ex') as [-> ->]. f_equal. eapply IH; eauto.
    + inversion Ex as [Ex']. destruct (hex4_fun _ _ _ _ _ _ Hh1' Hh Ex') as [-> _]. unfold scalar in S. lia.
  - remember (92 :: 117 :: h1 ++ 92 :: 117 :: h2 ++ b) as x eqn:Ex. destruct H' as [|r' b' rs' S' G' N1' N2' H'|e' r' b' rs' I' H'|h' r' b' rs' Hh' S' H'|h1' h2' r1' r2' b' rs' Hh1' Hh2' R1' R2' H'].
    + discriminate.
    + exfalso. eapply utf8_not_bs; [exact S'|auto|auto|auto|]. exact Ex.
    + inversion Ex; subst. cbn in I'. intuition congruence.
    + inversion Ex as [Ex']. destruct (hex4_fun _ _ _ _ _ _ Hh' Hh1 Ex') as [-> _]. unfold scalar in S'. lia.
    + inversion Ex as [Ex']. destruct (hex4_fun _ _ _ _ _ _ Hh1' Hh1 Ex') as [-> Ex2]. inversion Ex2 as [Ex3].
      destruct (hex4_fun _ _ _ _ _ _ Hh2' Hh2 Ex3) as [-> ->]. f_equal. eapply IH; eauto.
Qed.
Theorem C34_denotes_one b rs rs' : jstring b rs -> jstring b rs' -> rs = rs'.
Proof.
  intros H H'. destruct H as [b rs H]. remember (34 :: b ++ [34]) as x eqn:Ex. destruct H' as [b' rs' H'].
  inversion Ex as [E]. apply app_inv_tail in E. subst. eapply jchars_functional; eauto.
Qed.

(** The literal written for a Unicode string is a JSON string that denotes it. *)
Theorem C34_json_string rs : Forall scalar rs -> jstring (jsonEscape (utf8 rs)) rs.
Proof.
  intros F. unfold jsonEscape. destruct (needsEscape (utf8 rs)) eqn:N.
  - rewrite runes_utf8 by exact F. constructor. apply jchars_escape, F.
  - (* printable ASCII *)
    constructor. unfold needsEscape in N.
    assert (A : Forall (fun c => 0x20 <= c <= 0x7e /\ c <> 34 /\ c <> 92) (utf8 rs)).
    { apply Forall_forall. intros c I. destruct (existsb_exists (fun c => (c <? 0x20) || (c =? 34) || (c =? 92) || (0x7e <? c)) (utf8 rs)) as [_ X].
      rewrite N in X. destruct ((c <? 0x20) || (c =? 34) || (c =? 92) || (0x7e <? c)) eqn:E.
      - discriminate X. eexists; split; eauto.
      - lia. }
    clear N. induction F as [|r rs S F IH]; [constructor|]. unfold utf8 in *. cbn [flat_map] in *. apply Forall_app in A. destruct A as [A A'].
    apply jc_plain; [exact S|..|apply IH; exact A'].
    all: unfold utf8_of in A; destruct S as [[S1 S2] S3];
      destruct (Z.ltb_spec r 0x80);
      [inversion A as [|? ? B _]; lia|destruct (Z.ltb_spec r 0x800); [|destruct (Z.ltb_spec r 0x10000)]; inversion A as [|? ? B _]; clear -B H; lia].
Qed.

(** Whatever the bytes of a string field are, a valid JSON string is written. *)
Theorem C34_always_valid s : Forall (fun b => 0 <= b <= 255) s -> exists rs, jstring (jsonEscape s) rs.
Proof.
  intros F. destruct (needsEscape s) eqn:N.
  - unfold jsonEscape. rewrite N. eexists. constructor. apply jchars_escape, runes_scalar, F.
  - assert (A : Forall (fun c => 0 <= c < 0x80) s).
    { apply Forall_forall. intros c I. rewrite Forall_forall in F. specialize (F c I). unfold needsEscape in N.
      destruct (existsb_exists (fun c => (c <? 0x20) || (c =? 34) || (c =? 92) || (0x7e <? c)) s) as [_ X].
      rewrite N in X. destruct ((c <? 0x20) || (c =? 34) || (c =? 92) || (0x7e <? c)) eqn:E; [|lia].
      discriminate X. eexists; split; eauto. }
    destruct (runes_ascii s A) as [_ U]. exists s. rewrite <- U at 1. apply C34_json_string.
    eapply Forall_impl; [|exact A]. cbn. intros. unfold scalar. lia.
Qed.

(** But two different values of a field that holds bytes outside UTF-8 get the same literal, so the
    literal does not determine the value. *)
Theorem C34_denotes_refuted :
  exists s s', s <> s' /\ Forall (fun b => 0 <= b <= 255) s /\ Forall (fun b => 0 <= b <= 255) s' /\ jsonEscape s = jsonEscape s'.
Proof. exists [255], [254]. split; [discriminate|]. split; [repeat constructor; lia|]. split; [repeat constructor; lia|]. vm_compute. reflexivity. Qed.

Example C34_case :
  let rs := [97; 34; 31; 233; 0x1F600] in
  Forall scalar rs /\ jsonEscape (utf8 rs) = [34; 97; 92; 34; 92; 117; 48; 48; 49; 102; 195; 169; 240; 159; 152; 128; 34].
Proof. cbn zeta. split; [repeat constructor; unfold scalar; lia|]. vm_compute; reflexivity. Qed.

(** ** C71: a string field in clawtext, as one line of text *)

(** The line the writer makes of a string field: name, ": ", literal, ",", and what ends the line. *)
Definition field_line (name s tail : bytes) : bytes := name ++ [58; 32] ++ textEscape s ++ [44] ++ tail.

(** The word of the value up to its first blank. *)
Fixpoint first_word (s : bytes) : bytes :=
  match s with c :: q => if isSpace c then [] else c :: first_word q | [] => [] end.

(** The string of x, a quote, a blank and y comes back as x and a backslash. *)
Theorem C71_text_field_refuted :
  exists rs r, Forall scalar rs /\
    parseQuotedString (first_word (textEscape (utf8 rs) ++ [44])) (field_line [78] (utf8 rs) [10]) = Ok r /\ r <> utf8 rs.
Proof.
  exists [120; 34; 32; 121], [120; 92]. split; [repeat constructor; unfold scalar; lia|].
  split; [vm_compute; reflexivity|vm_compute; discriminate].
Qed.

Lemma trimLeft_head c q : isSpace c = false -> trimLeft (c :: q) = c :: q.
Proof. intros E. cbn. rewrite E. reflexivity. Qed.
Lemma trimLeft_app sp q : Forall (fun c => isSpace c = true) sp -> trimLeft (sp ++ q) = trimLeft q.
Proof. induction 1 as [|c sp E _ IH]; cbn; [reflexivity|]. rewrite E. exact IH. Qed.
Lemma Forall_rev' {A} (P : A -> Prop) l : Forall P l -> Forall P (rev l).
Proof. intros F. apply Forall_forall. intros x I. rewrite <- in_rev in I. rewrite Forall_forall in F. auto. Qed.
Lemma trimSpace_value q tail : Forall (fun c => isSpace c = true) tail -> trimSpace (32 :: (34 :: q) ++ [44] ++ tail) = (34 :: q) ++ [44].
Proof.
  intros F. unfold trimSpace. cbn [trimLeft app]. change (isSpace 32) with true. cbn iota. change (isSpace 34) with false. cbn iota.
  replace (34 :: q ++ 44 :: tail) with ((34 :: q ++ [44]) ++ tail) by (cbn; rewrite <- app_assoc; reflexivity).
  rewrite rev_app_distr. rewrite trimLeft_app by (apply Forall_rev'; exact F).
  cbn [rev app]. rewrite rev_app_distr. cbn [rev app]. rewrite trimLeft_head by reflexivity.
  cbn [rev]. rewrite rev_app_distr. rewrite rev_involutive. cbn. reflexivity.
Qed.
Lemma trimComma_snoc q : trimComma (q ++ [44]) = q.
Proof. unfold trimComma. rewrite rev_app_distr. cbn [rev app]. apply rev_involutive. Qed.
Lemma afterColon_line name q : ~ In 58 name -> afterColon (name ++ 58 :: q) = Some q.
Proof.
  induction name as [|c name IH]; intros N; cbn; [reflexivity|].
  destruct (Z.eqb_spec c 58); [subst; exfalso; apply N; left; reflexivity|]. apply IH. intros I. apply N. right. exact I.
Qed.
Lemma no_quote_escape rs : Forall scalar rs -> ~ In 34 rs -> ~ In 34 (flat_map escapeRune rs).
Proof.
  induction 1 as [|r rs S _ IH]; intros N; cbn [flat_map]; [intros []|].
  rewrite in_app_iff. intros [I|I]; [|apply IH; auto; intros X; apply N; right; exact X].
  assert (Hn : forall i, 0 <= i < 16 -> hexDigit i <> 34) by (intros i Hi; unfold hexDigit; destruct (Z.ltb_spec i 10); lia).
  destruct (escapeRune_form r S) as [e r I'|r R|r S' G N1 N2].
  - cbn in I, I'. destruct I as [I|[I|[]]]; [discriminate|]. subst e.
    destruct I' as [I|[I|[I|[I|[I|[]]]]]]; inversion I; subst. apply N. left. reflexivity.
  - assert (H1 := Hn (r / 16) ltac:(Z.to_euclidean_division_equations; lia)). assert (H2 := Hn (r mod 16) ltac:(Z.to_euclidean_division_equations; lia)).
    cbn -[Z.div Z.modulo hexDigit] in I. intuition congruence.
  - pose proof (utf8_plain r S' G N1 N2) as F. rewrite Forall_forall in F. specialize (F 34 I). unfold hi_byte in F. tauto.
Qed.

(** A string with no quote in it is read back from its line, wherever the lexer ends the first word
    of the value. *)
Theorem C71_text_field_partial name rs tail token rest :
  Forall scalar rs -> ~ In 34 rs -> ~ In 58 name -> Forall (fun c => isSpace c = true) tail ->
  textEscape (utf8 rs) ++ [44] = token ++ rest ->
  parseQuotedString token (field_line name (utf8 rs) tail) = Ok (utf8 rs).
Proof.
  intros F NQ NC T E.
  assert (U : unquoteString (textEscape (utf8 rs)) = Ok (utf8 rs)) by (apply C33_round_trip; exact F).
  assert (L : forall t, match afterColon (field_line name (utf8 rs) tail) with None => t | Some v => unquoteString (trimComma (trimSpace v)) end = Ok (utf8 rs)).
  { intros t. unfold field_line.
    change (name ++ [58; 32] ++ textEscape (utf8 rs) ++ [44] ++ tail) with (name ++ 58 :: (32 :: textEscape (utf8 rs) ++ [44] ++ tail)).
    rewrite afterColon_line by exact NC.
    unfold textEscape at 1. rewrite trimSpace_value by exact T. rewrite trimComma_snoc. exact U. }
  unfold parseQuotedString. cbn zeta. set (s := trimComma token).
  destruct (rev s) as [|x q] eqn:R; [apply L|].
  destruct (Z.eqb_spec x 34) as [->|NX].
  2:{ destruct x as [|p|p]; try apply L. do 6 (destruct p as [p|p|]; try apply L). contradiction NX. reflexivity. }
  destruct q as [|y q]; [apply L|].
  enough (s = textEscape (utf8 rs)) as -> by exact U.
  (* s ends in a quote that is not its first byte *)
  assert (S0 : s = rev (y :: q) ++ [34]) by (rewrite <- (rev_involutive s), R; reflexivity).
  assert (P : exists r', textEscape (utf8 rs) ++ [44] = s ++ r').
  { rewrite E. unfold s, trimComma. destruct (rev token) as [|z zs] eqn:RT; [exists rest; reflexivity|].
    destruct (Z.eqb_spec z 44) as [->|NZ].
    - exists (44 :: rest). rewrite <- (rev_involutive token), RT. cbn [rev]. rewrite <- app_assoc. reflexivity.
    - exists rest. f_equal. destruct z as [|p|p]; try reflexivity. do 6 (destruct p as [p|p|]; try reflexivity). contradiction NZ. reflexivity. }
  destruct P as [r' P]. unfold textEscape in P |- *. rewrite runes_utf8 in P |- * by exact F.
  set (inner := flat_map escapeRune rs) in *. assert (NI : ~ In 34 inner) by (apply no_quote_escape; auto).
  clearbody inner. clear - P S0 NI.
  (* position of the last quote *)
  assert (Q : exists a m, rev (y :: q) = a :: m).
  { destruct (rev (y :: q)) eqn:EZ; [|eauto]. apply (f_equal (@length _)) in EZ. rewrite rev_length in EZ. discriminate. }
  destruct Q as (a & m & Q). rewrite Q in S0. rewrite S0 in P |- *. cbn [app] in P |- *. inversion P as [[A P']]. subst a. f_equal.
  clear P Q S0. revert m P'. induction inner as [|i inner IH]; intros m P.
  - destruct m as [|c m]; [reflexivity|]. cbn in P. inversion P as [[A B]]. destruct m as [|d m]; cbn in B; inversion B. destruct m; discriminate.
  - cbn in P. destruct m as [|c m]; cbn in P; inversion P as [[A B]].
    + exfalso. apply NI. left. exact A.
    + cbn. f_equal. apply IH; [intros X; apply NI; right; exact X|exact B].
Qed.

Example C71_case :
  let rs := [104; 105; 32; 44; 32; 58; 10; 120] in
  parseQuotedString (first_word (textEscape (utf8 rs) ++ [44])) (field_line [78; 97] (utf8 rs) [10]) = Ok (utf8 rs).
Proof. vm_compute. reflexivity. Qed.

Print Assumptions C33_round_trip.
Print Assumptions C33_no_bare_quote.
Print Assumptions C33_any_bytes.
Print Assumptions C34_denotes_one.
Print Assumptions C34_json_string.
Print Assumptions C34_always_valid.
Print Assumptions C34_denotes_refuted.
Print Assumptions C71_text_field_refuted.
Print Assumptions C71_text_field_partial.
