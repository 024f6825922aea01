(** The text parser reads any lines to an end, or to an error. *)
From Coq Require Import ZArith List Bool Lia.
Import ListNotations.
From Verif.Model Require Import Base Utf8 Field Token Walk Escape Json TokenStream Ingest JsonRead ClawText.
Open Scope Z_scope.

(** [x] ends with an error, or with a value that satisfies [P]. *)
Definition ends {A} (P : A -> Prop) (x : pr A) : Prop :=
  match snd x with Ok a => P a | Err => True | Panic | Hang => False end.
Lemma ends_bind {A B} (P : A -> Prop) (Q : B -> Prop) (x : pr A) (f : A -> pr B) :
  ends P x -> (forall a, P a -> ends Q (f a)) -> ends Q (pbind x f).
Proof.
  unfold ends, pbind. destruct x as [ts [a| | |]]; cbn [snd fst]; intros H F; [exact (F a H)|exact I|exact H|exact H].
Qed.
Lemma ends_yield ts : ends (fun _ => True) (yield ts). Proof. exact I. Qed.
Lemma ends_fail {A} (P : A -> Prop) : ends P fail. Proof. exact I. Qed.
Lemma ends_ok {A} (P : A -> Prop) ts a : P a -> ends P (ts, Ok a). Proof. intros H. exact H. Qed.
Lemma ends_option {A} (o : option A) : ends (fun _ => True) (of_option o).
Proof. destruct o; exact I. Qed.
Lemma ends_weaken {A} (P Q : A -> Prop) x : ends P x -> (forall a, P a -> Q a) -> ends Q x.
Proof. unfold ends. destruct (snd x); auto. Qed.

Definition tame {A} (r : res A) : Prop := match r with Ok _ | Err => True | _ => False end.
Lemma tame_bind {A B} (r : res A) (f : A -> res B) : tame r -> (forall a, tame (f a)) -> tame (bind r f).
Proof. destruct r; cbn; auto. Qed.
Lemma unescape_tame : forall n s, (length s <= n)%nat -> tame (unescape s).
Proof.
  induction n as [|n IH]; intros s L; destruct s as [|c q]; try exact I; cbn [length] in L; [lia|].
  cbn [unescape]. 
  assert (K : forall q' (f : bytes -> bytes), (length q' <= n)%nat -> tame (r <- unescape q' ;; Ok (f r))).
  { intros q' f L'. apply tame_bind; [apply IH, L'|]. intros. exact I. }
  destruct (c =? 92); [|apply (K q (cons c)); lia]. destruct q as [|e q']; [exact I|]. cbn [length] in L.
  destruct (e =? 34); [apply (K q' (cons 34)); lia|]. destruct (e =? 92); [apply (K q' (cons 92)); lia|].
  destruct (e =? 110); [apply (K q' (cons 10)); lia|]. destruct (e =? 114); [apply (K q' (cons 13)); lia|].
  destruct (e =? 116); [apply (K q' (cons 9)); lia|].
  destruct (e =? 117); [|apply (K (e :: q') (cons c)); cbn [length]; lia].
  destruct q' as [|h1 [|h2 [|h3 [|h4 q'']]]]; try exact I.
  destruct (parseHex4 h1 h2 h3 h4) as [v|]; [|exact I]. apply (K q'' (app (AppendRune v))). cbn [length] in L. lia.
Qed.
Lemma unquote_tame s : tame (unquoteString s).
Proof.
  unfold unquoteString. destruct s as [|q0 q]; [exact I|]. destruct (rev q) as [|q1 inner]; [exact I|].
  destruct (_ && _); [|exact I]. eapply unescape_tame, le_n.
Qed.
Lemma quoted_tame t raw : tame (parseQuotedString t raw).
Proof.
  unfold parseQuotedString. cbn zeta.
  assert (K : tame match afterColon raw with None => Err | Some v => unquoteString (trimComma (trimSpace v)) end)
    by (destruct (afterColon raw); [apply unquote_tame|exact I]).
  generalize dependent (match afterColon raw with None => Err | Some v => unquoteString (trimComma (trimSpace v)) end). intros r K.
  set (z := unquoteString (trimComma t)). assert (tame z) by apply unquote_tame. clearbody z.
  destruct (rev (trimComma t)) as [|[|p|p] [|y l]]; try exact K; do 6 (destruct p as [p|p|]; try exact K); try exact K; try exact H.
Qed.
Lemma ends_res {A} (r : res A) : tame r -> ends (fun _ => True) (of_res r).
Proof. destruct r; auto. Qed.

Lemma skipLines_len : forall ls b, (length (skipLines b ls) <= length ls)%nat.
Proof.
  induction ls as [|l q IH]; intros b; [reflexivity|]. cbn [skipLines length].
  destruct b; [specialize (IH (negb (contains [42; 47] (ln_raw l)))); lia|].
  destruct (blank_line l); [specialize (IH false); lia|].
  destruct (hasPrefix [47; 47] _); [specialize (IH false); lia|].
  destruct (hasPrefix [47; 42] _); [specialize (IH (negb (contains [42; 47] (ln_raw l)))); lia|]. reflexivity.
Qed.
Lemma skipLines_head : forall ls b l q, skipLines b ls = l :: q -> l.(ln_items) <> [].
Proof.
  induction ls as [|x q' IH]; intros b l q; [discriminate|]. cbn [skipLines].
  destruct b; [apply IH|].
  destruct (blank_line x) eqn:B; [apply IH|].
  destruct (hasPrefix [47; 47] _); [apply IH|].
  destruct (hasPrefix [47; 42] _); [apply IH|]. intros H. inversion H; subst. intros N. unfold blank_line in B. rewrite N in B. discriminate.
Qed.
Lemma rawLines_ends : forall ls acc,
  match rawLines acc ls with Ok (_, q) => (length q <= length ls)%nat | Err => True | _ => False end.
Proof.
  induction ls as [|l q IH]; intros acc; cbn [rawLines]; [exact I|].
  destruct (upto_backtick (ln_raw l)); [cbn [length]; lia|].
  specialize (IH (acc ++ 10 :: trimLast 10 (ln_raw l))). destruct (rawLines _ q) as [[s r]| | |]; cbn [length]; auto.
Qed.

Section Parse.
Variable parseFloat : bytes -> option Z.
Lemma ends_number name s : ends (fun _ => True) (emitNumber parseFloat name s).
Proof. unfold emitNumber. eapply ends_bind; [apply ends_option|]. intros. apply ends_yield. Qed.
Lemma ends_element v : ends (fun _ => True) (emitArrayElement parseFloat v).
Proof.
  unfold emitArrayElement. cbn zeta. repeat match goal with |- ends _ (if ?b then _ else _) => destruct b end; try apply ends_yield.
  - eapply ends_bind; [apply ends_res, unquote_tame|]. intros. apply ends_yield.
  - apply ends_number.
Qed.
Section Nested.
Variable nested : list line -> pr (list line).
(** The nested parser reads [N] lines, and leaves no more than it got. *)
Variable N : nat.
Hypothesis HN : forall ls, (length ls <= N)%nat -> ends (fun r => (length r <= length ls)%nat) (nested ls).
Lemma ends_items : forall items ls, (length ls <= N)%nat ->
  ends (fun r => (length (snd r) <= length ls)%nat) (arrayItems parseFloat nested items ls).
Proof.
  induction items as [|v q IH]; intros ls L; cbn [arrayItems]; [apply ends_ok; cbn; lia|].
  destruct (closes 93 v); [apply ends_ok; cbn; lia|]. destruct (_ || _); [apply IH, L|].
  destruct (bytes_eqb v [123]).
  - eapply ends_bind; [apply (ends_yield [tok0 TStructStart [] 0])|]. intros _ _.
    eapply ends_bind; [apply HN, L|]. intros r R. cbn in R. eapply ends_weaken; [apply IH; lia|]. intros [b x]. cbn [snd]. lia.
  - eapply ends_bind; [apply ends_element|]. intros _ _. apply IH, L.
Qed.
Lemma ends_lines : forall n ls, (length ls < n)%nat -> (length ls <= N)%nat ->
  ends (fun r => (length r <= length ls)%nat) (arrayLines parseFloat nested n ls).
Proof.
  induction n as [|n IH]; intros ls L LN; [lia|]. cbn [arrayLines].
  pose proof (skipLines_len ls false) as SL. destruct (skipLines false ls) as [|l q]; [exact I|]. cbn [length] in SL.
  eapply ends_bind; [apply ends_items; lia|]. intros [b r] R. cbn [snd] in R. destruct b; [apply ends_ok; lia|].
  eapply ends_weaken; [apply IH; lia|]. cbn. intros. lia.
Qed.
Lemma ends_array n name items ls : (length ls < n)%nat -> (length ls <= N)%nat ->
  ends (fun r => (length r <= length ls)%nat) (parseArray parseFloat nested n name items ls).
Proof.
  intros L LN. unfold parseArray. eapply ends_bind; [apply ends_yield|]. intros _ _.
  destruct (match items with w :: _ => bytes_eqb w [93] | [] => false end); [apply ends_ok; lia|].
  eapply ends_bind; [apply ends_items, LN|]. intros [b r] R. cbn [snd] in R. destruct b; [apply ends_ok; lia|].
  eapply ends_weaken; [apply ends_lines; lia|]. cbn. intros. lia.
Qed.
Lemma ends_first l : l.(ln_items) <> [] -> ends (fun _ => True) (of_res (first_word l)).
Proof. intros H. unfold first_word. destruct (ln_items l); [congruence|exact I]. Qed.
Lemma ends_map : forall n ls, (length ls < n)%nat -> (length ls <= N)%nat ->
  ends (fun r => (length r <= length ls)%nat) (mapLines parseFloat nested n ls).
Proof.
  induction n as [|n IH]; intros ls L LN; [lia|]. cbn [mapLines].
  pose proof (skipLines_len ls false) as SL. destruct (skipLines false ls) as [|l q] eqn:SK; [exact I|]. cbn [length] in SL.
  apply skipLines_head in SK.
  assert (K : forall r, (length r <= length q)%nat -> ends (fun r => (length r <= length ls)%nat) (mapLines parseFloat nested n r)).
  { intros r R. eapply ends_weaken; [apply IH; lia|]. cbn. intros. lia. }
  assert (KY : forall ts r, (length r <= length q)%nat -> ends (fun r => (length r <= length ls)%nat) (pbind (yield ts) (fun _ => mapLines parseFloat nested n r))).
  { intros ts r R. eapply ends_bind; [apply ends_yield|]. intros _ _. apply K, R. }
  eapply ends_bind; [apply ends_first, SK|]. intros first _.
  destruct (closes 125 first); [apply ends_ok; lia|]. destruct (negb _); [exact I|].
  eapply ends_bind; [apply ends_res, unquote_tame|]. intros key _.
  destruct (ln_items l) as [|w0 [|colon [|v items]]]; try exact I. destruct (negb _); [exact I|]. cbn zeta.
  repeat match goal with |- ends _ (if ?b then _ else _) => destruct b end; try (apply KY; lia).
  - eapply ends_bind; [apply ends_res, unquote_tame|]. intros. apply KY; lia.
  - eapply ends_bind; [apply ends_option|]. intros. apply KY; lia.
  - eapply ends_bind; [apply ends_yield|]. intros _ _. eapply ends_bind; [apply HN; lia|]. intros r R. cbn in R. apply K. lia.
Qed.
Lemma ends_value n name v items raw ls : (length ls < n)%nat -> (length ls <= N)%nat ->
  ends (fun r => (length r <= length ls)%nat) (parseValue parseFloat nested n name v items raw ls).
Proof.
  intros L LN. unfold parseValue. cbn zeta.
  repeat match goal with |- ends _ (if ?b then _ else _) => destruct b end; try (apply ends_ok; lia).
  - eapply ends_bind; [apply ends_yield|]. intros _ _. apply HN, LN.
  - apply ends_array; assumption.
  - unfold parseMap. destruct items as [|w r]; [exact I|]. destruct (bytes_eqb w [123]); [|exact I].
    eapply ends_bind; [apply ends_yield|]. intros _ _. apply ends_map; assumption.
  - eapply ends_bind; [apply ends_res, quoted_tame|]. intros. apply ends_ok. lia.
  - apply (ends_bind (fun r => (length (snd r) <= length ls)%nat)).
    + unfold parseRawString. destruct (2 <=? _); [apply ends_ok; cbn; lia|].
      pose proof (rawLines_ends ls (match v with 96 :: q => q | _ => v end)) as R. unfold ends, of_res. cbn [snd].
      destruct (rawLines _ ls) as [[s r]| | |]; cbn [snd]; auto.
    + intros [s r] R. apply ends_ok. exact R.
  - eapply ends_bind; [apply ends_option|]. intros. apply ends_ok. lia.
  - eapply ends_bind; [apply ends_number|]. intros. apply ends_ok. lia.
Qed.
Lemma ends_field n l ls : (length ls < n)%nat -> (length ls <= N)%nat ->
  ends (fun r => (length r <= length ls)%nat) (parseField parseFloat nested n l ls).
Proof.
  intros L LN. unfold parseField. destruct (ln_items l) as [|w [|w1 items1]]; try exact I. cbn zeta.
  destruct (hasLast 58 w).
  - destruct (bytes_eqb w1 [10]); [exact I|]. apply ends_value; assumption.
  - destruct (bytes_eqb w1 [58]); [|exact I]. destruct items1 as [|v q]; [exact I|]. destruct (bytes_eqb v [10]); [exact I|]. apply ends_value; assumption.
Qed.
End Nested.
Lemma ends_struct : forall n ls, (length ls < n)%nat ->
  ends (fun r => (length r <= length ls)%nat) (parseNestedStruct parseFloat n ls).
Proof.
  induction n as [|n IH]; intros ls L; [lia|]. cbn [parseNestedStruct].
  pose proof (skipLines_len ls false) as SL. destruct (skipLines false ls) as [|l q] eqn:SK; [exact I|]. cbn [length] in SL.
  apply skipLines_head in SK.
  eapply ends_bind; [apply ends_first, SK|]. intros first _.
  destruct (closes 125 first); [apply ends_ok; lia|].
  eapply ends_bind; [apply (ends_field _ (length q)); [|lia|lia]; intros ls' L'; apply IH; lia|].
  intros r R. cbn in R. eapply ends_weaken; [apply IH; lia|]. cbn. intros. lia.
Qed.
Lemma ends_fields : forall n ls, (length ls < n)%nat -> ends (fun _ => True) (parseFields parseFloat n ls).
Proof.
  induction n as [|n IH]; intros ls L; [lia|]. cbn [parseFields].
  pose proof (skipLines_len ls false) as SL. destruct (skipLines false ls) as [|l q] eqn:SK; [exact I|]. cbn [length] in SL.
  apply skipLines_head in SK.
  eapply ends_bind; [apply ends_first, SK|]. intros first _.
  destruct (bytes_eqb first [125]); [apply ends_ok; exact I|].
  eapply ends_bind; [apply (ends_field _ (length q)); [|lia|lia]; intros ls' L'; apply ends_struct; lia|].
  intros r R. cbn in R. apply IH. lia.
Qed.
Lemma ends_tokens ls : ends (fun _ => True) (textToTokens parseFloat ls).
Proof.
  unfold textToTokens. eapply ends_bind; [apply ends_yield|]. intros _ _. eapply ends_bind; [apply ends_fields; lia|]. intros. apply ends_yield.
Qed.
End Parse.
