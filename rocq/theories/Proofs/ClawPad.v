(** Empty lines and comments between the lines of a text. *)
From Coq Require Import ZArith List Bool Lia.
Import ListNotations.
From Verif.Model Require Import Base Utf8 Field Token Walk Escape Json TokenStream Ingest JsonRead ClawText.
From Verif.Spec Require Import Text ClawText.
From Verif.Proofs Require Import BaseLemmas Utf8Proofs ClawTotal ClawLine ClawErr.
From Verif.Model Require Import Ingest ClawText.
From Verif.Spec Require Import Text ClawText.
Open Scope Z_scope.

Lemma starts_prefix p w : starts p w <-> hasPrefix p w = true.
Proof.
  unfold starts. revert w. induction p as [|c p IH]; intros w; cbn; [split; eauto|]. destruct w as [|d w]; [split; [intros (q & H); discriminate|discriminate]|].
  rewrite andb_true_iff, <- IH. split.
  - intros (q & H). inversion H; subst. split; [apply Z.eqb_refl|eauto].
  - intros (H & q & ->). apply Z.eqb_eq in H. subst. eauto.
Qed.
Lemma contains_has p w : contains p w = true <-> has p w.
Proof.
  unfold has. revert p. induction w as [|c w IH]; intros p; cbn [contains]; rewrite orb_true_iff, <- starts_prefix; unfold starts.
  - split; [intros [(q & H)|H]; [exists [], q; exact H|discriminate]|]. intros (a & b & H). left. destruct a; [exists b; exact H|discriminate].
  - rewrite IH. split.
    + intros [(q & H)|(a & b & ->)]; [exists [], q; exact H|exists (c :: a), b; reflexivity].
    + intros (a & b & H). destruct a as [|d a]; [left; exists b; exact H|]. inversion H; subst. right. exists a, b. reflexivity.
Qed.
Lemma contains_not p w : ~ has p w -> contains p w = false.
Proof. intros H. destruct (contains p w) eqn:Q; [apply contains_has in Q; tauto|reflexivity]. Qed.
Lemma body_skip body last q : Forall (fun l => ~ has [42; 47] (ln_raw l)) body -> has [42; 47] (ln_raw last) -> skipLines true (body ++ last :: q) = skipLines false q.
Proof.
  intros F C. apply contains_has in C. induction F as [|l body H _ IH]; cbn [app skipLines]; [rewrite C; reflexivity|].
  rewrite (contains_not _ _ H). exact IH.
Qed.
Lemma trivia_skip t q : trivia t -> skipLines false (t ++ q) = skipLines false q.
Proof.
  intros [l [T|T]|l w ws T S|ls (body & last & -> & (l & r & Q & w & ws & T & S) & F & C)]; [cbn [app skipLines]; unfold blank_line; rewrite T; reflexivity..| |].
  - cbn [app skipLines]; unfold blank_line; rewrite T; cbn [hd]. apply starts_prefix in S. rewrite S. destruct ws; [destruct (bytes_eqb w [10])|]; reflexivity.
  - assert (H : forall q, skipLines false (l :: q) = skipLines (negb (contains [42; 47] l.(ln_raw))) q).
    { intros q0. cbn [skipLines]. unfold blank_line. rewrite T. cbn [hd]. destruct S as (u & ->). cbn. destruct ws; reflexivity. }
    destruct body as [|l0 body]; cbn [app] in *; inversion Q; subst.
    + rewrite H. apply contains_has in C. rewrite C. reflexivity.
    + inversion F; subst. rewrite H, contains_not by assumption. rewrite <- app_assoc. apply body_skip; assumption.
Qed.
Lemma trivia_cons t : trivia t -> (0 < length t)%nat.
Proof. intros [| |ls (body & last & -> & _)]; cbn; try lia. rewrite app_length. cbn. lia. Qed.
Lemma no_block l : no_blocks l -> hasPrefix [47; 42] (hd [] (ln_items l)) = false.
Proof. intros [N _]. destruct (hasPrefix _ _) eqn:Q; [apply starts_prefix in Q; tauto|reflexivity]. Qed.
Lemma padded_skip ls ls' : padded ls ls' -> Forall no_blocks ls ->
  match skipLines false ls with
  | [] => skipLines false ls' = []
  | l :: q => exists q', skipLines false ls' = l :: q' /\ padded q q' /\ Forall no_blocks (l :: q) /\ (length q < length ls)%nat /\ (length q' < length ls')%nat
  end.
Proof.
  induction 1 as [|l ls ls' P IH|t ls ls' T P IH]; intros N; [reflexivity| |].
  - inversion N as [|? ? N1 N2]; subst. specialize (IH N2). cbn [skipLines]. rewrite (no_block l N1).
    destruct (blank_line l); [|destruct (hasPrefix [47; 47] _)].
    1,2: destruct (skipLines false ls) as [|l0 q]; [exact IH|]; destruct IH as (q' & A & B & C & D & F); exists q'; cbn [length]; repeat split; auto; lia.
    exists ls'. cbn [length]. repeat split; auto.
  - specialize (IH N). rewrite (trivia_skip t ls' T). pose proof (trivia_cons t T) as LT. destruct (skipLines false ls) as [|l0 q]; [exact IH|].
    destruct IH as (q' & A & B & C & D & F). exists q'. rewrite app_length. repeat split; auto; lia.
Qed.

(** The same tokens, the same end, and related values. *)
Definition same {A} (R : A -> A -> Prop) (x y : pr A) : Prop :=
  fst x = fst y /\ match snd x, snd y with
  | Ok a, Ok b => R a b | Err, Err => True | Panic, Panic => True | Hang, Hang => True | _, _ => False
  end.
Lemma same_bind {A B} (R : A -> A -> Prop) (Q : B -> B -> Prop) x y f g : same R x y -> (forall a b, R a b -> same Q (f a) (g b)) -> same Q (pbind x f) (pbind y g).
Proof.
  intros (H1 & H2) F. unfold pbind. destruct x as [tx rx], y as [ty ry]. cbn [fst snd] in *. subst ty.
  destruct rx as [a| | |], ry as [b| | |]; try destruct H2; try (split; [reflexivity|exact I]).
  destruct (F a b H2) as (F1 & F2). split; [cbn [fst]; rewrite F1; reflexivity|exact F2].
Qed.
Lemma same_refl {A} (R : A -> A -> Prop) x : (forall a, R a a) -> same R x x.
Proof. intros H. split; [reflexivity|]. destruct (snd x); auto. Qed.
Lemma same_ok {A} (R : A -> A -> Prop) ts a b : R a b -> same R (ts, Ok a) (ts, Ok b).
Proof. intros H. split; [reflexivity|exact H]. Qed.
Lemma same_fail {A} (R : A -> A -> Prop) : same R fail fail.
Proof. split; reflexivity. Qed.
Definition rel (a b : list line) : Prop := padded a b /\ Forall no_blocks a.
Section Parse.
Variable pf : bytes -> option Z.
Section Nested.
Variable nested nested' : list line -> pr (list line).
Variable N N' : nat.
Hypothesis HL : forall ls, (length ls <= N)%nat -> ends (fun r => (length r <= length ls)%nat) (nested ls).
Hypothesis HL' : forall ls, (length ls <= N')%nat -> ends (fun r => (length r <= length ls)%nat) (nested' ls).
Hypothesis HN : forall ls ls', rel ls ls' -> (length ls <= N)%nat -> (length ls' <= N')%nat -> same rel (nested ls) (nested' ls').
(** Related and no longer than before. *)
Definition down (n n' : nat) (a b : list line) : Prop := rel a b /\ (length a <= n)%nat /\ (length b <= n')%nat.
Lemma same_down x y n n' : same rel x y -> ends (fun r => (length r <= n)%nat) x -> ends (fun r => (length r <= n')%nat) y -> same (down n n') x y.
Proof.
  intros (A & B) E1 E2. split; [exact A|]. unfold ends in *. destruct (snd x), (snd y); auto. split; auto.
Qed.
Lemma nested_down ls ls' : rel ls ls' -> (length ls <= N)%nat -> (length ls' <= N')%nat -> same (down (length ls) (length ls')) (nested ls) (nested' ls').
Proof. intros R L L'. apply same_down; auto. Qed.
Lemma items_same : forall items ls ls', rel ls ls' -> (length ls <= N)%nat -> (length ls' <= N')%nat ->
  same (fun a b => fst a = fst b /\ down (length ls) (length ls') (snd a) (snd b)) (arrayItems pf nested items ls) (arrayItems pf nested' items ls').
Proof.
  induction items as [|v q IH]; intros ls ls' R L L'; cbn [arrayItems].
  - apply same_ok. split; [reflexivity|]. repeat split; auto; apply R.
  - destruct (closes 93 v); [apply same_ok; split; [reflexivity|]; repeat split; auto; apply R|].
    destruct (_ || _); [apply IH; assumption|]. destruct (bytes_eqb v [123]).
    + eapply (same_bind (fun _ _ => True)); [apply same_refl; auto|]. intros _ _ _. eapply same_bind; [apply nested_down; eassumption|].
      intros a b (Rab & La & Lb). split.
      * destruct (IH a b Rab ltac:(lia) ltac:(lia)) as (F1 & _). exact F1.
      * destruct (IH a b Rab ltac:(lia) ltac:(lia)) as (_ & F2). destruct (snd (arrayItems pf nested q a)), (snd (arrayItems pf nested' q b)); auto.
        destruct F2 as (Q1 & Q2 & Q3 & Q4). split; [exact Q1|]. split; [exact Q2|]. split; lia.
    + eapply (same_bind (fun _ _ => True)); [apply same_refl; auto|]. intros _ _ _. apply IH; assumption.
Qed.
Lemma lines_same : forall n n' ls ls', rel ls ls' -> (length ls < n)%nat -> (length ls' < n')%nat -> (length ls <= N)%nat -> (length ls' <= N')%nat ->
  same rel (arrayLines pf nested n ls) (arrayLines pf nested' n' ls').
Proof.
  induction n as [|n IH]; intros n' ls ls' R L L' LN LN'; [lia|]. destruct n' as [|n']; [lia|]. cbn [arrayLines].
  pose proof (padded_skip ls ls' (proj1 R) (proj2 R)) as P. destruct (skipLines false ls) as [|l q]; [rewrite P; apply same_fail|].
  destruct P as (q' & -> & P & NB & LQ & LQ'). inversion NB; subst. eapply same_bind; [apply items_same; [split; assumption|lia|lia]|].
  intros [e1 a] [e2 b] (Q & Rab & La & Lb). cbn [fst snd] in *. subst e2. destruct e1; [apply same_ok; exact Rab|]. apply IH; auto; lia.
Qed.
Lemma array_same n n' name items ls ls' : rel ls ls' -> (length ls < n)%nat -> (length ls' < n')%nat -> (length ls <= N)%nat -> (length ls' <= N')%nat ->
  same rel (parseArray pf nested n name items ls) (parseArray pf nested' n' name items ls').
Proof.
  intros R L L' LN LN'. unfold parseArray. eapply (same_bind (fun _ _ => True)); [apply same_refl; auto|]. intros _ _ _.
  destruct (match items with w :: _ => bytes_eqb w [93] | [] => false end); [apply same_ok; exact R|].
  eapply same_bind; [apply items_same; assumption|]. intros [e1 a] [e2 b] (Q & Rab & La & Lb). cbn [fst snd] in *. subst e2. destruct e1; [apply same_ok; exact Rab|]. apply lines_same; auto; lia.
Qed.
Lemma same_any {A B} (Q : B -> B -> Prop) (x : pr A) f g : (forall a, same Q (f a) (g a)) -> same Q (pbind x f) (pbind x g).
Proof. intros H. eapply (same_bind eq); [apply same_refl; reflexivity|]. intros a b ->. apply H. Qed.
Lemma map_same : forall n n' ls ls', rel ls ls' -> (length ls < n)%nat -> (length ls' < n')%nat -> (length ls <= N)%nat -> (length ls' <= N')%nat ->
  same rel (mapLines pf nested n ls) (mapLines pf nested' n' ls').
Proof.
  induction n as [|n IH]; intros n' ls ls' R L L' LN LN'; [lia|]. destruct n' as [|n']; [lia|]. cbn [mapLines].
  pose proof (padded_skip ls ls' (proj1 R) (proj2 R)) as P. destruct (skipLines false ls) as [|l q]; [rewrite P; apply same_fail|].
  destruct P as (q' & -> & P & NB & LQ & LQ'). inversion NB; subst.
  assert (RQ : rel q q') by (split; assumption).
  assert (KY : forall ts, same rel (pbind (yield ts) (fun _ => mapLines pf nested n q)) (pbind (yield ts) (fun _ => mapLines pf nested' n' q'))).
  { intros ts. apply same_any. intros _. apply IH; auto; lia. }
  apply same_any. intros first. destruct (closes 125 first); [apply same_ok; exact RQ|]. destruct (negb _); [apply same_fail|]. apply same_any. intros key.
  destruct (ln_items l) as [|w0 [|colon [|v items]]]; try apply same_fail. destruct (negb _); [apply same_fail|]. cbn zeta.
  repeat match goal with |- same _ (if ?b then _ else _) _ => destruct b end; try apply KY; try (apply same_any; intros; apply KY).
  apply same_any. intros _. eapply same_bind; [apply nested_down; [exact RQ|lia|lia]|]. intros a b (Rab & La & Lb). apply IH; auto; lia.
Qed.
Lemma value_same n n' name v items raw ls ls' : ~ starts [96] v -> rel ls ls' -> (length ls < n)%nat -> (length ls' < n')%nat -> (length ls <= N)%nat -> (length ls' <= N')%nat ->
  same rel (parseValue pf nested n name v items raw ls) (parseValue pf nested' n' name v items raw ls').
Proof.
  intros NR R L L' LN LN'. unfold parseValue. cbn zeta.
  assert (HB : hasPrefix [96] v = false) by (destruct (hasPrefix [96] v) eqn:Q; [apply starts_prefix in Q; tauto|reflexivity]). rewrite HB.
  repeat match goal with |- same _ (if ?b then _ else _) _ => destruct b end; try (apply same_ok; exact R); try (apply same_any; intros; apply same_ok; exact R).
  - apply same_any. intros _. apply HN; assumption.
  - apply array_same; assumption.
  - unfold parseMap. destruct items as [|w r]; [apply same_fail|]. destruct (bytes_eqb w [123]); [|apply same_fail]. apply same_any. intros _. apply map_same; assumption.
Qed.
Lemma field_same n n' l ls ls' : no_blocks l -> rel ls ls' -> (length ls < n)%nat -> (length ls' < n')%nat -> (length ls <= N)%nat -> (length ls' <= N')%nat ->
  same rel (parseField pf nested n l ls) (parseField pf nested' n' l ls').
Proof.
  intros [_ NB] R L L' LN LN'. unfold parseField. destruct (ln_items l) as [|w [|w1 items1]]; try apply same_fail. cbn zeta.
  inversion NB as [|? ? _ NB1]; subst. inversion NB1 as [|? ? NB2 NB3]; subst.
  destruct (hasLast 58 w).
  - destruct (bytes_eqb w1 [10]); [apply same_fail|]. apply value_same; assumption.
  - destruct (bytes_eqb w1 [58]); [|apply same_fail]. destruct items1 as [|v q]; [apply same_fail|]. inversion NB3 as [|? ? NB4 _]; subst. destruct (bytes_eqb v [10]); [apply same_fail|]. apply value_same; assumption.
Qed.
End Nested.
Lemma struct_same : forall n n' ls ls', rel ls ls' -> (length ls < n)%nat -> (length ls' < n')%nat -> same rel (parseNestedStruct pf n ls) (parseNestedStruct pf n' ls').
Proof.
  induction n as [|n IH]; intros n' ls ls' R L L'; [lia|]. destruct n' as [|n']; [lia|]. cbn [parseNestedStruct].
  pose proof (padded_skip ls ls' (proj1 R) (proj2 R)) as P. destruct (skipLines false ls) as [|l q]; [rewrite P; apply same_fail|].
  destruct P as (q' & -> & P & NB & LQ & LQ'). inversion NB as [|? ? NB1 NB2]; subst. assert (RQ : rel q q') by (split; assumption).
  apply same_any. intros first. destruct (closes 125 first); [apply same_ok; exact RQ|].
  eapply same_bind.
  - apply (same_down _ _ (length q) (length q')).
    + apply (field_same _ _ (length q) (length q')); auto; try lia; [..|intros; apply IH; auto; lia]; intros; apply ends_struct; lia.
    + apply (ends_field pf _ (length q)); try lia. intros. apply ends_struct. lia.
    + apply (ends_field pf _ (length q')); try lia. intros. apply ends_struct. lia.
  - intros a b (Rab & La & Lb). apply IH; auto; lia.
Qed.
Lemma fields_same : forall n n' ls ls', rel ls ls' -> (length ls < n)%nat -> (length ls' < n')%nat -> same rel (parseFields pf n ls) (parseFields pf n' ls').
Proof.
  induction n as [|n IH]; intros n' ls ls' R L L'; [lia|]. destruct n' as [|n']; [lia|]. cbn [parseFields].
  pose proof (padded_skip ls ls' (proj1 R) (proj2 R)) as P. destruct (skipLines false ls) as [|l q]; [rewrite P; apply same_ok; split; constructor|].
  destruct P as (q' & -> & P & NB & LQ & LQ'). inversion NB as [|? ? NB1 NB2]; subst. assert (RQ : rel q q') by (split; assumption).
  apply same_any. intros first. destruct (bytes_eqb first [125]); [apply same_ok; exact RQ|].
  eapply same_bind.
  - apply (same_down _ _ (length q) (length q')).
    + apply (field_same _ _ (length q) (length q')); auto; try lia; [..|intros; apply struct_same; auto; lia]; intros; apply ends_struct; lia.
    + apply (ends_field pf _ (length q)); try lia. intros. apply ends_struct. lia.
    + apply (ends_field pf _ (length q')); try lia. intros. apply ends_struct. lia.
  - intros a b (Rab & La & Lb). apply IH; auto; lia.
Qed.
Lemma tokens_same ls ls' : padded ls ls' -> Forall no_blocks ls -> textToTokens pf ls = textToTokens pf ls'.
Proof.
  intros P N. unfold textToTokens.
  assert (S : same eq (pbind (yield [tok0 TStructStart root_name 0]) (fun _ => pbind (parseFields pf (S (length ls)) ls) (fun _ => yield [])))
    (pbind (yield [tok0 TStructStart root_name 0]) (fun _ => pbind (parseFields pf (S (length ls')) ls') (fun _ => yield [])))).
  { apply same_any. intros _. eapply same_bind; [apply fields_same; [split; assumption|lia|lia]|]. intros. apply same_refl. reflexivity. }
  destruct S as (A & B). destruct (pbind _ _) as [t1 r1], (pbind (yield _) _) as [t2 r2]. cbn [fst snd] in *. subst. f_equal. destruct r1, r2; try destruct B; congruence.
Qed.
End Parse.

(** ** Texts *)
Lemma utf8_one r : scalar r -> (r < 0x80 /\ utf8_of r = [r]) \/ (0x80 <= r /\ exists c t, utf8_of r = c :: t /\ Forall (fun c => 0x80 <= c) (c :: t)).
Proof.
  intros S. unfold utf8_of. destruct (Z.ltb_spec r 0x80); [left; auto|]. right. split; [assumption|].
  destruct (Z.ltb_spec r 0x800); [|destruct (Z.ltb_spec r 0x10000)]; eexists; eexists; (split; [reflexivity|]); repeat constructor; dlia.
Qed.
Lemma prefix_utf8 p rs : Forall (fun c => 0 <= c < 0x80) p -> Forall scalar rs -> starts p (utf8 rs) -> exists q, rs = p ++ q.
Proof.
  intros P. revert rs. induction P as [|c p C P IH]; intros rs S (q & H); [exists rs; reflexivity|].
  destruct S as [|r rs SR S]; [discriminate|]. cbn [utf8 flat_map] in H. fold (utf8 rs) in H.
  destruct (utf8_one r SR) as [[L E]|(L & d & t & E & F)]; rewrite E in H; cbn [app] in H; inversion H; subst.
  - destruct (IH rs S) as (q' & ->); [exists q; assumption|]. exists q'. reflexivity.
  - inversion F; subst. lia.
Qed.
Lemma has_utf8 p rs : p <> [] -> Forall (fun c => 0 <= c < 0x80) p -> Forall scalar rs -> has p (utf8 rs) -> has p rs.
Proof.
  intros N P. induction 1 as [|r rs SR S IH]; intros (a & b & H).
  - cbn in H. destruct a; [|discriminate]. destruct p; [tauto|discriminate].
  - cbn [utf8 flat_map] in H. fold (utf8 rs) in H.
    assert (C : starts p (utf8_of r ++ utf8 rs) \/ has p (utf8 rs)).
    { destruct a as [|c a]; [left; exists b; exact H|]. right.
      destruct (utf8_one r SR) as [[L E]|(L & d & t & E & F)]; rewrite E in H; cbn [app] in H; inversion H; subst; [exists a, b; assumption|].
      clear IH H. inversion F as [|? ? _ F']; subst. clear F E. revert a H2. induction F' as [|e t E0 _ IH]; intros a H; [exists a, b; exact H|].
      destruct a as [|f a]; cbn [app] in H; [|inversion H; subst; eapply IH; eassumption].
      destruct p as [|g p]; [tauto|]. cbn [app] in H. inversion H; subst. inversion P; subst. lia. }
    destruct C as [C|C].
    + destruct (prefix_utf8 p (r :: rs) P) as (q & Q); [constructor; assumption|exact C|]. exists [], q. exact Q.
    + destruct (IH C) as (a' & b' & ->). exists (r :: a'), b'. reflexivity.
Qed.
Lemma utf8_has p rs : Forall (fun c => 0 <= c < 0x80) p -> has p rs -> has p (utf8 rs).
Proof. intros P (a & b & ->). exists (utf8 a), (utf8 b). rewrite !utf8_app, (utf8_ascii p P). reflexivity. Qed.
Lemma has_newline p w : p <> [] -> ~ In 10 p -> has p (w ++ [10]) -> has p w.
Proof.
  intros N I (a & b & H). destruct b as [|c b _] using rev_ind.
  - rewrite app_nil_r in H. destruct p as [|c p _] using rev_ind; [tauto|]. rewrite app_assoc in H. apply app_inj_tail in H as [_ <-]. exfalso. apply I. apply in_app_iff. right. left. reflexivity.
  - rewrite !app_assoc in H. apply app_inj_tail in H as [-> _]. exists a, b. rewrite app_assoc. reflexivity.
Qed.
Section Lexer.
Variable space : Z -> bool.
Hypothesis S32 : space 32 = true.
Hypothesis S9 : space 9 = true.
Hypothesis SP : forall c, 33 <= c <= 126 -> space c = false.
Lemma words_sub rs : forall acc w, In w (words_from space acc rs) -> has w (rev acc ++ rs).
Proof.
  induction rs as [|r rs IH]; intros acc w I; cbn [words_from] in I.
  - destruct acc as [|c acc]; [destruct I|]. destruct I as [<-|[]]. exists [], []. reflexivity.
  - destruct (space r).
    + apply in_app_iff in I as [I|I].
      * destruct acc as [|c acc]; [destruct I|]. destruct I as [<-|[]]. exists [], (r :: rs). reflexivity.
      * apply IH in I as (a & b & Q). cbn [rev app] in Q. exists (rev acc ++ [r] ++ a), b. rewrite Q, <- !app_assoc. reflexivity.
    + apply IH in I. cbn [rev] in I. rewrite <- app_assoc in I. exact I.
Qed.
Lemma words_lead rs : forall w ws, words_from space [] rs = w :: ws -> exists a b, rs = a ++ w ++ b /\ Forall (fun c => space c = true) a.
Proof.
  induction rs as [|r rs IH]; intros w ws H; cbn [words_from] in H; [discriminate|]. destruct (space r) eqn:Q.
  - apply IH in H as (a & b & -> & F). exists (r :: a), b. split; [reflexivity|constructor; assumption].
  - destruct (words_some space rs [r] ltac:(discriminate)) as (p & t & ws' & E & R). rewrite E in H. inversion H; subst. exists [], t. split; [reflexivity|constructor].
Qed.
Lemma line_no_blocks rs l : Forall scalar rs -> no_openings rs -> line_of space rs l -> no_blocks l.
Proof.
  intros S [N1 N2] [IT _].
  assert (W : Forall (fun w => ~ starts [96] w) (map utf8 (words space rs))).
  { apply Forall_forall. intros w I. apply in_map_iff in I as (v & <- & I). apply words_sub in I. cbn in I. destruct I as (a & b & ->).
    apply Forall_app in S as [_ S]. apply Forall_app in S as [S _]. intros H; apply prefix_utf8 in H as (q & ->); auto; try (repeat constructor; lia).
    apply N1. apply in_app_iff. right. apply in_app_iff. left. left. reflexivity. }
  assert (HD : ~ starts [47; 42] (hd [] (map utf8 (words space rs)))).
  { destruct (words space rs) as [|w ws] eqn:Q; [intros (q & H); discriminate|]. destruct (words_lead rs w ws Q) as (a & b & -> & F). cbn [map hd].
    apply Forall_app in S as [_ S]. apply Forall_app in S as [S _]. intros H; apply prefix_utf8 in H as (q & ->); auto; try (repeat constructor; lia).
    apply N2. exists a, (q ++ b). split; [reflexivity|]. eapply Forall_impl; [|exact F]. cbn. intros c C P. rewrite (SP c P) in C. discriminate. }
  unfold no_blocks. destruct IT as [-> | ->]; [split; assumption|]. split.
  - destruct (map utf8 _); [intros (q & H); discriminate|exact HD].
  - apply Forall_app. split; [exact W|]. constructor; [|constructor]. intros (q & H); discriminate.
Qed.
Lemma open_items c d b q l : Forall blank_char b -> 33 <= c <= 126 -> 33 <= d <= 126 -> line_of space (b ++ c :: d :: q) l -> exists w ws, l.(ln_items) = w :: ws /\ starts [c; d] w.
Proof.
  intros B C D [IT _]. rewrite (words_blanks space S32 S9 b _ B) in IT.
  assert (W : exists p ws, words space (c :: d :: q) = (c :: d :: p) :: ws).
  { unfold words. cbn [words_from]. rewrite (SP c C), (SP d D). destruct (words_some space q [d; c] ltac:(discriminate)) as (p & r & ws & E & _). rewrite E. cbn. eauto. }
  destruct W as (p & ws & W). rewrite W in IT. cbn [map] in IT. unfold utf8 at 1 3 in IT. cbn [flat_map] in IT.
  destruct (utf8_one c ltac:(unfold scalar; lia)) as [[_ E1]|[? _]]; [|lia]. destruct (utf8_one d ltac:(unfold scalar; lia)) as [[_ E2]|[? _]]; [|lia]. rewrite E1, E2 in IT. cbn [app] in IT.
  destruct IT as [-> | ->]; eexists; eexists; (split; [reflexivity|]); exists (flat_map utf8_of p); reflexivity.
Qed.
Variable line_for : list Z -> line.
Hypothesis LF : forall rs, line_of space rs (line_for rs).
Lemma closes_for rs : line_chars rs -> (has [42; 47] (ln_raw (line_for rs)) <-> has [42; 47] rs).
Proof.
  intros (S & _ & _). assert (A : Forall (fun c => 0 <= c < 0x80) [42; 47]) by (repeat constructor; lia). destruct (LF rs) as [_ [-> | ->]]; split; intros H.
  - apply has_utf8; auto. discriminate.
  - apply utf8_has; auto.
  - apply has_utf8; auto; [discriminate|]. apply has_newline; [discriminate| |exact H]. cbn. lia.
  - destruct (utf8_has _ _ A H) as (a & b & ->). exists a, (b ++ [10]). rewrite <- !app_assoc. reflexivity.
Qed.
Lemma comment_trivia c : comment c -> trivia (map line_for c) /\ Forall line_chars c.
Proof.
  intros [b B|b q B Q|rss LC (body & last & -> & (l & r & Q & b & q & -> & B) & F & C)].
  - split; [|repeat constructor; apply (blanks_line b B)]. apply tv_empty. destruct (LF b) as [IT _]. rewrite <- (app_nil_r b) in IT. rewrite (words_blanks space S32 S9 b _ B) in IT. rewrite app_nil_r in IT. exact IT.
  - split.
    + destruct (open_items 47 47 b q (line_for (b ++ 47 :: 47 :: q)) B ltac:(lia) ltac:(lia) (LF _)) as (w & ws & IT & S). eapply tv_line; eassumption.
    + constructor; [|constructor]. apply line_app; [apply (blanks_line b B)|]. apply (line_app [47; 47] q); [|exact Q]. apply printable_line. repeat constructor; lia.
  - split; [|exact LC]. apply tv_block. rewrite map_app. exists (map line_for body), (line_for last). split; [reflexivity|].
    assert (LC' := LC). apply Forall_app in LC' as [LC1 LC2]. inversion LC2; subst. split; [|split].
    + rewrite <- map_app. cbn [map]. rewrite Q. cbn [map]. eexists; eexists; split; [reflexivity|]. apply (open_items 47 42 b q); auto; lia.
    + clear -F LC1 LF. induction F; inversion LC1; subst; constructor; auto. rewrite closes_for; assumption.
    + apply closes_for; assumption.
Qed.
Lemma commented_padded rss rss' : commented rss rss' -> Forall line_chars rss -> padded (map line_for rss) (map line_for rss') /\ Forall line_chars rss'.
Proof.
  induction 1 as [|rs rss rss' _ IH|c rss rss' C _ IH]; intros F.
  - split; constructor.
  - inversion F; subst. destruct (IH ltac:(assumption)). split; [constructor; assumption|constructor; assumption].
  - destruct (IH F) as [P L]. destruct (comment_trivia c C) as [T LC]. rewrite map_app. split; [constructor; assumption|apply Forall_app; auto].
Qed.
(** Lines without words left out. *)
Let keep := worded space.
Lemma visible_keep rs : visible rs -> keep rs = true.
Proof.
  intros V. unfold keep, worded. destruct (words space rs) eqn:W; [|reflexivity]. exfalso. apply Exists_exists in V as (c & I & C).
  enough (G : forall rs acc, words_from space acc rs = [] -> acc = [] /\ Forall (fun c => space c = true) rs).
  { destruct (G _ _ W) as [_ F]. rewrite Forall_forall in F. specialize (F c I). rewrite (SP c C) in F. discriminate. }
  clear. induction rs as [|r rs IH]; intros acc H; cbn [words_from] in H.
  - destruct acc; [auto|discriminate].
  - destruct (space r) eqn:S.
    + destruct acc; cbn in H; [destruct (IH [] H); auto|discriminate].
    + destruct (IH _ H) as [A _]. destruct acc; discriminate.
Qed.
Lemma comment_kept c : comment c -> filter keep c = [] \/ comment (filter keep c).
Proof.
  intros [b B|b q B Q|rss LC (body & last & -> & (l & r & Q & b & q & -> & B) & F & C)].
  - left. cbn [filter]. replace (keep b) with false; [reflexivity|]. symmetry. unfold keep, worded. rewrite <- (app_nil_r b), (words_blanks space S32 S9 b _ B). reflexivity.
  - right. cbn [filter]. rewrite visible_keep; [apply cm_line; assumption|]. apply Exists_app. right. constructor. lia.
  - right. apply cm_block.
    + apply Forall_forall. intros x I. apply filter_In in I as [I _]. rewrite Forall_forall in LC. auto.
    + assert (KL : keep last = true).
      { apply visible_keep. destruct C as (x & y & ->). apply Exists_app. right. constructor. lia. }
      exists (filter keep body), last. rewrite filter_app. cbn [filter]. rewrite KL. split; [reflexivity|]. split; [|split; [|exact C]].
      * assert (KO : keep (b ++ 47 :: 42 :: q) = true) by (apply visible_keep, Exists_app; right; constructor; lia).
        destruct body as [|o body]; cbn [app] in Q; inversion Q; subst.
        -- exists (b ++ 47 :: 42 :: q), []. split; [reflexivity|]. exists b, q. auto.
        -- cbn [filter]. rewrite KO. cbn [app]. eexists; eexists; split; [reflexivity|]. exists b, q. auto.
      * apply Forall_forall. intros x I. apply filter_In in I as [I _]. rewrite Forall_forall in F. auto.
Qed.
Lemma commented_kept rss rss' : commented rss rss' -> commented (filter keep rss) (filter keep rss').
Proof.
  induction 1 as [|rs rss rss' _ IH|c rss rss' C _ IH]; cbn [filter].
  - constructor.
  - destruct (keep rs); [constructor; exact IH|exact IH].
  - rewrite filter_app. destruct (comment_kept c C) as [->|C']; [exact IH|constructor; assumption].
Qed.
End Lexer.
Lemma padded_extra ls ls' extra : padded ls ls' -> Forall (fun l => l.(ln_items) = [] \/ l.(ln_items) = [[10]]) extra -> padded ls (ls' ++ extra).
Proof.
  intros P F. induction P as [|l ls ls' P IH|t ls ls' T P IH]; cbn [app]; [|constructor; exact IH|rewrite <- app_assoc; constructor; assumption].
  induction F as [|l extra H _ IH]; [constructor|]. apply (pad_add [l]); [apply tv_empty; exact H|exact IH].
Qed.
Lemma padded_refl ls : padded ls ls.
Proof. induction ls; constructor; assumption. Qed.
Lemma text_same pf lexer rss rss' : splits_alike lexer -> commented rss rss' -> Forall line_chars rss -> Forall no_openings rss ->
  textToTokens pf (lexer (text_of_lines rss')) = textToTokens pf (lexer (text_of_lines rss)).
Proof.
  intros (space & S32 & S9 & SP & line_for & drops & LF & L) C F N.
  destruct (commented_padded space S32 S9 SP line_for LF rss rss' C F) as [P F'].
  destruct (L rss F) as (e1 & -> & X1). destruct (L rss' F') as (e2 & -> & X2).
  enough (G : forall rss rss', commented rss rss' -> Forall line_chars rss -> Forall no_openings rss ->
    textToTokens pf (map line_for rss' ++ e2) = textToTokens pf (map line_for rss ++ e1)).
  { destruct drops; [|apply G; assumption]. apply G.
    - eapply (commented_kept space S32 S9 SP); eassumption.
    - apply Forall_forall. intros x I. apply filter_In in I as [I _]. rewrite Forall_forall in F. auto.
    - apply Forall_forall. intros x I. apply filter_In in I as [I _]. rewrite Forall_forall in N. auto. }
  clear rss rss' C F N P F'. intros rss rss' C F N. destruct (commented_padded space S32 S9 SP line_for LF rss rss' C F) as [P F'].
  assert (NB : Forall no_blocks (map line_for rss)).
  { clear -F N LF SP. induction N as [|rs rss A _ IH]; inversion F as [|? ? (S & _) F']; subst; constructor; auto. eapply line_no_blocks; eauto. }
  rewrite <- (tokens_same pf (map line_for rss)); [|apply padded_extra; assumption|exact NB].
  apply tokens_same; [apply padded_extra; [apply padded_refl|assumption]|exact NB].
Qed.
