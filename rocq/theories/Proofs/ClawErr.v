(** Where the parser stops with an error, the struct is not closed; for structs of numbers, strings and
    structs, Ingest then fails. *)
From Coq Require Import ZArith List Bool Lia.
Import ListNotations.
From Verif.Model Require Import Base Utf8 Field Token Walk Escape Json TokenStream Ingest JsonRead ClawText.
From Verif.Spec Require Import ClawText.
From Verif.Proofs Require Import BaseLemmas WalkProofs IngestProofs IngestTotal IngestExt ClawTotal.
From Verif.Model Require Import Ingest ClawText.
Open Scope Z_scope.

(** The number of structs open after the tokens; None: more were closed than opened. *)
Fixpoint dep (d : nat) (ts : list token) : option nat :=
  match ts with
  | [] => Some d
  | t :: q =>
    match t.(t_kind) with
    | TStructStart => dep (S d) q
    | TStructEnd => match d with O => None | S d => dep d q end
    | _ => dep d q
    end
  end.
(** The same, and None also if all are closed. *)
Fixpoint opn (d : nat) (ts : list token) : option nat :=
  match ts with
  | [] => Some d
  | t :: q =>
    match t.(t_kind) with
    | TStructStart => opn (S d) q
    | TStructEnd => match d with S (S d) => opn (S d) q | _ => None end
    | _ => opn d q
    end
  end.
Lemma opn_app a : forall d b, opn d (a ++ b) = match opn d a with Some k => opn k b | None => None end.
Proof.
  induction a as [|t a IH]; intros d b; [reflexivity|]. cbn [app opn]. destruct (t_kind t); try apply IH. destruct d as [|[|d]]; [reflexivity|reflexivity|apply IH].
Qed.
Lemma dep_app a : forall d b, dep d (a ++ b) = match dep d a with Some k => dep k b | None => None end.
Proof.
  induction a as [|t a IH]; intros d b; [reflexivity|]. cbn [app dep]. destruct (t_kind t); try apply IH. destruct d as [|d]; [reflexivity|apply IH].
Qed.
Lemma closed_not_open p : forall d q, dep (S d) p = Some O -> opn (S d) (p ++ q) = None.
Proof.
  induction p as [|t p IH]; intros d q H; [discriminate|]. cbn [app dep opn] in *. destruct (t_kind t); try (apply IH; exact H).
  destruct d as [|d]; [reflexivity|apply IH; exact H].
Qed.

(** ** The parser *)
Definition lifts {A} (a b : nat) (x : pr A) : Prop :=
  forall d, exists k, opn (S (a + d)) (fst x) = Some k /\ match snd x with Ok _ => k = S (b + d) | _ => True end.
Lemma lifts_bind {A B} a b c (x : pr A) (f : A -> pr B) : lifts a b x -> (forall v, lifts b c (f v)) -> lifts a c (pbind x f).
Proof.
  intros X F d. destruct (X d) as (k & O & R). unfold pbind. destruct x as [ts [v| | |]]; cbn [fst snd] in *; try (exists k; auto; fail).
  subst k. destruct (F v d) as (k & O' & R'). exists k. rewrite opn_app, O. auto.
Qed.
Lemma lifts_ok {A} a (v : A) : lifts a a ([], Ok v).
Proof. intros d. exists (S (a + d)). split; reflexivity. Qed.
Lemma lifts_stop {A} a b (r : res A) : match r with Ok _ => False | _ => True end -> lifts a b ([], r).
Proof. intros H d. exists (S (a + d)). cbn. destruct r; auto. destruct H. Qed.
Lemma lifts_res {A} a (r : res A) : lifts a a (of_res r).
Proof. destruct r; [apply lifts_ok| | |]; apply lifts_stop; exact I. Qed.
Lemma lifts_option {A} a (o : option A) : lifts a a (of_option o).
Proof. destruct o; [apply lifts_ok|apply lifts_stop; exact I]. Qed.
Lemma lifts_flat {A} a ts (v : A) : Forall (fun t => t_kind t <> TStructStart /\ t_kind t <> TStructEnd) ts -> lifts a a (ts, Ok v).
Proof.
  intros F d. exists (S (a + d)). split; [|reflexivity]. cbn [fst]. induction F as [|t ts [F1 F2] _ IH]; [reflexivity|]. cbn [opn]. destruct (t_kind t); congruence.
Qed.
Lemma lifts_end a (v : list line) t : t_kind t = TStructEnd -> lifts (S a) a ([t], Ok v).
Proof. intros K d. exists (S (a + d)). cbn. rewrite K. auto. Qed.
Ltac flat := repeat constructor; discriminate.
Section Parse.
Variable pf : bytes -> option Z.
Lemma setNumber_kind s t t' : setNumber pf s t = Some t' -> t_kind t' = t_kind t.
Proof.
  unfold setNumber. destruct (isFloat s); [destruct (pf s)|destruct (parseInt s)]; intros H; inversion H; reflexivity.
Qed.
Lemma lifts_number a name s : lifts a a (emitNumber pf name s).
Proof.
  unfold emitNumber. destruct (setNumber pf _ _) as [t|] eqn:Q; [|apply lifts_stop; exact I]. apply setNumber_kind in Q. cbn in Q.
  unfold of_option, pbind, yield. cbn. apply lifts_flat. constructor; [rewrite Q; split; discriminate|constructor].
Qed.
Lemma lifts_element a v : lifts a a (emitArrayElement pf v).
Proof.
  unfold emitArrayElement. cbn zeta. repeat match goal with |- lifts _ _ (if ?b then _ else _) => destruct b end; try (apply lifts_flat; flat).
  - eapply lifts_bind; [apply lifts_res|]. intros. apply lifts_flat. flat.
  - apply lifts_number.
Qed.
Section Nested.
Variable nested : list line -> pr (list line).
Hypothesis HN : forall a ls, lifts (S a) a (nested ls).
Lemma lifts_open {A} a t (f : unit -> pr A) : t_kind t = TStructStart -> lifts (S a) a (f tt) -> lifts a a (pbind ([t], Ok tt) f).
Proof.
  intros K F d. destruct (F d) as (k & O & R). exists k. unfold pbind. cbn [fst snd app opn]. rewrite K. auto.
Qed.
Lemma lifts_items a : forall items ls, lifts a a (arrayItems pf nested items ls).
Proof.
  induction items as [|v q IH]; intros ls; cbn [arrayItems]; [apply lifts_ok|].
  destruct (closes 93 v); [apply lifts_flat; flat|]. destruct (_ || _); [apply IH|].
  destruct (bytes_eqb v [123]).
  - apply lifts_open; [reflexivity|]. eapply lifts_bind; [apply HN|]. intros r. apply IH.
  - eapply lifts_bind; [apply lifts_element|]. intros _. apply IH.
Qed.
Lemma lifts_lines a : forall n ls, lifts a a (arrayLines pf nested n ls).
Proof.
  induction n as [|n IH]; intros ls; cbn [arrayLines]; [apply lifts_stop; exact I|]. destruct (skipLines false ls) as [|l q]; [apply lifts_stop; exact I|].
  eapply lifts_bind; [apply lifts_items|]. intros [b r]. destruct b; [apply lifts_ok|apply IH].
Qed.
Lemma lifts_array a n name items ls : lifts a a (parseArray pf nested n name items ls).
Proof.
  unfold parseArray. eapply lifts_bind; [apply lifts_flat; flat|]. intros _.
  destruct (match items with w :: _ => bytes_eqb w [93] | [] => false end); [apply lifts_flat; flat|].
  eapply lifts_bind; [apply lifts_items|]. intros [b r]. destruct b; [apply lifts_ok|apply lifts_lines].
Qed.
Lemma lifts_map a : forall n ls, lifts a a (mapLines pf nested n ls).
Proof.
  induction n as [|n IH]; intros ls; cbn [mapLines]; [apply lifts_stop; exact I|]. destruct (skipLines false ls) as [|l q]; [apply lifts_stop; exact I|].
  assert (KY : forall t, t_kind t = TMapEntry -> lifts a a (pbind (yield [t]) (fun _ => mapLines pf nested n q))).
  { intros t K. eapply lifts_bind; [apply lifts_flat; constructor; [rewrite K; split; discriminate|constructor]|]. intros _. apply IH. }
  eapply lifts_bind; [apply lifts_res|]. intros first. destruct (closes 125 first); [apply lifts_flat; flat|]. destruct (negb _); [apply lifts_stop; exact I|].
  eapply lifts_bind; [apply lifts_res|]. intros key. destruct (ln_items l) as [|w0 [|colon [|v items]]]; try (apply lifts_stop; exact I). destruct (negb _); [apply lifts_stop; exact I|]. cbn zeta.
  repeat match goal with |- lifts _ _ (if ?b then _ else _) => destruct b end; try (apply KY; reflexivity).
  - eapply lifts_bind; [apply lifts_res|]. intros. apply KY. reflexivity.
  - destruct (setNumber pf _ _) as [t|] eqn:Q; [|apply lifts_stop; exact I]. apply setNumber_kind in Q. unfold of_option.
    change (pbind ([], Ok t) (fun e => pbind (yield [e]) (fun _ => mapLines pf nested n q))) with (pbind ([], Ok tt) (fun _ => pbind (yield [t]) (fun _ => mapLines pf nested n q))).
    eapply lifts_bind; [apply lifts_ok|]. intros _. apply KY. rewrite Q. reflexivity.
  - change (pbind (yield [?x; ?y]) ?f) with (pbind (yield [x]) (fun _ => pbind ([y], Ok tt) f)).
    eapply lifts_bind; [apply lifts_flat; flat|]. intros _. apply lifts_open; [reflexivity|]. eapply lifts_bind; [apply HN|]. intros r. apply IH.
Qed.
Lemma lifts_value a n name v items raw ls : lifts a a (parseValue pf nested n name v items raw ls).
Proof.
  unfold parseValue. cbn zeta.
  repeat match goal with |- lifts _ _ (if ?b then _ else _) => destruct b end; try (apply lifts_flat; flat).
  - change (pbind (yield [?x; ?y]) ?f) with (pbind (yield [x]) (fun _ => pbind ([y], Ok tt) f)).
    eapply lifts_bind; [apply lifts_flat; flat|]. intros _. apply lifts_open; [reflexivity|]. apply HN.
  - apply lifts_array.
  - unfold parseMap. destruct items as [|w r]; [apply lifts_stop; exact I|]. destruct (bytes_eqb w [123]); [|apply lifts_stop; exact I].
    eapply lifts_bind; [apply lifts_flat; flat|]. intros _. apply lifts_map.
  - eapply lifts_bind; [apply lifts_res|]. intros. apply lifts_flat. flat.
  - eapply lifts_bind; [apply lifts_res|]. intros [s r]. apply lifts_flat. flat.
  - eapply lifts_bind; [apply lifts_option|]. intros. apply lifts_flat. flat.
  - eapply lifts_bind; [apply lifts_number|]. intros. apply lifts_ok.
Qed.
Lemma lifts_field a n l ls : lifts a a (parseField pf nested n l ls).
Proof.
  unfold parseField. destruct (ln_items l) as [|w [|w1 items1]]; try (apply lifts_stop; exact I). cbn zeta.
  destruct (hasLast 58 w).
  - destruct (bytes_eqb w1 [10]); [apply lifts_stop; exact I|]. apply lifts_value.
  - destruct (bytes_eqb w1 [58]); [|apply lifts_stop; exact I]. destruct items1 as [|v q]; [apply lifts_stop; exact I|]. destruct (bytes_eqb v [10]); [apply lifts_stop; exact I|]. apply lifts_value.
Qed.
End Nested.
Lemma lifts_struct : forall n a ls, lifts (S a) a (parseNestedStruct pf n ls).
Proof.
  induction n as [|n IH]; intros a ls; cbn [parseNestedStruct]; [apply lifts_stop; exact I|]. destruct (skipLines false ls) as [|l q]; [apply lifts_stop; exact I|].
  eapply lifts_bind; [apply lifts_res|]. intros first. destruct (closes 125 first); [apply lifts_end; reflexivity|].
  eapply lifts_bind; [apply lifts_field; exact IH|]. intros r. apply IH.
Qed.
Lemma pbind_ret {A B} (v : A) (f : A -> pr B) : pbind ([], Ok v) f = f v.
Proof. unfold pbind. cbn [fst snd app]. destruct (f v). reflexivity. Qed.
(** The root struct is closed only when the parser ends without an error. *)
Lemma fields_open : forall n ls, match snd (parseFields pf n ls) with Ok _ => True | _ => exists k, opn 1 (fst (parseFields pf n ls)) = Some k end.
Proof.
  induction n as [|n IH]; intros ls; cbn [parseFields]; [exists 1%nat; reflexivity|]. destruct (skipLines false ls) as [|l q]; [exact I|].
  unfold of_res, first_word. destruct (ln_items l) as [|w items] eqn:IT; [exists 1%nat; reflexivity|]. rewrite pbind_ret.
  destruct (bytes_eqb w [125]); [exact I|].
  pose proof (lifts_field (parseNestedStruct pf (S (length q))) (lifts_struct _) O (S (length q)) l q O) as (k & O & R). cbn [Nat.add] in O, R.
  destruct (parseField pf (parseNestedStruct pf (S (length q))) (S (length q)) l q) as [ts [ls'| | |]]; cbn [fst snd] in *; unfold pbind; cbn [fst snd]; try (exists k; exact O).
  subst k. specialize (IH ls'). destruct (parseFields pf n ls') as [ts' [u| | |]]; cbn [fst snd] in *; auto; destruct IH as (k & O'); exists k; rewrite opn_app, O; exact O'.
Qed.
Lemma tokens_open ls ts : textToTokens pf ls = (ts, Err) -> exists q k, ts = tok0 TStructStart root_name 0 :: q /\ opn 1 q = Some k.
Proof.
  unfold textToTokens. pose proof (fields_open (S (length ls)) ls) as F. destruct (parseFields pf (S (length ls)) ls) as [ts' [u| | |]]; unfold pbind, yield; cbn [fst snd app] in *; intros H; inversion H; subst.
  destruct F as (k & F). exists ts', k. auto.
Qed.
End Parse.

(** ** Ingest *)
Section Read.
Variable E : env.
Hypothesis PT : plain_types E.
Lemma plain_assoc id n ty : assoc n (snd (E id)) = Some ty -> match ty with TyNum _ _ | TyStr _ | TyMsg _ => True | _ => False end.
Proof.
  pose proof (PT id) as F. induction F as [|[m t] l H _ IH]; cbn; [discriminate|]. destruct (bytes_eqb n m); [|exact IH]. intros Q. inversion Q; subst. exact H.
Qed.
Definition takes (a b : nat) (ts ts' : tstream) : Prop := exists p, content ts = p ++ content ts' /\ forall d, dep (a + d) p = Some (b + d)%nat.
Section Loop.
Variable rec : nat -> list (bytes * fval) -> tstream -> res (list (bytes * fval) * tstream).
Hypothesis HR : forall id x ts y ts', rec id x ts = Ok (y, ts') -> takes 0 0 ts ts'.
Lemma loop_takes id : forall n x ts y ts', fields_loop E false rec n (snd (E id)) x ts = Ok (y, ts') -> takes 1 0 ts ts'.
Proof.
  induction n as [|n IH]; intros x ts y ts'; cbn [fields_loop]; [discriminate|]. rewrite Next_content. destruct (content ts) as [|t q] eqn:C; [discriminate|].
  destruct (tkind_eqb (t_kind t) TStructEnd) eqn:K1.
  - intros H. inversion H; subst. exists [t]. rewrite C. split; [reflexivity|]. intros d. cbn. destruct (t_kind t); try discriminate. reflexivity.
  - destruct (tkind_eqb (t_kind t) TField) eqn:K2; cbn [negb]; [|discriminate]. destruct (assoc (t_name t) (snd (E id))) as [ty|] eqn:A; [|discriminate].
    destruct (assoc (t_name t) x) as [old|]; [|discriminate]. intros H. apply bind_ok in H as ([v ts1] & H1 & H2).
    assert (T1 : takes 0 0 (mkTS q None) ts1).
    { apply plain_assoc in A. assert (R : takes 0 0 (mkTS q None) (mkTS q None)) by (exists []; split; [reflexivity|intros; reflexivity]).
      destruct ty; try destruct A; cbn [ingest_field] in H1; try (inversion H1; subst; exact R).
      destruct (t_isNil t); [inversion H1; subst; exact R|]. apply bind_ok in H1 as ([fs ts2] & H1 & H3). inversion H3; subst. eapply HR, H1. }
    destruct T1 as (p1 & C1 & D1). destruct (IH _ _ _ _ H2) as (p2 & C2 & D2). exists (t :: p1 ++ p2). cbn [content ts_peeked ts_src] in C1. rewrite C, C1, C2. split; [cbn [app]; rewrite <- app_assoc; reflexivity|].
    intros d. cbn [dep]. assert (KF : t_kind t = TField) by (destruct (t_kind t); try discriminate; reflexivity). rewrite KF, dep_app. cbn [Nat.add]; change (S d) with (0 + (1 + d))%nat; rewrite (D1 (1 + d)%nat). apply D2.
Qed.
End Loop.
Lemma ingest_takes : forall n id x ts y ts', ingest_from E false n id x ts = Ok (y, ts') -> takes 0 0 ts ts'.
Proof.
  induction n as [|n IH]; intros id x ts y ts'; cbn [ingest_from]; [discriminate|]. intros H. apply bind_ok in H as (ts1 & H1 & H2).
  unfold expect in H1. rewrite Next_content in H1. destruct (content ts) as [|t q] eqn:C; [discriminate|]. destruct (tkind_eqb (t_kind t) TStructStart) eqn:K; [|discriminate]. inversion H1; subst ts1.
  destruct (loop_takes _ IH id _ _ _ _ _ H2) as (p & CP & D). exists (t :: p). rewrite C. cbn [content ts_peeked ts_src] in CP. rewrite CP. split; [reflexivity|].
  intros d. cbn [dep]. destruct (t_kind t); try discriminate. apply D.
Qed.
Lemma error_refused pf ls ts id x : textToTokens pf ls = (ts, Err) -> forall y, Ingest E false id x ts <> Ok y.
Proof.
  intros T y H. destruct (tokens_open pf ls ts T) as (q & k & -> & O). unfold Ingest in H. apply bind_ok in H as ([y' ts'] & H & _).
  cbn [ingest_from] in H. apply bind_ok in H as (ts1 & H1 & H2). unfold expect in H1. rewrite Next_content in H1. cbn in H1. inversion H1; subst ts1.
  destruct (loop_takes _ (ingest_takes _) id _ _ _ _ _ H2) as (p & CP & D). cbn [content ts_peeked ts_src] in CP. subst q.
  rewrite (closed_not_open p 0%nat (content ts') (D 0%nat)) in O. discriminate.
Qed.
End Read.
