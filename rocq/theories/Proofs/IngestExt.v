(** More tokens after those that Ingest has read do not change the result. *)
From Coq Require Import ZArith List Bool Lia ZifyBool.
Import ListNotations.
From Verif.Model Require Import Base Field MapApi Token Walk TokenStream Ingest.
From Verif.Spec Require Import Message TokenGrammar Ingest.
From Verif.Proofs Require Import BaseLemmas IngestProofs IngestTotal.
Open Scope Z_scope.

Section Ext.
Variable q : list token.
Definition ext (ts : tstream) : tstream := mkTS (ts_src ts ++ q) (ts_peeked ts).
Lemma left_ext ts : left (ext ts) = (left ts + length q)%nat.
Proof. unfold left, ext. cbn. rewrite app_length. destruct (ts_peeked ts); lia. Qed.
Lemma Next_ext ts t ts' : Next ts = (Some t, ts') -> Next (ext ts) = (Some t, ext ts').
Proof.
  destruct ts as [src [p|]]; unfold Next, pull, ext; cbn; [intros H; inversion H; subst; reflexivity|].
  destruct src; [discriminate|]. intros H. inversion H; subst. reflexivity.
Qed.
Lemma Peek_ext ts t ts' : Peek ts = (Some t, ts') -> Peek (ext ts) = (Some t, ext ts').
Proof.
  destruct ts as [src [p|]]; unfold Peek, pull, ext; cbn; [intros H; inversion H; subst; reflexivity|].
  destruct src; [discriminate|]. intros H. inversion H; subst. reflexivity.
Qed.
Ltac nx H Q := match type of H with context [Next ?s] => destruct (Next s) as [[?t|] ?ts] eqn:Q; [|discriminate H]; rewrite (Next_ext _ _ _ Q) end.
Lemma bind_ok {A B} (r : res A) (f : A -> res B) b : bind r f = Ok b -> exists a, r = Ok a /\ f a = Ok b.
Proof. destruct r; cbn; try discriminate. eauto. Qed.

Lemma skip_depth_ext : forall n n' d ts ts', (n <= n')%nat -> skip_depth n d ts = Ok ts' -> skip_depth n' d (ext ts) = Ok (ext ts').
Proof.
  induction n as [|n IH]; intros n' d ts ts' L H; [discriminate|]. destruct n' as [|n']; [lia|]. cbn [skip_depth] in *. nx H Q.
  destruct (t_kind t); try (apply IH; [lia|exact H]). destruct d as [|[|d]]; try (inversion H; subst; reflexivity). apply IH; [lia|exact H].
Qed.
Lemma skipStruct_ext ts ts' : skipStruct ts = Ok ts' -> skipStruct (ext ts) = Ok (ext ts').
Proof. unfold skipStruct. intros H. nx H Q. destruct (tkind_eqb _ _); [|discriminate]. eapply skip_depth_ext; [|exact H]. rewrite left_ext. lia. Qed.
Lemma skip_items_ext : forall n n' ts ts', (n <= n')%nat -> skip_items n ts = Ok ts' -> skip_items n' (ext ts) = Ok (ext ts').
Proof.
  induction n as [|n IH]; intros n' ts ts' L H; [discriminate|]. destruct n' as [|n']; [lia|]. cbn [skip_items] in *. nx H Q.
  destruct (tkind_eqb _ _); [inversion H; subst; reflexivity|]. apply IH; [lia|exact H].
Qed.
Lemma skipList_ext ts ts' : skipList ts = Ok ts' -> skipList (ext ts) = Ok (ext ts').
Proof. unfold skipList. intros H. nx H Q. destruct (tkind_eqb _ _); [|discriminate]. eapply skip_items_ext; [|exact H]. rewrite left_ext. lia. Qed.
Lemma Next_snd_ext ts t : Next ts = (Some t, snd (Next ts)) -> snd (Next (ext ts)) = ext (snd (Next ts)).
Proof. intros H. rewrite (Next_ext _ _ _ H). reflexivity. Qed.
Lemma skip_structs_ext : forall n n' ts ts', (n <= n')%nat -> skip_structs n ts = Ok ts' -> skip_structs n' (ext ts) = Ok (ext ts').
Proof.
  induction n as [|n IH]; intros n' ts ts' L H; [discriminate|]. destruct n' as [|n']; [lia|]. cbn [skip_structs] in *.
  destruct (Peek ts) as [[t|] ts1] eqn:P; [|discriminate]. rewrite (Peek_ext _ _ _ P). apply Peek_left in P as [_ P].
  destruct (tkind_eqb _ _); [inversion H; subst; rewrite (Next_snd_ext _ _ P); reflexivity|].
  apply bind_ok in H as (s & H1 & H2). rewrite (skipStruct_ext _ _ H1). cbn. apply IH; [lia|exact H2].
Qed.
Lemma skipListStructs_ext ts ts' : skipListStructs ts = Ok ts' -> skipListStructs (ext ts) = Ok (ext ts').
Proof. unfold skipListStructs. intros H. nx H Q. destruct (tkind_eqb _ _); [|discriminate]. eapply skip_structs_ext; [|exact H]. rewrite left_ext. lia. Qed.
Lemma skip_map_ext : forall n n' vt ts ts', (n <= n')%nat -> skip_map n vt ts = Ok ts' -> skip_map n' vt (ext ts) = Ok (ext ts').
Proof.
  induction n as [|n IH]; intros n' vt ts ts' L H; [discriminate|]. destruct n' as [|n']; [lia|]. rewrite skip_map_eq in *. nx H Q.
  destruct (tkind_eqb _ _); [|discriminate].
  assert (G : forall m m' s s', (m <= m')%nat -> skip_entries n vt m s = Ok s' -> skip_entries n' vt m' (ext s) = Ok (ext s')).
  { clear H. induction m as [|m IHm]; intros m' s s' Lm H; [discriminate|]. destruct m' as [|m']; [lia|]. cbn [skip_entries] in *. nx H Q1.
    destruct (tkind_eqb _ _); [inversion H; subst; reflexivity|]. destruct (negb _); [discriminate|].
    apply bind_ok in H as (s1 & H1 & H). apply bind_ok in H as (s2 & H2 & H).
    assert (K1 : (if vt =? FTStruct then skipStruct (ext ts1) else Ok (ext ts1)) = Ok (ext s1)).
    { destruct (vt =? FTStruct); [apply skipStruct_ext; exact H1|inversion H1; reflexivity]. }
    assert (K2 : (if vt =? FTMap then skip_map n' (t_valType t0) (ext s1) else Ok (ext s1)) = Ok (ext s2)).
    { destruct (vt =? FTMap); [apply IH; [lia|exact H2]|inversion H2; reflexivity]. }
    rewrite K1. cbn [bind]. rewrite K2. cbn [bind]. apply IHm; [lia|exact H]. }
  eapply G; [|exact H]. rewrite left_ext. lia.
Qed.
Lemma SkipValue_ext ts f ts' : SkipValue ts f = Ok ts' -> SkipValue (ext ts) f = Ok (ext ts').
Proof.
  unfold SkipValue. repeat match goal with |- context [if ?b then _ else _] => destruct b end; intros H; try (inversion H; subst; reflexivity).
  - apply skipStruct_ext; exact H.
  - apply skipListStructs_ext; exact H.
  - apply skipList_ext; exact H.
  - eapply skip_map_ext; [|exact H]. rewrite left_ext. lia.
Qed.
Lemma expect_ext kd ts ts' : expect kd ts = Ok ts' -> expect kd (ext ts) = Ok (ext ts').
Proof. unfold expect. intros H. nx H Q. destruct (tkind_eqb _ _); [|discriminate]. inversion H; subst. reflexivity. Qed.
Lemma list_items_ext : forall n n' ts l ts', (n <= n')%nat -> list_items n ts = Ok (l, ts') -> list_items n' (ext ts) = Ok (l, ext ts').
Proof.
  induction n as [|n IH]; intros n' ts l ts' L H; [discriminate|]. destruct n' as [|n']; [lia|]. cbn [list_items] in *. nx H Q.
  destruct (tkind_eqb _ _); [inversion H; subst; reflexivity|]. apply bind_ok in H as ([l1 s] & H1 & H).
  rewrite (IH n' _ _ _ ltac:(lia) H1). inversion H; subst. reflexivity.
Qed.
Lemma list_body_ext ts l ts' : list_body ts = Ok (l, ts') -> list_body (ext ts) = Ok (l, ext ts').
Proof.
  unfold list_body. intros H. apply bind_ok in H as (s & H1 & H). rewrite (expect_ext _ _ _ H1). cbn [bind].
  eapply list_items_ext; [|exact H]. rewrite left_ext. lia.
Qed.
Section Rec.
Variable E : env.
Variable ig : bool.
Section Field.
Variables rec rec' : nat -> list (bytes * fval) -> tstream -> res (list (bytes * fval) * tstream).
Hypothesis R : forall id x ts y ts', rec id x ts = Ok (y, ts') -> rec' id x (ext ts) = Ok (y, ext ts').
Lemma struct_items_ext id : forall n n' ts l ts', (n <= n')%nat -> struct_items E rec n id ts = Ok (l, ts') -> struct_items E rec' n' id (ext ts) = Ok (l, ext ts').
Proof.
  induction n as [|n IH]; intros n' ts l ts' L H; [discriminate|]. destruct n' as [|n']; [lia|]. cbn [struct_items] in *.
  destruct (Peek ts) as [[t|] ts1] eqn:P; [|discriminate]. rewrite (Peek_ext _ _ _ P). apply Peek_left in P as [_ P].
  destruct (tkind_eqb _ _); [inversion H; subst; rewrite (Next_snd_ext _ _ P); reflexivity|].
  apply bind_ok in H as ([fs s] & H1 & H). rewrite (R _ _ _ _ _ H1). cbn [bind]. apply bind_ok in H as ([l1 s1] & H2 & H).
  rewrite (IH n' _ _ _ ltac:(lia) H2). inversion H; subst. reflexivity.
Qed.
Lemma entry_value_ext vt id t ts e ts' : entry_value E rec vt id t ts = Ok (e, ts') -> entry_value E rec' vt id t (ext ts) = Ok (e, ext ts').
Proof.
  destruct vt; cbn [entry_value]; intros H; try (inversion H; subst; reflexivity).
  - apply bind_ok in H as ([fs s] & H1 & H). rewrite (R _ _ _ _ _ H1). inversion H; subst. reflexivity.
  - apply bind_ok in H as ([l s] & H1 & H). rewrite (list_body_ext _ _ _ H1). inversion H; subst. reflexivity.
Qed.
Lemma map_items_ext kt vt id : forall n n' es ts l ts', (n <= n')%nat -> map_items E rec n kt vt id es ts = Ok (l, ts') -> map_items E rec' n' kt vt id es (ext ts) = Ok (l, ext ts').
Proof.
  induction n as [|n IH]; intros n' es ts l ts' L H; [discriminate|]. destruct n' as [|n']; [lia|]. cbn [map_items] in *. nx H Q.
  destruct (tkind_eqb _ _); [inversion H; subst; reflexivity|]. destruct (negb _); [discriminate|].
  apply bind_ok in H as ([e s] & H1 & H). rewrite (entry_value_ext _ _ _ _ _ _ H1). cbn [bind]. apply bind_ok in H as (es' & H2 & H).
  rewrite H2. cbn [bind]. apply IH; [lia|exact H].
Qed.
Lemma field_ext ty old t ts v ts' : ingest_field E rec ty old t ts = Ok (v, ts') -> ingest_field E rec' ty old t (ext ts) = Ok (v, ext ts').
Proof.
  destruct ty, old; cbn [ingest_field]; intros H; try discriminate; try (inversion H; subst; reflexivity);
  (destruct (t_isNil t); [inversion H; subst; reflexivity|]);
  try (apply bind_ok in H as ([fs s] & H1 & H); rewrite (R _ _ _ _ _ H1); inversion H; subst; reflexivity);
  try (apply bind_ok in H as ([l1 s] & H1 & H); rewrite (list_body_ext _ _ _ H1); inversion H; subst; reflexivity);
  try (destruct (len (t_bytes t) =? 0); [inversion H; subst; reflexivity|]; destruct (negb _); [discriminate|]; inversion H; subst; reflexivity);
  try (apply bind_ok in H as ([l1 s] & H1 & H); rewrite (list_body_ext _ _ _ H1); cbn [bind]; destruct (forallb _ l1); [|discriminate]; inversion H; subst; reflexivity).
  - apply bind_ok in H as (s & H1 & H). rewrite (expect_ext _ _ _ H1). cbn [bind]. apply bind_ok in H as ([l1 s1] & H2 & H).
    rewrite (struct_items_ext _ (S (left s)) (S (left (ext s))) _ _ _ ltac:(rewrite left_ext; lia) H2). inversion H; subst. reflexivity.
  - apply bind_ok in H as (s & H1 & H). rewrite (expect_ext _ _ _ H1). cbn [bind]. apply bind_ok in H as ([l1 s1] & H2 & H).
    rewrite (map_items_ext _ _ _ (S (left s)) (S (left (ext s))) _ _ _ _ ltac:(rewrite left_ext; lia) H2). inversion H; subst. reflexivity.
Qed.
Lemma fields_ext decl : forall n n' x ts y ts', (n <= n')%nat -> fields_loop E ig rec n decl x ts = Ok (y, ts') -> fields_loop E ig rec' n' decl x (ext ts) = Ok (y, ext ts').
Proof.
  induction n as [|n IH]; intros n' x ts y ts' L H; [discriminate|]. destruct n' as [|n']; [lia|]. cbn [fields_loop] in *. nx H Q.
  destruct (tkind_eqb _ _); [inversion H; subst; reflexivity|]. destruct (negb _); [discriminate|].
  destruct (assoc (t_name t) decl) as [ty|].
  - destruct (assoc (t_name t) x) as [old|]; [|discriminate]. apply bind_ok in H as ([v s] & H1 & H). rewrite (field_ext _ _ _ _ _ _ H1). cbn [bind].
    apply IH; [lia|exact H].
  - destruct ig; [|discriminate]. apply bind_ok in H as (s & H1 & H). rewrite (SkipValue_ext _ _ _ H1). cbn [bind]. apply IH; [lia|exact H].
Qed.
End Field.
Lemma ingest_from_ext : forall n n' id x ts y ts', (n <= n')%nat -> ingest_from E ig n id x ts = Ok (y, ts') -> ingest_from E ig n' id x (ext ts) = Ok (y, ext ts').
Proof.
  induction n as [|n IH]; intros n' id x ts y ts' L H; [discriminate|]. destruct n' as [|n']; [lia|]. cbn [ingest_from] in *.
  apply bind_ok in H as (s & H1 & H). rewrite (expect_ext _ _ _ H1). cbn [bind].
  eapply fields_ext; [|rewrite left_ext; apply le_n_S, Nat.le_add_r|exact H]. intros id0 x0 ts0 y0 ts0' H0. apply IH; [lia|exact H0].
Qed.
End Rec.
End Ext.
